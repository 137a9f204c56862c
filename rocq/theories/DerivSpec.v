(** The formal derivative of polynomials: specification for C48. *)
From Verif Require Export LaurentSpec LaurentOrder.
Open Scope Z_scope.

(** The exponent of the symbol t in a product of powers. *)
Definition exponentOf (t : sym) (k : key) : Z := fold_right (fun f a => (if sym_dec (fst f) t then snd f else 0) + a) 0 k.
(** The exponent of t lowered by one. *)
Definition lowerKey (t : sym) (k : key) : key :=
  flat_map (fun f => if sym_dec (fst f) t then if snd f =? 1 then [] else [(fst f, snd f - 1)] else [f]) k.
(** The derivative of c*t^z*... is c*z*t^(z-1)*..., the one of a sum is the sum of derivatives.  The
    summands aren't sorted and some may be zero. *)
Definition derivMono (t : sym) (m : mono) : mono := (qmul (fst m) (ofZ (exponentOf t (snd m))), lowerKey t (snd m)).
Definition derivPoly (t : sym) (p : poly) : poly := map (derivMono t) p.
