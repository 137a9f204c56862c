(** Polynomials with rational coefficients and integer exponents (also negative ones: Laurent
    polynomials) and the expressions that denote them.  This file is specification; nothing in it refers
    to the algorithms of the code except the order of names. *)
From Verif Require Export Sem NumberSpec Run.
From Coq Require Export Sorted.
Open Scope Z_scope.

(** Expressions that are made of rational numbers, symbols, integer powers of symbols, sums, products
    and nonnegative integer powers of sums.  They need not be simplified. *)
Inductive laurent : expr -> Prop :=
| l_num q : canon q -> laurent (Num q)
| l_sym n p : laurent (Sym n p)
| l_sum l : l <> [] -> (forall x, In x l -> laurent x) -> laurent (Sum l)
| l_prod l : l <> [] -> (forall x, In x l -> laurent x) -> laurent (Prod l)
| l_symPow n p z : laurent (Pow (Sym n p) (Num (ofZ z)))
| l_sumPow l z : 0 <= z -> laurent (Sum l) -> laurent (Pow (Sum l) (Num (ofZ z))).

(** A bound for the exponents that can occur when everything is multiplied out. *)
Fixpoint degreeBound (e : expr) : Z :=
  match e with
  | Sym _ _ => 1
  | Sum l => fold_right (fun x a => Z.max (degreeBound x) a) 0 l
  | Prod l => fold_right (fun x a => degreeBound x + a) 0 l
  | Pow b (Num q) => degreeBound b * Z.abs (Qnum q)
  | _ => 0
  end.

(** The comparison of numbers that is used for sorting is right for integers of absolute value up to B. *)
Definition exactUpTo (B : Z) (nlt : Q -> Q -> bool) : Prop :=
  forall a b, Z.abs a <= B -> Z.abs b <= B -> nlt (ofZ a) (ofZ b) = (a <? b).

(** All symbols have positive values. *)
Definition allPos (r : env) : Prop := forall n p, (0 < r n p)%R.

(** ** The normal form *)

Definition sym := (name * bool)%type.
Definition fac := (sym * Z)%type.          (* a power of a symbol *)
Definition key := list fac.                (* a product of such powers *)
Definition mono := (Q * key)%type.         (* with a coefficient *)
Definition poly := list mono.              (* a sum of these *)

Definition symE (s : sym) : expr := Sym (fst s) (snd s).
Definition facE (f : fac) : expr := if snd f =? 1 then symE (fst f) else Pow (symE (fst f)) (Num (ofZ (snd f))).
Definition factorsE (m : mono) : list expr := (if qeqb (fst m) 1 then [] else [Num (fst m)]) ++ map facE (snd m).
Definition monoE (m : mono) : expr := match factorsE m with [] => one | [x] => x | l => Prod l end.
Definition polyE (p : poly) : expr := match map monoE p with [] => zero | [x] => x | l => Sum l end.

(** Symbols in the order of their names, positive ones first; powers by symbol and exponent; products by
    the last factor, then by the one before, and so on. *)
Definition symLt (s t : sym) : Prop :=
  nameLt (fst s) (fst t) = true \/ fst s = fst t /\ snd s = true /\ snd t = false.
Definition facLt (f g : fac) : Prop := symLt (fst f) (fst g) \/ fst f = fst g /\ snd f < snd g.
Inductive lexLt {A} (lt : A -> A -> Prop) : list A -> list A -> Prop :=
| lex_nil y l : lexLt lt [] (y :: l)
| lex_head x y l m : lt x y -> lexLt lt (x :: l) (y :: m)
| lex_tail x l m : lexLt lt l m -> lexLt lt (x :: l) (x :: m).
Definition keyLt (k l : key) : Prop := lexLt facLt (rev k) (rev l).

Definition keyOK (k : key) : Prop := StronglySorted (fun f g => symLt (fst f) (fst g)) k /\ Forall (fun f => snd f <> 0) k.
Definition monoOK (m : mono) : Prop := canon (fst m) /\ fst m <> 0%Q /\ keyOK (snd m).
Definition polyOK (p : poly) : Prop := Forall monoOK p /\ StronglySorted (fun m n => keyLt (snd m) (snd n)) p.

(** Values for positive symbols. *)
Open Scope R_scope.
Definition facV (r : env) (f : fac) : R := powerRZ (r (fst (fst f)) (snd (fst f))) (snd f).
Definition keyV (r : env) (k : key) : R := fold_right (fun f a => facV r f * a) 1 k.
Definition monoV (r : env) (m : mono) : R := Q2R (fst m) * keyV r (snd m).
Definition polyV (r : env) (p : poly) : R := fold_right (fun m a => monoV r m + a) 0 p.
