(** The meaning of expressions: real values under an assignment of real numbers to the symbols.
    This file is specification; nothing in it refers to the algorithms of the code. *)
From Verif Require Export ExprModel RPow.
From Coq Require Export Reals Qreals.
Open Scope R_scope.

(** A symbol is identified by its name and its positivity flag (src/symbol.cpp:100-106). *)
Definition env := name -> bool -> R.

Definition oplus (a b : option R) : option R :=
  match a, b with Some x, Some y => Some (x + y) | _, _ => None end.
Definition omult (a b : option R) : option R :=
  match a, b with Some x, Some y => Some (x * y) | _, _ => None end.

(** Functions of one argument where they have a real value. *)
Definition fct1 (f : fct) (x : R) : option R :=
  match f with
  | FSin => Some (sin x)
  | FCos => Some (cos x)
  | FTan => if Req_EM_T (cos x) 0 then None else Some (tan x)
  | FAsin => if Rle_dec (-1) x then if Rle_dec x 1 then Some (asin x) else None else None
  | FAcos => if Rle_dec (-1) x then if Rle_dec x 1 then Some (acos x) else None else None
  | FAtan => Some (atan x)
  | FLog => if Rlt_dec 0 x then Some (ln x) else None
  | FAtan2 => None
  end.

(** The angle in [0, 2*pi) of the point (x, y), which isn't the origin. *)
Definition angle (y x : R) : option R :=
  if Req_EM_T x 0 then if Req_EM_T y 0 then None else Some (if Rlt_dec 0 y then PI / 2 else 3 * (PI / 2))
  else let a := acos (x / sqrt (x * x + y * y)) in
       Some (if Rle_dec 0 y then a else 2 * PI - a).

Fixpoint eval (r : env) (e : expr) : option R :=
  match e with
  | Num q => Some (Q2R q)
  | Sym n p => Some (r n p)
  | Cst CPi => Some PI
  | Cst CE => Some (exp 1)
  | Undef => None
  | Fct f l =>
      match f, l with
      | FAtan2, [y; x] =>
          match eval r y, eval r x with Some v, Some w => angle v w | _, _ => None end
      | FAtan2, _ => None
      | _, [x] => match eval r x with Some v => fct1 f v | None => None end
      | _, _ => None
      end
  | Sum l => fold_right (fun x a => oplus (eval r x) a) (Some 0) l
  | Prod l => fold_right (fun x a => omult (eval r x) a) (Some 1) l
  | Pow b x => match eval r b, eval r x with Some v, Some w => rpow v w | _, _ => None end
  end.

(** The value of a list of summands and of factors. *)
Definition sumVal (r : env) (l : list expr) : option R := fold_right (fun x a => oplus (eval r x) a) (Some 0) l.
Definition prodVal (r : env) (l : list expr) : option R := fold_right (fun x a => omult (eval r x) a) (Some 1) l.

(** Positive symbols stand for positive numbers. *)
Definition posEnv (r : env) : Prop := forall n, 0 < r n true.

(** Changing the value of one symbol. *)
Definition upd (r : env) (n : name) (p : bool) (v : R) : env :=
  fun m q => if nameEq n m && Bool.eqb p q then v else r m q.
