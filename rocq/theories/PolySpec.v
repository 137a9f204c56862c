(** What an expanded polynomial in a symbol is (C20), independent of degree and coeff. *)
From Verif Require Export DiffSpec.
From Coq Require Import List ZArith QArith.
Import ListNotations.

Section Poly.
  Variables (n : name) (p : bool).   (* the symbol x *)

  (** x, or x^k with 2 <= k < 2^31 - 1 *)
  Inductive xpower : nat -> expr -> Prop :=
  | xp_one : xpower 1 (Sym n p)
  | xp_pow k : (2 <= k)%nat -> (Z.of_nat k < 2147483647)%Z -> xpower k (Pow (Sym n p) (Num (inject_Z (Z.of_nat k)))).

  (** An expression without x that isn't a sum or a product *)
  Definition atom (e : expr) : Prop := mentions n p e = false /\ (forall l, e <> Sum l) /\ (forall l, e <> Prod l).
  (** and a factor, which in addition isn't the number 1 *)
  Definition factor (e : expr) : Prop := atom e /\ e <> Num 1.

  (** [monom k e]: e is a coefficient without x times x^k. *)
  Inductive monom : nat -> expr -> Prop :=
  | t_atom e : atom e -> monom 0 e
  | t_free l : Forall factor l -> monom 0 (Prod l)
  | t_power k e : xpower k e -> monom k e
  | t_prod k a e b : Forall factor a -> xpower k e -> Forall factor b -> monom k (Prod (a ++ e :: b)).

  Definition polynomial (e : expr) : Prop :=
    (exists k, monom k e) \/ exists l, e = Sum l /\ l <> [] /\ Forall (fun t => exists k, monom k t) l.
End Poly.

(** Polynomials in several symbols, not necessarily expanded (C21, C22). *)
Inductive polyExpr : expr -> Prop :=
| pe_num q : polyExpr (Num q)
| pe_sym n p : polyExpr (Sym n p)
| pe_pow b k : polyExpr b -> (1 <= k <= 2147483647)%Z -> polyExpr (Pow b (Num (inject_Z k)))
| pe_sum l : (forall e, In e l -> polyExpr e) -> polyExpr (Sum l)
| pe_prod l : (forall e, In e l -> polyExpr e) -> polyExpr (Prod l).
