(** Computations that end: specification for C51. *)
From Verif Require Export ApiSpec World DivSpec.
From Verif Require Import Run LaurentSpec.
Open Scope Z_scope.

(** The computation f ends with the result x and no other, without exception and undefined behaviour; what
    it relies on is right for all values that fit the positive symbols. *)
Definition endsWith {A} (Y : sys) (f : oper -> nat -> res A) (x : A) : Prop :=
  (exists F0 k0, forall F k, (F0 <= F)%nat -> (k0 <= k)%nat ->
     exists facts, f (world Y F k) F = Ok x facts /\ forall r, posEnv r -> rightFacts r facts) /\
  forall F k n, f (world Y F k) n = Fuel \/ exists facts, f (world Y F k) n = Ok x facts.
(** The number M is a common denominator of the coefficients. *)
Definition commonDenominator (M : Z) (p : poly) : Prop := forall m, In m p -> (Z.pos (Qden (fst m)) | M).
(** D is the least one. *)
Definition leastDenominator (D : Z) (p : poly) : Prop := 0 < D /\ commonDenominator D p /\ forall M, 0 < M -> commonDenominator M p -> (D | M).
(** All coefficients are integers. *)
Definition integral (p : poly) : Prop := forall m, In m p -> Qden (fst m) = 1%positive.
