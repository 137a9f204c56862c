(** Triangular factors stored in one matrix.  Nothing here mentions the decomposition. *)
From Coq Require Import Reals List Arith.
From Verif Require Export SystemSpec.
Import ListNotations.
Open Scope R_scope.

(** The part of m below the diagonal with ones on it, and the part from the diagonal on. *)
Definition lowerOf (m : nat -> nat -> R) (i k : nat) : R := if (k <? i)%nat then m i k else if (i =? k)%nat then 1 else 0.
Definition upperOf (m : nat -> nat -> R) (i k : nat) : R := if (i <=? k)%nat then m i k else 0.
(** The product of the two factors is a, for rows and columns below dim. *)
Definition luOf (dim : nat) (a m : nat -> nat -> R) : Prop :=
  forall i k, (i < dim)%nat -> (k < dim)%nat -> rowSum (seq 0 dim) (lowerOf m i) (fun p => upperOf m p k) = a i k.
