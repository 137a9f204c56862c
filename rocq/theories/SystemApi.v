(** The theorems about systems of expressions for the library's operations, and runs of the solver. *)
From Verif Require Import SolveReal SolveSkip WorldProofs ApiProofs SimplApi ApiSpec DiffProofs.
From Verif Require Export SystemSpec SolveExpr RefFloat.
From Coq Require Import Lra Lia Reals.
From Verif Require Import Run.
Open Scope R_scope.

Section Api.
  Variables (Y : sys) (F k n : nat) (maxU : Z) (alg : algo) (A : nat -> nat -> expr) (skip : nat -> bool) (dim : nat) (r : env) (Hr : posEnv r) (a : nat -> nat -> R).
  Notation act := (activeRows skip dim).
  Hypothesis (HA : forall i j, In i act -> In j act -> wf anySym (A i j) /\ eval r (A i j) = Some (a i j)).
  Lemma solve_api b x0 bv x facts : (forall i, In i act -> wf anySym (b i) /\ eval r (b i) = Some (bv i)) ->
    solveE (world Y F k) n maxU alg A b x0 skip dim = Ok x facts -> rightFacts r facts ->
    (exists xv, (forall i, In i act -> wf anySym (x i) /\ eval r (x i) = Some (xv i)) /\ solution act a bv xv /\
      (forall yv, solution act a bv yv -> forall i, In i act -> yv i = xv i)) /\
    (forall i, ~ In i act -> x i = x0 i).
  Proof. intros HB E [st R0]. exact (solveE_sound (world_sound Y F k) (posEnv_good st r Hr) HA HB E R0). Qed.
  Lemma determinant_api e facts : determinantE (world Y F k) n maxU alg A skip dim = Ok e facts -> rightFacts r facts ->
    wf anySym e /\ eval r e = Some (laplace a act act).
  Proof. intros E [st R0]. exact (determinantE_sound (world_sound Y F k) (posEnv_good st r Hr) HA E R0). Qed.
  Lemma invert_api M facts : invertE (world Y F k) n maxU alg A skip dim = Ok M facts -> rightFacts r facts ->
    (exists m, (forall i j, In i act -> In j act -> wf anySym (M i j) /\ eval r (M i j) = Some (m i j)) /\ inverseOf act a m /\ inverseOf act m a) /\
    (forall i j, ~ (In i act /\ In j act) -> M i j = A i j).
  Proof. intros E [st R0]. exact (invertE_sound (world_sound Y F k) (posEnv_good st r Hr) HA E R0). Qed.
End Api.
