(** Property C52: the LU decomposition of src/ludecomp.h.

    [luOf dim a m]: the product of the unit lower triangular and the upper triangular matrix stored in m is a
    (LuSpec.v); [solution] is that of SystemSpec.v.  [rightFacts r facts] says that what the execution took for
    granted is true for the values r of the symbols: the pivots aren't zero there, and the rewriting of expressions
    made none of the known wrong turns. *)
From Verif Require Import LuReal LuProofs RPow WorldProofs ApiProofs SimplApi ApiSpec DiffProofs SimplWitness RefFloat.
From Coq Require Import Lra Lia Reals.
From Verif Require Import Run.
Open Scope R_scope.

(** factorize leaves the triangular factors of the matrix in its place and touches nothing else. *)
Theorem C52_factorize_partial : forall Y F k dim A r a M facts, posEnv r ->
  (forall i j, (i < dim)%nat -> (j < dim)%nat -> wf anySym (A i j) /\ eval r (A i j) = Some (a i j)) ->
  factorizeE (world Y F k) dim A = Ok M facts -> rightFacts r facts ->
  exists m, (forall i j, (i < dim)%nat -> (j < dim)%nat -> wf anySym (M i j) /\ eval r (M i j) = Some (m i j)) /\ luOf dim a m.
Proof. intros Y F k dim A r a M facts Hr HA E [st R0]. exact (spec_ok st r _ _ M facts (factorize_val _ (world_sound Y F k) st r (posEnv_good st r Hr) dim A a HA) E R0). Qed.
Print Assumptions C52_factorize_partial.

(** computeSolution, called with a factorised matrix, gives the only solution of the system with the original one. *)
Theorem C52_solve_partial : forall Y F k n dim M B X r a m b M' B' X' facts, posEnv r ->
  (forall i j, (i < dim)%nat -> (j < dim)%nat -> wf anySym (M i j) /\ eval r (M i j) = Some (m i j)) -> luOf dim a m ->
  (forall i, (i < dim)%nat -> wf anySym (B i) /\ eval r (B i) = Some (b i)) ->
  luSolve (world Y F k) n dim M B X = Ok (M', B', X') facts -> rightFacts r facts ->
  exists x, (forall i, (i < dim)%nat -> wf anySym (X' i) /\ eval r (X' i) = Some (x i)) /\
    solution (seq 0 dim) a b x /\ (forall z, solution (seq 0 dim) a b z -> forall i, In i (seq 0 dim) -> z i = x i).
Proof.
  intros Y F k n dim M B X r a m b M' B' X' facts Hr HM Hlu HB E [st R0].
  exact (spec_ok st r _ _ (M', B', X') facts (luSolve_val _ (world_sound Y F k) n st r (posEnv_good st r Hr) dim a M b B X (ex_intro _ m (conj HM Hlu)) HB) E R0).
Qed.
Print Assumptions C52_solve_partial.

(** The two together. *)
Theorem C52_system_partial : forall Y F k n dim A B X r a b M M' B' X' facts facts', posEnv r ->
  (forall i j, (i < dim)%nat -> (j < dim)%nat -> wf anySym (A i j) /\ eval r (A i j) = Some (a i j)) ->
  (forall i, (i < dim)%nat -> wf anySym (B i) /\ eval r (B i) = Some (b i)) ->
  factorizeE (world Y F k) dim A = Ok M facts -> rightFacts r facts ->
  luSolve (world Y F k) n dim M B X = Ok (M', B', X') facts' -> rightFacts r facts' ->
  exists x, (forall i, (i < dim)%nat -> wf anySym (X' i) /\ eval r (X' i) = Some (x i)) /\
    solution (seq 0 dim) a b x /\ (forall z, solution (seq 0 dim) a b z -> forall i, In i (seq 0 dim) -> z i = x i).
Proof.
  intros Y F k n dim A B X r a b M M' B' X' facts facts' Hr HA HB E R0 E' R1.
  destruct (C52_factorize_partial Y F k dim A r a M facts Hr HA E R0) as [m [HM Hlu]].
  exact (C52_solve_partial Y F k n dim M B X r a m b M' B' X' facts' Hr HM Hlu HB E' R1).
Qed.
Print Assumptions C52_system_partial.

(** Entries outside of the given dimension are never written; computeSolution changes the diagonal of the matrix only.
    There are no hypotheses on the operations. *)
Theorem C52_frame : forall W n dim M B X,
  (forall M' facts, factorizeE W dim M = Ok M' facts -> forall i k, ~ ((i < dim)%nat /\ (k < dim)%nat) -> M' i k = M i k) /\
  (forall M' B' X' facts, luSolve W n dim M B X = Ok (M', B', X') facts ->
    (forall i k, ~ ((i < dim)%nat /\ i = k) -> M' i k = M i k) /\
    (forall i, (dim <= i)%nat -> B' i = B i) /\ (forall i, (dim <= i)%nat -> X' i = X i)).
Proof.
  intros W n dim M B X. split.
  - intros M' facts E. pose proof (factorize_out W dim M) as H. rewrite E in H. apply H. now apply Forall_forall.
  - intros M' B' X' facts E. pose proof (luSolve_out W n dim M B X) as H. rewrite E in H. apply H. now apply Forall_forall.
Qed.
Print Assumptions C52_frame.

(** ** What is false: there is no pivoting *)

Definition swapM (i k : nat) : expr := match i, k with O, 1%nat => one | 1%nat, O => one | _, _ => zero end.
(** The matrix ((0, 1), (1, 0)) has the determinant -1, but factorize fills its second row with Undefined and
    computeSolution reports a singular matrix. *)
Theorem C52_pivot_refuted :
  (exists facts, (M <- factorizeE W0 2 swapM ;; ret [M 0 0; M 0 1; M 1 0; M 1 1]%nat) = Ok [zero; one; Undef; Undef] facts) /\
  (M <- factorizeE W0 2 swapM ;; luSolve W0 8 2 M (fun _ => one) (fun _ => zero)) = Throw /\
  laplace (fun i k => if Nat.eqb i k then 0 else 1) [0%nat; 1%nat] [0%nat; 1%nat] = -1.
Proof. split; [eexists; lazy; reflexivity|]. split; [lazy; reflexivity|]. cbn. lra. Qed.
Print Assumptions C52_pivot_refuted.

(** ** Case: x*u + v = 1, u + y*v = 0 for x = y = 2 *)

Definition luA (i k : nat) : expr := match i, k with O, O => sx | 1%nat, 1%nat => sy | _, _ => one end.
Definition luB (i : nat) : expr := match i with O => one | _ => zero end.
Definition shown (M : nat -> nat -> expr) : list expr := [M 0 0; M 0 1; M 1 0; M 1 1]%nat.
Example C52_case :
  (forall i k, (i < 2)%nat -> (k < 2)%nat -> wf anySym (luA i k) /\ eval (allv 2) (luA i k) = Some (if Nat.eqb i k then 2 else 1)) /\
  (exists facts, (M <- factorizeE W0 2 luA ;; ret (shown M)) =
    Ok [sx; one; Pow sx (Num (-1)); Sum [Prod [Num (-1); Pow sx (Num (-1))]; sy]] facts /\ rightFacts (allv 2) facts) /\
  (exists facts, (M <- factorizeE W0 2 luA ;; '(_, _, x) <- luSolve W0 8 2 M luB (fun _ => zero) ;; ret (x O, x 1%nat)) =
    Ok (Prod [sy; Pow (Sum [Num (-1); Prod [sx; sy]]) (Num (-1))], Prod [Num (-1); Pow (Sum [Num (-1); Prod [sx; sy]]) (Num (-1))]) facts /\
    rightFacts (allv 2) facts) /\ posEnv (allv 2).
Proof.
  split; [|split; [|split; [|apply allv_pos; lra]]].
  - intros i k Hi Hk. destruct i as [|[|i]], k as [|[|k]]; try lia; (split; [reflexivity|]); unfold allv; cbn; q2r; f_equal; unfold Q2R; cbn; lra.
  - eexists. split; [lazy; reflexivity|]. exists false. repeat apply Forall_cons; try apply Forall_nil; unfold allv; cbn; q2r. intros [= H]. lra.
  - eexists. split; [lazy; reflexivity|]. exists false. repeat apply Forall_cons; try apply Forall_nil; unfold allv; cbn; q2r; rewrite ?rpow_rm1 by lra; cbn; q2r.
    all: intros [= H]; lra.
Qed.
