(** Properties C24 to C28 for linear systems whose entries are expressions.

    [activeRows], [solution], [inverseOf] and [laplace] are those of SystemSpec.v; [rightFacts r facts] says
    that what the execution took for granted is true for the values r of the symbols: the pivots aren't zero
    there, and the rewriting of expressions made none of the known wrong turns. *)
From Verif Require Import SolveSkip SystemApi SimplWitness.
From Coq Require Import Lra Lia Reals.
From Verif Require Import Run.
Open Scope R_scope.

(** C24: the entries of the result have values which solve the active part of the system, and they are the only
    solution.  C27: the skipped entries of the target stay as they were. *)
Theorem C24_expressions_partial : forall Y F k n maxU alg A b x0 skip dim r a bv x facts, posEnv r ->
  (forall i j, In i (activeRows skip dim) -> In j (activeRows skip dim) -> wf anySym (A i j) /\ eval r (A i j) = Some (a i j)) ->
  (forall i, In i (activeRows skip dim) -> wf anySym (b i) /\ eval r (b i) = Some (bv i)) ->
  solveE (world Y F k) n maxU alg A b x0 skip dim = Ok x facts -> rightFacts r facts ->
  (exists xv, (forall i, In i (activeRows skip dim) -> wf anySym (x i) /\ eval r (x i) = Some (xv i)) /\
    solution (activeRows skip dim) a bv xv /\
    (forall yv, solution (activeRows skip dim) a bv yv -> forall i, In i (activeRows skip dim) -> yv i = xv i)) /\
  (forall i, ~ In i (activeRows skip dim) -> x i = x0 i).
Proof. intros Y F k n maxU alg A b x0 skip dim r a bv x facts Hr HA. exact (solve_api Y F k n maxU alg A skip dim r Hr a HA b x0 bv x facts). Qed.
Print Assumptions C24_expressions_partial.

(** C25: the value of the result is the determinant. *)
Theorem C25_expressions_partial : forall Y F k n maxU alg A skip dim r a e facts, posEnv r ->
  (forall i j, In i (activeRows skip dim) -> In j (activeRows skip dim) -> wf anySym (A i j) /\ eval r (A i j) = Some (a i j)) ->
  determinantE (world Y F k) n maxU alg A skip dim = Ok e facts -> rightFacts r facts ->
  wf anySym e /\ eval r e = Some (laplace a (activeRows skip dim) (activeRows skip dim)).
Proof. intros Y F k n maxU alg A skip dim r a e facts Hr HA. exact (determinant_api Y F k n maxU alg A skip dim r Hr a HA e facts). Qed.
Print Assumptions C25_expressions_partial.

(** C26: the result is the inverse, on both sides.  C27: entries in skipped rows or columns stay as they were. *)
Theorem C26_expressions_partial : forall Y F k n maxU alg A skip dim r a M facts, posEnv r ->
  (forall i j, In i (activeRows skip dim) -> In j (activeRows skip dim) -> wf anySym (A i j) /\ eval r (A i j) = Some (a i j)) ->
  invertE (world Y F k) n maxU alg A skip dim = Ok M facts -> rightFacts r facts ->
  (exists m, (forall i j, In i (activeRows skip dim) -> In j (activeRows skip dim) -> wf anySym (M i j) /\ eval r (M i j) = Some (m i j)) /\
    inverseOf (activeRows skip dim) a m /\ inverseOf (activeRows skip dim) m a) /\
  (forall i j, ~ (In i (activeRows skip dim) /\ In j (activeRows skip dim)) -> M i j = A i j).
Proof. intros Y F k n maxU alg A skip dim r a M facts Hr HA. exact (invert_api Y F k n maxU alg A skip dim r Hr a HA M facts). Qed.
Print Assumptions C26_expressions_partial.

(** C27, without any hypothesis, whatever the operations on expressions do: a call with a skip field has the
    outcome of the call for the system without the skipped rows and columns.  The results are written to the active
    places in order, the others stay as they were.  [activeAt skip dim i]: i < dim isn't skipped;
    length (activeRows skip i): the number of active rows before i. *)
Theorem C27_solve_reduces : forall W n maxU alg A b x0 y0 skip dim,
  let act := activeRows skip dim in
  solveE W n maxU alg A b x0 skip dim =
  (y <- solveE W n maxU alg (fun i k => A (nth i act O) (nth k act O)) (fun i => b (nth i act O)) y0 (fun _ => false) (length act) ;;
   ret (fun i => if activeAt skip dim i then y (length (activeRows skip i)) else x0 i)).
Proof. intros W n maxU alg A b x0 y0 skip dim. exact (solve_reduced skip dim W n maxU alg A b x0 y0). Qed.
Print Assumptions C27_solve_reduces.
Theorem C27_determinant_reduces : forall W n maxU alg A skip dim,
  let act := activeRows skip dim in
  determinantE W n maxU alg A skip dim = determinantE W n maxU alg (fun i k => A (nth i act O) (nth k act O)) (fun _ => false) (length act).
Proof. intros W n maxU alg A skip dim. exact (determinant_reduced skip dim W n maxU alg A). Qed.
Print Assumptions C27_determinant_reduces.
Theorem C27_invert_reduces : forall W n maxU alg A skip dim,
  let act := activeRows skip dim in
  invertE W n maxU alg A skip dim =
  (M <- invertE W n maxU alg (fun i k => A (nth i act O) (nth k act O)) (fun _ => false) (length act) ;;
   ret (fun i k => if (activeAt skip dim i && activeAt skip dim k)%bool then M (length (activeRows skip i)) (length (activeRows skip k)) else A i k)).
Proof. intros W n maxU alg A skip dim. exact (invert_reduced skip dim W n maxU alg A). Qed.
Print Assumptions C27_invert_reduces.

(** ** What is false *)

Notation maxUnsigned := 4294967295%Z.
(** C24 without the hypothesis on facts: 324*x = 648 is solved by 18. *)
Theorem C24_expressions_refuted : exists facts,
  (x <- solveE W0 8 maxUnsigned Gauss (fun _ _ => Num 324) (fun _ => Num 648) (fun _ => zero) (fun _ => false) 1 ;; ret (x O)) = Ok (Num 18) facts /\
  ~ solution [O] (fun _ _ => 324) (fun _ => 648) (fun _ => 18).
Proof.
  eexists. split; [lazy; reflexivity|]. intros H. specialize (H O (or_introl eq_refl)). cbn in H. lra.
Qed.
Print Assumptions C24_expressions_refuted.

(** x*(1 + y) - x*y - x *)
Definition hiddenZero : expr := Sum [Prod [Num (-1); sx]; Prod [Num (-1); sx; sy]; Prod [sx; Sum [one; sy]]].
Definition antiDiag (i k : nat) : expr := match i, k with O, O => hiddenZero | O, _ => one | _, O => one | _, _ => zero end.
(** C25, C28: a pivot is only compared with 0, so that a matrix with the value ((0, 1), (1, 0)) for all values of the
    symbols is reported as singular by solve, while its determinant, -1, is given as Undefined. *)
Theorem C28_expressions_refuted :
  (forall r i k, (i < 2)%nat -> (k < 2)%nat -> eval r (antiDiag i k) = Some (if Nat.eqb i k then 0 else 1)) /\
  solveE W0 8 maxUnsigned Gauss antiDiag (fun _ => one) (fun _ => zero) (fun _ => false) 2 = Throw /\
  (exists facts, determinantE W0 8 maxUnsigned Gauss antiDiag (fun _ => false) 2 = Ok Undef facts) /\
  laplace (fun i k => if Nat.eqb i k then 0 else 1) [0%nat; 1%nat] [0%nat; 1%nat] = -1.
Proof.
  split; [|split; [lazy; reflexivity|split; [eexists; lazy; reflexivity|cbn; lra]]].
  intros r i k Hi Hk. destruct i as [|[|i]], k as [|[|k]]; try lia; cbn; f_equal; q2r; unfold Q2R; cbn; lra.
Qed.
Print Assumptions C28_expressions_refuted.

(** ** Cases *)

(** x*u + v = 1, u + y*v = 0 for x = y = 2. *)
Definition exA (i k : nat) : expr := match i, k with O, O => sx | 1%nat, 1%nat => sy | _, _ => one end.
Definition exB (i : nat) : expr := match i with O => one | _ => zero end.
Example C24_expressions_case : exists facts,
  (x <- solveE W0 8 maxUnsigned Gauss exA exB (fun _ => zero) (fun _ => false) 2 ;; ret (x O, x 1%nat)) =
    Ok (Prod [sy; Pow (Sum [Num (-1); Prod [sx; sy]]) (Num (-1))], Prod [Num (-1); Pow (Sum [Num (-1); Prod [sx; sy]]) (Num (-1))]) facts /\
  rightFacts (allv 2) facts /\ posEnv (allv 2).
Proof.
  eexists. split; [lazy; reflexivity|]. split; [|apply allv_pos; lra].
  exists false. repeat apply Forall_cons; try apply Forall_nil; unfold allv; cbn; q2r; rewrite ?rpow_rm1 by lra; cbn; q2r.
  all: intros [= H]; lra.
Qed.
(** With the least complexity pivot; the rows are swapped. *)
Example C26_expressions_case : exists facts,
  (M <- invertE W0 8 maxUnsigned GaussLCPivot exA (fun _ => false) 2 ;; ret [M 0 0; M 0 1; M 1 0; M 1 1]%nat) =
    (let d := Pow (Sum [one; Prod [Num (-1); sx; sy]]) (Num (-1)) in Ok [Prod [Num (-1); sy; d]; d; d; Prod [Num (-1); sx; d]] facts) /\
  determinantE W0 8 maxUnsigned GaussLCPivot exA (fun _ => false) 2 = Ok (Sum [Num (-1); Prod [sx; sy]]) [CNonZero one] /\
  rightFacts (allv 2) facts.
Proof.
  eexists. split; [lazy; reflexivity|]. split; [lazy; reflexivity|].
  exists false. repeat apply Forall_cons; try apply Forall_nil; unfold allv; cbn; q2r; rewrite ?rpow_rm1 by lra; cbn; q2r.
  all: intros [= H]; lra.
Qed.
(** The middle row skipped: the third one is the second active one. *)
Example C27_case : activeRows (fun i => Nat.eqb i 1) 3 = [0; 2]%nat /\ activeAt (fun i => Nat.eqb i 1) 3 2 = true /\
  length (activeRows (fun i => Nat.eqb i 1) 2) = 1%nat.
Proof. repeat split. Qed.
