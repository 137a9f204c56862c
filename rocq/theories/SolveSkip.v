(** A system with skipped rows and columns is the reduced system, with the results written to the active places. *)
From Verif Require Import SolveExpr SolveFacts SkipFacts SystemSpec SolveEntry.
From Coq Require Import Lia FunctionalExtensionality.
From Verif Require Import Run.
Local Notation upd := SolveModel.upd.

(** Only for its zero. *)
Definition zeroOnly : entryOps expr := mkEntry expr zero one mOne (fun a _ => a) (fun a _ => a) (fun a _ => a) (fun a _ => a) (fun a => a) (fun _ => true) (fun _ => O).
Definition none : nat -> bool := fun _ => false.

Section Skip.
  Variables (skip : nat -> bool) (dim : nat).
  Notation act := (activeRows skip dim).
  Notation d := (length act).

  Lemma act_is : actOf skip (range 0 dim) = act.
  Proof. unfold actOf, activeRows, range. now rewrite Nat.sub_0_r. Qed.
  Lemma none_is m : actOf none (range 0 m) = seq 0 m.
  Proof. unfold actOf, range. rewrite Nat.sub_0_r. induction (seq 0 m) as [|i l IH]; [reflexivity|]. exact (f_equal (cons i) IH). Qed.
  Lemma map_nth_seq {X Y} (f : X -> Y) (l : list X) x0 : map (fun i => f (nth i l x0)) (seq 0 (length l)) = map f l.
  Proof.
    apply nth_ext with (d := f x0) (d' := f x0); [now rewrite !map_length, seq_length|]. intros i Hi. rewrite map_length, seq_length in Hi.
    rewrite (nth_map0 (fun i => f (nth i l x0)) O), (nth_map0 f x0), seq_nth; [reflexivity|exact Hi|exact Hi|now rewrite seq_length].
  Qed.
  Lemma vec_reduced (b : nat -> expr) : toStdVec (fun i => b (nth i act O)) none d = toStdVec b skip dim.
  Proof. rewrite !toStdVec_map, act_is, none_is. apply map_nth_seq. Qed.
  Lemma mat_reduced (A : nat -> nat -> expr) : toStdMat (fun i k => A (nth i act O) (nth k act O)) none d = toStdMat A skip dim.
  Proof.
    rewrite !toStdMat_map, act_is, none_is, !flat_map_concat_map. f_equal.
    transitivity (map (fun i => map (A (nth i act O)) act) (seq 0 d)); [apply map_ext; intros i; apply map_nth_seq|]. apply (map_nth_seq (fun i => map (A i) act)).
  Qed.

  (** The place of an active row in the list. *)
  Lemma filter_split {X} (f : X -> bool) a b : filter f (a ++ b) = filter f a ++ filter f b.
  Proof. induction a as [|x a IH]; [reflexivity|]. cbn. rewrite IH. now destruct (f x). Qed.
  Lemma place i : (i < dim)%nat -> skip i = false -> (length (activeRows skip i) < d)%nat /\ nth (length (activeRows skip i)) act O = i.
  Proof.
    intros Hi Hs. assert (E : act = activeRows skip i ++ i :: filter (fun j => negb (skip j)) (seq (S i) (dim - S i))).
    { unfold activeRows. replace dim with (i + S (dim - S i))%nat at 1 by lia. rewrite seq_app, filter_split. f_equal. cbn [seq filter Nat.add]. rewrite Hs. reflexivity. }
    rewrite E. split; [rewrite app_length; cbn; lia|]. rewrite app_nth2 by lia. now rewrite Nat.sub_diag.
  Qed.
  Lemma act_in i : In i act <-> (i < dim)%nat /\ skip i = false.
  Proof. unfold activeRows. rewrite filter_In, in_seq, negb_true_iff. intuition lia. Qed.

  Definition activeAt (i : nat) : bool := (i <? dim)%nat && negb (skip i).
  Lemma activeAt_in i : activeAt i = true <-> In i act.
  Proof. unfold activeAt. rewrite andb_true_iff, Nat.ltb_lt, negb_true_iff, act_in. tauto. Qed.

  Lemma solveDetail_length W n maxU a A b m xs l : solveDetailE W n maxU a A b m = Ok xs l -> length xs = m.
  Proof.
    unfold solveDetailE. intros E. apply bind_ok in E as (s & l1 & l2 & _ & E & _). destruct (x_rhs s); [|discriminate].
    apply bind_ok in E as (x & l3 & l4 & _ & E & _). injection E as <- _. unfold toVector. rewrite map_length. unfold range. rewrite seq_length. lia.
  Qed.

  Lemma write_vec (xs : list expr) (x0 y0 : nat -> expr) : length xs = d ->
    exists y, fromStdVec (range 0 d) none xs y0 = Some y /\
    fromStdVec (range 0 dim) skip xs x0 = Some (fun i => if activeAt i then y (length (activeRows skip i)) else x0 i).
  Proof.
    intros Hl. destruct (fromStdVec_spec zeroOnly none (range 0 d) xs y0 (range_NoDup _ _)) as (y & Ey & Y1 & Y2); [rewrite none_is, seq_length; exact Hl|].
    destruct (fromStdVec_spec zeroOnly skip (range 0 dim) xs x0 (range_NoDup _ _)) as (x & Ex & X1 & X2); [rewrite act_is; exact Hl|].
    rewrite none_is, seq_length in Y1. rewrite act_is in X1, X2.
    exists y. split; [exact Ey|]. rewrite Ex. f_equal. apply functional_extensionality. intros i. destruct (activeAt i) eqn:Ei.
    - apply activeAt_in, act_in in Ei as [Hi Hs]. destruct (place i Hi Hs) as [P1 P2]. rewrite <- P2 at 1. rewrite (X1 _ P1). specialize (Y1 _ P1). rewrite seq_nth in Y1 by exact P1. symmetry. exact Y1.
    - apply X2. intros H. apply activeAt_in in H. congruence.
  Qed.
  Lemma write_mat (xs : list expr) (A M : nat -> nat -> expr) : length xs = (d * d)%nat ->
    exists y, fromStdMat d (range 0 d) none xs M = Some y /\
    fromStdMat dim (range 0 dim) skip xs A = Some (fun i k => if (activeAt i && activeAt k)%bool then y (length (activeRows skip i)) (length (activeRows skip k)) else A i k).
  Proof.
    intros Hl. destruct (fromStdMat_spec zeroOnly none d (range 0 d) xs M (range_NoDup _ _)) as (y & Ey & Y1 & Y2); [rewrite none_is, seq_length; exact Hl|].
    destruct (fromStdMat_spec zeroOnly skip dim (range 0 dim) xs A (range_NoDup _ _)) as (x & Ex & X1 & X2); [rewrite act_is; exact Hl|].
    rewrite none_is, seq_length in Y1. rewrite act_is in X1, X2.
    exists y. split; [exact Ey|]. rewrite Ex. f_equal. apply functional_extensionality. intros i. apply functional_extensionality. intros k.
    destruct (activeAt i && activeAt k)%bool eqn:E.
    - apply andb_true_iff in E as [Ei Ek]. apply activeAt_in, act_in in Ei as [Hi Hs]. apply activeAt_in, act_in in Ek as [Hk Hs']. destruct (place i Hi Hs) as [P1 P2]. destruct (place k Hk Hs') as [Q1 Q2].
      rewrite <- P2 at 1. rewrite <- Q2 at 1. rewrite (X1 _ _ P1 Q1). specialize (Y1 _ _ P1 Q1). rewrite !seq_nth in Y1 by assumption. symmetry. exact Y1.
    - apply X2. intros [H1 H2]. apply activeAt_in in H1, H2. rewrite H1, H2 in E. discriminate.
  Qed.

  Variables (W : oper) (n : nat) (maxU : Z) (alg : algo) (A : nat -> nat -> expr).
  Notation A' := (fun i k => A (nth i act O) (nth k act O)).
  Theorem solve_reduced b x0 y0 : solveE W n maxU alg A b x0 skip dim =
    (y <- solveE W n maxU alg A' (fun i => b (nth i act O)) y0 none d ;; ret (fun i => if activeAt i then y (length (activeRows skip i)) else x0 i)).
  Proof.
    unfold solveE. rewrite mat_reduced, vec_reduced, length_toStdVec, act_is.
    destruct (solveDetailE W n maxU alg _ _ d) as [xs l| | |] eqn:E; try reflexivity. apply solveDetail_length in E.
    destruct (write_vec xs x0 y0 E) as (y & E1 & E2). cbn [bind]. rewrite E1, E2. cbn [ret bind app]. now rewrite !app_nil_r.
  Qed.
  Lemma count_none m : length (filter (fun i => negb (none i)) (range 0 m)) = m.
  Proof. change (length (actOf none (range 0 m)) = m). now rewrite none_is, seq_length. Qed.
  Lemma count_act : length (filter (fun i => negb (skip i)) (range 0 dim)) = d.
  Proof. change (length (actOf skip (range 0 dim)) = d). now rewrite act_is. Qed.
  Theorem determinant_reduced : determinantE W n maxU alg A skip dim = determinantE W n maxU alg A' none d.
  Proof. unfold determinantE. now rewrite mat_reduced, count_none, count_act. Qed.
  Lemma invertDetail_length B m xs l : invertDetailE W n maxU alg B m = Ok xs l -> length xs = (m * m)%nat.
  Proof.
    unfold invertDetailE. intros E. apply bind_ok in E as (s & l1 & l2 & _ & E & _). injection E as <- _.
    rewrite (length_blocks _ m); [unfold range; rewrite seq_length; lia|]. intros i _. rewrite map_length. unfold range. rewrite seq_length. lia.
  Qed.
  Theorem invert_reduced : invertE W n maxU alg A skip dim =
    (M <- invertE W n maxU alg A' none d ;;
     ret (fun i k => if (activeAt i && activeAt k)%bool then M (length (activeRows skip i)) (length (activeRows skip k)) else A i k)).
  Proof.
    unfold invertE. rewrite mat_reduced, count_none, count_act.
    destruct (invertDetailE W n maxU alg _ d) as [xs l| | |] eqn:E; try reflexivity. apply invertDetail_length in E.
    destruct (write_mat xs A A' E) as (y & E1 & E2). cbn [bind]. rewrite E1, E2. cbn [ret bind app]. now rewrite !app_nil_r.
  Qed.
End Skip.
