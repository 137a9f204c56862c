(** Closed forms of the loops of the solver model. *)
From Coq Require Import List Arith Bool Lia.
Import ListNotations.
From Verif Require Import SolveModel.

Lemma range_in a b i : In i (range a b) <-> a <= i < b.
Proof. unfold range. rewrite in_seq. lia. Qed.

Lemma range_S a b : a <= b -> range a (S b) = range a b ++ [b].
Proof.
  intros H. unfold range. replace (S b - a) with (S (b - a)) by lia. rewrite seq_S.
  replace (a + (b - a)) with b by lia. reflexivity.
Qed.

Lemma range_nil a b : b <= a -> range a b = [].
Proof. intros H. unfold range. replace (b - a) with 0 by lia. reflexivity. Qed.

Lemma range_cons a b : a < b -> range a b = a :: range (S a) b.
Proof. intros H. unfold range. replace (b - a) with (S (b - S a)) by lia. reflexivity. Qed.

Section Facts.
  Context {T : Type} (o : entryOps T).

  Ltac cmp := repeat match goal with
    | |- context [?a =? ?b] => destruct (Nat.eqb_spec a b)
    | |- context [?a <? ?b] => destruct (Nat.ltb_spec a b)
    | |- context [?a <=? ?b] => destruct (Nat.leb_spec a b)
    end; cbn [andb orb negb].

  (** A fold that overwrites each entry of a row once with a value computed from the row before. *)
  Lemma row_fold (i : nat) (g : mat -> nat -> T) (n lo : nat) : forall m : mat,
    (forall m m' k, (forall a b, a <> i \/ b = k \/ b < lo -> m a b = m' a b) -> g m k = g m' k) ->
    forall a b,
    fold_left (fun m k => upd m i k (g m k)) (seq lo n) m a b
    = if (a =? i) && (lo <=? b) && (b <? lo + n) then g m b else m a b.
  Proof.
    intros m Hg. induction n as [|n IH]; intros a b.
    - cbn [seq fold_left]. cmp; try reflexivity; lia.
    - rewrite seq_S, fold_left_app. cbn [fold_left]. unfold upd at 1. rewrite IH.
      assert (Hgm : g (fold_left (fun m0 k => upd m0 i k (g m0 k)) (seq lo n) m) (lo + n) = g m (lo + n)).
      { apply Hg. intros a' b' Hab. rewrite IH. cmp; try reflexivity; lia. }
      cmp; try reflexivity; try lia.
      subst. rewrite Hgm. reflexivity.
  Qed.

  Lemma elimRow_spec dim j (m : mat) i a b : j < i ->
    elimRow o dim j m i a b =
      if a =? i then
        let l := e_simp o (e_div o (m i j) (m j j)) in
        if b =? j then l
        else if (j <? b) && (b <? dim) then e_simp o (e_sub o (m i b) (e_mul o l (m j b)))
        else m a b
      else m a b.
  Proof.
    intros Hji. unfold elimRow. cbv zeta. unfold range.
    rewrite (row_fold i (fun m k => e_simp o (e_sub o (m i k) (e_mul o (m i j) (m j k)))) (dim - S j) (S j)).
    - unfold upd. cmp; try reflexivity; try lia; subst; try lia; reflexivity.
    - intros m1 m2 k Hm. rewrite !Hm by lia. reflexivity.
  Qed.

  Lemma elimCol_spec dim j (m : mat) a b :
    elimCol o dim j m a b =
      if (j <? a) && (a <? dim) then
        let l := e_simp o (e_div o (m a j) (m j j)) in
        if b =? j then l
        else if (j <? b) && (b <? dim) then e_simp o (e_sub o (m a b) (e_mul o l (m j b)))
        else m a b
      else m a b.
  Proof.
    unfold elimCol, range.
    assert (H : forall n a b, fold_left (elimRow o dim j) (seq (S j) n) m a b =
      if (j <? a) && (a <? S j + n) then
        let l := e_simp o (e_div o (m a j) (m j j)) in
        if b =? j then l
        else if (j <? b) && (b <? dim) then e_simp o (e_sub o (m a b) (e_mul o l (m j b)))
        else m a b
      else m a b).
    { induction n as [|n IH]; intros a' b'.
      - cbn [seq fold_left]. cmp; try reflexivity; lia.
      - rewrite seq_S, fold_left_app. cbn [fold_left]. rewrite elimRow_spec by lia. cbv zeta.
        rewrite !IH. cbv zeta. cmp; subst; try reflexivity; try lia. }
    rewrite H. cmp; try reflexivity; lia.
  Qed.

  (** The subtraction loops of the substitution. *)
  Definition subFold (row : nat -> T) (y : vec) (js : list nat) (start : T) : T :=
    fold_left (fun acc j => e_sub o acc (e_mul o (row j) (y j))) js start.

  Lemma subFold_ext row y y' js start : (forall j, In j js -> y j = y' j) ->
    subFold row y js start = subFold row y' js start.
  Proof.
    revert start. induction js as [|j js IH]; intros start H; [reflexivity|].
    cbn [subFold fold_left]. rewrite (H j) by (left; reflexivity). apply IH. intros k Hk. apply H. right. exact Hk.
  Qed.

  Lemma updV_fold (i : nat) (row : nat -> T) js : forall (r : vec), ~ In i js ->
    forall a, fold_left (fun r j => updV r i (e_sub o (r i) (e_mul o (row j) (r j)))) js r a
    = if a =? i then subFold row r js (r i) else r a.
  Proof.
    induction js as [|j js IH]; intros r Hi a.
    - cbn. cmp; subst; reflexivity.
    - cbn [fold_left]. rewrite IH by (intros H; apply Hi; right; exact H).
      assert (Hij : j <> i) by (intros ->; apply Hi; left; reflexivity).
      unfold updV at 3. cmp.
      + subst. cbn [subFold fold_left]. unfold updV at 2. rewrite Nat.eqb_refl.
        apply subFold_ext. intros k Hk. unfold updV. cmp; [|reflexivity]. subst. exfalso. apply Hi. right. exact Hk.
      + reflexivity.
  Qed.

  Lemma forward_spec (m : mat) (rhs : vec) : forall dim i,
    forward o dim m rhs i = if i <? dim then subFold (m i) (forward o dim m rhs) (range 0 i) (rhs i) else rhs i.
  Proof.
    unfold forward. induction dim as [|n IH]; intros i.
    - reflexivity.
    - rewrite range_S by lia. rewrite fold_left_app. cbn [fold_left].
      set (y := fold_left (forwardRow o m) (range 0 n) rhs) in *.
      assert (Hf : forall a, forwardRow o m y n a = if a =? n then subFold (m n) y (range 0 n) (y n) else y a).
      { intros a. unfold forwardRow. apply updV_fold. rewrite range_in. lia. }
      rewrite Hf. cmp; subst; try lia.
      + rewrite IH. cmp; [lia|]. apply subFold_ext. intros j Hj. apply range_in in Hj. rewrite Hf. cmp; [lia|reflexivity].
      + rewrite IH. cmp; [|lia]. apply subFold_ext. intros j Hj. apply range_in in Hj. rewrite Hf. cmp; [lia|reflexivity].
      + rewrite IH. cmp; [lia|reflexivity].
  Qed.

  (** Backward substitution: if it returns, x satisfies the recurrence and every simplified
      diagonal entry is different from zero. *)
  Lemma backLoop_spec dim (rhs : vec) (m0 : mat) : forall n (m : mat) (x : vec) m' x',
    n <= dim ->
    (forall a b, a < n \/ a <> b -> m a b = m0 a b) ->
    (forall a, a < n -> x a = e_zero o) ->
    (forall a, n <= a < dim ->
       e_isZero o (e_simp o (m0 a a)) = false /\
       x a = e_simp o (e_div o (e_add o (rhs a) (subFold (m0 a) x (range (S a) dim) (e_zero o))) (e_simp o (m0 a a)))) ->
    backLoop o dim rhs (rev (range 0 n)) (m, x) = Some (m', x') ->
    forall a, a < dim ->
       e_isZero o (e_simp o (m0 a a)) = false /\
       x' a = e_simp o (e_div o (e_add o (rhs a) (subFold (m0 a) x' (range (S a) dim) (e_zero o))) (e_simp o (m0 a a))).
  Proof.
    induction n as [|n IH]; intros m x m' x' Hn Hm Hx Hdone Hrun a Ha.
    - cbn in Hrun. inversion Hrun; subst. apply Hdone. lia.
    - rewrite range_S in Hrun by lia. rewrite rev_app_distr in Hrun. cbn [rev app backLoop] in Hrun.
      destruct (backRow o dim rhs (m, x) n) as [[m1 x1]|] eqn:Hrow; [|discriminate].
      unfold backRow in Hrow. cbv zeta in Hrow.
      destruct (e_isZero o (upd m n n (e_simp o (m n n)) n n)) eqn:Hz; [discriminate|].
      unfold upd at 1 in Hz. rewrite Nat.eqb_refl in Hz. cbn [andb] in Hz. rewrite Hm in Hz by lia.
      set (xf := fold_left (fun x j => updV x n (e_sub o (x n) (e_mul o (m n j) (x j)))) (range (S n) dim) x) in *.
      assert (Hxf : forall b, xf b = if b =? n then subFold (m n) x (range (S n) dim) (x n) else x b).
      { intros b. unfold xf. apply updV_fold. rewrite range_in. lia. }
      inversion Hrow; subst m1 x1; clear Hrow.
      assert (Hx1 : forall b, b <> n ->
        updV xf n (e_simp o (e_div o (e_add o (rhs n) (xf n)) (upd m n n (e_simp o (m n n)) n n))) b = x b).
      { intros b Hb. unfold updV. rewrite (Hxf b), (proj2 (Nat.eqb_neq b n) Hb). reflexivity. }
      assert (Hxn : updV xf n (e_simp o (e_div o (e_add o (rhs n) (xf n)) (upd m n n (e_simp o (m n n)) n n))) n =
        e_simp o (e_div o (e_add o (rhs n) (subFold (m n) x (range (S n) dim) (e_zero o))) (e_simp o (m0 n n)))).
      { unfold updV, upd. rewrite Nat.eqb_refl. cbn [andb]. rewrite Hxf, Nat.eqb_refl, (Hm n n), (Hx n) by lia. reflexivity. }
      set (x1 := updV xf n _) in *. clearbody x1.
      eapply IH; [lia| | | |exact Hrun|exact Ha].
      + intros a' b' Hab. unfold upd. cmp; try (apply Hm; lia). subst. lia.
      + intros a' Ha'. rewrite Hx1 by lia. apply Hx. lia.
      + intros a' Ha'. destruct (Nat.eq_dec a' n) as [->|Hne].
        * split; [exact Hz|]. rewrite Hxn. f_equal. f_equal. f_equal.
          assert (E : forall js acc, (forall j, In j js -> n < j) ->
            subFold (m n) x js acc = subFold (m0 n) x1 js acc).
          { induction js as [|j js IHj]; intros acc Hjs; [reflexivity|]. cbn [subFold fold_left].
            pose proof (Hjs j (or_introl eq_refl)) as Hj. rewrite (Hm n j) by lia. rewrite Hx1 by lia.
            apply IHj. intros k Hk. apply Hjs. right. exact Hk. }
          apply E. intros j Hj. apply range_in in Hj. lia.
        * destruct (Hdone a' ltac:(lia)) as [Hd1 Hd2]. split; [exact Hd1|].
          rewrite Hx1 by exact Hne. rewrite Hd2 at 1. f_equal. f_equal. f_equal.
          apply subFold_ext. intros j Hj. apply range_in in Hj. rewrite Hx1 by lia. reflexivity.
  Qed.

  Lemma computeSolution_spec dim (m : mat) (rhs x : vec) :
    computeSolution o dim m rhs = Some x ->
    forall a, a < dim ->
       e_isZero o (e_simp o (m a a)) = false /\
       x a = e_simp o (e_div o (e_add o (forward o dim m rhs a) (subFold (m a) x (range (S a) dim) (e_zero o))) (e_simp o (m a a))).
  Proof.
    unfold computeSolution. intros H a Ha.
    destruct (backLoop o dim (forward o dim m rhs) (rev (range 0 dim)) (m, fun _ => e_zero o)) as [[m' x']|] eqn:E; [|discriminate].
    inversion H; subst x'. eapply backLoop_spec; [| | | |exact E|exact Ha].
    - lia.
    - intros; reflexivity.
    - intros; reflexivity.
    - intros; lia.
  Qed.

  Lemma backLoop_None dim (rhs : vec) (m0 : mat) : forall n (m : mat) (x : vec),
    n <= dim ->
    (forall a b, a < n \/ a <> b -> m a b = m0 a b) ->
    backLoop o dim rhs (rev (range 0 n)) (m, x) = None ->
    exists a, a < n /\ e_isZero o (e_simp o (m0 a a)) = true.
  Proof.
    induction n as [|n IH]; intros m x Hn Hm Hrun.
    - discriminate.
    - rewrite range_S in Hrun by lia. rewrite rev_app_distr in Hrun. cbn [rev app backLoop] in Hrun.
      unfold backRow in Hrun. cbv zeta in Hrun.
      destruct (e_isZero o (upd m n n (e_simp o (m n n)) n n)) eqn:Hz.
      + exists n. split; [lia|]. unfold upd in Hz. rewrite Nat.eqb_refl in Hz. cbn [andb] in Hz. rewrite Hm in Hz by lia. exact Hz.
      + edestruct IH as (a & Ha & Hza); [| |exact Hrun|exists a; split; [lia|exact Hza]].
        * lia.
        * intros a' b' Hab. unfold upd. cmp; try (apply Hm; lia). subst. lia.
  Qed.

  Lemma computeSolution_None dim (m : mat) (rhs : vec) :
    computeSolution o dim m rhs = None ->
    exists a, a < dim /\ e_isZero o (e_simp o (m a a)) = true.
  Proof.
    unfold computeSolution. intros H.
    destruct (backLoop o dim (forward o dim m rhs) (rev (range 0 dim)) (m, fun _ => e_zero o)) as [[m' x']|] eqn:E; [discriminate|].
    eapply backLoop_None; [| |exact E]; [lia|reflexivity].
  Qed.

  (** Pivots *)
  Lemma firstNonZeroPivot_Some dim (m : mat) row p : firstNonZeroPivot o dim m row = Some p ->
    row <= p < dim /\ e_isZero o (m p row) = false.
  Proof.
    unfold firstNonZeroPivot. intros H. apply find_some in H. destruct H as [H1 H2].
    apply range_in in H1. apply negb_true_iff in H2. tauto.
  Qed.
  Lemma firstNonZeroPivot_None dim (m : mat) row : firstNonZeroPivot o dim m row = None ->
    forall i, row <= i < dim -> e_isZero o (m i row) = true.
  Proof.
    unfold firstNonZeroPivot. intros H i Hi. pose proof (find_none _ _ H i) as Hn.
    rewrite range_in in Hn. specialize (Hn Hi). apply negb_false_iff in Hn. exact Hn.
  Qed.

  Lemma leastComplexityPivot_spec maxU dim (m : mat) row : (forall t, e_comp o t < maxU) -> row < dim ->
    let p := leastComplexityPivot o maxU dim m row in
    row <= p < dim /\
    (e_isZero o (m p row) = true -> forall i, row <= i < dim -> e_isZero o (m i row) = true).
  Proof.
    intros Hmax Hrow. unfold leastComplexityPivot. cbv zeta.
    set (f := fun st i => if negb (e_isZero o (m i row)) && (e_comp o (m i row) <? fst st) then (e_comp o (m i row), i) else st).
    assert (H : forall n, row + n <= dim ->
      let st := fold_left f (seq row n) (maxU, row) in
      (st = (maxU, row) /\ forall i, row <= i < row + n -> e_isZero o (m i row) = true)
      \/ (row <= snd st < dim /\ e_isZero o (m (snd st) row) = false)).
    { induction n as [|n IH]; intros Hn; cbv zeta.
      - left. split; [reflexivity|]. intros; lia.
      - rewrite seq_S, fold_left_app. cbn [fold_left].
        specialize (IH ltac:(lia)). cbv zeta in IH.
        set (st := fold_left f (seq row n) (maxU, row)) in *. clearbody st.
        assert (Hf : f st (row + n) = if negb (e_isZero o (m (row + n) row)) && (e_comp o (m (row + n) row) <? fst st)
          then (e_comp o (m (row + n) row), row + n) else st) by reflexivity.
        rewrite Hf. clear Hf. destruct (e_isZero o (m (row + n) row)) eqn:E; cbn [negb andb].
        + destruct IH as [[He Hz]|IH]; [left|right; exact IH].
          split; [exact He|]. intros i Hi. destruct (Nat.eq_dec i (row + n)) as [->|]; [exact E|]. apply Hz. lia.
        + right. destruct (e_comp o (m (row + n) row) <? fst st) eqn:Ec; cbn [snd].
          * split; [lia|exact E].
          * destruct IH as [[He Hz]|IH]; [|exact IH]. exfalso. rewrite He in Ec. cbn [fst] in Ec.
            rewrite (proj2 (Nat.ltb_lt _ _) (Hmax _)) in Ec. discriminate. }
    specialize (H (dim - row) ltac:(lia)). unfold range. cbv zeta in H.
    destruct H as [[He Hz]|[Hr Hz]].
    - rewrite He. cbn [snd]. split; [lia|]. intros _ i Hi. apply Hz. lia.
    - split; [exact Hr|]. intros Hc. congruence.
  Qed.
End Facts.
