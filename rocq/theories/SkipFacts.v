(** Copying with skip fields: closed forms of the templates in include/tsym/solve.h. *)
From Coq Require Import List Arith Bool Lia.
Import ListNotations.
From Verif Require Import SolveModel SolveFacts.

Section Skip.
  Context {T : Type} (o : entryOps T) (skip : nat -> bool).

  Definition actOf (idx : list nat) : list nat := filter (fun i => negb (skip i)) idx.

  Lemma flat_skip (f : nat -> T) idx :
    flat_map (fun i => if skip i then [] else [f i]) idx = map f (actOf idx).
  Proof. induction idx as [|i idx IH]; [reflexivity|]. cbn. destruct (skip i); cbn; rewrite IH; reflexivity. Qed.

  Lemma toStdVec_map (src : nat -> T) dim : toStdVec src skip dim = map src (actOf (range 0 dim)).
  Proof. apply flat_skip. Qed.

  Lemma flat_skip2 (f : nat -> list T) idx :
    flat_map (fun i => if skip i then [] else f i) idx = flat_map f (actOf idx).
  Proof. induction idx as [|i idx IH]; [reflexivity|]. cbn. destruct (skip i); cbn; rewrite IH; reflexivity. Qed.

  Lemma toStdMat_map (src : nat -> nat -> T) dim :
    toStdMat src skip dim = flat_map (fun i => map (src i) (actOf (range 0 dim))) (actOf (range 0 dim)).
  Proof.
    unfold toStdMat. rewrite flat_skip2.
    assert (E : forall l, flat_map (fun i => flat_map (fun j => if skip j then [] else [src i j]) (range 0 dim)) l
      = flat_map (fun i => map (src i) (actOf (range 0 dim))) l).
    { induction l as [|i l IH]; [reflexivity|]. cbn. rewrite flat_skip, IH. reflexivity. }
    apply E.
  Qed.

  Lemma nth_blocks (g : nat -> list T) d dflt : forall l i j,
    (forall x, In x l -> length (g x) = d) -> i < length l -> j < d ->
    nth (i * d + j) (flat_map g l) dflt = nth j (g (nth i l 0)) dflt.
  Proof.
    induction l as [|x l IH]; intros i j Hl Hi Hj; [cbn in Hi; lia|]. cbn [flat_map].
    pose proof (Hl x (or_introl eq_refl)) as Hx.
    destruct i as [|i]; cbn [nth].
    - rewrite app_nth1 by (cbn; lia). reflexivity.
    - rewrite app_nth2 by (rewrite Hx; cbn; lia). rewrite Hx.
      replace (S i * d + j - d) with (i * d + j) by (cbn; lia).
      apply IH; [intros y Hy; apply Hl; right; exact Hy|cbn in Hi; lia|exact Hj].
  Qed.

  Lemma length_blocks (g : nat -> list T) d : forall l,
    (forall x, In x l -> length (g x) = d) -> length (flat_map g l) = length l * d.
  Proof.
    induction l as [|x l IH]; intros Hl; [reflexivity|]. cbn. rewrite app_length, IH, Hl; [reflexivity|left; reflexivity|].
    intros y Hy. apply Hl. right. exact Hy.
  Qed.

  Lemma nth_map0 {X Y} (f : X -> Y) d d' : forall l i, i < length l -> nth i (map f l) d' = f (nth i l d).
  Proof. induction l as [|x l IH]; intros [|i] H; cbn in *; try lia; [reflexivity|]. apply IH. lia. Qed.

  Lemma ofFlat_toStdMat (src : nat -> nat -> T) dim i j :
    let act := actOf (range 0 dim) in i < length act -> j < length act ->
    ofFlat o (toStdMat src skip dim) (length act) i j = src (nth i act 0) (nth j act 0).
  Proof.
    cbv zeta. intros Hi Hj. unfold ofFlat. rewrite toStdMat_map.
    rewrite (nth_blocks (fun i => map (src i) (actOf (range 0 dim)))) by (try exact Hi; try exact Hj; intros; apply map_length).
    rewrite (nth_map0 (src _) 0) by exact Hj. reflexivity.
  Qed.

  Lemma ofVector_toStdVec (src : nat -> T) dim i :
    let act := actOf (range 0 dim) in i < length act ->
    ofVector o (toStdVec src skip dim) i = src (nth i act 0).
  Proof. cbv zeta. intros Hi. unfold ofVector. rewrite toStdVec_map. rewrite (nth_map0 src 0) by exact Hi. reflexivity. Qed.

  Lemma length_toStdVec (src : nat -> T) dim : length (toStdVec src skip dim) = length (actOf (range 0 dim)).
  Proof. rewrite toStdVec_map. apply map_length. Qed.

  Lemma actOf_in i idx : In i (actOf idx) <-> In i idx /\ skip i = false.
  Proof. unfold actOf. rewrite filter_In, negb_true_iff. reflexivity. Qed.

  Lemma range_NoDup a b : NoDup (range a b).
  Proof. apply seq_NoDup. Qed.

  Lemma actOf_NoDup idx : NoDup idx -> NoDup (actOf idx).
  Proof. apply NoDup_filter. Qed.

  (** Writing back a vector. *)
  Lemma fromStdVec_spec : forall idx (src : list T) (dest : nat -> T),
    NoDup idx -> length src = length (actOf idx) ->
    exists x, fromStdVec idx skip src dest = Some x /\
      (forall t, t < length (actOf idx) -> x (nth t (actOf idx) 0) = nth t src (e_zero o)) /\
      (forall i, ~ In i (actOf idx) -> x i = dest i).
  Proof.
    induction idx as [|i idx IH]; intros src dest Hnd Hlen.
    - exists dest. cbn. repeat split; intros; lia.
    - inversion Hnd as [|? ? Hni Hnd']; subst. cbn [fromStdVec actOf filter] in *.
      destruct (skip i) eqn:E; cbn [negb] in *.
      + apply IH; assumption.
      + destruct src as [|v src]; [discriminate|]. cbn [length] in Hlen. injection Hlen as Hlen.
        destruct (IH src (updV dest i v) Hnd' Hlen) as (x & Hx & H1 & H2).
        assert (Hna : ~ In i (actOf idx)) by (rewrite actOf_in; tauto).
        exists x. split; [exact Hx|]. split.
        * intros [|t] Ht; cbn [nth].
          -- rewrite H2 by exact Hna. unfold updV. rewrite Nat.eqb_refl. reflexivity.
          -- apply H1. cbn [length] in Ht. unfold actOf. lia.
        * intros k Hk. rewrite H2 by (intros Hc; apply Hk; right; exact Hc).
          unfold updV. destruct (Nat.eqb_spec k i) as [->|]; [exfalso; apply Hk; left; reflexivity|reflexivity].
  Qed.

  Lemma fromStdRow_spec (r : nat) : forall idx (src : list T) (dest : nat -> nat -> T),
    NoDup idx -> length (actOf idx) <= length src ->
    exists m, fromStdRow r idx skip src dest = Some (skipn (length (actOf idx)) src, m) /\
      (forall t, t < length (actOf idx) -> m r (nth t (actOf idx) 0) = nth t src (e_zero o)) /\
      (forall a b, a <> r \/ ~ In b (actOf idx) -> m a b = dest a b).
  Proof.
    induction idx as [|i idx IH]; intros src dest Hnd Hlen.
    - exists dest. cbn. repeat split; intros; lia.
    - inversion Hnd as [|? ? Hni Hnd']; subst. cbn [fromStdRow actOf filter] in *.
      destruct (skip i) eqn:E; cbn [negb] in *.
      + apply IH; assumption.
      + destruct src as [|v src]; cbn [length] in Hlen; [lia|].
        destruct (IH src (upd dest r i v) Hnd') as (x & Hx & H1 & H2); [unfold actOf; lia|].
        assert (Hna : ~ In i (actOf idx)) by (rewrite actOf_in; tauto).
        exists x. split; [exact Hx|]. split.
        * intros [|t] Ht; cbn [nth].
          -- rewrite H2 by (right; exact Hna). unfold upd. rewrite !Nat.eqb_refl. reflexivity.
          -- apply H1. cbn [length] in Ht. unfold actOf. lia.
        * intros a k Hk. rewrite H2 by (destruct Hk as [Hk|Hk]; [left; exact Hk|right; intros Hc; apply Hk; right; exact Hc]).
          unfold upd. destruct (Nat.eqb_spec a r) as [->|]; [|reflexivity].
          destruct (Nat.eqb_spec k i) as [->|]; [|reflexivity].
          exfalso. destruct Hk as [Hk|Hk]; [congruence|]. apply Hk. left. reflexivity.
  Qed.

  Lemma nth_skipn {X} (l : list X) d : forall n i, nth i (skipn n l) d = nth (n + i) l d.
  Proof. induction l as [|x l IH]; intros [|n] i; cbn; try reflexivity. - destruct i; reflexivity. - apply IH. Qed.

  Lemma fromStdMat_spec dim : let act := actOf (range 0 dim) in forall idx (src : list T) (dest : nat -> nat -> T),
    NoDup idx -> length src = length (actOf idx) * length act ->
    exists m, fromStdMat dim idx skip src dest = Some m /\
      (forall t u, t < length (actOf idx) -> u < length act ->
         m (nth t (actOf idx) 0) (nth u act 0) = nth (t * length act + u) src (e_zero o)) /\
      (forall a b, ~ (In a (actOf idx) /\ In b act) -> m a b = dest a b).
  Proof.
    cbv zeta. set (act := actOf (range 0 dim)).
    induction idx as [|i idx IH]; intros src dest Hnd Hlen.
    - exists dest. cbn. repeat split; intros; lia.
    - inversion Hnd as [|? ? Hni Hnd']; subst. cbn [fromStdMat actOf filter] in *.
      destruct (skip i) eqn:E; cbn [negb] in *.
      + apply IH; assumption.
      + cbn [length] in Hlen.
        destruct (fromStdRow_spec i (range 0 dim) src dest (range_NoDup _ _)) as (m1 & Hm1 & R1 & R2).
        { unfold act in Hlen. cbn in Hlen. lia. }
        fold act in Hm1, R1, R2. rewrite Hm1.
        destruct (IH (skipn (length act) src) m1 Hnd') as (m & Hm & H1 & H2).
        { rewrite skipn_length, Hlen. unfold actOf. cbn. lia. }
        assert (Hna : ~ In i (actOf idx)) by (rewrite actOf_in; tauto).
        exists m. split; [exact Hm|]. split.
        * intros [|t] u Ht Hu; cbn [nth].
          -- rewrite H2 by tauto. cbn. apply R1. exact Hu.
          -- cbn [length] in Ht. rewrite <- (Nat.add_assoc) || idtac.
             change (filter (fun i0 => negb (skip i0)) idx) with (actOf idx) in *.
             rewrite H1 by (try exact Hu; lia). rewrite nth_skipn. f_equal. cbn. lia.
        * intros a k Hk. change (filter (fun i0 => negb (skip i0)) idx) with (actOf idx) in *.
          rewrite H2 by (intros [Hc1 Hc2]; apply Hk; split; [right; exact Hc1|exact Hc2]).
          apply R2. destruct (Nat.eq_dec a i) as [->|]; [right; intros Hc; apply Hk; split; [left; reflexivity|exact Hc]|left; assumption].
  Qed.

  Lemma sequence_Some {X} : forall (l : list (option X)) r, sequence l = Some r ->
    length r = length l /\ forall i d, i < length l -> nth i l None = Some (nth i r d).
  Proof.
    induction l as [|[x|] l IH]; intros r H; cbn in H; [inversion H; split; [reflexivity|cbn; lia]| |discriminate].
    destruct (sequence l) as [xs|] eqn:E; [|discriminate]. inversion H; subst.
    destruct (IH xs eq_refl) as [H1 H2]. split; [cbn; lia|]. intros [|i] d Hi; [reflexivity|]. cbn. apply H2. cbn in Hi. lia.
  Qed.
  Lemma sequence_None {X} : forall (l : list (option X)), sequence l = None -> In None l.
  Proof.
    induction l as [|[x|] l IH]; intros H; cbn in H; [discriminate| |left; reflexivity].
    right. apply IH. destruct (sequence l); [discriminate|reflexivity].
  Qed.
End Skip.
