(** Proofs about the prime factorisation (property C03) and the operations on factor lists. *)
From Verif Require Import PrimeFacModel.
From Coq Require Import Znumtheory Sorted Permutation.
From Coq Require Import ZifyBool.
Open Scope Z_scope.

Definition noSmall (i n : Z) : Prop := forall d, 1 < d -> d < i -> ~ (d | n).

Lemma divOut_spec fuel : forall p n,
  1 < p -> 0 < n -> (Z.log2 n < Z.of_nat fuel) ->
  exists k r, divOut fuel p n = Some (k, r) /\ n = p ^ Z.of_nat k * r /\ 0 < r /\ ~ (p | r).
Proof.
  induction fuel as [|f IH]; intros p n Hp Hn Hf.
  - pose proof (Z.log2_nonneg n). lia.
  - cbn [divOut].
    rewrite Z.rem_mod_nonneg by lia. destruct (n mod p =? 0) eqn:E.
    + assert (Hd : (p | n)) by (apply Z.mod_divide; lia).
      destruct Hd as [m Hm].
      assert (Hq : Z.quot n p = m) by (rewrite Hm; apply Z.quot_mul; lia).
      rewrite Hq.
      assert (0 < m) by nia.
      assert (Hlog : Z.log2 m < Z.log2 n).
      { assert (2 * m <= n) by nia.
        pose proof (Z.log2_le_mono (2 * m) n ltac:(lia)).
        rewrite Z.log2_double in H1 by lia. lia. }
      destruct (IH p m) as (k & r & H1 & H2 & H3 & H4); try lia.
      rewrite H1. exists (S k), r. repeat split; try assumption.
      rewrite Nat2Z.inj_succ, Z.pow_succ_r by lia. nia.
    + exists 0%nat, n. repeat split; try lia.
      intros Hd. apply Z.mod_divide in Hd; lia.
Qed.

Lemma divOut_zero fuel p : 1 < p -> divOut fuel p 0 = None.
Proof.
  intros Hp. induction fuel as [|f IH].
  - cbn [divOut]. rewrite Z.rem_0_l by lia. reflexivity.
  - cbn [divOut]. rewrite Z.rem_0_l, Z.quot_0_l by lia. rewrite IH. reflexivity.
Qed.

Fixpoint mulZ (l : list Z) : Z := match l with [] => 1 | x :: r => x * mulZ r end.

Lemma mulZ_app a b : mulZ (a ++ b) = mulZ a * mulZ b.
Proof. induction a as [|x a IH]; cbn [mulZ app]; [lia|]. rewrite IH. ring. Qed.
Lemma mulZ_repeat p k : mulZ (repeat p k) = p ^ Z.of_nat k.
Proof.
  induction k as [|k IH]; [reflexivity|].
  cbn [mulZ repeat]. rewrite IH, Nat2Z.inj_succ, Z.pow_succ_r by lia. ring.
Qed.
Lemma prodZ_acc l : forall a, fold_left Z.mul l a = a * mulZ l.
Proof. induction l as [|x l IH]; intros a; cbn [fold_left mulZ]; [lia|]. rewrite IH. ring. Qed.
Lemma prodZ_mulZ l : prodZ l = mulZ l.
Proof. unfold prodZ. rewrite prodZ_acc. lia. Qed.

Lemma noSmall_divide i m n : (m | n) -> noSmall i n -> noSmall i m.
Proof. intros Hm H d H1 H2 H3. apply (H d H1 H2). eapply Z.divide_trans; eauto. Qed.

Lemma prime_of_noSmall p n : 1 < p -> (p | n) -> noSmall p n -> prime p.
Proof.
  intros Hp Hd Hn. apply prime_alt. split; [assumption|].
  intros d Hd1 Hd2. apply (Hn d); try lia. eapply Z.divide_trans; eauto.
Qed.

Lemma prime_of_noSmall_sq i r : 0 < i -> 1 < r -> r < i * i -> noSmall i r -> prime r.
Proof.
  intros Hi0 Hr Hi Hn. apply prime_alt. split; [assumption|].
  intros d Hd1 [m Hm].
  destruct (Z_lt_le_dec d i) as [H|H]; [apply (Hn d); [lia|lia|exists m; lia]|].
  destruct (Z_lt_le_dec m i) as [H'|H'].
  - apply (Hn m); try nia. exists d. lia.
  - nia.
Qed.

Definition allGe (i : Z) (l : list Z) : Prop := Forall (fun x => i <= x) l.

Lemma oddLoop_spec fuel dfuel : forall i n0 n,
  3 <= i -> Z.odd i = true -> 0 < n -> n <= n0 -> ~ (2 | n) -> noSmall i n ->
  Z.log2 n0 < Z.of_nat dfuel ->
  (Z.sqrt n0 + 2 - i <= 2 * Z.of_nat fuel) ->
  exists ps r, oddLoop fuel dfuel i n0 n = Some (ps, r) /\ n = mulZ ps * r /\ 0 < r /\
    Forall prime ps /\ Sorted Z.le ps /\ allGe i ps /\ (1 < r -> prime r /\ i <= r /\ Forall (fun x => x <= r) ps) /\ ~ (2 | r).
Proof.
  induction fuel as [|f IH]; intros i n0 n Hi Ho Hn Hn0 H2 Hs Hdf Hf.
  - cbn [oddLoop]. unfold belowLimit.
    assert (Hs' : n0 < (Z.sqrt n0 + 1) * (Z.sqrt n0 + 1)).
    { pose proof (Z.sqrt_spec n0 ltac:(lia)). unfold Z.succ in *. lia. }
    destruct ((2 * i - 1) * (2 * i - 1) <? 4 * n0) eqn:E.
    + exfalso. pose proof (Z.sqrt_nonneg n0). assert (Z.sqrt n0 + 2 <= i) by lia. nia.
    + exists [], n. cbn [mulZ]. split; [reflexivity|]. split; [lia|]. split; [assumption|].
      split; [constructor|]. split; [constructor|]. split; [constructor|]. split; [|assumption].
      intros Hr. assert (Hpr : prime n) by (apply prime_of_noSmall_sq with i; [lia|lia|nia|assumption]).
      split; [exact Hpr|]. split; [|constructor].
      destruct (Z_lt_le_dec n i) as [Hlt|]; [|assumption]. exfalso.
      apply (Hs n); try lia. apply Z.divide_refl.
  - cbn [oddLoop]. unfold belowLimit.
    destruct ((2 * i - 1) * (2 * i - 1) <? 4 * n0) eqn:E.
    + destruct (divOut_spec dfuel i n) as (k & r & Hd1 & Hd2 & Hd3 & Hd4); try lia.
      { pose proof (Z.log2_le_mono n n0 ltac:(lia)). lia. }
      rewrite Hd1.
      assert (Hrn : (r | n)) by (exists (i ^ Z.of_nat k); lia).
      assert (Hrle : r <= n) by (apply Z.divide_pos_le; [lia|assumption]).
      destruct (IH (i + 2) n0 r) as (ps & r' & H1 & Hm & Hr' & Hp & Hso & Hge & Hlast & Hodd); try lia.
      { rewrite Z.odd_add. rewrite Ho. reflexivity. }
      { intros Hd. apply H2. eapply Z.divide_trans; eauto. }
      { intros d Hd5 Hd6 Hd7.
        destruct (Z_lt_le_dec d i) as [Hlt|Hge]; [apply (Hs d); try lia; eapply Z.divide_trans; eauto|].
        destruct (Z.eq_dec d i) as [->|Hne]; [contradiction|].
        assert (d = i + 1) by lia. subst d. apply H2.
        apply Z.divide_trans with (i + 1); [|eapply Z.divide_trans; eauto].
        apply Z.odd_spec in Ho as [q Hq]. exists (q + 1). lia. }
      rewrite H1. exists (repeat i k ++ ps), r'. split; [reflexivity|]. split; [|split; [|split; [|split; [|split; [|split; [intros Hr1; split; [|split]|]]]]]].
      * rewrite mulZ_app, mulZ_repeat. rewrite Hd2. rewrite Hm at 1. ring.
      * assumption.
      * apply Forall_app. split; [|assumption].
        apply Forall_forall. intros x Hx. apply repeat_spec in Hx as Hx'. subst x.
        destruct k; [destruct Hx|].
        apply prime_of_noSmall with n; [lia| |assumption].
        rewrite Hd2, Nat2Z.inj_succ, Z.pow_succ_r by lia. exists (i ^ Z.of_nat k * r). ring.
      * clear -Hso Hge. induction k as [|k IHk]; [assumption|]. cbn [repeat app]. constructor; [assumption|].
        destruct k; cbn [repeat app].
        -- destruct ps; constructor. inversion Hge; subst. lia.
        -- constructor. lia.
      * unfold allGe. apply Forall_app. split.
        -- apply Forall_forall. intros x Hx. apply repeat_spec in Hx. lia.
        -- eapply Forall_impl; [|exact Hge]. cbn. lia.
      * now apply Hlast.
      * apply Hlast in Hr1. lia.
      * apply Forall_app. split.
        -- apply Forall_forall. intros x Hx. apply repeat_spec in Hx. apply Hlast in Hr1. lia.
        -- apply Hlast. assumption.
      * assumption.
    + exists [], n. cbn [mulZ]. split; [reflexivity|]. split; [lia|]. split; [assumption|].
      split; [constructor|]. split; [constructor|]. split; [constructor|]. split; [|assumption].
      intros Hr. assert (Hpr : prime n) by (apply prime_of_noSmall_sq with i; [lia|lia|nia|assumption]).
      split; [exact Hpr|]. split; [|constructor].
      destruct (Z_lt_le_dec n i) as [Hlt|]; [|assumption]. exfalso.
      apply (Hs n); try lia. apply Z.divide_refl.
Qed.

Lemma Sorted_app_last ps r : Sorted Z.le ps -> Forall (fun x => x <= r) ps -> Sorted Z.le (ps ++ [r]).
Proof.
  induction ps as [|a ps IH]; intros H1 H2; [repeat constructor|].
  inversion H1; subst. inversion H2; subst. cbn [app]. constructor; [now apply IH|].
  destruct ps; cbn [app]; constructor; [assumption|]. inversion H4; subst. assumption.
Qed.

Lemma Sorted_repeat_app p k l : Sorted Z.le l -> Forall (fun x => p <= x) l -> Sorted Z.le (repeat p k ++ l).
Proof.
  intros H1 H2. induction k as [|k IH]; [assumption|]. cbn [repeat app]. constructor; [assumption|].
  destruct k; cbn [repeat app].
  - destruct l; constructor. inversion H2; subst. lia.
  - constructor. lia.
Qed.

Lemma primeFactors_pos n : 0 < n ->
  exists l, primeFactors n = Some l /\ Forall prime l /\ Sorted Z.le l /\ mulZ l = n.
Proof.
  intros Hn. unfold primeFactors.
  set (dfuel := S (Z.to_nat (Z.log2 n))).
  assert (Hdf : Z.log2 n < Z.of_nat dfuel).
  { unfold dfuel. pose proof (Z.log2_nonneg n). lia. }
  destruct (divOut_spec dfuel 2 n) as (k & n0 & H1 & H2 & H3 & H4); try lia.
  rewrite H1.
  assert (Hle : n0 <= n) by (apply Z.divide_pos_le; [lia|]; exists (2 ^ Z.of_nat k); lia).
  destruct (oddLoop_spec (S (Z.to_nat (Z.sqrt n0))) dfuel 3 n0 n0) as (ps & r & E & Hm & Hr & Hp & Hs & Hge & Hl & Ho); try lia; try assumption; try reflexivity.
  - intros d Hd1 Hd2. assert (d = 2) by lia. now subst.
  - pose proof (Z.log2_le_mono n0 n ltac:(lia)). lia.
  - rewrite E.
    set (rl := if r >? 2 then [r] else []).
    assert (Hrl : (rl = [r] /\ 2 < r) \/ (rl = [] /\ r = 1)).
    { unfold rl. destruct (r >? 2) eqn:Er; [left; split; [reflexivity|lia]|].
      right. split; [reflexivity|]. destruct (Z.eq_dec r 2) as [->|]; [|lia].
      exfalso. apply Ho. apply Z.divide_refl. }
    assert (Hge3 : Forall (fun x => 2 <= x) (ps ++ rl)).
    { apply Forall_app. split; [eapply Forall_impl; [|exact Hge]; cbn; lia|].
      destruct Hrl as [[-> ?]|[-> ?]]; repeat constructor. lia. }
    exists (repeat 2 k ++ ps ++ rl). split; [reflexivity|]. split; [|split].
    + apply Forall_app. split.
      * apply Forall_forall. intros x Hx. apply repeat_spec in Hx. subst. exact prime_2.
      * apply Forall_app. split; [assumption|].
        destruct Hrl as [[-> ?]|[-> ?]]; [|constructor]. constructor; [|constructor]. apply Hl; lia.
    + apply Sorted_repeat_app; [|assumption].
      destruct Hrl as [[-> ?]|[-> ?]].
      * apply Sorted_app_last; [assumption|]. apply Hl. lia.
      * now rewrite app_nil_r.
    + rewrite !mulZ_app, mulZ_repeat. rewrite H2, Hm at 1.
      destruct Hrl as [[-> ?]|[-> ->]]; cbn [mulZ]; ring.
Qed.

Lemma primeFactors_zero : primeFactors 0 = None.
Proof. reflexivity. Qed.
