(** Proofs about rational arithmetic (C01) and rational powers (C02). *)
From Coq Require Import Qcanon Reals Qreals Lra ZifyBool Qfield.
From Verif Require Export NumberSpec.
Local Open Scope Z_scope.


Lemma canon_Qred q : canon (Qred q).
Proof. unfold canon. apply Qred_iff. apply Qred_involutive. Qed.
Lemma canon_red q : canon q -> Qred q = q.
Proof. intros H. now apply Qred_iff. Qed.
Lemma canon_eq a b : canon a -> canon b -> (a == b)%Q -> a = b.
Proof. intros Ha Hb H. rewrite <- (canon_red a Ha), <- (canon_red b Hb). now apply Qred_complete. Qed.
Lemma canon_ofZ n : canon (ofZ n).
Proof. unfold canon, ofZ. cbn [Qnum Qden]. apply Z.gcd_1_r. Qed.
Lemma canon_int_den q : canon q -> Qnum q = 0 -> q = 0%Q.
Proof.
  intros H E. apply canon_eq; [assumption|reflexivity|]. unfold Qeq. rewrite E. reflexivity.
Qed.

Lemma qeqb_eq a b : qeqb a b = true <-> a = b.
Proof.
  unfold qeqb. rewrite andb_true_iff, Z.eqb_eq, Pos.eqb_eq.
  destruct a as [na da], b as [nb db]; cbn [Qnum Qden]. split; [intros [-> ->]; reflexivity|intros E; injection E; auto].
Qed.
Lemma qeqb_refl a : qeqb a a = true. Proof. now apply qeqb_eq. Qed.
Lemma qeqb_neq a b : qeqb a b = false <-> a <> b.
Proof. rewrite <- qeqb_eq. destruct (qeqb a b); split; congruence. Qed.
Lemma qltb_lt a b : qltb a b = true <-> (a < b)%Q.
Proof. unfold qltb, Qlt. rewrite Z.ltb_lt. reflexivity. Qed.
Lemma qltb_ge a b : qltb a b = false <-> (b <= a)%Q.
Proof. unfold qltb, Qle. rewrite Z.ltb_ge. reflexivity. Qed.
Lemma qgtb_lt a b : qgtb a b = true <-> (b < a)%Q.
Proof. apply qltb_lt. Qed.

Lemma qadd_spec a b : canon (qadd a b) /\ (qadd a b == a + b)%Q.
Proof. split; [apply canon_Qred|apply Qred_correct]. Qed.
Lemma qneg_spec a : canon (qneg a) /\ (qneg a == - a)%Q.
Proof. split; [apply canon_Qred|]. unfold qneg. rewrite Qred_correct. unfold Qeq, Qopp. reflexivity. Qed.
Lemma qmul_spec a b : canon (qmul a b) /\ (qmul a b == a * b)%Q.
Proof. split; [apply canon_Qred|apply Qred_correct]. Qed.
Lemma qsub_spec a b : canon (qsub a b) /\ (qsub a b == a - b)%Q.
Proof.
  unfold qsub. destruct (qadd_spec a (qneg b)) as [H1 H2]. split; [assumption|].
  rewrite H2. rewrite (proj2 (qneg_spec b)). reflexivity.
Qed.

Lemma some_inj {A} (x y : A) : Some x = Some y -> x = y.
Proof. congruence. Qed.

Lemma mkRat_spec n d q : mkRat n d = Some q -> canon q /\ d <> 0 /\ (q == inject_Z n / inject_Z d)%Q.
Proof.
  destruct d as [|p|p]; cbn [mkRat]; intros E; [discriminate| |]; apply some_inj in E; subst q;
    (split; [apply canon_Qred|split; [lia|]]); rewrite Qred_correct; unfold Qeq, Qdiv, Qinv, Qmult, inject_Z; cbn; lia.
Qed.
Lemma mkRat_some n d : d <> 0 -> exists q, mkRat n d = Some q.
Proof. destruct d; cbn [mkRat]; [lia|eexists; reflexivity|eexists; reflexivity]. Qed.
Lemma mkRat_none n d : mkRat n d = None <-> d = 0.
Proof. destruct d; cbn [mkRat]; split; congruence. Qed.

Lemma Qmk_div q : (q == inject_Z (qnum q) / inject_Z (qden q))%Q.
Proof. destruct q as [n d]. unfold qnum, qden, Qeq, Qdiv, Qmult, Qinv, inject_Z. cbn. lia. Qed.

Lemma qnum_zero b : qnum b = 0 <-> (b == 0)%Q.
Proof. unfold qnum, Qeq. cbn [Qnum Qden]. lia. Qed.

Lemma qinv_spec b : match qinv b with
                    | None => (b == 0)%Q
                    | Some r => canon r /\ ~ (b == 0)%Q /\ (r == / b)%Q
                    end.
Proof.
  unfold qinv. destruct (mkRat (qden b) (qnum b)) as [r|] eqn:E.
  - apply mkRat_spec in E as (H1 & H2 & H3). split; [assumption|].
    rewrite <- qnum_zero. split; [assumption|].
    rewrite H3. unfold Qdiv. rewrite (Qmk_div b) at 3. unfold Qdiv. rewrite Qinv_mult_distr, Qinv_involutive.
    apply Qmult_comm.
  - apply mkRat_none in E. now apply qnum_zero.
Qed.

Lemma qdiv_spec a b : match qdiv a b with
                      | None => (b == 0)%Q
                      | Some r => canon r /\ ~ (b == 0)%Q /\ (r == a / b)%Q
                      end.
Proof.
  unfold qdiv. pose proof (qinv_spec b) as H. destruct (qinv b) as [i|]; [|assumption].
  destruct H as (H1 & H2 & H3). destruct (qmul_spec a i) as [H4 H5].
  split; [assumption|]. split; [assumption|]. rewrite H5, H3. reflexivity.
Qed.

(** ** Reals *)

Lemma Q2R_frac q : Q2R q = (IZR (qnum q) / IZR (qden q))%R.
Proof. reflexivity. Qed.
Lemma IZR_den q : (0 < IZR (qden q))%R.
Proof. apply IZR_lt. unfold qden. lia. Qed.
Lemma Q2R_ofZ n : Q2R (ofZ n) = IZR n.
Proof. unfold Q2R, ofZ; cbn [Qnum Qden]. lra. Qed.
Lemma Q2R_0 : Q2R 0 = 0%R. Proof. unfold Q2R; cbn. lra. Qed.
Lemma Q2R_1 : Q2R 1 = 1%R. Proof. unfold Q2R; cbn. lra. Qed.
Lemma Q2R_m1 : Q2R (-1 # 1) = (-1)%R. Proof. unfold Q2R; cbn. lra. Qed.
Lemma Q2R_qadd a b : Q2R (qadd a b) = (Q2R a + Q2R b)%R.
Proof. rewrite <- Q2R_plus. apply Qeq_eqR. apply qadd_spec. Qed.
Lemma Q2R_qmul a b : Q2R (qmul a b) = (Q2R a * Q2R b)%R.
Proof. rewrite <- Q2R_mult. apply Qeq_eqR. apply qmul_spec. Qed.
Lemma Q2R_qneg a : Q2R (qneg a) = (- Q2R a)%R.
Proof. rewrite <- Q2R_opp. apply Qeq_eqR. apply qneg_spec. Qed.
Lemma Q2R_qsub a b : Q2R (qsub a b) = (Q2R a - Q2R b)%R.
Proof. rewrite <- Q2R_minus. apply Qeq_eqR. apply qsub_spec. Qed.
Lemma Q2R_qinv b r : qinv b = Some r -> Q2R b <> 0%R /\ Q2R r = (/ Q2R b)%R.
Proof.
  intros E. pose proof (qinv_spec b) as H. rewrite E in H. destruct H as (_ & H2 & H3).
  split.
  - intros H0. apply H2. apply eqR_Qeq. now rewrite Q2R_0.
  - rewrite <- Q2R_inv by assumption. now apply Qeq_eqR.
Qed.
Lemma Q2R_inj a b : canon a -> canon b -> Q2R a = Q2R b -> a = b.
Proof. intros Ha Hb H. apply canon_eq; try assumption. now apply eqR_Qeq. Qed.
Lemma Q2R_lt0 a : qltb a 0 = true <-> (Q2R a < 0)%R.
Proof. rewrite qltb_lt, <- Q2R_0. split; [apply Qlt_Rlt|apply Rlt_Qlt]. Qed.
Lemma Q2R_ge0 a : qltb a 0 = false <-> (0 <= Q2R a)%R.
Proof. rewrite qltb_ge, <- Q2R_0. split; [apply Qle_Rle|apply Rle_Qle]. Qed.

Lemma qIsInt_iff q : qIsInt q = true -> Q2R q = IZR (qnum q).
Proof.
  unfold qIsInt. intros H. apply Z.eqb_eq in H. rewrite Q2R_frac, H. lra.
Qed.
Lemma qIsInt_false q : canon q -> qIsInt q = false -> forall z, Q2R q <> IZR z.
Proof.
  unfold qIsInt. intros Hc H z E. apply Z.eqb_neq in H. apply H.
  assert (E2 : (q == ofZ z)%Q) by (apply eqR_Qeq; rewrite Q2R_ofZ; assumption).
  apply canon_eq in E2; [|assumption|apply canon_ofZ]. rewrite E2. reflexivity.
Qed.

Lemma mkRat_R n d q : mkRat n d = Some q -> canon q /\ d <> 0 /\ Q2R q = (IZR n / IZR d)%R.
Proof.
  intros E. apply mkRat_spec in E as (H1 & H2 & H3). split; [assumption|]. split; [assumption|].
  rewrite (Qeq_eqR _ _ H3). rewrite Q2R_div.
  - now rewrite !Q2R_ofZ.
  - unfold Qeq, inject_Z; cbn. lia.
Qed.

Lemma IZR_Zpow z k : 0 <= k -> IZR (z ^ k) = powerRZ (IZR z) k.
Proof.
  intros Hk. rewrite <- (Z2Nat.id k) by assumption.
  rewrite <- pow_powerRZ. symmetry. apply pow_IZR.
Qed.

Lemma computeNumPower_R b n q :
  computeNumPower b n = Some q -> Q2R b <> 0%R -> Q2R q = powerRZ (Q2R b) n /\ canon q.
Proof.
  unfold computeNumPower. intros E Hb.
  assert (Hn : IZR (qnum b) <> 0%R).
  { intros H. apply Hb. rewrite Q2R_frac, H. lra. }
  pose proof (IZR_den b) as Hd.
  destruct (n <? 0) eqn:En.
  - apply mkRat_R in E as (H1 & H2 & H3). split; [|assumption].
    rewrite H3, !IZR_Zpow by lia. replace n with (- Z.abs n) at 3 by lia.
    rewrite powerRZ_neg'. rewrite Q2R_frac. unfold Rdiv. rewrite powerRZ_mult, powerRZ_inv'.
    rewrite Rinv_mult. rewrite Rinv_inv. ring.
  - apply mkRat_R in E as (H1 & H2 & H3). split; [|assumption].
    rewrite H3, !IZR_Zpow by lia. replace (Z.abs n) with n by lia.
    rewrite Q2R_frac. unfold Rdiv. rewrite powerRZ_mult, powerRZ_inv'. reflexivity.
Qed.

Lemma computeNumPower_some b n : qnum b <> 0 -> exists q, computeNumPower b n = Some q.
Proof.
  intros Hb. unfold computeNumPower. destruct (n <? 0); apply mkRat_some.
  - apply Z.pow_nonzero; lia.
  - unfold qden. apply Z.pow_nonzero; lia.
Qed.

(** The positive d-th root of b^n is b^(n/d). *)
Lemma root_unique b n d r :
  (0 < b)%R -> 0 < d -> (0 < r)%R -> powerRZ r d = powerRZ b n -> r = Rpower b (IZR n / IZR d).
Proof.
  intros Hb Hd Hr H.
  assert (IZR d <> 0)%R by (apply IZR_neq; lia).
  unfold Rdiv. rewrite <- Rpower_mult, Rpower_IZR, <- H by assumption.
  rewrite <- Rpower_IZR, Rpower_mult by assumption.
  rewrite Rinv_r by assumption. now rewrite Rpower_1.
Qed.


Lemma Q2R_pos_num b : (0 < Q2R b)%R <-> 0 < qnum b.
Proof.
  rewrite <- Q2R_0. split; intros H.
  - apply Rlt_Qlt in H. unfold Qlt in H. cbn in H. unfold qnum. lia.
  - apply Qlt_Rlt. unfold Qlt. cbn. unfold qnum in H. lia.
Qed.

Lemma computeRational_R fl b e r :
  rootsNonneg fl -> exactDoubles fl -> canon b -> (0 < Q2R b)%R ->
  computeRationalPower fl b e = PRat r -> canon r /\ Q2R r = Rpower (Q2R b) (Q2R e) .
Proof.
  intros Hfl Hex Hcb Hb. unfold computeRationalPower.
  destruct (computeNumPower b (qnum e)) as [q|] eqn:E; [|discriminate].
  apply computeNumPower_R in E as [Eq Hq]; [|lra].
  assert (Hqp : (0 < Q2R q)%R) by (rewrite Eq; now apply powerRZ_lt).
  unfold computeDenomPower.
  destruct (qden e =? 1) eqn:Ed.
  - intros H. injection H as <-. split; [assumption|]. rewrite Eq.
    rewrite (Q2R_frac e). replace (qden e) with 1 by lia.
    replace (IZR (qnum e) / 1)%R with (IZR (qnum e)) by lra. now rewrite Rpower_IZR.
  - assert (Hde : 0 < qden e) by (unfold qden; lia).
    destruct ((tryGetBase fl (qnum q) (qden e) =? 0) || (tryGetBase fl (qden q) (qden e) =? 0)) eqn:Et.
    + destruct (fl_pow fl q (qden e)) as [q'|] eqn:Ep; [|discriminate].
      intros H. injection H as <-. apply Hex in Ep as (Hc & Hge & Hp). split; [assumption|].
      rewrite (Q2R_frac e). apply root_unique; try assumption; [|congruence].
      apply Qle_Rle in Hge. rewrite Q2R_0 in Hge.
      destruct (Req_dec (Q2R q') 0) as [E0|]; [|lra].
      rewrite E0 in Hp. rewrite <- (Z2Nat.id (qden e)), <- pow_powerRZ, pow_i in Hp by lia. lra.
    + apply orb_false_iff in Et as [Et1 Et2].
      unfold tryGetBase in *.
      destruct (fl_root fl (qnum q) (qden e)) as [rn|] eqn:Ern; [|discriminate].
      destruct (fl_root fl (qden q) (qden e)) as [rd|] eqn:Erd; [|discriminate].
      destruct (rn ^ qden e =? qnum q) eqn:E1; [|discriminate].
      destruct (rd ^ qden e =? qden q) eqn:E2; [|discriminate].
      apply Hfl in Ern. apply Hfl in Erd.
      destruct (mkRat rn rd) as [q'|] eqn:Em; [|discriminate].
      intros H. injection H as <-.
      apply mkRat_R in Em as (Hc & Hrd & HR). split; [assumption|].
      rewrite (Q2R_frac e). apply root_unique; try assumption.
      * rewrite HR. apply Rdiv_lt_0_compat; apply IZR_lt; lia.
      * rewrite <- Eq, HR. unfold Rdiv. rewrite powerRZ_mult, powerRZ_inv'.
        rewrite <- !IZR_Zpow by lia. rewrite (Q2R_frac q).
        replace (rn ^ qden e) with (qnum q) by lia. replace (rd ^ qden e) with (qden q) by lia. reflexivity.
Qed.

Lemma minusOneToThe_R e : qIsInt e = true ->
  Q2R (minusOneToThe e) = powerRZ (-1) (qnum e) /\ canon (minusOneToThe e).
Proof.
  intros _. unfold minusOneToThe.
  destruct (Z.rem (qnum e) 2 =? 0) eqn:E.
  - assert (exists k, qnum e = 2 * k) as [k ->].
    { exists (Z.quot (qnum e) 2). pose proof (Z.quot_rem (qnum e) 2). lia. }
    rewrite Q2R_ofZ. split; [|apply canon_ofZ]. rewrite <- powerRZ_powerRZ by lra.
    replace (powerRZ (-1) 2) with 1%R by (simpl; lra). now rewrite powerRZ_R1.
  - assert (exists k, qnum e = 2 * k + 1) as [k ->].
    { pose proof (Z.quot_rem (qnum e) 2 ltac:(lia)). pose proof (Z.rem_bound_abs (qnum e) 2 ltac:(lia)).
      assert (Hc : Z.rem (qnum e) 2 = 1 \/ Z.rem (qnum e) 2 = -1) by lia.
      destruct Hc as [Hc|Hc]; [exists (Z.quot (qnum e) 2)|exists (Z.quot (qnum e) 2 - 1)]; lia. }
    rewrite Q2R_ofZ. split; [|apply canon_ofZ]. rewrite powerRZ_add, powerRZ_1 by lra.
    rewrite <- powerRZ_powerRZ by lra.
    replace (powerRZ (-1) 2) with 1%R by (simpl; lra). rewrite powerRZ_R1. lra.
Qed.

Lemma toThePos_R fl b e r :
  rootsNonneg fl -> exactDoubles fl -> canon b -> canon e -> (0 <= Q2R b)%R ->
  ~ (b = 0%Q /\ e = 0%Q) -> toThePos fl b e = PRat r ->
  canon r /\ rpow (Q2R b) (Q2R e) = Some (Q2R r).
Proof.
  intros Hfl Hex Hcb Hce Hb H00. unfold toThePos.
  destruct (qeqb b 0) eqn:Eb0.
  - apply qeqb_eq in Eb0. subst b. cbn [andb orb].
    destruct (qnum e <? 0) eqn:En; [discriminate|]. intros H. injection H as <-.
    split; [assumption|]. rewrite Q2R_0. apply rpow_0_pos.
    apply Q2R_pos_num. assert (qnum e <> 0); [|lia].
    intros E0. apply H00. split; [reflexivity|]. now apply canon_int_den.
  - cbn [andb orb]. apply qeqb_neq in Eb0.
    assert (Hb0 : Q2R b <> 0%R).
    { intros E. apply Eb0. apply Q2R_inj; [assumption|reflexivity|]. now rewrite Q2R_0. }
    destruct (qeqb b 1) eqn:Eb1.
    + apply qeqb_eq in Eb1. subst b. cbn [orb]. intros H. injection H as <-.
      split; [assumption|]. rewrite Q2R_1. apply rpow_l1.
    + cbn [orb]. destruct (qeqb e 1) eqn:Ee1.
      * apply qeqb_eq in Ee1. subst e. intros H. injection H as <-.
        split; [assumption|]. rewrite Q2R_1. apply rpow_r1.
      * destruct (qeqb e 0) eqn:Ee0.
        -- apply qeqb_eq in Ee0. subst e. intros H. injection H as <-.
           split; [reflexivity|]. rewrite Q2R_0, Q2R_1. apply rpow_r0.
        -- intros H. apply computeRational_R in H as [H1 H2]; try assumption; [|lra].
           split; [assumption|]. rewrite rpow_pos by lra. now rewrite H2.
Qed.

Lemma qabs_R b : Q2R (qabs b) = Rabs (Q2R b) /\ (canon b -> canon (qabs b)).
Proof.
  unfold qabs. destruct (qltb b 0) eqn:E.
  - apply Q2R_lt0 in E. rewrite Q2R_qneg, Rabs_left by assumption. split; [reflexivity|].
    intros _. apply qneg_spec.
  - apply Q2R_ge0 in E. rewrite Rabs_right by lra. auto.
Qed.

Lemma toThe_R fl b e r :
  rootsNonneg fl -> exactDoubles fl -> canon b -> canon e ->
  ~ (b = 0%Q /\ e = 0%Q) -> toThe fl b e = PRat r ->
  canon r /\ rpow (Q2R b) (Q2R e) = Some (Q2R r).
Proof.
  intros Hfl Hex Hcb Hce H00. unfold toThe.
  destruct (qltb b 0) eqn:Eb.
  - apply Q2R_lt0 in Eb.
    destruct (qeqb e 1) eqn:Ee1.
    { apply qeqb_eq in Ee1. subst e. intros H. injection H as <-.
      split; [assumption|]. rewrite Q2R_1. apply rpow_r1. }
    destruct (qeqb e 0) eqn:Ee0.
    { apply qeqb_eq in Ee0. subst e. intros H. injection H as <-.
      split; [reflexivity|]. rewrite Q2R_0, Q2R_1. apply rpow_r0. }
    destruct (qIsInt e) eqn:Ei; [|discriminate]. cbn [negb].
    pose proof (qIsInt_iff e Ei) as HeR.
    destruct (minusOneToThe_R e Ei) as [Hm1 Hm2].
    destruct (qeqb b (-1 # 1)) eqn:Ebm.
    { apply qeqb_eq in Ebm. subst b. intros H. injection H as <-.
      split; [assumption|]. rewrite Q2R_m1, HeR, Hm1. rewrite rpow_int by lra. reflexivity. }
    destruct (toThePos fl (qabs b) e) as [q| |] eqn:Et; try discriminate.
    intros H. injection H as <-. split; [apply qmul_spec|].
    destruct (qabs_R b) as [Ha1 Ha2].
    apply toThePos_R in Et as [Ht1 Ht2]; try assumption; try (now apply Ha2).
    + rewrite Ha1, Rabs_left, HeR in Ht2 by assumption. rewrite HeR.
      rewrite rpow_int in Ht2 by lra. injection Ht2 as Ht2.
      rewrite rpow_int by lra. f_equal. rewrite Q2R_qmul, Hm1, <- Ht2, <- powerRZ_mult.
      f_equal. lra.
    + rewrite Ha1. apply Rabs_pos.
    + intros [H1 _]. rewrite H1, Q2R_0, Rabs_left in Ha1 by assumption. lra.
  - apply toThePos_R; try assumption. now apply Q2R_ge0.
Qed.

(** toThe throws exactly for powers without real value. *)
Lemma computeRational_nothrow fl b e :
  rootsNonneg fl -> qnum b <> 0 -> computeRationalPower fl b e <> PThrow.
Proof.
  intros Hfl Hb. unfold computeRationalPower.
  destruct (computeNumPower_some b (qnum e) Hb) as [q ->].
  unfold computeDenomPower. destruct (qden e =? 1); [discriminate|].
  destruct (tryGetBase fl (qnum q) (qden e) =? 0); [cbn [orb]; destruct (fl_pow fl q (qden e)); discriminate|].
  cbn [orb]. destruct (tryGetBase fl (qden q) (qden e) =? 0) eqn:E; [destruct (fl_pow fl q (qden e)); discriminate|].
  destruct (mkRat_some (tryGetBase fl (qnum q) (qden e)) (tryGetBase fl (qden q) (qden e))) as [q' ->]; [lia|].
  discriminate.
Qed.

Lemma toThePos_throw fl b e :
  rootsNonneg fl -> canon b -> canon e -> (0 <= Q2R b)%R ->
  (toThePos fl b e = PThrow <-> rpow (Q2R b) (Q2R e) = None).
Proof.
  intros Hfl Hcb Hce Hb. unfold toThePos.
  destruct (qeqb b 0) eqn:Eb0.
  - apply qeqb_eq in Eb0. subst b. cbn [andb orb]. rewrite Q2R_0.
    destruct (qnum e <? 0) eqn:En.
    + split; [|reflexivity]. intros _. apply rpow_0_neg. apply Q2R_lt0. unfold qltb, qnum in *. cbn. lia.
    + split; [discriminate|]. intros H. exfalso.
      assert (HeR : (0 <= Q2R e)%R) by (apply Q2R_ge0; unfold qltb, qnum in *; cbn; lia).
      destruct (Req_dec (Q2R e) 0) as [E|].
      * rewrite E, rpow_0_0 in H. discriminate.
      * rewrite rpow_0_pos in H by lra. discriminate.
  - apply qeqb_neq in Eb0.
    assert (Hb0 : Q2R b <> 0%R).
    { intros E. apply Eb0. apply Q2R_inj; [assumption|reflexivity|]. now rewrite Q2R_0. }
    rewrite rpow_pos by lra. cbn [andb orb]. split; [|discriminate]. intros H. exfalso.
    destruct (qeqb b 1 || qeqb e 1); [discriminate|]. destruct (qeqb e 0); [discriminate|].
    revert H. apply computeRational_nothrow; [assumption|].
    intros H0. apply Hb0. rewrite Q2R_frac, H0. lra.
Qed.

Lemma toThe_throw fl b e :
  rootsNonneg fl -> canon b -> canon e ->
  (toThe fl b e = PThrow <-> rpow (Q2R b) (Q2R e) = None).
Proof.
  intros Hfl Hcb Hce. unfold toThe.
  destruct (qltb b 0) eqn:Eb.
  - apply Q2R_lt0 in Eb.
    destruct (qIsInt e) eqn:Ei.
    + rewrite (qIsInt_iff e Ei). rewrite rpow_neg by assumption.
      split; [|discriminate]. intros H. exfalso. revert H.
      destruct (qeqb e 1); [discriminate|]. destruct (qeqb e 0); [discriminate|].
      destruct (qeqb b (-1 # 1)); [discriminate|]. cbn [negb].
      destruct (toThePos fl (qabs b) e) eqn:Et; try discriminate. intros _.
      destruct (qabs_R b) as [Ha1 Ha2].
      apply toThePos_throw in Et; try assumption; try (now apply Ha2).
      * rewrite Ha1, Rabs_left, (qIsInt_iff e Ei) in Et by assumption. rewrite rpow_int in Et by lra. discriminate.
      * rewrite Ha1. apply Rabs_pos.
    + rewrite rpow_neg_none by (try assumption; now apply qIsInt_false).
      split; [reflexivity|]. intros _.
      destruct (qeqb e 1) eqn:E1; [apply qeqb_eq in E1; subst e; discriminate|].
      destruct (qeqb e 0) eqn:E0; [apply qeqb_eq in E0; subst e; discriminate|].
      reflexivity.
  - apply toThePos_throw; try assumption. now apply Q2R_ge0.
Qed.

(** Division goes through toThe(-1). *)
Lemma toThe_minus_one fl b : canon b ->
  toThe fl b (-1 # 1) = match qinv b with Some r => PRat r | None => PThrow end.
Proof.
  intros Hc. pose proof (qinv_spec b) as Hi.
  assert (Hrat : forall c, qnum c <> 0 -> computeRationalPower fl c (-1 # 1) = match qinv c with Some r => PRat r | None => PThrow end).
  { intros c Hcn. unfold computeRationalPower, computeNumPower, qinv.
    change (qnum (-1 # 1)) with (-1). cbn [Z.ltb Z.compare Z.abs]. rewrite !Z.pow_1_r.
    destruct (mkRat (qden c) (qnum c)); reflexivity. }
  assert (Hpos : forall c, canon c -> qeqb c 0 = false -> toThePos fl c (-1 # 1) = match qinv c with Some r => PRat r | None => PThrow end).
  { intros c Hcc Hc0. unfold toThePos. rewrite Hc0. cbn [andb orb].
    destruct (qeqb c 1) eqn:E1.
    - apply qeqb_eq in E1. subst c. reflexivity.
    - cbn [orb]. change (qeqb (-1 # 1) 1) with false. change (qeqb (-1 # 1) 0) with false. cbv iota.
      apply Hrat. intros H0. apply qeqb_neq in Hc0. apply Hc0. now apply canon_int_den. }
  unfold toThe. destruct (qltb b 0) eqn:Eb.
  - change (qeqb (-1 # 1) 1) with false. change (qeqb (-1 # 1) 0) with false.
    change (qIsInt (-1 # 1)) with true. cbn [negb]. cbv iota.
    destruct (qeqb b (-1 # 1)) eqn:Ebm.
    + apply qeqb_eq in Ebm. subst b. reflexivity.
    + change (minusOneToThe (-1 # 1)) with (ofZ (-1)).
      apply qltb_lt in Eb.
      rewrite Hpos.
      * unfold qabs. assert (Eb' : qltb b 0 = true) by now apply qltb_lt. rewrite Eb'.
        pose proof (qinv_spec (qneg b)) as Hn. destruct (qneg_spec b) as [_ Hqn].
        destruct (qinv (qneg b)) as [r|] eqn:Er.
        -- destruct Hn as (Hr1 & Hr2 & Hr3).
           destruct (qinv b) as [r'|] eqn:Er'.
           ++ destruct Hi as (Hi1 & Hi2 & Hi3). f_equal. apply canon_eq; [apply qmul_spec|assumption|].
              rewrite (proj2 (qmul_spec _ _)), Hr3, Hi3, Hqn. unfold ofZ. field. assumption.
           ++ exfalso. rewrite Hi in Eb. now apply Qlt_irrefl in Eb.
        -- exfalso. rewrite Hqn in Hn. assert (H0 : (b == 0)%Q) by (rewrite <- (Qopp_involutive b), Hn; reflexivity).
           rewrite H0 in Eb. now apply Qlt_irrefl in Eb.
      * destruct (qabs_R b) as [_ H]. now apply H.
      * unfold qabs. assert (Eb' : qltb b 0 = true) by now apply qltb_lt. rewrite Eb'.
        apply qeqb_neq. intros E. destruct (qneg_spec b) as [_ H]. rewrite E in H.
        assert (H0 : (b == 0)%Q) by (rewrite <- (Qopp_involutive b), <- H; reflexivity).
        rewrite H0 in Eb. now apply Qlt_irrefl in Eb.
  - destruct (qeqb b 0) eqn:E0.
    + apply qeqb_eq in E0. subst b. reflexivity.
    + now apply Hpos.
Qed.

(** ** Chains of operations *)



Lemma arun_spec x : match arun x with
                    | Some q => canon q /\ ameans x = Some (Q2R q)
                    | None => ameans x = None
                    end.
Proof.
  induction x; cbn [arun ameans].
  - split; [apply canon_ofZ|]. now rewrite Q2R_ofZ.
  - destruct (mkRat n d) as [q|] eqn:E.
    + apply mkRat_R in E as (H1 & H2 & H3). split; [assumption|].
      destruct (Req_EM_T (IZR d) 0) as [H|H]; [apply eq_IZR in H; lia|]. now rewrite H3.
    + apply mkRat_none in E. subst d. destruct (Req_EM_T 0 0); [reflexivity|lra].
  - destruct (arun x1) as [u|]; [|now rewrite IHx1]. destruct IHx1 as [H1 ->].
    destruct (arun x2) as [v|]; [|now rewrite IHx2]. destruct IHx2 as [H2 ->].
    rewrite Q2R_qadd. split; [apply qadd_spec|reflexivity].
  - destruct (arun x1) as [u|]; [|now rewrite IHx1]. destruct IHx1 as [H1 ->].
    destruct (arun x2) as [v|]; [|now rewrite IHx2]. destruct IHx2 as [H2 ->].
    rewrite Q2R_qsub. split; [apply qsub_spec|reflexivity].
  - destruct (arun x1) as [u|]; [|now rewrite IHx1]. destruct IHx1 as [H1 ->].
    destruct (arun x2) as [v|]; [|now rewrite IHx2]. destruct IHx2 as [H2 ->].
    rewrite Q2R_qmul. split; [apply qmul_spec|reflexivity].
  - destruct (arun x1) as [u|]; [|now rewrite IHx1]. destruct IHx1 as [H1 ->].
    destruct (arun x2) as [v|]; [|now rewrite IHx2]. destruct IHx2 as [H2 ->].
    pose proof (qdiv_spec u v) as Hd. destruct (qdiv u v) as [r|].
    + destruct Hd as (Hd1 & Hd2 & Hd3). split; [assumption|].
      destruct (Req_EM_T (Q2R v) 0) as [H|H].
      * exfalso. apply Hd2. apply eqR_Qeq. now rewrite Q2R_0.
      * rewrite (Qeq_eqR _ _ Hd3). now rewrite Q2R_div.
    + apply Qeq_eqR in Hd. rewrite Q2R_0 in Hd. destruct (Req_EM_T (Q2R v) 0); [reflexivity|lra].
  - destruct (arun x) as [u|]; [|now rewrite IHx]. destruct IHx as [H1 ->].
    rewrite Q2R_qneg. split; [apply qneg_spec|reflexivity].
Qed.
