(** Witnesses and small corollaries used in PropNumber.v. *)
From Verif Require Import NumberSpec NumberProofs PrimeFacProofs PrimeListProofs NumPowerProofs DoubleModel.
From Coq Require Import Znumtheory Sorted Lra ZifyBool.
Local Open Scope Z_scope.

Lemma qeqb_value a b : canon a -> canon b -> (qeqb a b = true <-> Q2R a = Q2R b).
Proof.
  intros Ha Hb. rewrite qeqb_eq. split; [now intros ->|]. now apply Q2R_inj.
Qed.

Lemma toThe_int_exact fl b e r : canon b -> canon e -> qIsInt e = true -> Q2R b <> 0%R ->
  toThe fl b e = PRat r -> canon r /\ Q2R r = powerRZ (Q2R b) (qnum e).
Proof.
  intros Hb He Hi H0 E. destruct (intPow_R fl b e r) as (H1 & H2 & _); try assumption; [|auto].
  unfold intPow. now rewrite E.
Qed.

Lemma tiny_root_refuted : exists v q : _, dVal v = Some q /\
  (0 < q)%Q /\ (q * q * (1 - (1 # 1125899906842624)) < (1 # 1000000000000000000000000000000000) < q * q * (1 + (1 # 1125899906842624)))%Q /\
  forall fl, fl_pow fl (1 # 1000000000000000000000000000000000) 2 = doubleToFraction v ->
    toThe fl (1 # 1000000000000000000000000000000000) (1 # 2) = PRat 0%Q.
Proof.
  exists (S754_finite false 5131088862720982 (-107)).
  eexists. split; [vm_compute; reflexivity|]. split; [reflexivity|]. split; [split; reflexivity|].
  intros fl Hfl.
  assert (Hr : tryGetBase fl (1000000000000000000000000000000000) 2 = 0).
  { unfold tryGetBase. destruct (fl_root fl (1000000000000000000000000000000000) 2) as [b|]; [|reflexivity].
    destruct (b ^ 2 =? 1000000000000000000000000000000000) eqn:E; [|reflexivity]. exfalso.
    assert (Hb : Z.abs b * Z.abs b = 1000000000000000000000000000000000) by (rewrite <- Z.abs_mul, <- Z.pow_2_r; lia).
    assert (31622776601683793 <= Z.abs b) by nia. assert (Z.abs b < 31622776601683794) by nia. nia. }
  assert (Hd : doubleToFraction (S754_finite false 5131088862720982 (-107)) = Some 0%Q) by (vm_compute; reflexivity).
  rewrite Hd in Hfl. unfold toThe, toThePos.
  change (qltb (1 # 1000000000000000000000000000000000) 0) with false. change (qeqb (1 # 1000000000000000000000000000000000) 0) with false.
  change (qeqb (1 # 1000000000000000000000000000000000) 1) with false. cbn [andb orb].
  change (qeqb (1 # 2) 1) with false. change (qeqb (1 # 2) 0) with false. cbv iota.
  unfold computeRationalPower.
  assert (Hc : computeNumPower (1 # 1000000000000000000000000000000000) (qnum (1 # 2)) = Some (1 # 1000000000000000000000000000000000)) by (vm_compute; reflexivity).
  rewrite Hc. unfold computeDenomPower. change (qden (1 # 2)) with 2. change (qden (1 # 1000000000000000000000000000000000)) with (1000000000000000000000000000000000).
  rewrite Hr. change (2 =? 1) with false. cbv iota. rewrite Z.eqb_refl, orb_true_r. now rewrite Hfl.
Qed.

Lemma zero_power_zero fl : toThe fl 0 0 = PRat 0%Q /\ rpow (Q2R 0) (Q2R 0) = Some 1%R.
Proof. split; [reflexivity|]. rewrite Q2R_0. exact rpow_0_0. Qed.

Lemma root_example fl : fl_root fl 64 3 = Some 4 -> fl_root fl 729 3 = Some 9 ->
  toThe fl (27 # 8) (-2 # 3) = PRat (4 # 9).
Proof.
  intros H1 H2. unfold toThe, toThePos.
  change (qltb (27 # 8) 0) with false. change (qeqb (27 # 8) 0) with false.
  change (qeqb (27 # 8) 1) with false. cbn [andb orb].
  change (qeqb (-2 # 3) 1) with false. change (qeqb (-2 # 3) 0) with false. cbv iota.
  unfold computeRationalPower.
  assert (Hc : computeNumPower (27 # 8) (qnum (-2 # 3)) = Some (64 # 729)) by (vm_compute; reflexivity).
  rewrite Hc. unfold computeDenomPower, tryGetBase. change (qden (-2 # 3)) with 3.
  change (qnum (64 # 729)) with 64. change (qden (64 # 729)) with 729. rewrite H1, H2. reflexivity.
Qed.

Lemma prime_factorisation n : 0 < n ->
  exists l, primeFactors n = Some l /\ Forall prime l /\ Sorted Z.le l /\ fold_right Z.mul 1 l = n.
Proof.
  intros Hn. destruct (primeFactors_pos n Hn) as (l & H1 & H2 & H3 & H4). exists l. repeat split; try assumption.

Qed.

Lemma zero_loops fuel : divOut fuel 2 0 = None.
Proof. apply divOut_zero. lia. Qed.

Lemma power_324 fl limit : 324 <= limit ->
  (exists p', numPowerSimpl fl limit (mkPay 324 2 1) = NOk p' /\
     payVal (mkPay 324 2 1) = Some 104976%R /\ payVal p' = Some 1296%R) /\
  (exists p', numPowerSimpl fl limit (mkPay 324 (-1 # 1) 1) = NOk p' /\
     payVal (mkPay 324 (-1 # 1) 1) = Some (1 / 324)%R /\ payVal p' = Some (1 / 36)%R).
Proof.
  intros Hl.
  assert (Hs : forall e, npSmall limit (mkPay 324 e 1) = true).
  { intros e. unfold npSmall. cbn [pBase pPre]. change (qnum 324) with 324. change (qden 324) with 1.
    change (qnum 1) with 1. change (qden 1) with 1. lia. }
  assert (H324 : Q2R 324 = 324%R) by (unfold Q2R; cbn; lra).
  split.
  - exists (mkPay 6 0 1296). split; [|split].
    + unfold numPowerSimpl, npPosExp, npPosPos. cbn [pBase pExp pPre].
      change (qltb 324 0) with false. change (qltb 1 0) with false. change (qltb 2 0) with false. cbv iota.
      change (npValid (mkPay 324 2 1)) with true. cbn [negb].
      rewrite Hs. vm_compute. reflexivity.
    + unfold payVal. cbn [pBase pExp pPre]. rewrite H324, Q2R_1.
      replace (Q2R 2) with (IZR 2) by (unfold Q2R; cbn; lra). rewrite rpow_int by lra. f_equal. simpl. lra.
    + unfold payVal. cbn [pBase pExp pPre]. rewrite Q2R_0, rpow_r0. f_equal. unfold Q2R; cbn. lra.
  - exists (mkPay 6 0 (1 # 36)). split; [|split].
    + unfold numPowerSimpl, npNegExp, npPosExp, npPosPos. cbn [pBase pExp pPre].
      change (npValid (mkPay 324 (-1 # 1) 1)) with true. cbn [negb].
      change (qltb (-1 # 1) 0) with true. cbv iota. change (qinv 1) with (Some 1%Q). cbn [throwIfNone nbind pBase pExp pPre].
      change (qltb 324 0) with false. change (qltb 1 0) with false. cbv iota. cbn [pBase pExp pPre].
      rewrite Hs. vm_compute. reflexivity.
    + unfold payVal. cbn [pBase pExp pPre]. rewrite H324, Q2R_1, Q2R_m1.
      rewrite rpow_rm1 by lra. f_equal; try lra.
    + unfold payVal. cbn [pBase pExp pPre]. rewrite Q2R_0, rpow_r0. f_equal. unfold Q2R; cbn. lra.
Qed.

Lemma numPowerSimpl_large fl limit p p' :
  rootsNonneg fl -> exactDoubles fl -> payCanon p ->
  (Q2R (pBase p) <> 0)%R -> (Q2R (pPre p) <> 0)%R -> (Q2R (pExp p) <> 0)%R ->
  limit < Z.abs (qnum (pBase p)) \/ limit < qden (pBase p) ->
  numPowerSimpl fl limit p = NOk p' -> payVal p' = payVal p /\ payCanon p'.
Proof.
  intros Hfl Hex Hc Hb Hp He Hl E.
  destruct (npValid p) eqn:Hv.
  2:{ unfold numPowerSimpl in E. rewrite Hv in E. cbn [negb] in E. injection E as <-. auto. }
  apply numPowerSimpl_sound with fl limit; try assumption.
  intros q f Hq Hs _. exfalso. apply cancelInput_spec in Hq as (Cq & Qb & _); try assumption.
  destruct (canon_abs_num (pBase q) (pBase p)) as [B1 B2]; [apply Cq|apply Hc|assumption|].
  unfold npSmall in Hs. lia.
Qed.

Lemma numpow_examples :
  numPowerSimpl noFloats 1000 (mkPay 8 (1 # 2) 1) = NOk (mkPay 2 (1 # 2) 2) /\
  numPowerSimpl noFloats 1000 (mkPay (-2 # 3) (-3 # 1) 1) = NOk (mkPay (2 # 3) 0 (-27 # 8)) /\
  numPowerSimpl noFloats 1000 (mkPay (1 # 32) (2 # 5) 1) = NOk (mkPay (1 # 4) 1 1) /\
  rootsNonneg noFloats /\ exactDoubles noFloats.
Proof.
  split; [vm_compute; reflexivity|]. split; [vm_compute; reflexivity|]. split; [vm_compute; reflexivity|].
  exact noFloats_ok.
Qed.
