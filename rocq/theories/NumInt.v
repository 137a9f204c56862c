(** Powers of numbers with integer exponents. *)
From Verif Require Import NumberSpec NumberProofs PrimeFacProofs PrimeListProofs NumPowerProofs RPow.
From Coq Require Import Lia Lra Bool Znumtheory.
From Verif Require Import NumPowerModel.
Open Scope Z_scope.

Lemma Q2R_num0 b : Q2R b <> 0%R <-> qnum b <> 0.
Proof.
  unfold Q2R, qnum. split; intros H E; apply H.
  - rewrite E. unfold Rdiv. now rewrite Rmult_0_l.
  - assert (IZR (Qnum b) = 0%R); [|now apply eq_IZR]. apply Rmult_integral in E as [E|E]; [exact E|].
    exfalso. apply Rinv_neq_0_compat in E; [exact E|]. apply not_0_IZR. discriminate.
Qed.
Lemma intPow_some fl b z : Q2R b <> 0%R -> exists r, intPow fl b (ofZ z) = NOk r.
Proof.
  intros N. apply Q2R_num0 in N. unfold intPow.
  assert (P : forall c, qnum c <> 0 -> exists r, toThePos fl c (ofZ z) = PRat r).
  { intros c Nc. unfold toThePos.
    assert (E : qeqb c 0 = false) by (apply qeqb_neq; intros ->; now apply Nc). rewrite E. cbn [andb orb].
    destruct (qeqb c 1 || qeqb (ofZ z) 1); [eauto|]. destruct (qeqb (ofZ z) 0); [eauto|]. unfold computeRationalPower, computeNumPower. change (qnum (ofZ z)) with z.
    assert (D : qden c ^ Z.abs z <> 0) by (apply Z.pow_nonzero; unfold qden; lia).
    assert (D' : qnum c ^ Z.abs z <> 0) by (apply Z.pow_nonzero; lia).
    destruct (z <? 0); [destruct (mkRat_some (qden c ^ Z.abs z) _ D') as (q & ->) | destruct (mkRat_some (qnum c ^ Z.abs z) _ D) as (q & ->)]; unfold computeDenomPower; cbn; eauto. }
  unfold toThe. destruct (qltb b 0).
  - destruct (qeqb (ofZ z) 1); [eauto|]. destruct (qeqb (ofZ z) 0); [eauto|]. change (qIsInt (ofZ z)) with true. cbn [negb]. destruct (qeqb b (-1 # 1)); [eauto|].
    destruct (P (qabs b)) as (r & ->); [|eauto]. unfold qabs. destruct (qltb b 0); [|exact N]. unfold qneg, qnum in *. intros E. apply N. pose proof (Qred_correct (- b)) as R. unfold Qeq in R. try rewrite E in R. cbn in *; try lia.
  - destruct (P b N) as (r & ->). eauto.
Qed.

(** The result of such a power. *)
Definition intShape (p : payload) : Prop :=
  (pExp p = 1%Q /\ pPre p = 1%Q /\ Q2R (pBase p) <> 0%R) \/ (pExp p = 0%Q /\ (0 < Q2R (pBase p))%R /\ Q2R (pPre p) <> 0%R /\ (Rabs (Q2R (pPre p)) = 1%R -> Q2R (pBase p) = 1%R)).

Lemma extract_one l : forall prime cnt pend, 1 <= cnt -> extractPrimes 1 prime cnt pend l = (pend ++ l, []).
Proof.
  induction l as [|x l IH]; intros prime cnt pend Hc; cbn [extractPrimes]; [now rewrite app_nil_r|].
  destruct (negb (prime =? x)).
  - rewrite IH by lia. reflexivity.
  - rewrite (proj2 (Z.eqb_neq (cnt + 1) 1)) by lia. rewrite IH by lia. now rewrite <- app_assoc.
Qed.
Lemma extract_all l : Forall prime l -> extractPrimes 1 0 0 [] l = (l, []).
Proof.
  intros H. destruct l as [|x l]; [reflexivity|]. apply Forall_inv in H. apply prime_ge_2 in H. cbn [extractPrimes].
  rewrite (proj2 (Z.eqb_neq 0 x)) by lia. cbn [negb]. now rewrite extract_one by lia.
Qed.

Lemma qsub_same a : canon a -> qsub a a = 0%Q.
Proof. intros C. apply Q2R_inj; [apply qsub_spec | reflexivity|]. rewrite Q2R_qsub, Q2R_0. lra. Qed.
Lemma qltb_ofZ a b : qltb (ofZ a) (ofZ b) = (a <? b).
Proof. unfold qltb, ofZ; cbn [Qnum Qden]. now rewrite !Z.mul_1_r. Qed.

Lemma pow_one x e : (0 < x)%R -> 1 <= e -> powerRZ x e = 1%R -> x = 1%R.
Proof.
  intros Hx He E. destruct (Rtotal_order x 1) as [L|[L|L]]; [|exact L|]; exfalso.
  - assert (N : (1 <= powerRZ (/ x) (e - 1))%R).
    { replace (e - 1) with (Z.of_nat (Z.to_nat (e - 1))) by lia. rewrite <- pow_powerRZ. apply pow_R1_Rle. rewrite <- Rinv_1. apply Rlt_le, Rinv_lt_contravar; lra. }
    rewrite powerRZ_inv' in N. replace e with ((e - 1) + 1) in E by lia. rewrite powerRZ_add in E by lra. rewrite powerRZ_1 in E.
    assert (P : (0 < powerRZ x (e - 1))%R) by now apply powerRZ_lt. assert (powerRZ x (e - 1) <= 1)%R. { rewrite <- (Rinv_inv (powerRZ x (e - 1))), <- Rinv_1. apply Rinv_le_contravar; lra. }
    nra.
  - assert (N : (1 <= powerRZ x (e - 1))%R).
    { replace (e - 1) with (Z.of_nat (Z.to_nat (e - 1))) by lia. rewrite <- pow_powerRZ. apply pow_R1_Rle. lra. }
    replace e with ((e - 1) + 1) in E by lia. rewrite powerRZ_add in E by lra. rewrite powerRZ_1 in E. nra.
Qed.

Section Shape.
  Variables (fl : floats) (limit : Z).

  Lemma adjust_int b e : canon b -> (0 < Q2R b)%R -> 1 <= e -> exists p', npAdjustExp fl (mkPay b (ofZ e) 1) = NOk p' /\ intShape p'.
  Proof.
    intros Cb Hb He. unfold npAdjustExp; cbn [pBase pExp pPre]. unfold qgtb. change (qltb 1 (ofZ e)) with (qltb (ofZ 1) (ofZ e)). change (qltb (ofZ e) (-1 # 1)) with (qltb (ofZ e) (ofZ (-1))). rewrite (qltb_ofZ 1 e), (qltb_ofZ e (-1)).
    destruct (Z.ltb_spec 1 e) as [G|G]; cbn [orb].
    - change (qden (ofZ e)) with 1. change (qnum (ofZ e)) with e. rewrite Z.quot_1_r.
      destruct (intPow_some fl b e) as (r & Er); [lra|]. rewrite Er. cbn [nbind]. eexists. split; [reflexivity|]. right. cbn [pBase pExp pPre].
      split; [apply qsub_same, canon_ofZ|]. split; [exact Hb|].
      destruct (intPow_R fl b (ofZ e) r Cb (canon_ofZ e) eq_refl ltac:(lra) Er) as (Cr & Vr & Nr).
      split; [rewrite Q2R_qmul, Q2R_1; lra|]. rewrite Q2R_qmul, Q2R_1, Rmult_1_l, Vr. change (qnum (ofZ e)) with e. intros E1.
      assert (PP : (0 < powerRZ (Q2R b) e)%R) by now apply powerRZ_lt. assert (E2 : powerRZ (Q2R b) e = 1%R).
      { rewrite <- E1. rewrite Rabs_right; [|lra]. reflexivity. }
      apply pow_one with e; [exact Hb | lia | exact E2].
    - assert (e = 1) by lia. subst e. rewrite (proj2 (Z.ltb_ge 1 (-1))) by lia. eexists. split; [reflexivity|]. left. cbn. split; [reflexivity|]. split; [reflexivity | lra].
  Qed.
  Lemma cancel_int a n : canon a -> (0 < Q2R a)%R -> 1 <= n -> exists p', npCancel fl (mkPay a (ofZ n) 1) = NOk p' /\ intShape p'.
  Proof.
    intros Ca Ha Hn. unfold npCancel; cbn [pBase pExp pPre].
    assert (X : exists f, pfOf a = Some f).
    { unfold pfOf. destruct (qltb a 0); [eauto|]. apply Q2R_pos_num in Ha. destruct (primeFactors_pos (qnum a) Ha) as (ln & -> & _).
      destruct (primeFactors_pos (qden a)) as (ld & -> & _); [unfold qden; lia | eauto]. }
    destruct X as (f & Ef). rewrite Ef. cbn [loopIfNone nbind]. destruct (pfOf_good a f Ca Ha Ef) as (G & _). pose proof G as (P1 & P2 & _).
    assert (PF : npPreFacPrimes fl (mkPay a (ofZ n) 1) = NOk (mkPf [] [], 1%Q)).
    { unfold npPreFacPrimes; cbn [pBase pExp pPre]. change (qnum (ofZ n)) with n. destruct (mkRat_some 1 n) as (e & ->); [lia|]. reflexivity. }
    rewrite PF. cbn [nbind fst snd]. change (pfMultiply f (mkPf [] [])) with f. unfold pfExtract. change (qden (ofZ n)) with 1.
    rewrite (extract_all _ P1), (extract_all _ P2). change (qnum (ofZ n)) with n.
    assert (T : pfToThe (mkPf [] []) n = mkPf [] []).
    { unfold pfToThe; cbn [pfNum pfDen]. rewrite (proj2 (Z.eqb_neq n 0)) by lia. destruct (n <? 0); reflexivity. }
    rewrite T. change (pfEval (mkPf [] [])) with (Some 1%Q). cbn [throwIfNone nbind].
    assert (F0 : mkPf (pfNum f) (pfDen f) = f) by (destruct f; reflexivity). rewrite F0.
    destruct (pfCollect f (ofZ n)) as [nb3 exp1] eqn:EC.
    assert (C : allPrime (pfNum nb3) /\ allPrime (pfDen nb3) /\ exists e, 1 <= e /\ exp1 = ofZ e).
    { unfold pfCollect in EC. destruct (Nat.ltb_spec 1 (equalCount f)) as [L|L].
      - injection EC as <- <-. cbn [pfNum pfDen]. split; [apply allPrime_incl with (pfNum f); [intros z; apply uniq_in | exact P1]|].
        split; [apply allPrime_incl with (pfDen f); [intros z; apply uniq_in | exact P2]|]. exists (Z.of_nat (equalCount f) * n). split; [nia|].
        apply Q2R_inj; [apply qmul_spec | apply canon_ofZ|]. now rewrite Q2R_qmul, !Q2R_ofZ, mult_IZR.
      - destruct (pfNum f) as [|x l] eqn:E1; [destruct (pfDen f) as [|y l'] eqn:E2|]; injection EC as <- <-; rewrite ?E1, ?E2; (split; [assumption|]; split; [assumption|]); [exists 1 | exists n | exists n]; (split; [lia | reflexivity]). }
    destruct C as (A1 & A2 & e & He & ->).
    assert (EV : exists b, pfEval nb3 = Some b).
    { unfold pfEval. apply mkRat_some. rewrite prodZ_mulZ. pose proof (allPrime_pos _ A2) as Pd. clear -Pd. assert (0 < mulZ (pfDen nb3)); [|lia].
      induction Pd as [|x l Hx _ IH]; cbn [mulZ]; [lia|]. nia. }
    destruct EV as (b & Eb). rewrite Eb. cbn [throwIfNone nbind].
    assert (Pos : posPf nb3) by (split; now apply allPrime_pos). destruct (pfEval_R nb3 b Pos Eb) as (Cb & Vb). pose proof (pfR_pos nb3 Pos) as Hb.
    change (qmul 1 1) with 1%Q. destruct (qeqb b 1) eqn:B1.
    - apply qeqb_eq in B1 as ->. apply adjust_int; [reflexivity | rewrite Q2R_1; lra | exact He].
    - apply adjust_int; [exact Cb | lra | exact He].
  Qed.
  Lemma posPos_int a n s : canon a -> (0 < Q2R a)%R -> 1 <= n -> s = 1%Q \/ s = (-1 # 1)%Q -> exists p', npPosPos fl limit (mkPay a (ofZ n) s) = NOk p' /\ intShape p'.
  Proof.
    intros Ca Ha Hn Hs. unfold npPosPos; cbn [pBase pExp pPre].
    assert (P1 : (if qltb s 0 then mkPay a (ofZ n) (qmul s (-1 # 1)) else mkPay a (ofZ n) s) = mkPay a (ofZ n) 1) by (destruct Hs as [-> | ->]; reflexivity).
    rewrite P1. cbn [pBase pExp pPre]. change (qIsInt (ofZ n)) with true.
    assert (X : exists p', (if npSmall limit (mkPay a (ofZ n) 1) then npCancel fl (mkPay a (ofZ n) 1) else npAdjustExp fl (mkPay a (ofZ n) 1)) = NOk p' /\ intShape p')
      by (destruct (npSmall _ _); [now apply cancel_int | now apply adjust_int]).
    destruct X as (p' & -> & S). cbn [nbind]. eexists. split; [reflexivity|]. unfold npSignBack. destruct (qltb s 0); [|exact S].
    destruct S as [(E & P & B)|(E & P & B)]; rewrite E.
    - left. change (qeqb 1 1) with true. cbv iota. cbn [pBase pExp pPre]. rewrite P. split; [reflexivity|]. split; [reflexivity|]. rewrite Q2R_qmul, Q2R_m1. lra.
    - right. change (qeqb 0 1) with false. cbv iota. cbn [pBase pExp pPre]. split; [reflexivity|]. split; [exact P|]. destruct B as [B1 B2]. rewrite Q2R_qmul, Q2R_m1. split; [lra|]. replace (Q2R (pPre p') * -1)%R with (- Q2R (pPre p'))%R by ring. rewrite Rabs_Ropp. exact B2.
  Qed.
  Lemma posExp_int b n : canon b -> Q2R b <> 0%R -> 1 <= n -> exists p', npPosExp fl limit (mkPay b (ofZ n) 1) = NOk p' /\ intShape p'.
  Proof.
    intros Cb Nb Hn. unfold npPosExp; cbn [pBase pExp pPre]. destruct (qltb b 0) eqn:E.
    - apply Q2R_lt0 in E. assert (I : exists s, intPow fl (-1 # 1) (ofZ n) = NOk s /\ (s = 1%Q \/ s = (-1 # 1)%Q)).
      { unfold intPow, toThe. change (qltb (-1 # 1) 0) with true. cbn [andb]. destruct (qeqb (ofZ n) 1); [eauto|]. destruct (qeqb (ofZ n) 0); [eauto|]. change (qIsInt (ofZ n)) with true. cbn [negb].
        change (qeqb (-1 # 1) (-1 # 1)) with true. cbv iota. eexists. split; [reflexivity|]. unfold minusOneToThe. destruct (_ =? 0); auto. }
      destruct I as (s & -> & Hs). cbn [nbind]. assert (M : qmul 1 s = s) by (destruct Hs as [-> | ->]; reflexivity). rewrite M.
      apply posPos_int; [apply qmul_spec | rewrite Q2R_qmul, Q2R_m1; lra | exact Hn | exact Hs].
    - assert (0 < Q2R b)%R. { destruct (Rtotal_order (Q2R b) 0) as [L|[L|L]]; [apply Q2R_lt0 in L; congruence | contradiction | exact L]. }
      apply posPos_int; auto.
  Qed.
  Lemma qinv_some b : Q2R b <> 0%R -> exists i, qinv b = Some i /\ canon i /\ Q2R i = (/ Q2R b)%R.
  Proof.
    intros N. pose proof (proj1 (Q2R_num0 b) N) as N'. unfold qinv. destruct (mkRat_some (qden b) (qnum b) N') as (i & Ei). exists i. split; [exact Ei|].
    apply mkRat_R in Ei as (C & _ & V). split; [exact C|]. rewrite V. unfold Q2R, qden, qnum. unfold Rdiv. rewrite Rinv_mult. rewrite Rinv_inv. ring.
  Qed.
  Theorem numPower_int b z : canon b -> Q2R b <> 0%R -> z <> 0 -> exists p', numPowerSimpl fl limit (mkPay b (ofZ z) 1) = NOk p' /\ intShape p'.
  Proof.
    intros Cb Nb Hz. unfold numPowerSimpl, npValid; cbn [pBase pExp pPre]. change (qIsInt (ofZ z)) with true. rewrite andb_false_r. cbn [negb].
    change 0%Q with (ofZ 0). rewrite (qltb_ofZ z 0).
    assert (X : exists p', (if z <? 0 then npNegExp fl limit (mkPay b (ofZ z) 1) else npPosExp fl limit (mkPay b (ofZ z) 1)) = NOk p' /\ intShape p').
    { destruct (Z.ltb_spec z 0) as [L|L]; [|apply posExp_int; auto; lia]. unfold npNegExp; cbn [pBase pExp pPre]. change (qinv 1) with (Some 1%Q). cbn [throwIfNone nbind].
      assert (M : qmul (ofZ z) (-1 # 1) = ofZ (- z)). { apply Q2R_inj; [apply qmul_spec | apply canon_ofZ|]. rewrite Q2R_qmul, Q2R_m1, !Q2R_ofZ, opp_IZR. ring. }
      rewrite M. destruct (posExp_int b (- z) Cb Nb) as (p1 & -> & S); [lia|]. cbn [nbind].
      assert (P0 : Q2R (pPre p1) <> 0%R) by (destruct S as [(_ & -> & _)|(_ & _ & ? & _)]; [rewrite Q2R_1; lra | assumption]).
      assert (B0 : Q2R (pBase p1) <> 0%R) by (destruct S as [(_ & _ & ?)|(_ & ? & _)]; [assumption | lra]).
      destruct (qinv_some _ P0) as (i & -> & Ci & Vi). cbn [throwIfNone nbind].
      assert (Z0 : qeqb (pBase p1) 0 = false) by (apply qeqb_neq; intros E; rewrite E, Q2R_0 in B0; lra). rewrite Z0.
      destruct S as [(E & P & B)|(E & P & B)]; rewrite E.
      - change (qeqb 1 1) with true. cbv iota. destruct (qinv_some _ B) as (j & -> & Cj & Vj). cbn [throwIfNone nbind]. eexists. split; [reflexivity|]. left. cbn [pBase pExp pPre].
        split; [reflexivity|]. split; [apply Q2R_inj; [exact Ci | reflexivity|]; rewrite Vi, P, Q2R_1; lra|]. rewrite Vj. now apply Rinv_neq_0_compat.
      - change (qeqb 0 1) with false. cbv iota. eexists. split; [reflexivity|]. right. cbn [pBase pExp pPre]. split; [reflexivity|]. split; [exact P|]. destruct B as [B1 B2]. rewrite Vi. split; [now apply Rinv_neq_0_compat|].
        rewrite Rabs_inv. intros E2. apply B2. rewrite <- (Rinv_inv (Rabs (Q2R (pPre p1)))), E2. apply Rinv_1. }
    destruct X as (p1 & E1 & S). change (ofZ 0) with 0%Q. rewrite E1. cbn [nbind]. unfold npAdjustSign.
    destruct S as [(E & P & B)|(E & P & B)]; rewrite E.
    - change (qeqb 1 1) with true. change (qltb 1 0) with false. cbn [negb andb orb]. rewrite andb_false_r. eexists. split; [reflexivity|]. left. auto.
    - change (qeqb 0 1) with false. change (qltb 0 0) with false. cbn [negb andb orb]. rewrite andb_true_r, orb_false_r. destruct (qnum (pBase p1) =? 1).
      + destruct (qinv_some (pBase p1)) as (i & -> & Ci & Vi); [lra|]. cbn [throwIfNone nbind]. eexists. split; [reflexivity|]. right. cbn [pBase pExp pPre].
        split; [reflexivity|]. split; [rewrite Vi; now apply Rinv_0_lt_compat|]. destruct B as [B1 B2]. split; [exact B1|]. intros E2. rewrite Vi, (B2 E2). apply Rinv_1.
      + eexists. split; [reflexivity|]. right. auto.
  Qed.
End Shape.

(** The result doesn't depend on floating point numbers. *)
Section NoFloats.
  Variables (fl fl' : floats) (limit : Z).
  Lemma intPow_same b e : intPow fl b (ofZ e) = intPow fl' b (ofZ e).
  Proof. unfold intPow. rewrite (toThe_int_nofloats fl), (toThe_int_nofloats fl') by reflexivity. reflexivity. Qed.
  Lemma adjust_same b e p : npAdjustExp fl (mkPay b (ofZ e) p) = npAdjustExp fl' (mkPay b (ofZ e) p).
  Proof. unfold npAdjustExp; cbn [pBase pExp pPre]. now rewrite intPow_same. Qed.
  Lemma cancel_same a n : 1 <= n -> npCancel fl (mkPay a (ofZ n) 1) = npCancel fl' (mkPay a (ofZ n) 1).
  Proof.
    intros Hn. unfold npCancel; cbn [pBase pExp pPre]. destruct (pfOf a) as [f|]; [|reflexivity]. cbn [loopIfNone nbind].
    assert (PF : forall g, npPreFacPrimes g (mkPay a (ofZ n) 1) = NOk (mkPf [] [], 1%Q)).
    { intros g. unfold npPreFacPrimes; cbn [pBase pExp pPre]. change (qnum (ofZ n)) with n. destruct (mkRat_some 1 n) as (e & ->); [lia|]. reflexivity. }
    rewrite !PF. cbn [nbind fst snd]. destruct (pfExtract _ _) as [nb2 ex]. destruct (pfEval ex); [|reflexivity]. cbn [throwIfNone nbind].
    destruct (pfCollect nb2 (ofZ n)) as [nb3 exp1] eqn:EC.
    assert (C : exists e, exp1 = ofZ e).
    { unfold pfCollect in EC. destruct (Nat.ltb_spec 1 (equalCount nb2)) as [L|L].
      - injection EC as <- <-. exists (Z.of_nat (equalCount nb2) * n).
        apply Q2R_inj; [apply qmul_spec | apply canon_ofZ|]. now rewrite Q2R_qmul, !Q2R_ofZ, mult_IZR.
      - destruct (pfNum nb2) as [|x l]; [destruct (pfDen nb2) as [|y l']|]; injection EC as <- <-; [exists 1 | exists n | exists n]; reflexivity. }
    destruct C as (e & ->). destruct (pfEval nb3) as [b|]; [|reflexivity]. cbn [throwIfNone nbind]. destruct (qeqb b 1); apply adjust_same.
  Qed.
  Lemma posPos_same a n s : 1 <= n -> s = 1%Q \/ s = (-1 # 1)%Q -> npPosPos fl limit (mkPay a (ofZ n) s) = npPosPos fl' limit (mkPay a (ofZ n) s).
  Proof.
    intros Hn Hs. unfold npPosPos; cbn [pBase pExp pPre].
    assert (P1 : (if qltb s 0 then mkPay a (ofZ n) (qmul s (-1 # 1)) else mkPay a (ofZ n) s) = mkPay a (ofZ n) 1) by (destruct Hs as [-> | ->]; reflexivity).
    rewrite P1. now rewrite cancel_same, adjust_same.
  Qed.
  Lemma posExp_same b n : 1 <= n -> npPosExp fl limit (mkPay b (ofZ n) 1) = npPosExp fl' limit (mkPay b (ofZ n) 1).
  Proof.
    intros Hn. unfold npPosExp; cbn [pBase pExp pPre]. destruct (qltb b 0); [|apply posPos_same; auto].
    rewrite <- intPow_same. assert (I : exists s, intPow fl (-1 # 1) (ofZ n) = NOk s /\ (s = 1%Q \/ s = (-1 # 1)%Q)).
    { unfold intPow, toThe. change (qltb (-1 # 1) 0) with true. cbn [andb]. destruct (qeqb (ofZ n) 1); [eauto|]. destruct (qeqb (ofZ n) 0); [eauto|]. change (qIsInt (ofZ n)) with true. cbn [negb].
      change (qeqb (-1 # 1) (-1 # 1)) with true. cbv iota. eexists. split; [reflexivity|]. unfold minusOneToThe. destruct (_ =? 0); auto. }
    destruct I as (s & -> & Hs). cbn [nbind]. apply posPos_same; [exact Hn|]. destruct Hs as [-> | ->]; auto.
  Qed.
  Theorem numPower_same b z : z <> 0 -> numPowerSimpl fl limit (mkPay b (ofZ z) 1) = numPowerSimpl fl' limit (mkPay b (ofZ z) 1).
  Proof.
    intros Hz. unfold numPowerSimpl; cbn [pBase pExp pPre]. change 0%Q with (ofZ 0). rewrite (qltb_ofZ z 0). unfold npNegExp; cbn [pBase pExp pPre].
    assert (M : qmul (ofZ z) (-1 # 1) = ofZ (- z)). { apply Q2R_inj; [apply qmul_spec | apply canon_ofZ|]. rewrite Q2R_qmul, Q2R_m1, !Q2R_ofZ, opp_IZR. ring. }
    rewrite M. change (qinv 1) with (Some 1%Q). cbn [throwIfNone nbind].
    destruct (Z.ltb_spec z 0) as [L|L]; [now rewrite (posExp_same b (- z)) by lia | now rewrite (posExp_same b z) by lia].
  Qed.
End NoFloats.

(** Right for all numbers with a numerator and a denominator below 324. *)
Theorem numPower_small fl limit b z p' : canon b -> Q2R b <> 0%R -> z <> 0 -> Z.abs (qnum b) < 324 -> qden b < 324 ->
  numPowerSimpl fl limit (mkPay b (ofZ z) 1) = NOk p' -> payVal p' = payVal (mkPay b (ofZ z) 1) /\ payCanon p'.
Proof.
  intros Cb Nb Hz H1 H2 E. rewrite (numPower_same fl noFloats limit b z Hz) in E. destruct noFloats_ok as [N1 N2].
  apply numPowerSimpl_small in E; cbn [pBase pExp pPre]; auto.
  - split; [exact Cb|]. split; [apply canon_ofZ | reflexivity].
  - rewrite Q2R_ofZ. now apply not_0_IZR.
Qed.
