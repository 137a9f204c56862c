(** Powers and division of numbers, with the comparisons of the code, which go through doubles. *)
From Verif Require Import DoubleModel DoubleExact MixedModel MixedSpec DoubleOps FractionProofs MixedProofs MixedOrder NumberProofs NumberSpec.
Require Import Flocq.Core.Core Flocq.IEEE754.BinarySingleNaN Flocq.Prop.Relative.
From Coq Require Import Znumtheory.
From Coq Require Import Lia Lra Reals Qreals.
Open Scope R_scope.
#[local] Existing Instance Hprec.
#[local] Existing Instance Hmax.

(** ** The sign of a rational as seen by the comparisons *)
Lemma rnd_bpow k : (-1074 <= k)%Z -> rnd (bpow radix2 k) = bpow radix2 k.
Proof.
  intros H. apply round_generic; [apply valid_rnd_round_mode|]. apply generic_format_bpow. unfold SpecFloat.fexp, emin, prec, emax. lia.
Qed.
Lemma ofZ_big z : (0 < z <= 2 ^ 1000)%Z -> isDouble (dOfZ z) /\ 1 <= doubleValue (dOfZ z) <= bpow radix2 1000.
Proof.
  intros H. rewrite dOfZ_equiv. pose proof (binary_normalize_correct prec emax Hprec Hmax mode_NE z 0 false) as C. cbv zeta in C.
  replace (F2R (Float radix2 z 0)) with (IZR z) in C by (unfold F2R; cbn; ring). fold (rnd (IZR z)) in C.
  assert (B : 1 <= rnd (IZR z) <= bpow radix2 1000).
  { change 1 with (bpow radix2 0) at 1. rewrite <- (rnd_bpow 0), <- (rnd_bpow 1000) by lia. split; apply rnd_le.
    - change (bpow radix2 0) with (IZR 1). apply IZR_le. lia.
    - rewrite <- (IZR_Zpower radix2) by lia. apply IZR_le. apply H. }
  rewrite Rlt_bool_true in C.
  - destruct C as (C & F & _). fold (bOfZ z) in C, F. destruct (float_is _ F) as [D ->]. split; [exact D|]. rewrite C. exact B.
  - rewrite Rabs_pos_eq by lra. eapply Rle_lt_trans; [apply B|]. apply bpow_lt. unfold emax. lia.
Qed.
Lemma dRat_pos q : (0 < Qnum q <= 2 ^ 1000)%Z -> (Zpos (Qden q) <= 2 ^ 1000)%Z -> isDouble (dRat q) /\ 0 < doubleValue (dRat q).
Proof.
  intros Hn Hd. destruct (ofZ_big (Qnum q) Hn) as [D1 V1], (ofZ_big (Zpos (Qden q))) as [D2 V2]; [lia|]. unfold dRat.
  assert (B : bpow radix2 (-1000) <= doubleValue (dOfZ (Qnum q)) / doubleValue (dOfZ (Zpos (Qden q))) <= bpow radix2 1000).
  { assert (P : 0 < doubleValue (dOfZ (Zpos (Qden q)))) by lra. split.
    - apply Rmult_le_reg_r with (doubleValue (dOfZ (Zpos (Qden q)))); [exact P|]. unfold Rdiv. rewrite Rmult_assoc, Rinv_l, Rmult_1_r by lra.
      apply Rle_trans with (bpow radix2 (-1000) * bpow radix2 1000); [apply Rmult_le_compat_l; [apply bpow_ge_0|lra]|].
      rewrite <- bpow_plus. change (bpow radix2 (-1000 + 1000)) with 1. lra.
    - apply Rmult_le_reg_r with (doubleValue (dOfZ (Zpos (Qden q)))); [exact P|]. unfold Rdiv. rewrite Rmult_assoc, Rinv_l, Rmult_1_r by lra.
      pose proof (bpow_gt_0 radix2 1000). nra. }
  pose proof (bpow_gt_0 radix2 (-1000)) as P0. destruct (div_value _ _ D1 D2) as [D V]; [lra|apply fits_2; rewrite Rabs_pos_eq; lra|].
  split; [exact D|]. rewrite V. apply Rlt_le_trans with (rnd (bpow radix2 (-1000))); [rewrite rnd_bpow by lia; exact P0|]. apply rnd_le. lra.
Qed.
Lemma dRat_neg q : (0 < Qnum q)%Z -> dRat (- Qnum q # Qden q) = SFopp (dRat q).
Proof. intros H. unfold dRat. cbn [Qnum Qden]. now rewrite ofZ_opp, div_opp by lia. Qed.
Definition inRange (q : Q) : Prop := (Z.abs (Qnum q) <= 2 ^ 1000)%Z /\ (Zpos (Qden q) <= 2 ^ 1000)%Z.
Lemma signs q : inRange q -> numberLt (NRat q) (ofInt 0) = qltb q 0 /\ numberLt (ofInt 0) (NRat q) = qltb 0 q.
Proof.
  intros [Hn Hd]. unfold numberLt, ofInt. cbn [toDouble]. assert (Z0 : isDouble (dRat (ofZ 0)) /\ doubleValue (dRat (ofZ 0)) = 0) by (split; [split; vm_compute; reflexivity|reflexivity]).
  destruct Z0 as [D0 V0]. unfold qltb. cbn [Qnum Qden]. rewrite !Z.mul_1_r, !Z.mul_0_l. destruct q as [a d]. cbn [Qnum Qden] in *.
  destruct (Z.lt_trichotomy a 0) as [L|[-> |G]].
  - destruct (dRat_pos (- a # d)) as [D V]; cbn [Qnum Qden]; [lia|lia|].
    assert (E : dRat (a # d) = SFopp (dRat (- a # d))).
    { rewrite <- dRat_neg by (cbn [Qnum]; lia). cbn [Qnum Qden]. now rewrite Z.opp_involutive. }
    destruct (opp_value _ D) as [DO VO]. rewrite E, !lt_value, VO, V0 by assumption. rewrite Rlt_bool_true, Rlt_bool_false by lra.
    rewrite (proj2 (Z.ltb_lt a 0)), (proj2 (Z.ltb_ge 0 a)) by lia. now split.
  - change (dRat (0 # d)) with (div (S754_zero false) (dOfZ (Zpos d))). destruct (ofZ_big (Zpos d)) as [D1 V1]; [lia|].
    destruct (dOfZ (Zpos d)) as [s|s| |s m e]; [cbn in V1; lra|destruct D1 as [_ F]; discriminate F|destruct D1 as [_ F]; discriminate F|].
    now split.
  - destruct (dRat_pos (a # d)) as [D V]; cbn [Qnum Qden]; [lia|lia|]. rewrite !lt_value, V0 by assumption. rewrite Rlt_bool_false, Rlt_bool_true by lra.
    rewrite (proj2 (Z.ltb_lt 0 a)), (proj2 (Z.ltb_ge a 0)) by lia. now split.
Qed.

(** ** Powers *)
Section Pow.
  Variables (pw : spec_float -> spec_float -> spec_float) (root : Z -> Z -> option Z).
  Notation npow := (numberPow pw root).
  Notation fl := (powFloats pw root).
  Lemma qeqb_refl q : qeqb q q = true.
  Proof. unfold qeqb. now rewrite Z.eqb_refl, Pos.eqb_refl. Qed.
  Lemma qeqb_eq p q : qeqb p q = true -> p = q.
  Proof. unfold qeqb. intros H. apply andb_prop in H as [H1 H2]. apply Z.eqb_eq in H1. apply Pos.eqb_eq in H2. destruct p, q. cbn in *. congruence. Qed.
  Lemma minus_one n e : qIsInt e = true -> qeqb e 1 = false -> qeqb e 0 = false -> npow (S n) (ofInt (-1)) (NRat e) = Returns (NRat (minusOneToThe e)).
  Proof.
    intros I E1 E0. cbn [numberPow numberEq ofInt numberNum numberIsInt]. change (ofZ 1) with 1%Q. change (ofZ 0) with 0%Q. rewrite E1, E0, I.
    cbn [qeqb]. change (qeqb (ofZ (-1)) 0) with false. change (qeqb (ofZ (-1)) 1) with false. cbn [andb orb negb].
    rewrite andb_false_r. change (qeqb (ofZ (-1)) (ofZ (-1))) with true. unfold minusOneToThe. cbv iota. change (qnum e) with (Qnum e).
    now destruct (Z.rem (Qnum e) 2 =? 0)%Z.
  Qed.
  Lemma qltb_0 q : qltb q 0 = (Qnum q <? 0)%Z /\ qltb 0 q = (0 <? Qnum q)%Z.
  Proof. unfold qltb. cbn [Qnum Qden]. now rewrite Z.mul_1_r, Z.mul_0_l. Qed.
  Lemma seen_pos n b e : canon b -> inRange b -> qltb b 0 = false ->
    npow (S n) (NRat b) (NRat e) = match toThePos fl b e with PRat q => Returns (NRat q) | PThrow => Throws | PDbl => rationalPower pw root b e end.
  Proof.
    intros Cb R P. destruct (signs b R) as [S1 S2]. cbn [numberPow]. unfold toThePos. rewrite S1, S2, P. cbn [numberEq ofInt numberNum andb].
    change (ofZ 0) with 0%Q. change (ofZ 1) with 1%Q. change (qnum e) with (Qnum e).
    destruct (qeqb b 0 && (Qnum e <? 0)%Z)%bool; [reflexivity|]. destruct (qeqb b 0) eqn:B0; [reflexivity|]. cbn [orb].
    destruct (qeqb b 1) eqn:B1; [reflexivity|]. cbn [orb]. destruct (qeqb e 1) eqn:E1; [reflexivity|]. destruct (qeqb e 0) eqn:E0; [reflexivity|].
    assert (P' : qltb 0 b = true).
    { destruct (qltb_0 b) as [Q1 Q2]. rewrite Q1 in P. rewrite Q2. apply Z.ltb_ge in P. apply Z.ltb_lt.
      destruct (Z.eq_dec (Qnum b) 0) as [Z|]; [|lia]. exfalso. apply canon_int_den in Z; [|exact Cb]. subst b. discriminate B0. }
    rewrite P'. destruct (qeqb b (ofZ (-1))) eqn:M.
    { apply qeqb_eq in M. subst b. discriminate P. }
    unfold rationalPower. destruct (computeRationalPower fl b e); reflexivity.
  Qed.
  Lemma toThePos_int b e : qIsInt e = true -> toThePos fl b e <> PDbl.
  Proof.
    intros I. unfold toThePos. destruct (qeqb b 0 && (qnum e <? 0)%Z)%bool; [discriminate|]. destruct (qeqb b 0 || qeqb b 1 || qeqb e 1)%bool; [discriminate|].
    destruct (qeqb e 0); [discriminate|]. unfold computeRationalPower. destruct (computeNumPower b (qnum e)); [|discriminate].
    unfold computeDenomPower. unfold qIsInt in I. rewrite I. discriminate.
  Qed.
  Lemma qabs_neg b : qltb b 0 = true -> qabs b = qneg b.
  Proof. intros H. unfold qabs. now rewrite H. Qed.
  Lemma qneg_range b : canon b -> inRange b -> inRange (qneg b).
  Proof.
    intros C [H1 H2]. replace (qneg b) with (- Qnum b # Qden b).
    - split; cbn [Qnum Qden]; [now rewrite Z.abs_opp|exact H2].
    - symmetry. unfold qneg. apply canon_red. unfold canon in *. cbn [Qnum Qden]. now rewrite Z.gcd_opp_l.
  Qed.
  Lemma qneg_sign b : qltb b 0 = true -> qltb (qneg b) 0 = false.
  Proof.
    intros H. destruct (qneg_spec b) as [_ E]. destruct (qltb_0 b) as [Q _]. rewrite Q in H. apply Z.ltb_lt in H.
    destruct (qltb_0 (qneg b)) as [-> _]. apply Z.ltb_ge. unfold Qeq in E. destruct b as [x d]. cbn [Qopp Qnum Qden] in *. nia.
  Qed.
  (** For bases in range the code computes what the model with exact comparisons computes. *)
  Lemma pow_seen n b e : canon b -> inRange b -> toThe fl b e <> PDbl ->
    npow (S (S n)) (NRat b) (NRat e) = match toThe fl b e with PRat q => Returns (NRat q) | _ => Throws end.
  Proof.
    intros Cb R ND. unfold toThe in *. destruct (qltb b 0) eqn:P.
    2:{ rewrite seen_pos by assumption. now destruct (toThePos fl b e). }
    destruct (signs b R) as [S1 S2].
    assert (B : qeqb b 0 = false /\ qeqb b 1 = false).
    { split; [destruct (qeqb b 0) eqn:E|destruct (qeqb b 1) eqn:E]; try reflexivity; apply qeqb_eq in E; subst b; discriminate P. }
    destruct B as [B0 B1]. assert (P2 : qltb 0 b = false).
    { destruct (qltb_0 b) as [Q1 Q2]. rewrite Q1 in P. rewrite Q2. apply Z.ltb_lt in P. apply Z.ltb_ge. lia. }
    pose proof (fun I E1 E0 => minus_one n e I E1 E0) as MO.
    pose proof (seen_pos n (qabs b) e) as SP.
    remember (S n) as k eqn:Ek. cbn [numberPow]. fold npow in *.
    unfold numberAbs. rewrite S1, S2, P, P2. unfold ofInt in *. cbn [numberEq numberNum numberIsInt andb orb]. change (ofZ 0) with 0%Q. change (ofZ 1) with 1%Q.
    rewrite B0, B1. cbn [andb orb].
    destruct (qeqb e 1) eqn:E1; [reflexivity|]. destruct (qeqb e 0) eqn:E0; [reflexivity|]. destruct (qIsInt e) eqn:I; cbn [negb] in *; [|reflexivity].
    change (ofZ (-1)) with (-1 # 1)%Q in *. destruct (qeqb b (-1 # 1)) eqn:M.
    { unfold minusOneToThe. change (qnum e) with (Qnum e). now destruct (Z.rem (Qnum e) 2 =? 0)%Z. }
    rewrite MO by reflexivity. cbn [numberNeg]. rewrite <- (qabs_neg b P). rewrite SP.
    - destruct (toThePos fl (qabs b) e) as [q| |]; [reflexivity|now contradiction ND|reflexivity].
    - rewrite qabs_neg by assumption. apply qneg_spec.
    - rewrite qabs_neg by assumption. now apply qneg_range.
    - rewrite qabs_neg by assumption. now apply qneg_sign.
  Qed.
  Lemma toThe_int b e : qIsInt e = true -> toThe fl b e <> PDbl.
  Proof.
    intros I. unfold toThe. destruct (qltb b 0); [|now apply toThePos_int]. destruct (qeqb e 1), (qeqb e 0), (qeqb b (-1#1)); rewrite ?I; cbn [negb]; try discriminate.
    pose proof (toThePos_int (qabs b) e I). now destruct (toThePos fl (qabs b) e).
  Qed.
  Lemma div_seen n a b : canon b -> inRange b ->
    numberDiv pw root (S (S n)) (NRat a) (NRat b) = match qinv b with Some r => Returns (NRat (qmul a r)) | None => Throws end.
  Proof.
    intros C R. unfold numberDiv. change (ofInt (-1)) with (NRat (-1 # 1)). rewrite pow_seen by (auto; now apply toThe_int).
    rewrite toThe_minus_one by assumption. now destruct (qinv b).
  Qed.

  (** Bases whose double doesn't compare: the code calls itself with the same base for ever. *)
  Lemma pow_hangs b e : numberLt (NRat b) (ofInt 0) = false -> numberLt (ofInt 0) (NRat b) = false -> qeqb b 0 = false -> qeqb b 1 = false ->
    qIsInt e = true -> qeqb e 0 = false -> qeqb e 1 = false -> qeqb b (-1 # 1) = false -> forall n, npow n (NRat b) (NRat e) = Running.
  Proof.
    intros S1 S2 B0 B1 I E0 E1 M. induction n as [|n IH]; [reflexivity|]. cbn [numberPow]. fold npow. unfold numberAbs. rewrite S1, S2.
    destruct n as [|n]. 
    - unfold ofInt. cbn [numberEq numberNum numberIsInt]. change (ofZ 0) with 0%Q. change (ofZ 1) with 1%Q. change (ofZ (-1)) with (-1 # 1)%Q.
      rewrite B0, B1, E0, E1, M. reflexivity.
    - rewrite IH, minus_one by assumption.
      unfold ofInt. cbn [numberEq numberNum numberIsInt]. change (ofZ 0) with 0%Q. change (ofZ 1) with 1%Q. change (ofZ (-1)) with (-1 # 1)%Q.
      rewrite B0, B1, E0, E1, M. reflexivity.
  Qed.

  (** ** Arithmetic programs *)
  Lemma ratio_range q n d : canon q -> (0 < d)%Z -> Q2R q = (IZR n / IZR d)%R -> (Z.abs n <= 2 ^ 1000)%Z -> (d <= 2 ^ 1000)%Z -> inRange q.
  Proof.
    intros C D V N M. assert (E : (Qnum q * d = n * Zpos (Qden q))%Z).
    { apply eq_IZR. rewrite !mult_IZR. unfold Q2R in V. assert (IZR d <> 0)%R by (apply not_0_IZR; lia). assert (IZR (Zpos (Qden q)) <> 0)%R by (apply not_0_IZR; lia).
      assert (W : (IZR (Qnum q) * IZR d = IZR (Qnum q) * / IZR (Zpos (Qden q)) * (IZR d * IZR (Zpos (Qden q))))%R) by (field; assumption).
      change (IPR (Qden q)) with (IZR (Zpos (Qden q))) in *. rewrite W, V. field. assumption. }
    assert (X : (Zpos (Qden q) | d)%Z).
    { apply (Gauss _ (Qnum q)); [exists n; lia|]. apply rel_prime_sym, Zgcd_1_rel_prime. exact C. }
    destruct X as [k X]. assert (n = Qnum q * k)%Z by (subst d; nia).
    assert (1 <= k)%Z by nia. split; [rewrite <- (Z.mul_1_r (Z.abs (Qnum q)))|]; subst; rewrite ?Z.abs_mul in N; nia.
  Qed.
  Lemma arunN_spec n x : moderateDivisors x ->
    match arunN pw root (S (S n)) x with
    | Returns r => exists q, r = NRat q /\ canon q /\ ameans x = Some (Q2R q)
    | Throws => ameans x = None
    | Running => False
    end.
  Proof.
    intros H. assert (X : arunN pw root (S (S n)) x = match arun x with Some q => Returns (NRat q) | None => Throws end).
    2:{ rewrite X. pose proof (arun_spec x) as S. destruct (arun x) as [q|]; [exists q; now destruct S|exact S]. }
    revert H. induction x as [z|a b|a IHa b IHb|a IHa b IHb|a IHa b IHb|a IHa b IHb|a IHa]; intros H.
    1,2: reflexivity.
    1-4: assert (Ha : moderateDivisors a) by (intros y v I; apply H; cbn [divisors]; auto using in_or_app, in_cons);
         assert (Hb : moderateDivisors b) by (intros y v I; apply H; cbn [divisors]; auto using in_or_app, in_cons);
         specialize (IHa Ha); specialize (IHb Hb); cbn [arunN arun]; rewrite IHa, IHb.
    - now destruct (arun a), (arun b).
    - now destruct (arun a), (arun b).
    - now destruct (arun a), (arun b).
    - pose proof (arun_spec b) as S. destruct (arun a) as [u|], (arun b) as [v|]; try reflexivity. destruct S as [C V].
      rewrite div_seen; [unfold qdiv; now destruct (qinv v)|assumption|]. 
      destruct (H b (Q2R v)) as (z & d & N & (D1 & D2) & E); [cbn [divisors]; apply in_or_app; right; now left|assumption|].
      now apply (ratio_range v z d).
    - assert (Ha : moderateDivisors a) by (intros y v I; apply H; exact I). specialize (IHa Ha). cbn [arunN arun]. rewrite IHa. now destruct (arun a).
  Qed.
  Lemma tiny_hangs n : arunN pw root n (ADiv (AInt 1) (AFrac 1 (10 ^ 400))) = Running.
  Proof.
    cbn [arunN]. assert (M : mkRat 1 (10 ^ 400) = Some (1 # Z.to_pos (10 ^ 400))%Q) by (vm_compute; reflexivity). rewrite M.
    unfold numberDiv. change (ofInt (-1)) with (NRat (-1 # 1)). now rewrite pow_hangs by (vm_compute; reflexivity).
  Qed.
End Pow.
