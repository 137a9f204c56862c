(** Arithmetic and order of numbers that may hold doubles. *)
From Verif Require Import DoubleModel DoubleExact MixedModel MixedSpec DoubleOps FractionProofs NumberProofs NumberSpec.
Require Import Flocq.Core.Core Flocq.IEEE754.BinarySingleNaN Flocq.Prop.Relative.
From Coq Require Import Lia Lra Reals Qreals.
Open Scope R_scope.
#[local] Existing Instance Hprec.
#[local] Existing Instance Hmax.

(** ** Construction *)
Lemma ofDouble_decimal n v : (Z.abs n <= 2 ^ 50)%Z -> roundsTo (IZR n / 10000) v -> ofDouble v = NRat (Qred (n # 10000)).
Proof. intros N H. unfold ofDouble. now rewrite (decimal n v N H). Qed.
Lemma ofDouble_close v : isDouble v -> proper (ofDouble v) /\
  Rabs (numberValue (ofDouble v) - doubleValue v) <= bpow radix2 (-52) * (1 + Rabs (doubleValue v)).
Proof.
  intros H. unfold ofDouble. destruct (doubleToFraction v) as [q|] eqn:E; cbn [proper numberValue].
  - split; [now apply fraction_canon with v|now apply fraction_close].
  - split; [now split|]. unfold Rminus. rewrite Rplus_opp_r, Rabs_R0. apply Rmult_le_pos; [apply bpow_ge_0|]. pose proof (Rabs_pos (doubleValue v)). lra.
Qed.
Lemma ofDouble_neg v : ofDouble (SFopp v) = numberNeg (ofDouble v).
Proof.
  unfold ofDouble. rewrite fraction_opp. destruct (doubleToFraction v) as [q|] eqn:E; cbn [option_map numberNeg]; [reflexivity|].
  unfold ofDouble. now rewrite fraction_opp, E.
Qed.
Lemma Qred_small t : (Z.abs t <= 2 ^ 50)%Z -> small (Qred (t # 10000)).
Proof.
  intros H. unfold small. pose proof (Z.ggcd_gcd t 10000) as G. pose proof (Z.ggcd_correct_divisors t 10000) as D. unfold Qred.
  destruct (Z.ggcd t 10000) as [g [a b]]. cbn [fst snd Qnum Qden] in *. destruct D as [D1 D2].
  assert (0 <= g)%Z by (subst g; apply Z.gcd_nonneg). assert (1 <= g)%Z by (destruct (Z.eq_dec g 0); [subst g; lia|lia]).
  assert (0 < b <= 10000)%Z by nia. rewrite Z2Pos.id by lia. split; [|lia]. rewrite D1, Z.abs_mul in H. nia.
Qed.
Lemma ofDouble_stable v : isDouble v -> Rabs (doubleValue v) <= bpow radix2 36 -> ofDouble (toDouble (ofDouble v)) = ofDouble v.
Proof.
  intros H B. unfold ofDouble at 2 3. destruct (doubleToFraction v) as [q|] eqn:E; cbn [toDouble].
  - destruct (fraction_close v q H E) as [C [t ->]]. rewrite Q2R_tenk in C.
    assert (T : (Z.abs t <= 2 ^ 50)%Z).
    { change (bpow radix2 36) with 68719476736 in B. change (bpow radix2 (-52)) with (/ 4503599627370496) in C.
      apply Rabs_le_inv in B. assert (Rabs (doubleValue v) <= 68719476736) by (apply Rabs_le; lra).
      apply Rabs_le_inv in C. apply le_IZR. rewrite abs_IZR. apply Rabs_le. change (2 ^ 50)%Z with 1125899906842624%Z.
 lra. }
    apply ofDouble_decimal; [exact T|]. destruct (bRat_value _ (Qred_small t T)) as [V F]. rewrite dRat_equiv. destruct (float_is _ F) as [D W].
    split; [exact D|]. rewrite W, V, Q2R_tenk. reflexivity.
  - unfold ofDouble. now rewrite E.
Qed.

(** ** Laws *)
Lemma add_comm x y : add x y = add y x.
Proof.
  destruct x as [[|]|[|]| |s m e], y as [[|]|[|]| |s' m' e']; try reflexivity. cbn [SFadd]. rewrite (Z.min_comm e' e). f_equal. apply Z.add_comm.
Qed.
Lemma mul_comm x y : mul x y = mul y x.
Proof.
  destruct x as [[|]|[|]| |s m e], y as [[|]|[|]| |s' m' e']; try reflexivity; try (destruct s; reflexivity); try (destruct s'; reflexivity).
  cbn [SFmul]. now rewrite (Pos.mul_comm m' m), (Z.add_comm e' e), (xorb_comm s' s).
Qed.
Lemma numberAdd_comm a b : numberAdd a b = numberAdd b a.
Proof.
  destruct a as [p|x], b as [q|y]; cbn [numberAdd]; [|now rewrite add_comm..]. unfold qadd. f_equal. apply Qred_complete. apply Qplus_comm.
Qed.
Lemma numberMul_comm a b : numberMul a b = numberMul b a.
Proof.
  destruct a as [p|x], b as [q|y]; cbn [numberMul]; [|now rewrite mul_comm..]. unfold qmul. f_equal. apply Qred_complete. apply Qmult_comm.
Qed.
Lemma neg_stays x : doubleToFraction x = None -> ofDouble (SFopp x) = NDbl (SFopp x).
Proof. intros H. unfold ofDouble. now rewrite fraction_opp, H. Qed.
Lemma numberNeg_proper a : proper a -> proper (numberNeg a) /\ numberValue (numberNeg a) = - numberValue a.
Proof.
  destruct a as [q|x]; cbn [proper numberNeg]; intros H.
  - destruct (qneg_spec q) as [C E]. split; [exact C|]. cbn [numberValue]. rewrite (Qeq_eqR _ _ E). apply Q2R_opp.
  - destruct H as [D N]. rewrite neg_stays by exact N. destruct (opp_value x D) as [D' V]. split; [|exact V]. split; [exact D'|].
    now rewrite fraction_opp, N.
Qed.
Lemma numberNeg_twice a : proper a -> numberNeg (numberNeg a) = a.
Proof.
  destruct a as [q|x]; cbn [proper numberNeg]; intros H.
  - f_equal. destruct (qneg_spec q) as [C1 E1], (qneg_spec (qneg q)) as [C2 E2]. apply canon_eq; [exact C2|exact H|]. rewrite E2, E1. apply Qopp_involutive.
  - destruct H as [D N]. rewrite neg_stays by exact N. cbn [numberNeg]. rewrite neg_stays by now rewrite fraction_opp, N. f_equal.
    destruct x; cbn [SFopp]; now rewrite ?negb_involutive.
Qed.
Lemma not_zero x : isDouble x -> doubleToFraction x = None -> exists s m e, x = S754_finite s m e.
Proof.
  intros [_ F] N. destruct x as [[|]|s| |s m e].
  - vm_compute in N. discriminate N.
  - vm_compute in N. discriminate N.
  - discriminate F.
  - discriminate F.
  - now exists s, m, e.
Qed.
Lemma numberSub_self a : proper a -> numberSub a a = ofInt 0.
Proof.
  destruct a as [q|x]; cbn [proper]; intros H; unfold numberSub.
  - cbn [numberNeg numberAdd]. unfold ofInt. f_equal. destruct (qneg_spec q) as [C E]. destruct (qadd_spec q (qneg q)) as [C2 E2].
    apply canon_eq; [exact C2|apply canon_ofZ|]. rewrite E2, E. apply Qplus_opp_r.
  - destruct H as [D N]. cbn [numberNeg]. rewrite neg_stays by exact N. cbn [numberAdd toDouble]. destruct (not_zero x D N) as (s & m & e & ->).
    replace (add (S754_finite s m e) (SFopp (S754_finite s m e))) with (S754_zero false); [vm_compute; reflexivity|].
    cbn [SFopp SFadd]. rewrite Z.min_id. set (k := Zpos _). destruct s; cbn [negb SpecFloat.cond_Zopp].
    + now rewrite Z.add_opp_diag_l.
    + now rewrite Z.add_opp_diag_r.
Qed.
Lemma numberAdd_0 a : proper a -> numberAdd a (ofInt 0) = a.
Proof.
  destruct a as [q|x]; cbn [proper]; intros H; cbn [numberAdd ofInt].
  - f_equal. destruct (qadd_spec q (ofZ 0)) as [C E]. apply canon_eq; [exact C|exact H|]. rewrite E. apply Qplus_0_r.
  - destruct H as [D N]. destruct (not_zero x D N) as (s & m & e & ->).
    change (ofDouble (S754_finite s m e) = NDbl (S754_finite s m e)). unfold ofDouble. now rewrite N.
Qed.
Lemma numberMul_1 a : proper a -> numberMul a (ofInt 1) = a.
Proof.
  destruct a as [q|x]; cbn [proper]; intros H; cbn [numberMul ofInt].
  - f_equal. destruct (qmul_spec q (ofZ 1)) as [C E]. apply canon_eq; [exact C|exact H|]. rewrite E. apply Qmult_1_r.
  - destruct H as [D N]. destruct (not_zero x D N) as (s & m & e & ->).
    change (ofDouble (mul (S754_finite s m e) (dRat (ofZ 1))) = NDbl (S754_finite s m e)).
    assert (E : mul (S754_finite s m e) (dRat (ofZ 1)) = S754_finite s m e); [|rewrite E; unfold ofDouble; now rewrite N].
    assert (D1 : isDouble (dRat (ofZ 1))) by (split; vm_compute; reflexivity).
    assert (V1 : doubleValue (dRat (ofZ 1)) = 1).
    { change (dRat (ofZ 1)) with (S754_finite false 4503599627370496 (-52)). rewrite finite_value. unfold F2R. cbn [Fnum Fexp cond_Zopp].
      change 4503599627370496%Z with (radix2 ^ 52)%Z. rewrite IZR_Zpower by lia. rewrite <- bpow_plus. reflexivity. }
    pose proof (mul_value (S754_finite s m e) (dRat (ofZ 1)) D D1) as M. rewrite V1, Rmult_1_r in M.
    destruct M as [DM VM]; [now apply fits_of_value|]. rewrite format_value in VM by exact D. 
    destruct (is_float _ DM) as (a & Ea & Va & Fa), (is_float _ D) as (b & Eb & Vb & Fb). rewrite Ea, Eb. f_equal.
    apply B2R_inj; try (now rewrite Va, Vb); unfold is_finite_strict.
    + assert (0 < Rabs (B2R a)) by (rewrite Va, VM; destruct s; [pose proof (finite_neg m e); rewrite Rabs_left|pose proof (finite_pos m e); rewrite Rabs_pos_eq]; lra).
      destruct a as [z|z| |z m' e' B']; [exfalso; cbn [B2R] in H; rewrite Rabs_R0 in H; lra|discriminate Fa|discriminate Fa|reflexivity].
    + destruct b as [z|z| |z m' e' B']; [discriminate Eb|discriminate Eb|discriminate Eb|reflexivity].
Qed.
Lemma numberMul_0 a : proper a -> numberMul a (ofInt 0) = ofInt 0.
Proof.
  destruct a as [q|x]; cbn [proper]; intros H; cbn [numberMul ofInt].
  - unfold ofInt. f_equal. destruct (qmul_spec q (ofZ 0)) as [C E]. apply canon_eq; [exact C|apply canon_ofZ|]. rewrite E. unfold Qeq. cbn. lia.
  - destruct H as [D N]. destruct (not_zero x D N) as ([|] & m & e & ->); vm_compute; reflexivity.
Qed.
