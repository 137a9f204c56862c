(** Doubles that break the laws of exact numbers. *)
From Verif Require Import DoubleModel DoubleExact MixedModel MixedSpec DoubleOps FractionProofs MixedProofs MixedBounds MixedOrder MixedPow NumberProofs NumberSpec.
Require Import Flocq.Core.Core Flocq.IEEE754.BinarySingleNaN.
From Coq Require Import Lia Lra Reals Qreals.
Open Scope R_scope.
#[local] Existing Instance Hprec.
#[local] Existing Instance Hmax.

Lemma int_value m : doubleValue (S754_finite false m 0) = IZR (Zpos m).
Proof. rewrite finite_value. unfold F2R. cbn. lra. Qed.
Lemma frac_value m e : doubleValue (S754_finite false m (Zneg e)) = IZR (Zpos m) / IZR (2 ^ Zpos e).
Proof. rewrite finite_value. reflexivity. Qed.
Definition tenM17 : spec_float := S754_finite false 6490371073168535 (-109).
Lemma small_becomes_zero : isDouble tenM17 /\ 0 < doubleValue tenM17 /\ ofDouble tenM17 = ofInt 0.
Proof.
  split; [split; vm_compute; reflexivity|]. split; [apply finite_pos|vm_compute; reflexivity].
Qed.
Definition oddInt : spec_float := S754_finite false 4503599627370497 0.
Lemma integral_becomes_fraction : isDouble oddInt /\ doubleValue oddInt = 4503599627370497 /\
  exists q, ofDouble oddInt = NRat q /\ qIsInt q = false.
Proof.
  split; [split; vm_compute; reflexivity|]. split; [apply int_value|].
  exists (2814749767106560512 # 625)%Q. split; vm_compute; reflexivity.
Qed.

Definition big : spec_float := S754_finite false 9007199254740991 20.
Definition little : spec_float := S754_finite false 8510837770086989 (-86).
Lemma bigProper : proper (NDbl big).
Proof. repeat split; vm_compute; reflexivity. Qed.
Lemma littleProper : proper (NDbl little).
Proof. repeat split; vm_compute; reflexivity. Qed.
Lemma value_le m e k : (0 <= e)%Z -> (Zpos m * 2 ^ e <= 2 ^ k)%Z -> (0 <= k)%Z -> Rabs (doubleValue (S754_finite false m e)) <= bpow radix2 k.
Proof.
  intros E H K. rewrite Rabs_pos_eq by (apply Rlt_le, finite_pos). rewrite finite_value. unfold F2R. cbn [Fnum Fexp cond_Zopp].
  rewrite <- !IZR_Zpower by assumption. rewrite <- mult_IZR. apply IZR_le. exact H.
Qed.
Lemma bigModerate : moderate (NDbl big).
Proof.
  cbn [moderate]. apply Rle_trans with (bpow radix2 73); [|apply bpow_le; lia]. apply value_le; lia.
Qed.
Lemma littleModerate : moderate (NDbl little).
Proof.
  cbn [moderate]. unfold little. rewrite frac_value, Rabs_pos_eq by (vm_compute Z.pow; lra). apply Rle_trans with (bpow radix2 0); [vm_compute Z.pow; cbn [bpow]; lra|apply bpow_le; lia].
Qed.
Lemma not_associative : exists a b c, (proper a /\ moderate a) /\ (proper b /\ moderate b) /\ (proper c /\ moderate c) /\
  numberAdd (numberAdd a b) c = ofInt 1 /\ numberAdd a (numberAdd b c) = ofInt 0.
Proof.
  exists (NDbl big), (NDbl (SFopp big)), (ofInt 1). repeat split; try (vm_compute; reflexivity); try apply bigModerate.
  - cbn [moderate]. rewrite (proj2 (opp_value big (proj1 bigProper))), Rabs_Ropp. apply bigModerate.
  - cbn. lia.
  - cbn. lia.
Qed.
Lemma zero_divisor : exists a, proper a /\ moderate a /\ 0 < numberValue a /\ numberEq a (ofInt 0) = false /\ numberMul a a = ofInt 0.
Proof.
  exists (NDbl little). split; [apply littleProper|]. split; [apply littleModerate|]. split; [apply finite_pos|]. split; vm_compute; reflexivity.
Qed.
Definition bigInv : spec_float := S754_finite false 4503599627370497 (-125).
Lemma bigInv_rounds : SFdiv 53 1024 (dOfZ 1) big = bigInv.
Proof. vm_compute. reflexivity. Qed.
Lemma no_inverse pw root n : pw big (dOfZ (-1)) = SFdiv 53 1024 (dOfZ 1) big ->
  numberDiv pw root (S n) (NDbl big) (NDbl big) = Returns (ofInt 0).
Proof.
  intros H. unfold numberDiv. cbn [numberPow].
  change (numberEq (NDbl big) (ofInt 0)) with (dAreEqual big (dRat (ofZ 0))).
  replace (dAreEqual big (dRat (ofZ 0))) with false by (vm_compute; reflexivity).
  change (numberEq (NDbl big) (ofInt 1)) with (dAreEqual big (dRat (ofZ 1))).
  replace (dAreEqual big (dRat (ofZ 1))) with false by (vm_compute; reflexivity).
  change (numberEq (NDbl big) (ofInt (-1))) with (dAreEqual big (dRat (ofZ (-1)))).
  replace (dAreEqual big (dRat (ofZ (-1)))) with false by (vm_compute; reflexivity).
  change (numberEq (ofInt (-1)) (ofInt 1)) with false. change (numberEq (ofInt (-1)) (ofInt 0)) with false.
  replace (numberLt (NDbl big) (ofInt 0)) with false by (vm_compute; reflexivity).
  replace (numberLt (ofInt 0) (NDbl big)) with true by (vm_compute; reflexivity). cbn [andb orb].
  cbn [ofInt toDouble]. change (dRat (ofZ (-1))) with (dOfZ (-1)). rewrite H, bigInv_rounds. vm_compute. reflexivity.
Qed.
Definition near (k : positive) : spec_float := S754_finite false (5559999489367579 + k) (-52).
Lemma near_fine k : (k <= 1000)%positive -> isDouble (near k) -> moderate (NDbl (near k)).
Proof.
  intros H D. cbn [moderate]. unfold near. rewrite frac_value. assert (IZR (Zpos (5559999489367579 + k)) <= 5559999489368579) by (apply IZR_le; lia).
  assert (0 <= IZR (Zpos (5559999489367579 + k))) by (apply IZR_le; lia).
  replace (2 ^ 52)%Z with 4503599627370496%Z by reflexivity. generalize dependent (IZR (Zpos (5559999489367579 + k))). intros r R1 R2. rewrite Rabs_pos_eq by lra.
  apply Rle_trans with (bpow radix2 1); [cbn [bpow]; change (Z.pow_pos radix2 1) with 2%Z; lra|apply bpow_le; lia].
Qed.
Ltac member := split; [split; [split; vm_compute; reflexivity|vm_compute; reflexivity]|apply near_fine; [lia|split; vm_compute; reflexivity]].
Lemma less_and_equal : exists a b, (proper a /\ moderate a) /\ (proper b /\ moderate b) /\ numberEq a b = true /\ numberLt a b = true.
Proof.
  exists (NDbl (near 1)), (NDbl (near 2)). split; [member|]. split; [member|]. split; vm_compute; reflexivity.
Qed.
Lemma equal_not_transitive : exists a b c, (proper a /\ moderate a) /\ (proper b /\ moderate b) /\ (proper c /\ moderate c) /\
  numberEq a b = true /\ numberEq b c = true /\ numberEq a c = false.
Proof.
  exists (NDbl (near 1)), (NDbl (near 100)), (NDbl (near 200)). split; [member|]. split; [member|]. split; [member|].
  split; [vm_compute; reflexivity|]. split; vm_compute; reflexivity.
Qed.
(** Two rationals that are different and neither of which is less. *)
Lemma incomparable : exists a b, (proper a /\ moderate a) /\ (proper b /\ moderate b) /\ numberEq a b = false /\ numberLt a b = false /\ numberLt b a = false.
Proof.
  exists (NRat (4503599627370497 # 9007199254740991)), (NRat (4503599627370496 # 9007199254740989)).
  split; [split; [vm_compute; reflexivity|cbn [moderate Qnum Qden]; lia]|]. split; [split; [vm_compute; reflexivity|cbn [moderate Qnum Qden]; lia]|].
  split; [vm_compute; reflexivity|]. split; vm_compute; reflexivity.
Qed.

(** ** Cases *)
Lemma laws a b : proper a ->
  numberAdd a b = numberAdd b a /\ numberMul a b = numberMul b a /\
  numberAdd a (ofInt 0) = a /\ numberMul a (ofInt 1) = a /\ numberMul a (ofInt 0) = ofInt 0 /\
  numberSub a a = ofInt 0 /\ numberNeg (numberNeg a) = a.
Proof.
  intros H. split; [apply numberAdd_comm|]. split; [apply numberMul_comm|]. split; [now apply numberAdd_0|]. split; [now apply numberMul_1|].
  split; [now apply numberMul_0|]. split; [now apply numberSub_self|now apply numberNeg_twice].
Qed.
Lemma decimals_exact n v : (Z.abs n <= 2 ^ 50)%Z -> roundsTo (IZR n / 10000) v ->
  exists q, ofDouble v = NRat q /\ canon q /\ Q2R q = IZR n / 10000.
Proof.
  intros N H. exists (Qred (n # 10000)). split; [now apply ofDouble_decimal|]. split; [apply canon_Qred|]. apply Q2R_tenk.
Qed.
Lemma decimal_case : roundsTo (IZR 12345 / 10000) (SFdiv 53 1024 (dOfZ 12345) (dOfZ 10000)) /\
  ofDouble (SFdiv 53 1024 (dOfZ 12345) (dOfZ 10000)) = NRat (2469 # 2000).
Proof.
  split; [|vm_compute; reflexivity].
  assert (I : forall z, (0 < z <= 2 ^ 20)%Z -> isDouble (dOfZ z) /\ doubleValue (dOfZ z) = IZR z).
  { intros z Hz. apply ofZ_value; [apply rnd_int; lia|]. rewrite Rabs_pos_eq by (apply IZR_le; lia).
    apply Rle_lt_trans with (bpow radix2 20); [|apply bpow_lt; lia]. change (bpow radix2 20) with (IZR (2 ^ 20)). apply IZR_le. lia. }
  destruct (I 12345%Z) as [D1 V1]; [lia|]. destruct (I 10000%Z) as [D2 V2]; [lia|].
  destruct (div_value (dOfZ 12345) (dOfZ 10000) D1 D2) as [D V]; rewrite ?V1, ?V2 in *; [lra| |].
  - apply fits_2. rewrite Rabs_pos_eq by lra. apply Rle_trans with (bpow radix2 1); [cbn [bpow]; change (Z.pow_pos radix2 1) with 2%Z; lra|apply bpow_le; lia].
  - split; [exact D|exact V].
Qed.
Lemma equal_laws a b : proper a -> proper b -> moderate a -> moderate b ->
  numberEq a a = true /\ numberEq a b = numberEq b a /\
  (numberEq a b = true -> Rabs (numberValue a - numberValue b) <= bpow radix2 (-45) * (1 + Rabs (numberValue a) + Rabs (numberValue b))).
Proof. intros A B Ma Mb. split; [now apply numberEq_refl|]. split; [now apply numberEq_comm|now apply numberEq_sound]. Qed.
Lemma less_case : (proper (NDbl little) /\ moderate (NDbl little)) /\ numberLt (ofInt 0) (NDbl little) = true /\ toDouble (NDbl little) <> S754_nan.
Proof. split; [exact (conj littleProper littleModerate)|]. split; [vm_compute; reflexivity|discriminate]. Qed.
Lemma program_case : moderateDivisors (ADiv (AAdd (AFrac 1 6) (AFrac (-3) 4)) (ASub (AInt 2) (AFrac 5 (-10)))) /\
  forall pw root, arunN pw root 2 (ADiv (AAdd (AFrac 1 6) (AFrac (-3) 4)) (ASub (AInt 2) (AFrac 5 (-10)))) = Returns (NRat (-7 # 30)).
Proof.
  split; [|intros pw root; vm_compute; reflexivity].
  intros y v [<- |[]] H. cbn [ameans] in H. destruct (Req_EM_T (IZR (-10)) 0) as [E|_]; [lra|]. injection H as <-.
  exists 5%Z, 2%Z. split; [lia|]. split; [lia|lra].
Qed.
Lemma power_case : canon (-2 # 3) /\ forall pw root,
  toThe (powFloats pw root) (-2 # 3) (-3 # 1) = PRat (-27 # 8) /\ numberPow pw root 2 (NRat (-2 # 3)) (NRat (-3 # 1)) = Returns (NRat (-27 # 8)).
Proof. split; [reflexivity|]. intros pw root. split; vm_compute; reflexivity. Qed.
Lemma tiny_division pw root n :
  arunN pw root n (ADiv (AInt 1) (AFrac 1 (10 ^ 400))) = Running /\
  ameans (ADiv (AInt 1) (AFrac 1 (10 ^ 400))) = Some (IZR (10 ^ 400)).
Proof.
  split; [apply tiny_hangs|]. cbn [ameans]. assert (X : (0 < IZR (10 ^ 400))%R) by (apply IZR_lt; now apply Z.pow_pos_nonneg). set (t := IZR (10 ^ 400)) in *.
  destruct (Req_EM_T t 0) as [E|_]; [lra|]. destruct (Req_EM_T (1 / t) 0) as [E|_].
  - exfalso. assert (1 / t * t = 1)%R by (field; lra). rewrite E in H. lra.
  - f_equal. field. lra.
Qed.
