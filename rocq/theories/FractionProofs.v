(** Number(double): the fraction made of a double. *)
From Verif Require Import DoubleModel DoubleExact MixedModel MixedSpec DoubleOps NumberProofs NumberSpec.
Require Import Flocq.Core.Core Flocq.IEEE754.BinarySingleNaN Flocq.Prop.Relative.
From Coq Require Import Lia Lra Reals Qreals.
Open Scope R_scope.
#[local] Existing Instance Hprec.
#[local] Existing Instance Hmax.

(** ** Signs *)
Lemma round_aux_opp s m e l : SpecFloat.binary_round_aux 53 1024 (negb s) m e l = SFopp (SpecFloat.binary_round_aux 53 1024 s m e l).
Proof.
  unfold SpecFloat.binary_round_aux. destruct (shr_fexp 53 1024 m e l) as [mrs e']. destruct (shr_fexp 53 1024 _ e' loc_Exact) as [mrs' e''].
  destruct (shr_m mrs'); try reflexivity. now destruct (Z.leb e'' (1024 - 53)).
Qed.
Lemma round_opp s m e : SpecFloat.binary_round 53 1024 (negb s) m e = SFopp (SpecFloat.binary_round 53 1024 s m e).
Proof. unfold SpecFloat.binary_round. destruct (shl_align m e _). apply round_aux_opp. Qed.
Lemma norm_opp m e s : m <> 0%Z -> SpecFloat.binary_normalize 53 1024 (- m) e s = SFopp (SpecFloat.binary_normalize 53 1024 m e s).
Proof. intros N. destruct m as [|p|p]; [now destruct N|..]; cbn [Z.opp SpecFloat.binary_normalize]; [apply (round_opp false)|].
  rewrite <- (negb_involutive false). cbn [negb]. apply (round_opp true). Qed.
Lemma ofZ_opp z : z <> 0%Z -> dOfZ (- z) = SFopp (dOfZ z).
Proof. apply norm_opp. Qed.
Lemma mul_opp x y : mul (SFopp x) y = SFopp (mul x y).
Proof.
  destruct x as [s|s| |s m e], y as [s'|s'| |s' m' e']; cbn; try reflexivity; try (now rewrite <- negb_xorb_l); rewrite <- negb_xorb_l. apply round_aux_opp.
Qed.
Lemma div_opp x y : div (SFopp x) y = SFopp (div x y).
Proof.
  destruct x as [s|s| |s m e], y as [s'|s'| |s' m' e']; cbn [SFopp SFdiv]; try reflexivity; try (now rewrite <- negb_xorb_l); rewrite <- negb_xorb_l.
  destruct (SFdiv_core_binary 53 1024 (Z.pos m) e (Z.pos m') e') as [[q e''] l]. apply round_aux_opp.
Qed.
Lemma trunc_opp x : dTrunc (SFopp x) = (- dTrunc x)%Z.
Proof. destruct x as [s|s| |[|] m e]; cbn [SFopp dTrunc negb]; lia. Qed.
Lemma lt_opp x y : SFltb (SFopp x) (SFopp y) = SFltb y x.
Proof.
  unfold SFltb. destruct x as [[|]|[|]| |[|] m e], y as [[|]|[|]| |[|] m' e']; cbn; try reflexivity.
  - rewrite (Z.compare_antisym e e'), (Pos.compare_antisym m m') || idtac. destruct (Z.compare_spec e e') as [->|L|L].
    + rewrite Z.compare_refl. fold (Pos.compare m m'). fold (Pos.compare m' m). rewrite (Pos.compare_antisym m m'). now destruct (Pos.compare m m').
    + now rewrite (proj2 (Z.compare_gt_iff e' e)) by lia.
    + now rewrite (proj2 (Z.compare_lt_iff e' e)) by lia.
  - destruct (Z.compare_spec e e') as [->|L|L].
    + rewrite Z.compare_refl. fold (Pos.compare m m'). fold (Pos.compare m' m). rewrite (Pos.compare_antisym m m'). now destruct (Pos.compare m m').
    + now rewrite (proj2 (Z.compare_gt_iff e' e)) by lia.
    + now rewrite (proj2 (Z.compare_lt_iff e' e)) by lia.
Qed.
Lemma add_opp_same s m e m' e' : add (S754_finite (negb s) m e) (S754_finite (negb s) m' e') = SFopp (add (S754_finite s m e) (S754_finite s m' e')).
Proof.
  cbn [SFadd]. rewrite <- norm_opp.
  - f_equal. destruct s; cbn [negb SpecFloat.cond_Zopp]; lia.
  - destruct s; cbn [negb SpecFloat.cond_Zopp]; lia.
Qed.
Lemma add_zero_opp s m e z z' : add (S754_zero z) (S754_finite (negb s) m e) = SFopp (add (S754_zero z') (S754_finite s m e)).
Proof. reflexivity. Qed.
Lemma sub_opp_abs x y : SFabs (sub (SFopp x) (SFopp y)) = SFabs (sub x y).
Proof.
  destruct x as [[|]|[|]| |s m e], y as [[|]|[|]| |s' m' e']; try reflexivity; try (now destruct s); try (now destruct s').
  cbn [SFopp SFsub]. set (z := (SpecFloat.cond_Zopp s _ - SpecFloat.cond_Zopp s' _)%Z).
  replace (SpecFloat.cond_Zopp (negb s) _ - SpecFloat.cond_Zopp (negb s') _)%Z with (- z)%Z by (unfold z; destruct s, s'; cbn [negb SpecFloat.cond_Zopp]; lia).
  destruct (Z.eq_dec z 0) as [-> |N]; [reflexivity|]. rewrite norm_opp by exact N. now destruct (SpecFloat.binary_normalize 53 1024 z _ false).
Qed.

(** The limits, src/number.cpp:64-69. *)
Definition limit : spec_float := Eval vm_compute in sub (div dMax (dOfZ 10000)) (div dHalf (dOfZ 10000)).
Definition dTenth : spec_float := dOfZ 10000.
Definition attempt (v : spec_float) (inc : spec_float) : option Q :=
  let t := dTrunc (add (mul v (dOfZ 10000)) inc) in
  if SFltb (SFabs (sub (div (dOfZ t) (dOfZ 10000)) v)) dEps then mkRat t 10000 else None.
Lemma fraction_pos m e : doubleToFraction (S754_finite false m e) =
  if SFltb limit (S754_finite false m e) then None else attempt (S754_finite false m e) dHalf.
Proof.
  unfold doubleToFraction. change (SFltb (dOfZ 0) (S754_finite false m e)) with true. cbv beta iota zeta.
  change (sub (div dMax (dOfZ 10000)) (div dHalf (dOfZ 10000))) with limit.
  destruct (SFltb limit (S754_finite false m e)); [reflexivity|]. reflexivity.
Qed.
Lemma fraction_neg m e : doubleToFraction (S754_finite true m e) =
  if SFltb (S754_finite true m e) (SFopp limit) then None else attempt (S754_finite true m e) (SFopp dHalf).
Proof.
  unfold doubleToFraction. change (SFltb (dOfZ 0) (S754_finite true m e)) with false. cbv beta iota zeta.
  change (sub (div (SFopp dMax) (dOfZ 10000)) (div (SFopp dHalf) (dOfZ 10000))) with (SFopp limit).
  reflexivity.
Qed.
Lemma mkRat_opp t : mkRat (- t) 10000 = option_map qneg (mkRat t 10000).
Proof.
  cbn [mkRat option_map]. f_equal. unfold qneg. symmetry. apply Qred_complete. pose proof (Qred_correct (t # 10000)) as E.
  unfold Qeq in *. cbn [Qnum Qden] in *. lia.
Qed.
Lemma round_aux_sign s m e l z m' e' : SpecFloat.binary_round_aux 53 1024 s m e l = S754_finite z m' e' -> z = s.
Proof.
  unfold SpecFloat.binary_round_aux. destruct (shr_fexp 53 1024 m e l) as [mrs e0]. destruct (shr_fexp 53 1024 _ e0 loc_Exact) as [mrs' e1].
  destruct (shr_m mrs'); try discriminate. destruct (Z.leb e1 (1024 - 53)); [|discriminate]. now intros [=].
Qed.
Definition halfS (s : bool) : spec_float := if s then SFopp dHalf else dHalf.
Lemma halfS_is s : halfS s = S754_finite s 4503599627370496 (-53).
Proof. now destruct s. Qed.
(** The fraction for the negative value is the negative fraction. *)
Lemma attempt_opp s m e : attempt (S754_finite (negb s) m e) (halfS (negb s)) = option_map qneg (attempt (S754_finite s m e) (halfS s)).
Proof.
  assert (H : dTrunc (add (mul (S754_finite (negb s) m e) (dOfZ 10000)) (halfS (negb s))) =
             (- dTrunc (add (mul (S754_finite s m e) (dOfZ 10000)) (halfS s)))%Z).
  { rewrite <- trunc_opp. f_equal. change (S754_finite (negb s) m e) with (SFopp (S754_finite s m e)). rewrite mul_opp, !halfS_is.
    destruct (mul (S754_finite s m e) (dOfZ 10000)) as [z|z| |z m' e'] eqn:E; try reflexivity.
    assert (z = s) as ->; [|apply add_opp_same].
    change (dOfZ 10000) with (S754_finite false 5497558138880000 (-39)) in E. cbn [SFmul] in E. apply round_aux_sign in E. now destruct s. }
  unfold attempt. rewrite H. set (t := dTrunc (add _ (halfS s))).
  replace (SFabs (sub (div (dOfZ (- t)) (dOfZ 10000)) (S754_finite (negb s) m e))) with (SFabs (sub (div (dOfZ t) (dOfZ 10000)) (S754_finite s m e))).
  - cbv zeta. destruct (SFltb _ dEps); [apply mkRat_opp|reflexivity].
  - rewrite <- sub_opp_abs. change (SFopp (S754_finite s m e)) with (S754_finite (negb s) m e).
    destruct (Z.eq_dec t 0) as [-> |N]; [|now rewrite ofZ_opp, div_opp by exact N]. reflexivity.
Qed.
Lemma fraction_opp x : doubleToFraction (SFopp x) = option_map qneg (doubleToFraction x).
Proof.
  destruct x as [[|]|[|]| |[|] m e]; [vm_compute; reflexivity..| |].
  - change (SFopp (S754_finite true m e)) with (S754_finite false m e). rewrite fraction_neg, fraction_pos.
    change (S754_finite true m e) with (SFopp (S754_finite false m e)) at 1. rewrite lt_opp.
    destruct (SFltb limit (S754_finite false m e)); [reflexivity|apply (attempt_opp true)].
  - change (SFopp (S754_finite false m e)) with (S754_finite true m e). rewrite fraction_neg, fraction_pos.
    change (S754_finite true m e) with (SFopp (S754_finite false m e)) at 1. rewrite lt_opp.
    destruct (SFltb limit (S754_finite false m e)); [reflexivity|apply (attempt_opp false)].
Qed.

(** ** Values *)
Lemma mul_fits x y : isDouble x -> isDouble y -> is_finite_SF (mul x y) = true -> fits (doubleValue x * doubleValue y).
Proof.
  intros Hx Hy H. destruct (is_float x Hx) as (a & -> & Ea & Fa), (is_float y Hy) as (b & -> & Eb & Fb).
  rewrite <- Ea, <- Eb. change 53%Z with prec in H. change 1024%Z with emax in H. rewrite mul_equiv in H.
  pose proof (Bmult_correct prec emax Hprec Hmax mode_NE a b) as E. unfold fits, rnd.
  destruct (Rlt_bool_spec (Rabs (round radix2 (fexp prec emax) (round_mode mode_NE) (B2R a * B2R b))) (bpow radix2 emax)) as [L|G]; [exact L|].
  rewrite E in H. discriminate H.
Qed.
Lemma add_fits x y : isDouble x -> isDouble y -> is_finite_SF (add x y) = true -> fits (doubleValue x + doubleValue y).
Proof.
  intros Hx Hy H. destruct (is_float x Hx) as (a & -> & Ea & Fa), (is_float y Hy) as (b & -> & Eb & Fb).
  rewrite <- Ea, <- Eb. change 53%Z with prec in H. change 1024%Z with emax in H. rewrite add_equiv in H.
  pose proof (Bplus_correct prec emax Hprec Hmax mode_NE a b Fa Fb) as E. unfold fits, rnd.
  destruct (Rlt_bool_spec (Rabs (round radix2 (fexp prec emax) (round_mode mode_NE) (B2R a + B2R b))) (bpow radix2 emax)) as [L|G]; [exact L|].
  destruct E as [E _]. rewrite E in H. discriminate H.
Qed.
Lemma finite_value s m e : doubleValue (S754_finite s m e) = F2R (Float radix2 (cond_Zopp s (Zpos m)) e).
Proof. reflexivity. Qed.
Lemma finite_pos m e : 0 < doubleValue (S754_finite false m e).
Proof. rewrite finite_value. now apply F2R_gt_0. Qed.
Lemma finite_neg m e : doubleValue (S754_finite true m e) < 0.
Proof. rewrite finite_value. now apply F2R_lt_0. Qed.
Lemma mantissa s m e : isDouble (S754_finite s m e) -> (Zpos m < 2 ^ 53)%Z.
Proof.
  intros [V _]. cbn [valid_binary] in V. unfold bounded in V. apply andb_prop in V as [V _]. unfold canonical_mantissa in V.
  apply Zeq_bool_eq in V. rewrite Zpos_digits2_pos in V. unfold SpecFloat.fexp in V.
  assert (L : (Zdigits radix2 (Zpos m) <= 53)%Z) by lia. exact (Zpower_gt_Zdigits radix2 53 (Zpos m) L).
Qed.
Lemma trunc_value x : isDouble x -> 0 <= doubleValue x ->
  IZR (dTrunc x) <= doubleValue x < IZR (dTrunc x) + 1 /\ rnd (IZR (dTrunc x)) = IZR (dTrunc x) /\ (0 <= dTrunc x)%Z.
Proof.
  intros Hx P. destruct x as [s|s| |[|] m e].
  - cbn. rewrite rnd_0. repeat split; lra || lia.
  - destruct Hx as [_ Hx]. discriminate Hx.
  - destruct Hx as [_ Hx]. discriminate Hx.
  - pose proof (finite_neg m e). lra.
  - pose proof (format_value _ Hx) as F. pose proof (mantissa _ _ _ Hx) as M. rewrite finite_value in *. cbn [cond_Zopp] in *. unfold F2R in *. cbn [Fnum Fexp] in *.
    cbn [dTrunc]. destruct (Z.leb_spec 0 e) as [L|L].
    + assert (E : IZR (Zpos m * 2 ^ e) = IZR (Zpos m) * bpow radix2 e).
      { rewrite mult_IZR. f_equal. rewrite (IZR_Zpower radix2) by exact L. reflexivity. }
      rewrite E. repeat split; [lra|lra|exact F|]. apply Z.mul_nonneg_nonneg; [lia|]. apply Z.pow_nonneg. lia.
    + assert (B : 0 < IZR (2 ^ (- e))) by (apply IZR_lt; apply Z.pow_pos_nonneg; lia).
      assert (E : bpow radix2 e = / IZR (2 ^ (- e))).
      { rewrite (IZR_Zpower radix2) by lia. rewrite bpow_opp. now rewrite Rinv_inv. }
      pose proof (Z.div_mod (Zpos m) (2 ^ (- e))) as D. pose proof (Z.mod_pos_bound (Zpos m) (2 ^ (- e))) as R.
      set (q := (Zpos m / 2 ^ (- e))%Z) in *. set (b := (2 ^ (- e))%Z) in *. assert (0 < b)%Z by (apply Z.pow_pos_nonneg; lia).
      assert (b * q <= Zpos m < b * (q + 1))%Z as [D1 D2] by lia. rewrite E.
      apply IZR_le in D1. apply IZR_lt in D2. rewrite mult_IZR in D1, D2. rewrite plus_IZR in D2.
      assert (Q0 : (0 <= q)%Z) by (apply Z.div_pos; lia).
      repeat split.
      * apply Rmult_le_reg_r with (IZR b); [exact B|]. rewrite Rmult_assoc, Rinv_l by lra. lra.
      * apply Rmult_lt_reg_r with (IZR b); [exact B|]. rewrite Rmult_assoc, Rinv_l by lra. lra.
      * apply rnd_int. assert (q <= Zpos m)%Z by nia. lia.
      * exact Q0.
Qed.
Lemma d10000 : isDouble (dOfZ 10000) /\ doubleValue (dOfZ 10000) = 10000.
Proof.
  apply ofZ_value; [apply rnd_int; lia|]. rewrite Rabs_pos_eq by lra. apply Rlt_le_trans with (bpow radix2 14); [cbn; lra|apply bpow_le; lia].
Qed.
Lemma dhalf : isDouble dHalf /\ doubleValue dHalf = / 2.
Proof.
  split; [split; vm_compute; reflexivity|]. change dHalf with (S754_finite false 4503599627370496 (-53)). rewrite finite_value.
  unfold F2R. cbn [Fnum Fexp cond_Zopp]. change 4503599627370496%Z with (radix2 ^ 52)%Z. rewrite IZR_Zpower by lia. rewrite <- bpow_plus. reflexivity.
Qed.
Lemma deps : isDouble dEps /\ doubleValue dEps = bpow radix2 (-52).
Proof.
  split; [split; vm_compute; reflexivity|]. change dEps with (S754_finite false 4503599627370496 (-104)). rewrite finite_value.
  unfold F2R. cbn [Fnum Fexp cond_Zopp]. change 4503599627370496%Z with (radix2 ^ 52)%Z. rewrite IZR_Zpower by lia. rewrite <- bpow_plus. reflexivity.
Qed.
Lemma dlimit : isDouble limit.
Proof. split; vm_compute; reflexivity. Qed.

Lemma fits_of_value x : isDouble x -> fits (doubleValue x).
Proof. intros H. unfold fits. rewrite format_value by exact H. now apply value_bound. Qed.
Lemma fits_diff a b : 0 <= a -> 0 <= b -> fits a -> fits b -> fits (a - b).
Proof.
  intros A B Fa Fb. destruct (Rle_or_lt a b) as [L|L].
  - apply fits_le with b; [|exact Fb]. rewrite Rabs_left1, Rabs_pos_eq; lra.
  - apply fits_le with a; [|exact Fa]. rewrite Rabs_pos_eq, Rabs_pos_eq; lra.
Qed.
Lemma fraction_value v : isDouble v -> 0 < doubleValue v -> doubleValue v <= doubleValue limit ->
  exists t, (0 <= t)%Z /\ IZR t <= rnd (rnd (doubleValue v * 10000) + / 2) < IZR t + 1 /\ rnd (IZR t) = IZR t /\
    doubleToFraction v = if Rlt_bool (Rabs (rnd (rnd (IZR t / 10000) - doubleValue v))) (bpow radix2 (-52)) then mkRat t 10000 else None.
Proof.
  intros Hv P L. destruct v as [s|s| |[|] m e]; try (destruct Hv as [_ Hv]; discriminate Hv); [cbn in P; lra|pose proof (finite_neg m e); lra|].
  rewrite fraction_pos, lt_value, Rlt_bool_false by (assumption || apply dlimit). unfold attempt. set (v := S754_finite false m e) in *.
  destruct d10000 as [D1 V1], dhalf as [D2 V2], deps as [D3 V3].
  assert (F1 : fits (doubleValue v * doubleValue (dOfZ 10000))).
  { apply fits_le with (doubleValue limit * doubleValue (dOfZ 10000)); [|apply mul_fits; [apply dlimit|exact D1|vm_compute; reflexivity]].
    rewrite V1, !Rabs_pos_eq; lra. }
  destruct (mul_value v (dOfZ 10000) Hv D1 F1) as [M MV]. rewrite V1 in MV.
  destruct (mul_value limit (dOfZ 10000) dlimit D1) as [ML MLV]; [apply mul_fits; [apply dlimit|exact D1|vm_compute; reflexivity]|]. rewrite V1 in MLV.
  assert (P1 : 0 <= rnd (doubleValue v * 10000)) by (rewrite <- rnd_0; apply rnd_le; lra).
  assert (F2 : fits (doubleValue (mul v (dOfZ 10000)) + doubleValue dHalf)).
  { apply fits_le with (doubleValue (mul limit (dOfZ 10000)) + doubleValue dHalf); [|apply add_fits; [exact ML|exact D2|vm_compute; reflexivity]].
    rewrite MV, MLV, V2. assert (rnd (doubleValue v * 10000) <= rnd (doubleValue limit * 10000)) by (apply rnd_le; lra).
    rewrite !Rabs_pos_eq; lra. }
  destruct (add_value _ _ M D2 F2) as [A AV]. rewrite MV, V2 in AV.
  assert (P2 : 0 <= doubleValue (add (mul v (dOfZ 10000)) dHalf)) by (rewrite AV, <- rnd_0; apply rnd_le; lra).
  destruct (trunc_value _ A P2) as (T1 & T2 & T3). set (t := dTrunc (add (mul v (dOfZ 10000)) dHalf)) in *.
  exists t. split; [exact T3|]. split; [now rewrite <- AV|]. split; [exact T2|].
  assert (T0 : 0 <= IZR t) by now apply IZR_le.
  assert (TB : Rabs (IZR t) < bpow radix2 1024).
  { rewrite Rabs_pos_eq by exact T0. pose proof (value_bound _ A) as B. rewrite Rabs_pos_eq in B by exact P2. lra. }
  destruct (ofZ_value t T2 TB) as [D4 V4].
  assert (FT : fits (IZR t)) by (unfold fits; now rewrite T2).
  assert (F3 : fits (doubleValue (dOfZ t) / doubleValue (dOfZ 10000))).
  { rewrite V4, V1. apply fits_le with (IZR t); [|exact FT]. rewrite !Rabs_pos_eq; lra. }
  destruct (div_value _ _ D4 D1 ltac:(rewrite V1; lra) F3) as [D5 V5]. rewrite V4, V1 in V5.
  assert (P3 : 0 <= doubleValue (div (dOfZ t) (dOfZ 10000))) by (rewrite V5, <- rnd_0; apply rnd_le; lra).
  assert (F4 : fits (doubleValue (div (dOfZ t) (dOfZ 10000)) - doubleValue v)).
  { apply fits_diff; [exact P3|lra|now apply fits_of_value|now apply fits_of_value]. }
  destruct (sub_value _ _ D5 Hv F4) as [D6 V6]. rewrite V5 in V6. destruct (abs_value _ D6) as [D7 V7]. rewrite V6 in V7.
  rewrite lt_value, V7, V3 by assumption. reflexivity.
Qed.

Lemma limit_large : bpow radix2 900 <= doubleValue limit.
Proof.
  unfold limit. rewrite finite_value. unfold F2R. cbn [Fnum Fexp cond_Zopp].
  match goal with |- _ <= IZR (Zpos ?m) * bpow _ ?e => apply Rle_trans with (1 * bpow radix2 e) end.
  - rewrite Rmult_1_l. apply bpow_le. lia.
  - apply Rmult_le_compat_r; [apply bpow_ge_0|]. apply IZR_le. lia.
Qed.
Lemma tiny : 0 <= bpow radix2 (-1075) <= / 9007199254740992 / 1000000000.
Proof.
  split; [apply bpow_ge_0|]. apply Rle_trans with (bpow radix2 (-100)); [apply bpow_le; lia|].
  change (bpow radix2 (-100)) with (/ 1267650600228229401496703205376). lra.
Qed.
Lemma close r : 0 <= r -> Rabs (rnd r - r) <= / 9007199254740992 * r + bpow radix2 (-1075).
Proof. intros P. pose proof (rnd_close r) as H. rewrite (Rabs_pos_eq r) in H by exact P. exact H. Qed.
Lemma rnd_pos r : 0 <= r -> 0 <= rnd r.
Proof. intros H. rewrite <- rnd_0. now apply rnd_le. Qed.

Lemma decimal_pos n v : (0 < n <= 2 ^ 50)%Z -> isDouble v -> doubleValue v = rnd (IZR n / 10000) -> doubleToFraction v = mkRat n 10000.
Proof.
  intros N Hv V. pose proof tiny as T. set (d := bpow radix2 (-1075)) in *.
  assert (N1 : 1 <= IZR n) by (apply IZR_le; lia). assert (N2 : IZR n <= 1125899906842624) by (apply IZR_le; lia).
  assert (C1 : Rabs (rnd (IZR n / 10000) - IZR n / 10000) <= / 9007199254740992 * (IZR n / 10000) + d) by (apply close; lra).
  rewrite <- V in C1. apply Rabs_le_inv in C1. assert (P : 0 < doubleValue v) by lra.
  destruct (fraction_value v Hv P) as (t & T0 & T1 & T2 & ->).
  { apply Rle_trans with (bpow radix2 900); [|apply limit_large]. apply Rle_trans with (bpow radix2 50); [|apply bpow_le; lia].
    change (bpow radix2 50) with 1125899906842624. lra. }
  assert (C2 : Rabs (rnd (doubleValue v * 10000) - doubleValue v * 10000) <= / 9007199254740992 * (doubleValue v * 10000) + d) by (apply close; lra).
  apply Rabs_le_inv in C2. assert (P2 : 0 <= rnd (doubleValue v * 10000)) by (apply rnd_pos; lra).
  assert (C3 : Rabs (rnd (rnd (doubleValue v * 10000) + / 2) - (rnd (doubleValue v * 10000) + / 2)) <= / 9007199254740992 * (rnd (doubleValue v * 10000) + / 2) + d)
    by (apply close; lra).
  apply Rabs_le_inv in C3. assert (t = n) as ->.
  { assert (L1 : IZR t < IZR n + 1) by lra. assert (L2 : IZR n < IZR t + 1) by lra. rewrite <- plus_IZR in L1, L2. apply lt_IZR in L1, L2. lia. }
  rewrite <- V. unfold Rminus. rewrite Rplus_opp_r, rnd_0, Rabs_R0, Rlt_bool_true; [reflexivity|apply bpow_gt_0].
Qed.
Lemma zero_value x : isDouble x -> doubleValue x = 0 -> exists s, x = S754_zero s.
Proof.
  intros Hx E. destruct x as [s|s| |[|] m e]; try (destruct Hx as [_ Hx]; discriminate Hx).
  - now exists s.
  - pose proof (finite_neg m e). lra.
  - pose proof (finite_pos m e). lra.
Qed.
Lemma fraction_canon v q : doubleToFraction v = Some q -> canon q.
Proof.
  unfold doubleToFraction. destruct (SFltb _ v); [discriminate|]. destruct (SFltb v _); [discriminate|]. cbv zeta. destruct (SFltb _ dEps); [|discriminate].
  match goal with |- mkRat ?t _ = _ -> _ => generalize t end. intros t H. change (Some (Qred (t # 10000)) = Some q) in H.
  assert (q = Qred (t # 10000)) as -> by congruence. apply canon_Qred.
Qed.
Lemma qneg_inj p q : canon p -> canon q -> qneg p = qneg q -> p = q.
Proof.
  intros P Q E. apply canon_eq; [exact P|exact Q|]. destruct (qneg_spec p) as [_ H1], (qneg_spec q) as [_ H2]. rewrite E, H2 in H1.
  rewrite <- (Qopp_involutive p), <- H1. apply Qopp_involutive.
Qed.
Lemma decimal n v : (Z.abs n <= 2 ^ 50)%Z -> roundsTo (IZR n / 10000) v -> doubleToFraction v = Some (Qred (n # 10000)).
Proof.
  intros N H. destruct (roundsTo_rnd _ _ H) as [Hv V]. change (doubleToFraction v = mkRat n 10000).
  destruct (Z.lt_trichotomy n 0) as [L|[-> |G]].
  - destruct (opp_value v Hv) as [Ho Vo]. assert (E : doubleToFraction (SFopp v) = mkRat (- n) 10000).
    { apply decimal_pos; [lia|exact Ho|]. rewrite Vo, V, <- rnd_opp. f_equal. rewrite opp_IZR. field. }
    rewrite fraction_opp, mkRat_opp in E. destruct (doubleToFraction v) as [q|] eqn:F; [|discriminate E].
    cbn [option_map mkRat] in *. injection E as E. f_equal. apply qneg_inj; [now apply fraction_canon with v|apply canon_Qred|exact E].
  - replace (0 / 10000) with 0 in V by field. rewrite rnd_0 in V. destruct (zero_value v Hv V) as [[|] ->]; vm_compute; reflexivity.
  - apply decimal_pos; [lia|exact Hv|exact V].
Qed.

(** ** The fraction is close to the double. *)
Lemma Q2R_tenk t : Q2R (Qred (t # 10000)) = IZR t / 10000.
Proof. rewrite (Qeq_eqR _ _ (Qred_correct (t # 10000))). unfold Q2R. cbn [Qnum Qden]. field. Qed.
Lemma small_below r : Rabs (rnd r) < bpow radix2 (-52) -> Rabs r < bpow radix2 (-52).
Proof.
  intros H. destruct (Rlt_or_le (Rabs r) (bpow radix2 (-52))) as [|G]; [assumption|]. apply rnd_le in G. rewrite rnd_abs in G.
  replace (rnd (bpow radix2 (-52))) with (bpow radix2 (-52)) in G; [lra|]. destruct deps as [D <-]. symmetry. now apply format_value.
Qed.
Lemma close_pos v q : isDouble v -> 0 < doubleValue v -> doubleToFraction v = Some q ->
  Rabs (Q2R q - doubleValue v) <= bpow radix2 (-52) * (1 + Rabs (doubleValue v)) /\ exists t, q = Qred (t # 10000).
Proof.
  intros Hv P F. destruct (Rle_or_lt (doubleValue v) (doubleValue limit)) as [L|G].
  - destruct (fraction_value v Hv P L) as (t & T0 & T1 & T2 & E). rewrite F in E.
    destruct (Rlt_bool_spec (Rabs (rnd (rnd (IZR t / 10000) - doubleValue v))) (bpow radix2 (-52))) as [B|]; [|discriminate E].
    change (Some q = Some (Qred (t # 10000))) in E. assert (q = Qred (t # 10000)) as -> by congruence. split; [|now exists t]. apply small_below in B. rewrite Q2R_tenk.
    pose proof tiny as TT. apply IZR_le in T0. assert (C : Rabs (rnd (IZR t / 10000) - IZR t / 10000) <= / 9007199254740992 * (IZR t / 10000) + bpow radix2 (-1075)) by (apply close; lra).
    change (bpow radix2 (-52)) with (/ 4503599627370496) in *. rewrite (Rabs_pos_eq (doubleValue v)) by lra.
    apply Rabs_le_inv in C. destruct (Rabs_def2 _ _ B) as [B1 B2]. apply Rabs_le.
    destruct (Z.eq_dec t 0) as [-> |N].
    + replace (0 / 10000) with 0 in * by field. rewrite rnd_0 in *. lra.
    + assert (1 <= IZR t) by (apply IZR_le; apply le_IZR in T0; lia). lra.
  - exfalso. destruct v as [s|s| |[|] m e]; try (destruct Hv as [_ Hv]; discriminate Hv); [cbn in P; lra|pose proof (finite_neg m e); lra|].
    rewrite fraction_pos, lt_value, Rlt_bool_true in F by (assumption || apply dlimit). discriminate F.
Qed.
Lemma fraction_close v q : isDouble v -> doubleToFraction v = Some q ->
  Rabs (Q2R q - doubleValue v) <= bpow radix2 (-52) * (1 + Rabs (doubleValue v)) /\ exists t, q = Qred (t # 10000).
Proof.
  intros Hv F. destruct (Rtotal_order (doubleValue v) 0) as [L|[E|G]].
  - destruct (opp_value v Hv) as [Ho Vo]. destruct (close_pos (SFopp v) (qneg q) Ho) as [C [t T]]; [lra|rewrite fraction_opp, F; reflexivity|].
    rewrite Vo, Rabs_Ropp in C. destruct (qneg_spec q) as [_ E]. rewrite (Qeq_eqR _ _ E), Q2R_opp in C. split.
    + rewrite <- Rabs_Ropp. replace (- (Q2R q - doubleValue v)) with (- Q2R q - - doubleValue v) by ring. exact C.
    + exists (- t)%Z. apply qneg_inj; [now apply fraction_canon with v|apply canon_Qred|]. rewrite T.
      change (Some (Qred (t # 10000)) = Some (qneg (Qred (- t # 10000))))%Q || idtac.
      pose proof (mkRat_opp (- t)) as M. rewrite Z.opp_involutive in M. cbn [mkRat option_map] in M. now injection M.
  - destruct (zero_value v Hv E) as [s ->]. assert (q = 0%Q) as -> by (destruct s; vm_compute in F; now injection F). split; [|now exists 0%Z].
    replace (Q2R 0) with 0 by (unfold Q2R; cbn; ring). rewrite E. unfold Rminus. rewrite Ropp_0, Rplus_0_l, Rabs_R0. pose proof (bpow_gt_0 radix2 (-52)). lra.
  - now apply close_pos.
Qed.
