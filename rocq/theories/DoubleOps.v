(** The operations of DoubleModel.v and MixedModel.v on doubles in terms of real numbers (by Flocq), and how they
    treat signs. *)
From Verif Require Import DoubleModel DoubleExact MixedModel NumberProofs MixedSpec.
Require Import Flocq.Core.Core Flocq.IEEE754.BinarySingleNaN Flocq.Prop.Relative.
From Coq Require Import Lia Lra Reals Qreals.
Open Scope R_scope.
#[local] Existing Instance Hprec.
#[local] Existing Instance Hmax.

Notation add := (SFadd 53 1024).
Notation sub := (SFsub 53 1024).
Notation mul := (SFmul 53 1024).
Notation div := (SFdiv 53 1024).

(** ** Equivalence with Flocq *)
Lemma norm_equiv m e s : SpecFloat.binary_normalize prec emax m e s = B2SF (binary_normalize prec emax Hprec Hmax mode_NE m e s).
Proof. case m as [|p|p]; [reflexivity|..]; simpl; rewrite B2SF_SF2B; apply binary_round_equiv. Qed.
Lemma add_equiv x y : SFadd prec emax (B2SF x) (B2SF y) = B2SF (Bplus mode_NE x y).
Proof.
  case x as [sx|sx| |sx mx ex Bx]; case y as [sy|sy| |sy my ey By]; try reflexivity; try (simpl; now case Bool.eqb).
  simpl. rewrite <- norm_equiv. reflexivity.
Qed.
Lemma sub_equiv x y : SFsub prec emax (B2SF x) (B2SF y) = B2SF (Bminus mode_NE x y).
Proof.
  case x as [sx|sx| |sx mx ex Bx]; case y as [sy|sy| |sy my ey By]; try reflexivity; try (simpl; now case Bool.eqb).
  simpl. rewrite <- norm_equiv. unfold Fplus_naive, SpecFloat.cond_Zopp. f_equal. now destruct sy.
Qed.
Lemma mul_equiv x y : SFmul prec emax (B2SF x) (B2SF y) = B2SF (Bmult mode_NE x y).
Proof.
  case x as [sx|sx| |sx mx ex Bx]; case y as [sy|sy| |sy my ey By]; try reflexivity.
  simpl. rewrite B2SF_SF2B. apply binary_round_aux_equiv.
Qed.

(** ** Values *)
Lemma is_float x : isDouble x -> exists b : binary_float prec emax, x = B2SF b /\ B2R b = doubleValue x /\ is_finite b = true.
Proof.
  intros [V F]. exists (SF2B x V). rewrite B2SF_SF2B, B2R_SF2B. repeat split. now rewrite <- is_finite_SF_B2SF, B2SF_SF2B.
Qed.
Lemma float_is (b : binary_float prec emax) : is_finite b = true -> isDouble (B2SF b) /\ doubleValue (B2SF b) = B2R b.
Proof.
  intros F. unfold doubleValue. rewrite SF2R_B2SF. split; [|reflexivity]. split; [apply valid_binary_B2SF|].
  now rewrite is_finite_SF_B2SF.
Qed.
Definition fits (r : R) : Prop := Rabs (rnd r) < bpow radix2 1024.
Lemma add_value x y : isDouble x -> isDouble y -> fits (doubleValue x + doubleValue y) ->
  isDouble (add x y) /\ doubleValue (add x y) = rnd (doubleValue x + doubleValue y).
Proof.
  intros Hx Hy L. destruct (is_float x Hx) as (a & -> & Ea & Fa), (is_float y Hy) as (b & -> & Eb & Fb).
  change 53%Z with prec. change 1024%Z with emax. rewrite add_equiv. rewrite <- Ea, <- Eb in *.
  pose proof (Bplus_correct prec emax Hprec Hmax mode_NE a b Fa Fb) as E. rewrite Rlt_bool_true in E by exact L.
  destruct E as (E & F & _). destruct (float_is _ F) as [D ->]. split; [exact D|exact E].
Qed.
Lemma sub_value x y : isDouble x -> isDouble y -> fits (doubleValue x - doubleValue y) ->
  isDouble (sub x y) /\ doubleValue (sub x y) = rnd (doubleValue x - doubleValue y).
Proof.
  intros Hx Hy L. destruct (is_float x Hx) as (a & -> & Ea & Fa), (is_float y Hy) as (b & -> & Eb & Fb).
  change 53%Z with prec. change 1024%Z with emax. rewrite sub_equiv. rewrite <- Ea, <- Eb in *.
  pose proof (Bminus_correct prec emax Hprec Hmax mode_NE a b Fa Fb) as E. rewrite Rlt_bool_true in E by exact L.
  destruct E as (E & F & _). destruct (float_is _ F) as [D ->]. split; [exact D|exact E].
Qed.
Lemma mul_value x y : isDouble x -> isDouble y -> fits (doubleValue x * doubleValue y) ->
  isDouble (mul x y) /\ doubleValue (mul x y) = rnd (doubleValue x * doubleValue y).
Proof.
  intros Hx Hy L. destruct (is_float x Hx) as (a & -> & Ea & Fa), (is_float y Hy) as (b & -> & Eb & Fb).
  change 53%Z with prec. change 1024%Z with emax. rewrite mul_equiv. rewrite <- Ea, <- Eb in *.
  pose proof (Bmult_correct prec emax Hprec Hmax mode_NE a b) as E. rewrite Rlt_bool_true in E by exact L.
  destruct E as (E & F & _). rewrite Fa, Fb in F. destruct (float_is _ F) as [D ->]. split; [exact D|exact E].
Qed.
Lemma div_value x y : isDouble x -> isDouble y -> doubleValue y <> 0 -> fits (doubleValue x / doubleValue y) ->
  isDouble (div x y) /\ doubleValue (div x y) = rnd (doubleValue x / doubleValue y).
Proof.
  intros Hx Hy N L. destruct (is_float x Hx) as (a & -> & Ea & Fa), (is_float y Hy) as (b & -> & Eb & Fb).
  change 53%Z with prec. change 1024%Z with emax. rewrite div_equiv. rewrite <- Ea, <- Eb in *.
  pose proof (Bdiv_correct prec emax Hprec Hmax mode_NE a b N) as E. rewrite Rlt_bool_true in E by exact L.
  destruct E as (E & F & _). rewrite Fa in F. destruct (float_is _ F) as [D ->]. split; [exact D|exact E].
Qed.
Lemma lt_value x y : isDouble x -> isDouble y -> SFltb x y = Rlt_bool (doubleValue x) (doubleValue y).
Proof.
  intros Hx Hy. destruct (is_float x Hx) as (a & -> & <- & Fa), (is_float y Hy) as (b & -> & <- & Fb). now apply Bltb_correct.
Qed.
Lemma abs_value x : isDouble x -> isDouble (SFabs x) /\ doubleValue (SFabs x) = Rabs (doubleValue x).
Proof.
  intros Hx. destruct (is_float x Hx) as (a & -> & <- & Fa). replace (SFabs (B2SF a)) with (B2SF (Babs a)) by (now destruct a).
  destruct (float_is (Babs a)) as [D ->]; [now rewrite is_finite_Babs|]. split; [exact D|apply B2R_Babs].
Qed.
Lemma opp_value x : isDouble x -> isDouble (SFopp x) /\ doubleValue (SFopp x) = - doubleValue x.
Proof.
  intros Hx. destruct (is_float x Hx) as (a & -> & <- & Fa). replace (SFopp (B2SF a)) with (B2SF (Bopp a)) by (now destruct a).
  destruct (float_is (Bopp a)) as [D ->]; [now rewrite is_finite_Bopp|]. split; [exact D|apply B2R_Bopp].
Qed.
Lemma ofZ_value z : rnd (IZR z) = IZR z -> Rabs (IZR z) < bpow radix2 1024 -> isDouble (dOfZ z) /\ doubleValue (dOfZ z) = IZR z.
Proof.
  intros E L. rewrite dOfZ_equiv. pose proof (binary_normalize_correct prec emax Hprec Hmax mode_NE z 0 false) as C. cbv zeta in C.
  replace (F2R (Float radix2 z 0)) with (IZR z) in C by (unfold F2R; cbn; ring). fold (rnd (IZR z)) in C. rewrite E in C.
  rewrite Rlt_bool_true in C by exact L. destruct C as (C & F & _). fold (bOfZ z) in C, F.
  destruct (float_is _ F) as [D ->]. split; [exact D|exact C].
Qed.
Lemma format_value x : isDouble x -> rnd (doubleValue x) = doubleValue x.
Proof.
  intros Hx. destruct (is_float x Hx) as (a & -> & <- & _). apply round_generic; [apply valid_rnd_round_mode|apply generic_format_B2R].
Qed.
Lemma value_bound x : isDouble x -> Rabs (doubleValue x) < bpow radix2 1024.
Proof. intros Hx. destruct (is_float x Hx) as (a & -> & <- & _). apply abs_B2R_lt_emax. Qed.
Lemma roundsTo_rnd r x : roundsTo r x -> isDouble x /\ doubleValue x = rnd r.
Proof. intros H. exact H. Qed.

(** Rounding. *)
Lemma rnd_opp r : rnd (- r) = - rnd r.
Proof. unfold rnd. apply round_NE_opp. Qed.
Lemma rnd_0 : rnd 0 = 0.
Proof. unfold rnd. apply round_0, valid_rnd_round_mode. Qed.
Lemma rnd_abs r : rnd (Rabs r) = Rabs (rnd r).
Proof.
  unfold Rabs at 1. destruct (Rcase_abs r) as [L|G].
  - rewrite rnd_opp. assert (rnd r <= 0) by (rewrite <- rnd_0; apply rnd_le; lra). rewrite Rabs_left1; lra.
  - assert (0 <= rnd r) by (rewrite <- rnd_0; apply rnd_le; lra). rewrite Rabs_right; lra.
Qed.
(** Absolute and relative error: at most 2^-53 of the value, apart from values below 2^-1022. *)
Lemma rnd_close r : Rabs (rnd r - r) <= bpow radix2 (-53) * Rabs r + bpow radix2 (-1075).
Proof.
  unfold rnd. destruct (error_N_FLT radix2 (-1074) prec Hprec (fun x => negb (Z.even x)) r) as (eps & eta & He & Ht & _ & E).
  change (round_mode mode_NE) with (Znearest (fun x => negb (Z.even x))). change (SpecFloat.fexp prec emax) with (FLT_exp (-1074) prec).
  rewrite E. replace (r * (1 + eps) + eta - r) with (r * eps + eta) by ring. eapply Rle_trans; [apply Rabs_triang|].
  apply Rplus_le_compat.
  - rewrite Rabs_mult, Rmult_comm. apply Rmult_le_compat_r; [apply Rabs_pos|]. eapply Rle_trans; [exact He|].
    change (- prec + 1)%Z with (-53 + 1)%Z. rewrite bpow_plus. change (bpow radix2 1) with 2. lra.
  - eapply Rle_trans; [exact Ht|]. replace (-1074)%Z with (-1075 + 1)%Z by reflexivity. rewrite bpow_plus. change (bpow radix2 1) with 2. lra.
Qed.
Lemma fits_le r s : Rabs r <= Rabs s -> fits s -> fits r.
Proof. unfold fits. rewrite <- !rnd_abs. intros L H. eapply Rle_lt_trans; [apply rnd_le, L|exact H]. Qed.
Lemma fits_2 r : Rabs r <= bpow radix2 1000 -> fits r.
Proof.
  intros L. unfold fits. rewrite <- rnd_abs. apply Rle_lt_trans with (rnd (bpow radix2 1000)); [now apply rnd_le|].
  unfold rnd. rewrite round_generic; [apply bpow_lt; lia|apply valid_rnd_round_mode|]. apply generic_format_bpow. vm_compute. discriminate.
Qed.
