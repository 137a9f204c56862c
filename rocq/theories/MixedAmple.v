(** Rounding errors of numbers whose numerators and denominators may be large. *)
From Verif Require Import DoubleModel DoubleExact MixedModel MixedSpec DoubleOps FractionProofs MixedProofs MixedBounds MixedPow NumberProofs NumberSpec.
Require Import Flocq.Core.Core Flocq.IEEE754.BinarySingleNaN Flocq.Prop.Relative.
From Coq Require Import Lia Lra Reals Qreals.
Open Scope R_scope.
#[local] Existing Instance Hprec.
#[local] Existing Instance Hmax.

Notation h := (5 / 4 * u).
Lemma rnd_rel r : bpow radix2 (-1000) <= Rabs r -> Rabs (rnd r - r) <= h * Rabs r.
Proof.
  intros H. pose proof (close_all r) as C. assert (bpow radix2 (-1075) <= u / 4 * bpow radix2 (-1000)).
  { replace (u / 4) with (bpow radix2 (-55)) by (change (bpow radix2 (-55)) with (/ 36028797018963968); lra). rewrite <- bpow_plus. apply bpow_le. lia. }
  lra.
Qed.
Lemma ofZ_rel z : (0 < z <= 2 ^ 400)%Z -> isDouble (dOfZ z) /\ 1 <= doubleValue (dOfZ z) <= bpow radix2 400 /\ Rabs (doubleValue (dOfZ z) - IZR z) <= h * IZR z.
Proof.
  intros H. rewrite dOfZ_equiv. pose proof (binary_normalize_correct prec emax Hprec Hmax mode_NE z 0 false) as C. cbv zeta in C.
  replace (F2R (Float radix2 z 0)) with (IZR z) in C by (unfold F2R; cbn; ring). fold (rnd (IZR z)) in C.
  assert (Z1 : 1 <= IZR z) by (apply IZR_le; lia).
  assert (B : 1 <= rnd (IZR z) <= bpow radix2 400).
  { change 1 with (bpow radix2 0) at 1. rewrite <- (rnd_bpow 0), <- (rnd_bpow 400) by lia. split; apply rnd_le.
    - change (bpow radix2 0) with (IZR 1). exact Z1.
    - rewrite <- (IZR_Zpower radix2) by lia. apply IZR_le. apply H. }
  rewrite Rlt_bool_true in C.
  - destruct C as (C & F & _). fold (bOfZ z) in C, F. destruct (float_is _ F) as [D ->]. split; [exact D|]. rewrite C. split; [exact B|].
    rewrite <- (Rabs_pos_eq (IZR z)) at 3 by lra. apply rnd_rel. rewrite Rabs_pos_eq by lra. apply Rle_trans with (bpow radix2 0); [apply bpow_le; lia|exact Z1].
  - rewrite Rabs_pos_eq by lra. eapply Rle_lt_trans; [apply B|]. apply bpow_lt. unfold emax. lia.
Qed.
Lemma quotient_rel n d x y : 1 <= n -> 1 <= d -> 1 <= x -> 1 <= y -> Rabs (x - n) <= h * n -> Rabs (y - d) <= h * d ->
  Rabs (x / y - n / d) <= 26 / 10 * u * (n / d).
Proof.
  intros N D X Y Hx Hy. replace (x / y - n / d) with (((x - n) * d - n * (y - d)) / d / y) by (field; lra).
  assert (A : Rabs ((x - n) * d - n * (y - d)) <= 2 * h * (n * d)).
  { unfold Rminus at 1. eapply Rle_trans; [apply Rabs_triang|]. rewrite Rabs_Ropp, !Rabs_mult, (Rabs_pos_eq n), (Rabs_pos_eq d) by lra.
    assert (Rabs (x - n) * d <= h * n * d) by (apply Rmult_le_compat_r; lra). assert (n * Rabs (y - d) <= n * (h * d)) by (apply Rmult_le_compat_l; lra). lra. }
  assert (Y2 : (1 - h) * d <= y) by (apply Rabs_le_inv in Hy; lra).
  unfold Rdiv at 1 2. rewrite !Rabs_mult, !Rabs_inv, (Rabs_pos_eq d), (Rabs_pos_eq y) by lra.
  apply Rmult_le_reg_r with (y * d); [nra|]. replace (Rabs ((x - n) * d - n * (y - d)) * / d * / y * (y * d)) with (Rabs ((x - n) * d - n * (y - d))) by (field; lra).
  replace (26 / 10 * u * (n / d) * (y * d)) with (26 / 10 * u * n * y) by (field; lra).
  eapply Rle_trans; [exact A|]. apply Rle_trans with (26 / 10 * u * n * ((1 - h) * d)); [|apply Rmult_le_compat_l; [nra|exact Y2]].
  assert (0 <= n * d) by nra. replace (26 / 10 * u * n * ((1 - h) * d)) with (26 / 10 * u * (1 - h) * (n * d)) by ring. apply Rmult_le_compat_r; [assumption|]. lra.
Qed.
Lemma dRat_rel_pos q : (0 < Qnum q <= 2 ^ 400)%Z -> (Zpos (Qden q) <= 2 ^ 400)%Z -> isDouble (dRat q) /\
  Rabs (doubleValue (dRat q) - Q2R q) <= 4 * u * Rabs (Q2R q) /\ Rabs (doubleValue (dRat q)) <= bpow radix2 401.
Proof.
  intros Hn Hd. destruct (ofZ_rel (Qnum q) Hn) as (D1 & V1 & E1), (ofZ_rel (Zpos (Qden q))) as (D2 & V2 & E2); [lia|]. unfold dRat.
  assert (N : 1 <= IZR (Qnum q)) by (apply IZR_le; lia). assert (D : 1 <= IZR (Zpos (Qden q))) by (apply IZR_le; lia).
  set (x := doubleValue (dOfZ (Qnum q))) in *. set (y := doubleValue (dOfZ (Zpos (Qden q)))) in *.
  pose proof (quotient_rel _ _ x y N D ltac:(apply V1) ltac:(apply V2) E1 E2) as E. change (IZR (Qnum q) / IZR (Zpos (Qden q))) with (Q2R q) in E.
  assert (B : bpow radix2 (-400) <= x / y <= bpow radix2 400).
  { assert (P : 0 < y) by lra. split.
    - apply Rmult_le_reg_r with y; [exact P|]. unfold Rdiv. rewrite Rmult_assoc, Rinv_l, Rmult_1_r by lra.
      apply Rle_trans with (bpow radix2 (-400) * bpow radix2 400); [apply Rmult_le_compat_l; [apply bpow_ge_0|lra]|].
      rewrite <- bpow_plus. change (bpow radix2 (-400 + 400)) with 1. lra.
    - apply Rmult_le_reg_r with y; [exact P|]. unfold Rdiv. rewrite Rmult_assoc, Rinv_l, Rmult_1_r by lra.
      pose proof (bpow_gt_0 radix2 400). nra. }
  assert (P0 : 0 < x / y) by (pose proof (bpow_gt_0 radix2 (-400)); lra).
  assert (Q0 : 0 < Q2R q) by (unfold Q2R; apply Rmult_lt_0_compat; [lra|apply Rinv_0_lt_compat; lra]).
  destruct (div_value _ _ D1 D2) as [DD V]; [fold y; lra|fold x y; apply fits_2; rewrite Rabs_pos_eq by lra; apply Rle_trans with (bpow radix2 400); [lra|apply bpow_le; lia]|].
  fold x y in V. split; [exact DD|]. rewrite V. assert (R1 : Rabs (rnd (x / y) - x / y) <= h * Rabs (x / y)).
  { apply rnd_rel. rewrite Rabs_pos_eq by lra. apply Rle_trans with (bpow radix2 (-400)); [apply bpow_le; lia|lra]. }
  rewrite (Rabs_pos_eq (x / y)) in R1 by lra. rewrite (Rabs_pos_eq (Q2R q)) by lra. split.
  - replace (rnd (x / y) - Q2R q) with ((rnd (x / y) - x / y) + (x / y - Q2R q)) by ring. eapply Rle_trans; [apply Rabs_triang|].
    apply Rabs_le_inv in E as E'. lra.
  - rewrite <- rnd_abs. apply Rle_trans with (rnd (bpow radix2 400)); [apply rnd_le; rewrite Rabs_pos_eq; lra|]. rewrite rnd_bpow by lia. apply bpow_le. lia.
Qed.
Lemma dRat_rel q : (Z.abs (Qnum q) <= 2 ^ 400)%Z -> (Zpos (Qden q) <= 2 ^ 400)%Z -> isDouble (dRat q) /\
  Rabs (doubleValue (dRat q) - Q2R q) <= 4 * u * Rabs (Q2R q) /\ Rabs (doubleValue (dRat q)) <= bpow radix2 401.
Proof.
  destruct q as [a d]. intros Hn Hd. cbn [Qnum Qden] in *. destruct (Z.lt_trichotomy a 0) as [L|[-> |G]].
  - assert (E : dRat (a # d) = SFopp (dRat (- a # d))) by (rewrite <- (dRat_neg (- a # d)) by (cbn; lia); cbn [Qnum Qden]; now rewrite Z.opp_involutive).
    destruct (dRat_rel_pos (- a # d)) as (D & C & B); cbn [Qnum Qden]; [lia|lia|]. destruct (opp_value _ D) as [DO VO]. rewrite E, VO. split; [exact DO|].
    assert (X : Q2R (- a # d) = - Q2R (a # d)) by (unfold Q2R; cbn [Qnum Qden]; rewrite opp_IZR; ring). rewrite X in C. rewrite Rabs_Ropp in *. split; [|exact B].
    replace (- doubleValue (dRat (- a # d)) - Q2R (a # d)) with (- (doubleValue (dRat (- a # d)) - - Q2R (a # d))) by ring. now rewrite Rabs_Ropp.
  - change (dRat (0 # d)) with (div (S754_zero false) (dOfZ (Zpos d))). destruct (ofZ_rel (Zpos d)) as (D1 & V1 & _); [lia|].
    destruct (dOfZ (Zpos d)) as [s|s| |s m e]; [cbn in V1; lra|destruct D1 as [_ F]; discriminate F|destruct D1 as [_ F]; discriminate F|].
    cbn [SFdiv xorb]. assert (Q0 : Q2R (0 # d) = 0) by (unfold Q2R; cbn [Qnum]; apply Rmult_0_l). rewrite Q0. split; [split; reflexivity|].
    change (doubleValue (S754_zero (if s then true else false))) with 0. rewrite Rminus_0_r, Rabs_R0. split; [lra|apply bpow_ge_0].
  - apply dRat_rel_pos; cbn [Qnum Qden]; lia.
Qed.
Lemma toDouble_ample a : proper a -> ample a -> isDouble (toDouble a) /\
  Rabs (doubleValue (toDouble a) - numberValue a) <= 4 * u * Rabs (numberValue a) /\ Rabs (doubleValue (toDouble a)) <= bpow radix2 401.
Proof.
  destruct a as [q|x]; cbn [proper ample toDouble numberValue]; intros P M.
  - now apply dRat_rel.
  - destruct P as [D N]. split; [exact D|]. unfold Rminus. rewrite Rplus_opp_r, Rabs_R0. split.
    + apply Rmult_le_pos; [lra|apply Rabs_pos].
    + apply Rle_trans with (bpow radix2 400); [exact M|apply bpow_le; lia].
Qed.
Lemma add_ample a b : proper a -> proper b -> ample a -> ample b ->
  proper (numberAdd a b) /\
  Rabs (numberValue (numberAdd a b) - (numberValue a + numberValue b)) <= bpow radix2 (-50) * (1 + Rabs (numberValue a) + Rabs (numberValue b)).
Proof.
  intros Pa Pb Ma Mb. replace (bpow radix2 (-50)) with (8 * u) by (change (bpow radix2 (-50)) with (/ 1125899906842624); lra).
  destruct (toDouble_ample a Pa Ma) as (Da & Ea & Ba), (toDouble_ample b Pb Mb) as (Db & Eb & Bb).
  pose proof tiny as T. set (d := bpow radix2 (-1075)) in *.
  assert (Z : proper (ofDouble (add (toDouble a) (toDouble b))) /\
    Rabs (numberValue (ofDouble (add (toDouble a) (toDouble b))) - (numberValue a + numberValue b)) <= 8 * u * (1 + Rabs (numberValue a) + Rabs (numberValue b))).
  { destruct (add_value _ _ Da Db (bpow_sum _ _ Ba Bb)) as [D V]. split; [now apply ofDouble_close|].
    eapply Rle_trans; [apply ofDouble_err, D|]. rewrite V. set (x := doubleValue (toDouble a)) in *. set (y := doubleValue (toDouble b)) in *.
    pose proof (close_all (x + y)) as C. fold d in C. pose proof (Rabs_triang x y) as S. pose proof (tri x (numberValue a)) as Ta. pose proof (tri y (numberValue b)) as Tb.
    pose proof (tri (rnd (x + y)) (x + y)) as Tc.
    replace (rnd (x + y) - (numberValue a + numberValue b)) with ((rnd (x + y) - (x + y)) + ((x - numberValue a) + (y - numberValue b))) by ring.
    eapply Rle_trans; [apply Rplus_le_compat_r, Rabs_triang|]. pose proof (Rabs_triang (x - numberValue a) (y - numberValue b)) as W.
    pose proof (Rabs_pos (numberValue a)). pose proof (Rabs_pos (numberValue b)). lra. }
  destruct a as [p|x], b as [q|y]; cbn [numberAdd]; try exact Z.
  destruct (qadd_spec p q) as [C E]. cbn [proper numberValue]. split; [exact C|]. rewrite (Qeq_eqR _ _ E), Q2R_plus. unfold Rminus. rewrite Rplus_opp_r, Rabs_R0.
  pose proof (Rabs_pos (Q2R p)). pose proof (Rabs_pos (Q2R q)). lra.
Qed.
Lemma mul_ample a b : proper a -> proper b -> ample a -> ample b ->
  proper (numberMul a b) /\
  Rabs (numberValue (numberMul a b) - numberValue a * numberValue b) <= bpow radix2 (-49) * (1 + Rabs (numberValue a * numberValue b)).
Proof.
  intros Pa Pb Ma Mb. replace (bpow radix2 (-49)) with (16 * u) by (change (bpow radix2 (-49)) with (/ 562949953421312); lra).
  destruct (toDouble_ample a Pa Ma) as (Da & Ea & Ba), (toDouble_ample b Pb Mb) as (Db & Eb & Bb).
  pose proof tiny as T. set (d := bpow radix2 (-1075)) in *.
  assert (Z : proper (ofDouble (mul (toDouble a) (toDouble b))) /\
    Rabs (numberValue (ofDouble (mul (toDouble a) (toDouble b))) - numberValue a * numberValue b) <= 16 * u * (1 + Rabs (numberValue a * numberValue b))).
  { destruct (mul_value _ _ Da Db (bpow_mul _ _ Ba Bb)) as [D V]. split; [now apply ofDouble_close|].
    eapply Rle_trans; [apply ofDouble_err, D|]. rewrite V. set (x := doubleValue (toDouble a)) in *. set (y := doubleValue (toDouble b)) in *.
    set (va := numberValue a) in *. set (vb := numberValue b) in *.
    assert (W : Rabs (x * y - va * vb) <= (8 * u + 16 * u * u) * Rabs (va * vb)).
    { replace (x * y - va * vb) with ((x - va) * (y - vb) + ((x - va) * vb + va * (y - vb))) by ring.
      eapply Rle_trans; [apply Rabs_triang|]. eapply Rle_trans; [apply Rplus_le_compat_l, Rabs_triang|]. rewrite !Rabs_mult.
      pose proof (Rabs_pos va) as Q1. pose proof (Rabs_pos vb) as Q2. pose proof (Rabs_pos (x - va)) as Q3. pose proof (Rabs_pos (y - vb)) as Q4.
      set (A := Rabs va) in *. set (B := Rabs vb) in *.
      assert (H1 : Rabs (x - va) * Rabs (y - vb) <= (4 * u * A) * (4 * u * B)) by (apply Rmult_le_compat; assumption).
      assert (H2 : Rabs (x - va) * B <= (4 * u * A) * B) by (apply Rmult_le_compat_r; assumption).
      assert (H3 : A * Rabs (y - vb) <= A * (4 * u * B)) by (apply Rmult_le_compat_l; assumption).
      replace ((4 * u * A) * (4 * u * B)) with (16 * u * u * (A * B)) in * by ring. replace ((4 * u * A) * B) with (4 * u * (A * B)) in * by ring.
      replace (A * (4 * u * B)) with (4 * u * (A * B)) in * by ring. lra. }
    pose proof (close_all (x * y)) as C. fold d in C. pose proof (tri (x * y) (va * vb)) as Ta.
    pose proof (tri (rnd (x * y)) (x * y)) as Tc.
    replace (rnd (x * y) - va * vb) with ((rnd (x * y) - x * y) + (x * y - va * vb)) by ring.
    eapply Rle_trans; [apply Rplus_le_compat_r, Rabs_triang|]. pose proof (Rabs_pos (va * vb)). lra. }
  destruct a as [p|x], b as [q|y]; cbn [numberMul]; try exact Z.
  destruct (qmul_spec p q) as [C E]. cbn [proper numberValue]. split; [exact C|]. rewrite (Qeq_eqR _ _ E), Q2R_mult. unfold Rminus. rewrite Rplus_opp_r, Rabs_R0.
  pose proof (Rabs_pos (Q2R p * Q2R q)). lra.
Qed.
