(** Rounding errors and order of numbers that may hold doubles. *)
From Verif Require Import DoubleModel DoubleExact MixedModel MixedSpec DoubleOps FractionProofs MixedProofs NumberProofs NumberSpec.
Require Import Flocq.Core.Core Flocq.IEEE754.BinarySingleNaN Flocq.Prop.Relative.
From Coq Require Import Lia Lra Reals Qreals.
Open Scope R_scope.
#[local] Existing Instance Hprec.
#[local] Existing Instance Hmax.

(** ** Rounding errors *)
Notation u := (/ 9007199254740992).
Lemma toDouble_close a : proper a -> moderate a -> isDouble (toDouble a) /\
  Rabs (doubleValue (toDouble a) - numberValue a) <= u * Rabs (numberValue a) /\ Rabs (doubleValue (toDouble a)) <= bpow radix2 401.
Proof.
  destruct a as [q|x]; cbn [proper moderate toDouble numberValue]; intros P M.
  - destruct (bRat_value q M) as [V F]. rewrite dRat_equiv. destruct (float_is _ F) as [D W]. rewrite W, V. pose proof (rnd_error q M) as E.
    split; [exact D|]. split; [exact E|]. apply Rle_trans with (bpow radix2 54); [|apply bpow_le; lia].
    assert (B : Rabs (Q2R q) <= 9007199254740992).
    { rewrite Q2R_abs. destruct M as [M1 M2]. assert (0 < IZR (Zpos (Qden q))) by now apply IZR_lt.
      apply Rle_trans with (IZR (Z.abs (Qnum q)) / 1); [|unfold Rdiv; rewrite Rinv_1, Rmult_1_r; now apply IZR_le].
      apply Rmult_le_compat_l; [apply IZR_le; lia|]. apply Rinv_le; [lra|]. apply IZR_le. lia. }
    change (bpow radix2 (-53)) with u in E. change (bpow radix2 54) with 18014398509481984.
    pose proof (Rabs_triang_inv (rnd (Q2R q)) (Q2R q)). lra.
  - destruct P as [D N]. split; [exact D|]. unfold Rminus. rewrite Rplus_opp_r, Rabs_R0. split.
    + apply Rmult_le_pos; [lra|apply Rabs_pos].
    + apply Rle_trans with (bpow radix2 400); [exact M|apply bpow_le; lia].
Qed.
Lemma close_all r : Rabs (rnd r - r) <= u * Rabs r + bpow radix2 (-1075).
Proof. exact (rnd_close r). Qed.
Lemma ofDouble_err x r : isDouble x -> Rabs (numberValue (ofDouble x) - r) <= Rabs (doubleValue x - r) + 2 * u * (1 + Rabs (doubleValue x)).
Proof.
  intros H. destruct (ofDouble_close x H) as [_ C]. change (bpow radix2 (-52)) with (/ 4503599627370496) in C.
  replace (numberValue (ofDouble x) - r) with ((numberValue (ofDouble x) - doubleValue x) + (doubleValue x - r)) by ring.
  eapply Rle_trans; [apply Rabs_triang|]. lra.
Qed.
Lemma tri a b : Rabs a <= Rabs b + Rabs (a - b).
Proof. replace a with (b + (a - b)) at 1 by ring. apply Rabs_triang. Qed.
Lemma bpow_sum x y : Rabs x <= bpow radix2 401 -> Rabs y <= bpow radix2 401 -> fits (x + y).
Proof.
  intros A B. apply fits_2. eapply Rle_trans; [apply Rabs_triang|]. apply Rle_trans with (bpow radix2 402); [|apply bpow_le; lia].
  replace (bpow radix2 402) with (2 * bpow radix2 401); [lra|]. change 402%Z with (1 + 401)%Z. now rewrite bpow_plus.
Qed.
Lemma numberAdd_value a b : proper a -> proper b -> moderate a -> moderate b ->
  proper (numberAdd a b) /\
  Rabs (numberValue (numberAdd a b) - (numberValue a + numberValue b)) <= bpow radix2 (-50) * (1 + Rabs (numberValue a) + Rabs (numberValue b)).
Proof.
  intros Pa Pb Ma Mb. change (bpow radix2 (-50)) with (8 * u) || replace (bpow radix2 (-50)) with (8 * u) by (change (bpow radix2 (-50)) with (/ 1125899906842624); lra).
  destruct (toDouble_close a Pa Ma) as (Da & Ea & Ba), (toDouble_close b Pb Mb) as (Db & Eb & Bb).
  pose proof tiny as T. set (d := bpow radix2 (-1075)) in *.
  assert (Z : proper (ofDouble (add (toDouble a) (toDouble b))) /\
    Rabs (numberValue (ofDouble (add (toDouble a) (toDouble b))) - (numberValue a + numberValue b)) <= 8 * u * (1 + Rabs (numberValue a) + Rabs (numberValue b))).
  { destruct (add_value _ _ Da Db (bpow_sum _ _ Ba Bb)) as [D V]. split; [now apply ofDouble_close|].
    eapply Rle_trans; [apply ofDouble_err, D|]. rewrite V. set (x := doubleValue (toDouble a)) in *. set (y := doubleValue (toDouble b)) in *.
    pose proof (close_all (x + y)) as C. fold d in C. pose proof (Rabs_triang x y) as S. pose proof (tri x (numberValue a)) as Ta. pose proof (tri y (numberValue b)) as Tb.
    pose proof (tri (rnd (x + y)) (x + y)) as Tc.
    replace (rnd (x + y) - (numberValue a + numberValue b)) with ((rnd (x + y) - (x + y)) + ((x - numberValue a) + (y - numberValue b))) by ring.
    eapply Rle_trans; [apply Rplus_le_compat_r, Rabs_triang|]. pose proof (Rabs_triang (x - numberValue a) (y - numberValue b)) as W.
    pose proof (Rabs_pos (numberValue a)). pose proof (Rabs_pos (numberValue b)). lra. }
  destruct a as [p|x], b as [q|y]; cbn [numberAdd]; try exact Z.
  destruct (qadd_spec p q) as [C E]. cbn [proper numberValue]. split; [exact C|]. rewrite (Qeq_eqR _ _ E), Q2R_plus. unfold Rminus. rewrite Rplus_opp_r, Rabs_R0.
  pose proof (Rabs_pos (Q2R p)). pose proof (Rabs_pos (Q2R q)). lra.
Qed.
Lemma bpow_mul x y : Rabs x <= bpow radix2 401 -> Rabs y <= bpow radix2 401 -> fits (x * y).
Proof.
  intros A B. apply fits_2. rewrite Rabs_mult. apply Rle_trans with (bpow radix2 401 * bpow radix2 401).
  - apply Rmult_le_compat; try apply Rabs_pos; assumption.
  - rewrite <- bpow_plus. apply bpow_le. lia.
Qed.
Lemma numberMul_value a b : proper a -> proper b -> moderate a -> moderate b ->
  proper (numberMul a b) /\
  Rabs (numberValue (numberMul a b) - numberValue a * numberValue b) <= bpow radix2 (-50) * (1 + Rabs (numberValue a * numberValue b)).
Proof.
  intros Pa Pb Ma Mb. replace (bpow radix2 (-50)) with (8 * u) by (change (bpow radix2 (-50)) with (/ 1125899906842624); lra).
  destruct (toDouble_close a Pa Ma) as (Da & Ea & Ba), (toDouble_close b Pb Mb) as (Db & Eb & Bb).
  pose proof tiny as T. set (d := bpow radix2 (-1075)) in *.
  assert (Z : proper (ofDouble (mul (toDouble a) (toDouble b))) /\
    Rabs (numberValue (ofDouble (mul (toDouble a) (toDouble b))) - numberValue a * numberValue b) <= 8 * u * (1 + Rabs (numberValue a * numberValue b))).
  { destruct (mul_value _ _ Da Db (bpow_mul _ _ Ba Bb)) as [D V]. split; [now apply ofDouble_close|].
    eapply Rle_trans; [apply ofDouble_err, D|]. rewrite V. set (x := doubleValue (toDouble a)) in *. set (y := doubleValue (toDouble b)) in *.
    set (va := numberValue a) in *. set (vb := numberValue b) in *.
    assert (W : Rabs (x * y - va * vb) <= (2 * u + u * u) * Rabs (va * vb)).
    { replace (x * y - va * vb) with ((x - va) * (y - vb) + ((x - va) * vb + va * (y - vb))) by ring.
      eapply Rle_trans; [apply Rabs_triang|]. eapply Rle_trans; [apply Rplus_le_compat_l, Rabs_triang|]. rewrite !Rabs_mult.
      pose proof (Rabs_pos va) as Q1. pose proof (Rabs_pos vb) as Q2. pose proof (Rabs_pos (x - va)) as Q3. pose proof (Rabs_pos (y - vb)) as Q4.
      set (A := Rabs va) in *. set (B := Rabs vb) in *.
      assert (Rabs (x - va) * Rabs (y - vb) <= (u * A) * (u * B)) by (apply Rmult_le_compat; assumption).
      assert (Rabs (x - va) * B <= (u * A) * B) by (apply Rmult_le_compat_r; assumption).
      assert (A * Rabs (y - vb) <= A * (u * B)) by (apply Rmult_le_compat_l; assumption).
      replace ((u * A) * (u * B)) with (u * u * (A * B)) in * by ring. replace ((u * A) * B) with (u * (A * B)) in * by ring.
      replace (A * (u * B)) with (u * (A * B)) in * by ring. lra. }
    pose proof (close_all (x * y)) as C. fold d in C. pose proof (tri (x * y) (va * vb)) as Ta.
    pose proof (tri (rnd (x * y)) (x * y)) as Tc.
    replace (rnd (x * y) - va * vb) with ((rnd (x * y) - x * y) + (x * y - va * vb)) by ring.
    eapply Rle_trans; [apply Rplus_le_compat_r, Rabs_triang|]. pose proof (Rabs_pos (va * vb)). lra. }
  destruct a as [p|x], b as [q|y]; cbn [numberMul]; try exact Z.
  destruct (qmul_spec p q) as [C E]. cbn [proper numberValue]. split; [exact C|]. rewrite (Qeq_eqR _ _ E), Q2R_mult. unfold Rminus. rewrite Rplus_opp_r, Rabs_R0.
  pose proof (Rabs_pos (Q2R p * Q2R q)). lra.
Qed.
