(** The constants M_PI and M_E of the C library and the numbers they approximate. *)
From Verif Require Import EvalModel MixedSpec DoubleOps FractionProofs.
Require Import Flocq.Core.Core Flocq.IEEE754.BinarySingleNaN.
From Coq Require Import Lia Lra QArith Qreals Reals Machin AltSeries.
Open Scope R_scope.



Lemma value_frac m e : doubleValue (S754_finite false m (Zneg e)) = IZR (Zpos m) / IZR (2 ^ Zpos e).
Proof. rewrite finite_value. reflexivity. Qed.
Lemma pi_close : isDouble mPi /\ Rabs (doubleValue mPi - PI) <= bpow radix2 (-50).
Proof.
  split; [split; vm_compute; reflexivity|]. unfold mPi. rewrite value_frac. change (bpow radix2 (-50)) with (/ 1125899906842624).
  replace (2 ^ 51)%Z with 2251799813685248%Z by reflexivity.
  pose proof (PI_2_3_7_ineq 9) as [H1 H2].
  change (S (2 * 9)) with 19%nat in H1. change (2 * 9)%nat with 18%nat in H2.
  unfold tg_alt, PI_2_3_7_tg, Ratan_seq in H1, H2. cbn in H1, H2. apply Rabs_le. lra.
Qed.
Lemma exp_alt N : sum_f_R0 (tg_alt (fun n => / INR (fact n))) (S (2 * N)) <= exp (-1) <= sum_f_R0 (tg_alt (fun n => / INR (fact n))) (2 * N).
Proof.
  apply alternated_series_ineq.
  - intros n. apply Rinv_le; [apply INR_fact_lt_0|]. apply le_INR. apply fact_le. lia.
  - intros eps He. destruct (cv_speed_pow_fact 1 eps He) as [n Hn]. exists n. intros m Hm. specialize (Hn m Hm).
    replace (1 ^ m / INR (fact m)) with (/ INR (fact m)) in Hn by (rewrite pow1; unfold Rdiv; ring). exact Hn.
  - pose proof (proj2_sig (exist_exp (-1))) as H. fold (exp (-1)) in H. intros eps He. destruct (H eps He) as [n Hn]. exists n. intros m Hm.
    specialize (Hn m Hm). replace (sum_f_R0 (tg_alt (fun n => / INR (fact n))) m) with (sum_f_R0 (fun i => / INR (fact i) * (-1) ^ i) m); [exact Hn|].
    apply sum_eq. intros k _. unfold tg_alt. ring.
Qed.
Fixpoint factP (n : nat) : positive := match n with O => 1%positive | S m => (Pos.of_nat (S m) * factP m)%positive end.
Fixpoint signZ (n : nat) : Z := match n with O => 1%Z | S m => (- signZ m)%Z end.
Fixpoint sumQ (n : nat) : Q := match n with O => 1%Q | S m => Qred (sumQ m + (signZ (S m) # factP (S m)))%Q end.
Lemma factP_is n : INR (fact n) = IZR (Zpos (factP n)).
Proof.
  induction n as [|n IH]; [reflexivity|]. change (fact (S n)) with (S n * fact n)%nat. rewrite mult_INR, IH.
  change (factP (S n)) with (Pos.of_nat (S n) * factP n)%positive. rewrite Pos2Z.inj_mul, mult_IZR. f_equal. rewrite INR_IZR_INZ. f_equal.
  rewrite <- Pos.of_nat_succ. reflexivity.
Qed.
Lemma signZ_is n : (-1) ^ n = IZR (signZ n).
Proof. induction n as [|n IH]; [reflexivity|]. cbn [pow signZ]. rewrite IH, opp_IZR. ring. Qed.
Lemma sumQ_is n : sum_f_R0 (tg_alt (fun n => / INR (fact n))) n = Q2R (sumQ n).
Proof.
  induction n as [|n IH].
  - unfold tg_alt. cbn. unfold Q2R. cbn. lra.
  - cbn [sum_f_R0 sumQ]. rewrite (Qeq_eqR _ _ (Qred_correct _)), Q2R_plus, IH. f_equal. unfold tg_alt. rewrite factP_is, signZ_is. reflexivity.
Qed.
Lemma exp_bounds : 36787944117144232 / 100000000000000000 <= exp (-1) <= 36787944117144233 / 100000000000000000.
Proof.
  pose proof (exp_alt 10) as [H1 H2]. change (S (2 * 10)) with 21%nat in H1. change (2 * 10)%nat with 20%nat in H2. rewrite sumQ_is in H1, H2.
  let v := eval vm_compute in (sumQ 21) in change (sumQ 21) with v in H1. let v := eval vm_compute in (sumQ 20) in change (sumQ 20) with v in H2.
  unfold Q2R in H1, H2. cbn [Qnum Qden] in H1, H2. generalize dependent (exp (-1)). intros x H1 H2. lra.
Qed.
Lemma e_close : isDouble mE /\ Rabs (doubleValue mE - exp 1) <= bpow radix2 (-50).
Proof.
  split; [split; vm_compute; reflexivity|]. unfold mE. rewrite value_frac. change (bpow radix2 (-50)) with (/ 1125899906842624).
  replace (2 ^ 51)%Z with 2251799813685248%Z by reflexivity. pose proof exp_bounds as [L U].
  assert (P : 0 < exp (-1)) by apply exp_pos.
  assert (E : exp 1 = / exp (-1)) by (replace (-1) with (- (1)) by ring; rewrite exp_Ropp, Rinv_inv; reflexivity).
  set (x := exp (-1)) in *. rewrite E. assert (Q : / x * x = 1) by (apply Rinv_l; lra).
  apply Rabs_le. split.
  - apply Rmult_le_reg_r with x; [exact P|]. rewrite Rmult_minus_distr_r, Q. lra.
  - apply Rmult_le_reg_r with x; [exact P|]. rewrite Rmult_minus_distr_r, Q. lra.
Qed.
