(** Exact roots of quotients of perfect powers are found: Number::toThe with IEEE doubles and an accurate C library. *)
From Verif Require Import DoubleModel DoubleExact MixedModel MixedSpec DoubleOps FractionProofs MixedProofs MixedBounds MixedOrder MixedAmple MixedPow NumberProofs NumberSpec RPow ExprProofs EvalConst EvalSpec EvalPow.
Require Import Flocq.Core.Core Flocq.IEEE754.BinarySingleNaN.
From Coq Require Import List Lia Lra Reals Qreals ZArith.Zpow_facts.
Import ListNotations.
Open Scope R_scope.

Lemma dRat_int n : (0 < n <= 2 ^ 400)%Z -> dRat (n # 1) = dOfZ n.
Proof.
  intros H. destruct (ofZ_rel n H) as (D0 & P & _). destruct MixedOrder.d1 as [D1 V1]. unfold dRat. cbn [Qnum Qden].
  destruct (div_value (dOfZ n) (dOfZ 1) D0 D1) as [Dd Vd]; [lra|rewrite V1; unfold Rdiv; rewrite Rinv_1, Rmult_1_r; now apply fits_of_value|].
  rewrite V1 in Vd. unfold Rdiv in Vd. rewrite Rinv_1, Rmult_1_r, (format_value _ D0) in Vd. apply value_inj_pos; try assumption. fold (div (dOfZ n) (dOfZ 1)). rewrite Vd. lra.
Qed.
Section Found.
  Variable lib : library.
  Hypothesis Hlib : accurate lib.
  Lemma root_found b d : (1 <= b <= 1000000)%Z -> (1 < d)%positive -> (Zpos d <= 2 ^ 400)%Z -> (b ^ Zpos d <= 2 ^ 400)%Z -> l_root lib (b ^ Zpos d) (Zpos d) = Some b.
  Proof.
    intros B D1 D2 N. set (n := (b ^ Zpos d)%Z) in *. assert (NP : (0 < n)%Z) by (apply Z.pow_pos_nonneg; lia).
    destruct (root_error lib Hlib (n # 1) d) as [XD XE]; [apply Z.gcd_1_r|cbn; lia|cbn; lia|exact D1|exact D2|].
    rewrite dRat_int in XD, XE by lia.
    assert (R : Rpower (Q2R (n # 1)) (/ IZR (Zpos d)) = IZR b).
    { unfold Q2R. cbn [Qnum Qden]. rewrite Rinv_1, Rmult_1_r. unfold n. rewrite <- (Z2Nat.id (Zpos d)) at 1 by lia. rewrite <- pow_IZR.
      assert (BP : 0 < IZR b) by (apply IZR_lt; lia). rewrite <- Rpower_pow, Rpower_mult by exact BP. rewrite INR_IZR_INZ, Z2Nat.id by lia.
      rewrite Rinv_r by (apply IZR_neq; lia). now apply Rpower_1. }
    rewrite R in XE. unfold l_root. destruct (Z.leb_spec n 0); [lia|]. cbn [orb Z.leb Z.compare].
    set (x := l_pow lib _ _) in *. clearbody x. assert (BR : 1 <= IZR b <= 1000000) by (split; apply IZR_le; lia).
    set (br := IZR b) in *. assert (XB : Rabs (doubleValue x - br) <= 2 / 10000000).
    { eapply Rle_trans; [exact XE|]. change u with (/ 9007199254740992). nra. }
    apply Rabs_le_inv in XB.
    assert (DM : isDouble dIntMax /\ doubleValue dIntMax = 2147483647).
    { split; [split; vm_compute; reflexivity|]. unfold dIntMax. rewrite value_frac. replace (2 ^ 22)%Z with 4194304%Z by reflexivity. lra. }
    assert (DT : isDouble dTenth /\ 99 / 1000 <= doubleValue dTenth <= 101 / 1000).
    { split; [split; vm_compute; reflexivity|]. unfold dTenth. rewrite value_frac. replace (2 ^ 56)%Z with 72057594037927936%Z by reflexivity. lra. }
    assert (DU : isDouble dMicro /\ 99 / 100000000 <= doubleValue dMicro).
    { split; [split; vm_compute; reflexivity|]. unfold dMicro. rewrite value_frac. replace (2 ^ 72)%Z with 4722366482869645213696%Z by reflexivity. lra. }
    destruct DM as [DM VM], DT as [DT VT], DU as [DU VU].
    assert (big : forall z, Rabs z <= 2000000 -> Rabs z <= bpow radix2 1000).
    { intros z Hz. apply Rle_trans with (bpow radix2 22); [change (bpow radix2 22) with 4194304; lra|apply bpow_le; lia]. }
    destruct (add_value x dTenth XD DT) as [DA VA]; [apply fits_2, big; apply Rabs_le; lra|].
    assert (TA : dTrunc (SFadd 53 1024 x dTenth) = b).
    { pose proof (close_all (doubleValue x + doubleValue dTenth)) as CA. rewrite Rabs_pos_eq with (x := doubleValue x + doubleValue dTenth) in CA by lra. apply Rabs_le_inv in CA.
      pose proof tiny as T. change u with (/ 9007199254740992) in CA. set (w := doubleValue x + doubleValue dTenth) in *. assert (W : br + 9 / 100 <= rnd w <= br + 12 / 100) by (unfold w in *; nra).
      destruct (trunc_value _ DA) as (T1 & _ & _); [rewrite VA; lra|]. fold (add x dTenth). rewrite VA in T1. destruct T1 as [T1 T2]. fold w in T1, T2.
      assert (A1 : (dTrunc (add x dTenth) < b + 1)%Z) by (apply lt_IZR; rewrite plus_IZR; fold br; lra).
      assert (A2 : (b < dTrunc (add x dTenth) + 1)%Z) by (apply lt_IZR; rewrite plus_IZR; fold br; lra). lia. }
    rewrite TA. assert (E1 : SFltb dIntMax x = false) by (rewrite (lt_value _ _ DM XD), VM; apply Rlt_bool_false; lra). rewrite E1.
    destruct (ofZ_value b) as [Db Vb].
    { assert (G : generic_format radix2 (SpecFloat.fexp prec emax) (IZR b)) by (apply format_int; lia). unfold rnd. apply round_generic; [apply valid_rnd_round_mode|exact G]. }
    { apply Rle_lt_trans with (bpow radix2 1000); [apply big, Rabs_le; fold br; lra|apply bpow_lt; lia]. }
    destruct (sub_value x (dOfZ b) XD Db) as [DS VS]; [apply fits_2, big; apply Rabs_le; rewrite Vb; fold br; lra|].
    destruct (abs_value _ DS) as [DAb VAb]. fold (sub x (dOfZ b)).
    assert (E2 : SFltb dMicro (SFabs (sub x (dOfZ b))) = false).
    { rewrite (lt_value _ _ DU DAb). apply Rlt_bool_false. rewrite VAb, VS, Vb. fold br. pose proof (close_all (doubleValue x - br)) as CA. pose proof tiny as T. change u with (/ 9007199254740992) in CA.
      assert (SB : Rabs (doubleValue x - br) <= 2 / 10000000) by (apply Rabs_le; lra). pose proof (Rabs_pos (doubleValue x - br)).
      assert (Rabs (rnd (doubleValue x - br)) <= Rabs (rnd (doubleValue x - br) - (doubleValue x - br)) + Rabs (doubleValue x - br)).
      { replace (rnd (doubleValue x - br)) with ((rnd (doubleValue x - br) - (doubleValue x - br)) + (doubleValue x - br)) at 1 by ring. apply Rabs_triang. }
      lra. }
    rewrite E2. destruct XD as [_ XF]. destruct x; try discriminate XF; reflexivity.
  Qed.
  Notation fl := (powFloats (l_pow lib) (l_root lib)).
  Notation fl0 := (noDoubles (l_root lib)).
  Lemma pos_agree b e r : toThePos fl0 b e = PRat r -> toThePos fl b e = PRat r.
  Proof.
    unfold toThePos. repeat (match goal with |- context [if ?c then _ else _] => destruct c end; [tauto || discriminate|]).
    unfold computeRationalPower. destruct (computeNumPower b (qnum e)) as [s|]; [|discriminate]. unfold computeDenomPower.
    change (tryGetBase fl) with (tryGetBase fl0). destruct (qden e =? 1)%Z; [tauto|]. destruct (_ || _)%bool; [discriminate|tauto].
  Qed.
  Lemma perfect_power t d : canon t -> canon (Qnum t ^ Zpos d # Qden t ^ d).
  Proof.
    unfold canon. intros C. cbn [Qnum Qden]. rewrite Pos2Z.inj_pow. apply Znumtheory.Zgcd_1_rel_prime. apply rel_prime_Zpower; try lia. now apply Znumtheory.Zgcd_1_rel_prime.
  Qed.
  Lemma perfect_value t d : Q2R (Qnum t ^ Zpos d # Qden t ^ d) = powerRZ (Q2R t) (Zpos d).
  Proof.
    unfold Q2R. cbn [Qnum Qden powerRZ]. rewrite Pos2Z.inj_pow, Rpow_mult_distr, pow_inv. rewrite <- (positive_nat_Z d), !pow_IZR. rewrite positive_nat_Z. reflexivity.
  Qed.
  (** t^d = b^m: the result is t. *)
  Theorem found b e t : canon b -> canon e -> canon t -> (0 < Qnum b <= 2 ^ 1000)%Z -> (Zpos (Qden b) <= 2 ^ 1000)%Z ->
    (0 < Qnum t <= 1000000)%Z -> (Zpos (Qden t) <= 1000000)%Z -> (Zpos (Qden e) <= 2 ^ 400)%Z -> (Qnum t ^ Zpos (Qden e) <= 2 ^ 400)%Z -> (Zpos (Qden t) ^ Zpos (Qden e) <= 2 ^ 400)%Z ->
    powerRZ (Q2R t) (Zpos (Qden e)) = powerRZ (Q2R b) (Qnum e) -> forall n, numberPow (l_pow lib) (l_root lib) (S (S n)) (NRat b) (NRat e) = Returns (NRat t).
  Proof.
    intros Cb Ce Ct Bn Bd Tn Td De N1 N2 V n.
    assert (pos : forall q, (0 < Qnum q)%Z -> 0 < Q2R q) by (intros q Hq; unfold Q2R; apply Rmult_lt_0_compat; [apply IZR_lt; lia|apply Rinv_0_lt_compat, IZR_lt; lia]).
    assert (Pb : 0 < Q2R b) by (apply pos; lia). assert (Pt : 0 < Q2R t) by (apply pos; lia).
    assert (P : exists r, toThePos fl0 b e = PRat r).
    { destruct (toThePos fl0 b e) as [r| |] eqn:E; [now exists r| |].
      - exfalso. revert E. unfold toThePos. repeat (match goal with |- context [if ?c then _ else _] => destruct c end; [discriminate|]).
        unfold computeRationalPower. destruct (computeNumPower b (qnum e)) as [s|] eqn:Es; [|discriminate]. unfold computeDenomPower.
        destruct (Z.eqb_spec (qden e) 1) as [|D1]; [discriminate|]. destruct (computeNumPower_R b (qnum e) s Es ltac:(lra)) as [Vs Cs].
        assert (S : s = Qnum t ^ Zpos (Qden e) # Qden t ^ Qden e).
        { apply Q2R_inj; [exact Cs|now apply perfect_power|]. rewrite Vs, perfect_value. symmetry. exact V. }
        assert (D2 : (1 < Qden e)%positive) by (unfold qden in D1; lia).
        assert (T : forall c, (1 <= c <= 1000000)%Z -> (c ^ Zpos (Qden e) <= 2 ^ 400)%Z -> tryGetBase fl0 (c ^ Zpos (Qden e)) (qden e) = c).
        { intros c Hc Hp. unfold tryGetBase. cbn [fl_root noDoubles]. change (qden e) with (Zpos (Qden e)). rewrite root_found by assumption. now rewrite Z.eqb_refl. }
        subst s. change (qnum ?x) with (Qnum x). change (qden (Qnum t ^ Zpos (Qden e) # Qden t ^ Qden e)) with (Zpos (Qden t ^ Qden e)). cbn [Qnum Qden]. rewrite Pos2Z.inj_pow.
        rewrite (T (Qnum t)), (T (Zpos (Qden t))) by lia. destruct (Z.eqb_spec (Qnum t) 0); [lia|]. cbn [orb Z.eqb]. destruct (mkRat _ _); discriminate.
      - exfalso. apply toThePos_throw in E; [|apply fl0_roots, Hlib|exact Cb|exact Ce|lra]. rewrite rpow_pos in E by exact Pb. discriminate E. }
    destruct P as [r E]. destruct (toThePos_R fl0 b e r (fl0_roots lib Hlib) (fl0_exact lib) Cb Ce ltac:(lra) ltac:(intros [-> _]; now cbn in Bn) E) as [Cr Vr].
    rewrite rpow_pos in Vr by exact Pb. injection Vr as Vr.
    assert (R : r = t).
    { apply Q2R_inj; [exact Cr|exact Ct|]. rewrite <- Vr. rewrite powerRZ_Rpower in V by exact Pt. rewrite powerRZ_Rpower in V by exact Pb.
      assert (L : Rpower (Rpower (Q2R t) (IZR (Zpos (Qden e)))) (/ IZR (Zpos (Qden e))) = Q2R t).
      { rewrite Rpower_mult, Rinv_r by (apply IZR_neq; lia). now apply Rpower_1. }
      rewrite V, Rpower_mult in L. exact L. }
    subst r. pose proof (pos_agree b e t E) as A.
    assert (T : toThe fl b e = PRat t).
    { unfold toThe. destruct (qltb b 0) eqn:L; [|exact A]. unfold qltb in L. apply Z.ltb_lt in L. cbn [Qnum Qden] in L. lia. }
    rewrite pow_seen; [rewrite T; reflexivity|exact Cb|split; [rewrite Z.abs_eq; lia|exact Bd]|rewrite T; discriminate].
  Qed.
End Found.

(** The square root of (10^20 + 1)^2 is rounded to a double. *)
Definition bigRoot : Z := (10 ^ 20 + 1)%Z.
Theorem big_root lib n : accurate lib -> numberPow (l_pow lib) (l_root lib) (S n) (NRat (bigRoot ^ 2 # 1)) (NRat (1 # 2)) <> Returns (NRat (bigRoot # 1)).
Proof.
  intros Hlib. set (q := bigRoot ^ 2 # 1). destruct (root_error lib Hlib q 2) as [XD XE]; [vm_compute; reflexivity|split; [reflexivity|vm_compute; discriminate]|vm_compute; discriminate|reflexivity|vm_compute; discriminate|].
  assert (R : Rpower (Q2R q) (/ IZR (Zpos 2)) = IZR bigRoot).
  { unfold Q2R, q. cbn [Qnum Qden]. rewrite Rinv_1, Rmult_1_r, Rpower_sqrt by (apply IZR_lt; reflexivity). change (bigRoot ^ 2)%Z with (bigRoot * bigRoot)%Z. rewrite mult_IZR. apply sqrt_square, IZR_le. vm_compute. discriminate. }
  rewrite R in XE. set (x := l_pow lib (dRat q) (SFdiv 53 1024 (dOfZ 1) (dOfZ 2))) in *.
  assert (XB : 99 / 100 * IZR bigRoot <= doubleValue x <= 101 / 100 * IZR bigRoot).
  { assert (P : 0 < IZR bigRoot) by (apply IZR_lt; reflexivity). apply Rabs_le_inv in XE. change u with (/ 9007199254740992) in XE. lra. }
  change bigRoot with 100000000000000000001%Z in XB at 1 2.
  assert (L : l_root lib (bigRoot ^ 2) 2 = None).
  { unfold l_root. change ((bigRoot ^ 2 <=? 0)%Z || (2 <=? 0)%Z)%bool with false. cbv iota zeta. rewrite <- (dRat_int (bigRoot ^ 2)) by (split; [reflexivity|vm_compute; discriminate]). fold q. fold x.
    assert (DM : isDouble dIntMax /\ doubleValue dIntMax = 2147483647).
    { split; [split; vm_compute; reflexivity|]. unfold dIntMax. rewrite value_frac. replace (2 ^ 22)%Z with 4194304%Z by reflexivity. lra. }
    destruct DM as [DM VM]. assert (E1 : SFltb dIntMax x = true) by (rewrite (lt_value _ _ DM XD), VM; apply Rlt_bool_true; lra). rewrite E1. destruct x; reflexivity. }
  rewrite seen_pos; [|vm_compute; reflexivity|split; vm_compute; discriminate|reflexivity].
  assert (C : computeRationalPower (powFloats (l_pow lib) (l_root lib)) q (1 # 2) = match doubleToFraction x with Some r => PRat r | None => PDbl end).
  { unfold computeRationalPower. change (computeNumPower q (qnum (1 # 2))) with (Some q). unfold computeDenomPower, tryGetBase. cbn [fl_root fl_pow powFloats].
    change (qnum q) with (bigRoot ^ 2)%Z. change (qden (1 # 2)) with 2%Z. rewrite L. cbn [Z.eqb orb]. change (2 =? 1)%Z with false. cbv iota. fold x. reflexivity. }
  assert (T : toThePos (powFloats (l_pow lib) (l_root lib)) q (1 # 2) = computeRationalPower (powFloats (l_pow lib) (l_root lib)) q (1 # 2)) by reflexivity.
  rewrite T. unfold rationalPower. rewrite C. change (computeNumPower q (qnum (1 # 2))) with (Some q).
  destruct (fraction_value x XD) as (t & _ & _ & Ft & E); [lra|eapply Rle_trans; [|apply limit_large]; apply Rle_trans with (bpow radix2 70); [change (bpow radix2 70) with 1180591620717411303424; lra|apply bpow_le; lia]|].
  rewrite E. destruct (Rlt_bool _ _); [|discriminate]. cbn [mkRat]. intros H0.
  assert (H : Qred (t # 10000) = (bigRoot # 1)) by (revert H0; generalize (Qred (t # 10000)); intros z [= ->]; reflexivity).
  assert (TQ : t = (10000 * bigRoot)%Z).
  { pose proof (Qred_correct (t # 10000)) as Q. rewrite H in Q. unfold Qeq in Q. cbn [Qnum Qden] in Q. lia. }
  subst t. assert (B : Rabs (IZR (10000 * bigRoot)) < bpow radix2 1024).
  { rewrite Rabs_pos_eq by (apply IZR_le; vm_compute; discriminate). apply Rle_lt_trans with (bpow radix2 100); [|apply bpow_lt; lia]. rewrite <- (IZR_Zpower radix2) by lia. apply IZR_le. vm_compute. discriminate. }
  destruct (ofZ_value _ Ft B) as [_ V]. revert V. 
  let c := eval vm_compute in (dOfZ (10000 * bigRoot)) in change (dOfZ (10000 * bigRoot)) with c.
  rewrite finite_value. unfold F2R. cbn [Fnum Fexp cond_Zopp]. rewrite <- (IZR_Zpower radix2) by lia. rewrite <- mult_IZR. intros V. apply eq_IZR in V. vm_compute in V. discriminate V.
Qed.
