(** The error of powers of positive rational numbers. *)
From Verif Require Import DoubleModel DoubleExact MixedModel MixedSpec DoubleOps FractionProofs MixedProofs MixedBounds MixedPow NumberProofs NumberSpec MixedAmple EvalSpec.
Require Import Flocq.Core.Core Flocq.IEEE754.BinarySingleNaN.
From Coq Require Import List Lia Lra Reals Qreals.
Import ListNotations.
Open Scope R_scope.

Lemma ln_le x : 0 < x -> ln x <= x - 1.
Proof. intros H. pose proof (exp_ineq1_le (ln x)) as E. rewrite exp_ln in E by exact H. lra. Qed.
Lemma ln_near e : Rabs e <= / 2 -> Rabs (ln (1 + e)) <= 2 * Rabs e.
Proof.
  intros H. assert (B : - / 2 <= e <= / 2) by (apply Rabs_le_inv in H; lra).
  pose proof (ln_le (1 + e)) as U. pose proof (ln_le (/ (1 + e))) as L. rewrite ln_Rinv in L by lra.
  specialize (U ltac:(lra)). specialize (L ltac:(apply Rinv_0_lt_compat; lra)).
  replace (/ (1 + e) - 1) with (- e * / (1 + e)) in L by (field; lra).
  assert (I : 0 < / (1 + e) <= 2).
  { split; [apply Rinv_0_lt_compat; lra|]. replace 2 with (/ / 2) by field. apply Rinv_le; lra. }
  assert (M : Rabs (- e * / (1 + e)) <= 2 * Rabs e).
  { rewrite Rabs_mult, Rabs_Ropp, (Rabs_pos_eq (/ _)) by lra. rewrite (Rmult_comm 2). apply Rmult_le_compat_l; [apply Rabs_pos|lra]. }
  pose proof (Rle_abs (- e * / (1 + e))). pose proof (Rle_abs e). pose proof (Rabs_pos e). apply Rabs_le. lra.
Qed.
Lemma exp_near t : Rabs t <= / 2 -> Rabs (exp t - 1) <= 2 * Rabs t.
Proof.
  intros H. assert (B : - / 2 <= t <= / 2) by (apply Rabs_le_inv in H; lra).
  pose proof (exp_ineq1_le t) as L. pose proof (exp_ineq1_le (- t)) as U. rewrite exp_Ropp in U. pose proof (exp_pos t) as P.
  assert (X : exp t * (1 - t) <= 1).
  { replace 1 with (exp t * / exp t) at 2 by (field; lra). apply Rmult_le_compat_l; lra. }
  assert (Y : exp t <= 2).
  { destruct (Rle_or_lt (exp t) 2) as [|G]; [assumption|]. assert (2 * (1 - t) < exp t * (1 - t)) by (apply Rmult_lt_compat_r; lra). lra. }
  pose proof (Rle_abs t). pose proof (Rle_abs (- t)). rewrite Rabs_Ropp in *. pose proof (Rabs_pos t). apply Rabs_le. split; [lra|].
  assert (exp t * t <= 2 * Rabs t).
  { apply Rle_trans with (exp t * Rabs t); [apply Rmult_le_compat_l; lra|]. apply Rmult_le_compat_r; lra. }
  lra.
Qed.
Lemma ln_bound r k : (0 <= k)%Z -> bpow radix2 (- k) <= r <= bpow radix2 k -> Rabs (ln r) <= IZR k.
Proof.
  intros K [L U]. pose proof (bpow_gt_0 radix2 (- k)) as P. assert (Pr : 0 < r) by lra. assert (B : forall z, ln (bpow radix2 z) = IZR z * ln 2).
  { intros z. rewrite bpow_exp, ln_exp. reflexivity. }
  assert (L2 : 0 <= ln 2 <= 1).
  { split; [|pose proof (ln_le 2 ltac:(lra)); lra]. rewrite <- ln_1. apply ln_le_compat || (left; apply ln_increasing; lra). }
  assert (IZ : 0 <= IZR k) by (apply IZR_le; lia).
  assert (M : IZR k * ln 2 <= IZR k) by (rewrite <- (Rmult_1_r (IZR k)) at 2; apply Rmult_le_compat_l; lra).
  assert (mono : forall x y, 0 < x -> x <= y -> ln x <= ln y) by (intros x y X [Y| ->]; [left; apply ln_increasing; lra|lra]).
  apply mono in L; [|exact P]. apply mono in U; [|lra]. rewrite B in L, U. rewrite opp_IZR in L. apply Rabs_le. lra.
Qed.

(** The candidate of tryGetBase is not negative. *)
Lemma normalize_sign m e : (0 <= m)%Z -> notNegative (SpecFloat.binary_normalize 53 1024 m e false).
Proof.
  intros H. destruct m as [|m|m]; [exact I| |lia]. cbn [SpecFloat.binary_normalize]. unfold SpecFloat.binary_round, SpecFloat.binary_round_aux.
  repeat match goal with |- context [let (_, _) := ?t in _] => destruct t end.
  match goal with |- notNegative (match ?t with Z0 => _ | _ => _ end) => destruct t end; try exact I. match goal with |- context [if ?c then _ else _] => destruct c end; exact I.
Qed.
Lemma trunc_sign x : notNegative x -> (0 <= dTrunc x)%Z.
Proof. destruct x as [s|s| |[|] m e]; cbn [notNegative dTrunc]; try (intros; lia); try contradiction. intros _. destruct (Z.leb_spec 0 e); [apply Z.mul_nonneg_nonneg; [lia|apply Z.pow_nonneg; lia]|apply Z.div_pos; [lia|apply Z.pow_pos_nonneg; lia]]. Qed.
Lemma root_sign lib n d b : accurate lib -> l_root lib n d = Some b -> (0 <= b)%Z.
Proof.
  intros (_ & _ & H) E. unfold l_root in E. destruct (Z.leb_spec n 0) as [L|L]; [discriminate|]. cbn [orb] in E. destruct (d <=? 0)%Z; [discriminate|].
  assert (N : notNegative (dOfZ n)) by (apply normalize_sign; lia). specialize (H (dOfZ n) (SFdiv 53 1024 (dOfZ 1) (dOfZ d)) N).
  set (x := l_pow lib _ _) in *. clearbody x.
  assert (T : (0 <= dTrunc (SFadd 53 1024 x dTenth))%Z).
  { apply trunc_sign. destruct x as [s|s| |[|] m e]; try exact I; [destruct H|]. unfold SFadd, dTenth. apply normalize_sign. unfold SpecFloat.cond_Zopp. lia. }
  destruct x; try discriminate; destruct (SFltb _ _); try discriminate; destruct (SFltb _ _); try discriminate; injection E as <-; exact T.
Qed.

Definition noDoubles (root : Z -> Z -> option Z) : floats := mkFloats root (fun _ _ => None).
Section Leaf.
  Variables (lib : library) (limit : Z).
  Hypothesis Hlib : accurate lib.
  Notation fl := (powFloats (l_pow lib) (l_root lib)).
  Notation fl0 := (noDoubles (l_root lib)).
  Notation root_of r d := (l_pow lib (dRat r) (SFdiv 53 1024 (dOfZ 1) (dOfZ d))).
  Lemma fl0_roots : rootsNonneg fl0.
  Proof. intros n d b H. exact (root_sign lib n d b Hlib H). Qed.
  Lemma fl0_exact : exactDoubles fl0.
  Proof. intros r d q H. discriminate H. Qed.
  Lemma pos_cases b e : canon b -> canon e -> (0 < Qnum b)%Z ->
    (exists r, toThePos fl b e = PRat r /\ canon r /\ Q2R r = Rpower (Q2R b) (Q2R e)) \/
    (exists r, computeNumPower b (Qnum e) = Some r /\ Qden e <> 1%positive /\
       toThePos fl b e = match doubleToFraction (root_of r (Zpos (Qden e))) with Some q => PRat q | None => PDbl end /\
       computeRationalPower fl b e = toThePos fl b e).
  Proof.
    intros Cb Ce P. assert (B : 0 < Q2R b) by (unfold Q2R; apply Rmult_lt_0_compat; [apply IZR_lt; lia|apply Rinv_0_lt_compat, IZR_lt; lia]).
    destruct (toThePos fl0 b e) as [r| |] eqn:E.
    - left. exists r. destruct (toThePos_R fl0 b e r fl0_roots fl0_exact Cb Ce) as [Cr V]; [lra| |exact E|].
      { intros [-> _]. now cbn in P. }
      rewrite rpow_pos in V by exact B. injection V as V. split; [|now split].
      revert E. unfold toThePos. repeat (match goal with |- context [if ?c then _ else _] => destruct c end; [now intros [= <-]|| discriminate |]).
      unfold computeRationalPower. destruct (computeNumPower b (qnum e)) as [s|]; [|discriminate]. unfold computeDenomPower.
      change (tryGetBase fl) with (tryGetBase fl0). destruct (qden e =? 1)%Z; [tauto|]. destruct (_ || _)%bool; [discriminate|tauto].
    - right. revert E. unfold toThePos. destruct (qeqb b 0 && (qnum e <? 0)%Z)%bool; [discriminate|].
      destruct (qeqb b 0 || qeqb b 1 || qeqb e 1)%bool; [discriminate|]. destruct (qeqb e 0); [discriminate|].
      unfold computeRationalPower. change (qnum e) with (Qnum e). destruct (computeNumPower b (Qnum e)) as [s|]; [|discriminate]. unfold computeDenomPower.
      change (tryGetBase fl) with (tryGetBase fl0). change (qden e) with (Zpos (Qden e)). destruct (Z.eqb_spec (Zpos (Qden e)) 1); [discriminate|]. destruct (_ || _)%bool; [|now destruct (mkRat _ _)].
      intros _. exists s. split; [reflexivity|]. split; [congruence|]. split; reflexivity.
    - exfalso. apply toThePos_throw in E; [|exact fl0_roots|exact Cb|exact Ce|lra]. rewrite rpow_pos in E by exact B. discriminate E.
  Qed.
  Lemma root_error r d : canon r -> (0 < Qnum r <= 2 ^ 400)%Z -> (Zpos (Qden r) <= 2 ^ 400)%Z -> (1 < d)%positive -> (Zpos d <= 2 ^ 400)%Z ->
    isDouble (root_of r (Zpos d)) /\
    Rabs (doubleValue (root_of r (Zpos d)) - Rpower (Q2R r) (/ IZR (Zpos d))) <= 1700 * u * Rpower (Q2R r) (/ IZR (Zpos d)).
  Proof.
    intros Cr Rn Rd D1 D4. destruct Hlib as (_ & LP & _).
    destruct (dRat_rel r) as (RD & RE & _); [lia|exact Rd|]. destruct (dRat_rel (1 # d)) as (YD & YE & _); [cbn; lia|exact D4|].
    change (dRat (1 # d)) with (SFdiv 53 1024 (dOfZ 1) (dOfZ (Zpos d))) in *. set (Y := SFdiv 53 1024 (dOfZ 1) (dOfZ (Zpos d))) in *.
    assert (DP : 2 <= IZR (Zpos d)) by (apply IZR_le; lia).
    assert (QY : Q2R (1 # d) = / IZR (Zpos d)) by (unfold Q2R; cbn [Qnum Qden]; ring). rewrite QY in YE. set (y := / IZR (Zpos d)) in *.
    assert (Hy : 0 < y <= / 2) by (unfold y; split; [apply Rinv_0_lt_compat; lra|apply Rinv_le; lra]).
    assert (Hr : 0 < Q2R r) by (unfold Q2R; apply Rmult_lt_0_compat; [apply IZR_lt; lia|apply Rinv_0_lt_compat, IZR_lt; lia]).
    rewrite (Rabs_pos_eq (Q2R r)) in RE by lra. rewrite (Rabs_pos_eq y) in YE by lra.
    set (x := Q2R r) in *. set (X := doubleValue (dRat r)) in *. set (V := doubleValue Y) in *.
    assert (BX : bpow radix2 (- (400)) <= x <= bpow radix2 400).
    { unfold x, Q2R. assert (A : 1 <= IZR (Qnum r)) by (apply IZR_le; lia). assert (A' : IZR (Qnum r) <= bpow radix2 400) by (rewrite <- (IZR_Zpower radix2) by lia; apply IZR_le, Rn).
      assert (C : 1 <= IZR (Zpos (Qden r))) by (apply IZR_le; lia). assert (C' : IZR (Zpos (Qden r)) <= bpow radix2 400) by (rewrite <- (IZR_Zpower radix2) by lia; apply IZR_le, Rd).
      assert (IC : / IZR (Zpos (Qden r)) <= 1) by (rewrite <- Rinv_1; apply Rinv_le; lra). assert (IP : 0 < / IZR (Zpos (Qden r))) by (apply Rinv_0_lt_compat; lra).
      split.
      - rewrite bpow_opp. apply Rle_trans with (/ IZR (Zpos (Qden r))); [apply Rinv_le; lra|]. rewrite <- (Rmult_1_l (/ _)) at 1. apply Rmult_le_compat_r; lra.
      - rewrite <- (Rmult_1_r (bpow _ _)). apply Rmult_le_compat; lra. }
    assert (LX : Rabs (ln x) <= 400) by (apply (ln_bound x 400); [lia|exact BX]). change (- (400))%Z with (-400)%Z in BX.
    set (e1 := X / x - 1). assert (E1 : Rabs e1 <= 4 * u).
    { unfold e1. replace (X / x - 1) with ((X - x) / x) by (field; lra). unfold Rdiv. rewrite Rabs_mult, Rabs_inv, (Rabs_pos_eq x) by lra.
      apply Rmult_le_reg_r with x; [exact Hr|]. rewrite Rmult_assoc, Rinv_l by lra. lra. }
    set (e2 := V / y - 1). assert (E2 : Rabs e2 <= 4 * u).
    { unfold e2. replace (V / y - 1) with ((V - y) / y) by (field; lra). unfold Rdiv. rewrite Rabs_mult, Rabs_inv, (Rabs_pos_eq y) by lra.
      apply Rmult_le_reg_r with y; [apply Hy|]. rewrite Rmult_assoc, Rinv_l by lra. lra. }
    assert (XX : X = x * (1 + e1)) by (unfold e1; field; lra). assert (VV : V = y * (1 + e2)) by (unfold e2; field; lra).
    assert (B1 : - (4 * u) <= e1 <= 4 * u) by (apply Rabs_le_inv in E1; lra). assert (B2 : - (4 * u) <= e2 <= 4 * u) by (apply Rabs_le_inv in E2; lra).
    assert (XP : 0 < X) by (rewrite XX; apply Rmult_lt_0_compat; lra).
    assert (VA : 0 < V <= 1).
    { rewrite VV. split; [apply Rmult_lt_0_compat; lra|]. apply Rle_trans with (/ 2 * (1 + 4 * u)); [apply Rmult_le_compat; lra|lra]. }
    assert (XB : bpow radix2 (-500) <= X <= bpow radix2 500).
    { rewrite XX. assert (B500 : bpow radix2 (-500) <= bpow radix2 (-400) * / 2).
      { change (/ 2) with (bpow radix2 (-1)). rewrite <- bpow_plus. apply bpow_le. lia. }
      assert (B500' : bpow radix2 400 * 2 <= bpow radix2 500).
      { change 2 with (bpow radix2 1). rewrite <- bpow_plus. apply bpow_le. lia. }
      pose proof (bpow_gt_0 radix2 (-400)) as P4. split.
      - eapply Rle_trans; [exact B500|]. apply Rmult_le_compat; lra.
      - eapply Rle_trans; [|exact B500']. apply Rmult_le_compat; lra. }
    destruct (LP (dRat r) Y RD YD XB VA) as [ZD ZE]. fold X V in ZE. split; [exact ZD|].
    set (Z := doubleValue (l_pow lib (dRat r) Y)) in *.
    set (t := y * (e2 * ln x + (1 + e2) * ln (1 + e1))).
    assert (T : Rabs t <= 810 * u).
    { unfold t. rewrite Rabs_mult, (Rabs_pos_eq y) by lra. pose proof (ln_near e1 ltac:(lra)) as N1.
      assert (A : Rabs (e2 * ln x) <= 4 * u * 400) by (rewrite Rabs_mult; apply Rmult_le_compat; try apply Rabs_pos; lra).
      assert (C : Rabs ((1 + e2) * ln (1 + e1)) <= (1 + 4 * u) * (2 * (4 * u))).
      { rewrite Rabs_mult. apply Rmult_le_compat; try apply Rabs_pos; [rewrite Rabs_pos_eq; lra|]. lra. }
      apply Rle_trans with (/ 2 * (4 * u * 400 + (1 + 4 * u) * (2 * (4 * u)))); [|lra].
      apply Rmult_le_compat; [lra|apply Rabs_pos|lra|]. eapply Rle_trans; [apply Rabs_triang|lra]. }
    assert (W : Rpower X V = Rpower x y * exp t).
    { unfold Rpower. rewrite <- exp_plus. f_equal. rewrite XX, VV, ln_mult by lra. unfold t. ring. }
    rewrite W in ZE. set (w := Rpower x y) in *. assert (WP : 0 < w) by apply exp_pos.
    pose proof (exp_near t ltac:(lra)) as EN. change (bpow radix2 (-52)) with (/ 4503599627370496) in ZE.
    assert (EB : exp t <= 1 + 1620 * u) by (apply Rabs_le_inv in EN; lra).
    replace (Z - w) with ((Z - w * exp t) + w * (exp t - 1)) by ring. eapply Rle_trans; [apply Rabs_triang|].
    assert (S1 : Rabs (w * (exp t - 1)) <= w * (1620 * u)) by (rewrite Rabs_mult, (Rabs_pos_eq w) by lra; apply Rmult_le_compat_l; lra).
    assert (S2 : / 4503599627370496 * (w * exp t) <= / 4503599627370496 * (w * (1 + 1620 * u))) by (apply Rmult_le_compat_l; [lra|apply Rmult_le_compat_l; lra]).
    lra.
  Qed.
  Lemma proper_root x : isDouble x -> proper (ofDouble x).
  Proof. intros H. now destruct (ofDouble_close x H). Qed.
  Notation Y := (doubleSys lib limit).
  Lemma pow_leaf2 b x : canon b -> canon x -> (0 < Qnum b)%Z -> ample (NRat b) -> ample (NRat x) ->
    (forall n, numericEval Y (Pow (Num b) (Num (ofZ (Qnum x)))) = Some n -> ample (toNumber n)) ->
    exists n, numericEval Y (Pow (Num b) (Num x)) = Some n /\ proper (toNumber n) /\
      Rabs (numberValue (toNumber n) - Rpower (Q2R b) (Q2R x)) <= 1750 * u * (1 + Rpower (Q2R b) (Q2R x)) /\
      ((exists q, n = NQ q /\ canon q /\ Q2R q = Rpower (Q2R b) (Q2R x)) \/
       (exists z, isDouble z /\ toNumber n = ofDouble z /\ Rabs (doubleValue z - Rpower (Q2R b) (Q2R x)) <= 1700 * u * Rpower (Q2R b) (Q2R x))).
  Proof.
    intros Cb Cx P Ab Ax St. assert (B : 0 < Q2R b) by (unfold Q2R; apply Rmult_lt_0_compat; [apply IZR_lt; lia|apply Rinv_0_lt_compat, IZR_lt; lia]).
    assert (Rb : inRange b).
    { destruct Ab as [A1 A2]. assert (2 ^ 400 <= 2 ^ 1000)%Z by (apply Z.pow_le_mono_r; lia). split; lia. }
    assert (NB : qltb b 0 = false) by (destruct (qltb_0 b) as [-> _]; apply Z.ltb_ge; lia).
    cbn [numericEval npow] in *. change (s_fl Y) with fl in *. unfold toThe in *. rewrite NB in *.
    assert (WP : 0 < Rpower (Q2R b) (Q2R x)) by apply exp_pos.
    destruct (pos_cases b x Cb Cx P) as [(r & E & Cr & V)|(r & E & Dx & F & G)].
    { rewrite E. exists (NQ r). split; [reflexivity|]. cbn [toNumber proper numberValue]. split; [exact Cr|]. rewrite V. unfold Rminus at 1. rewrite Rplus_opp_r, Rabs_R0.
      split; [apply Rmult_le_pos; lra|]. left. now exists r. }
    assert (CN := computeNumPower_R b (Qnum x) r E ltac:(lra)). destruct CN as [VR Cr].
    assert (VR2 : Q2R r = Rpower (Q2R b) (IZR (Qnum x))) by (rewrite VR; rewrite <- powerRZ_Rpower by exact B; reflexivity).
    assert (Ar : ample (NRat r)).
    { destruct (pos_cases b (ofZ (Qnum x)) Cb (canon_ofZ _) P) as [(r' & E' & Cr' & V')|(r' & _ & D' & _)]; [|now destruct D'].
      rewrite E' in St. specialize (St (NQ r') eq_refl). cbn [toNumber] in St. replace r with r'; [exact St|]. apply Q2R_inj; [exact Cr'|exact Cr|].
      rewrite V', VR2. f_equal. unfold Q2R, ofZ. cbn [Qnum Qden]. field. }
    assert (Rp : (0 < Qnum r)%Z).
    { apply Q2R_pos_num. rewrite VR2. apply exp_pos. }
    destruct Ar as [Ar1 Ar2], Ax as [_ Ax2].
    destruct (root_error r (Qden x) Cr) as [ZD ZE]; [lia|exact Ar2|lia|exact Ax2|].
    assert (W : Rpower (Q2R r) (/ IZR (Zpos (Qden x))) = Rpower (Q2R b) (Q2R x)).
    { rewrite VR2, Rpower_mult. reflexivity. }
    rewrite W in ZE. set (w := Rpower (Q2R b) (Q2R x)) in *. set (z := root_of r (Zpos (Qden x))) in *.
    assert (K : exists n, match toThePos fl b x with PRat q => Some (NQ q) | PDbl => s_pow Y (NQ b) (NQ x) | PThrow => None end = Some n /\ toNumber n = ofDouble z).
    { destruct (doubleToFraction z) as [q|] eqn:EF.
      - exists (NQ q). rewrite F. unfold ofDouble. rewrite EF. now split.
      - exists (ND z). rewrite F. cbn [s_pow doubleSys toNumber]. rewrite seen_pos by assumption. rewrite F. unfold rationalPower. rewrite G, F.
        change (qnum x) with (Qnum x). rewrite E. change (qden x) with (Zpos (Qden x)). fold z. unfold ofDouble. rewrite EF. now split. }
    destruct K as (n & K1 & K2). exists n. split; [exact K1|]. rewrite K2. split; [now apply proper_root|]. split; [|right; now exists z].
    eapply Rle_trans; [apply ofDouble_err; exact ZD|]. pose proof (tri (doubleValue z) w) as T. rewrite (Rabs_pos_eq w) in T by lra. lra.
  Qed.
  Lemma pow_leaf b x : canon b -> canon x -> (0 < Qnum b)%Z -> ample (NRat b) -> ample (NRat x) ->
    (forall n, numericEval Y (Pow (Num b) (Num (ofZ (Qnum x)))) = Some n -> ample (toNumber n)) ->
    exists n, numericEval Y (Pow (Num b) (Num x)) = Some n /\ proper (toNumber n) /\
      Rabs (numberValue (toNumber n) - Rpower (Q2R b) (Q2R x)) <= 1750 * u * (1 + Rpower (Q2R b) (Q2R x)).
  Proof. intros A B C D E F. destruct (pow_leaf2 b x A B C D E F) as (n & R & P & V & _). now exists n. Qed.
End Leaf.
