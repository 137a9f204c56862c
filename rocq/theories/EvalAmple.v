(** Expressions with few digits are evaluated far from the limits of double; an accurate library exists. *)
From Verif Require Import DoubleModel DoubleExact MixedModel MixedSpec DoubleOps FractionProofs MixedProofs MixedBounds MixedPow NumberProofs NumberSpec MixedAmple ExprProofs RunFacts EvalConst EvalSpec EvalPow EvalProofs.
Require Import Flocq.Core.Core Flocq.IEEE754.BinarySingleNaN.
From Coq Require Import List Lia Lra Znumtheory Zpow_facts Reals Qreals.
Import ListNotations.
Open Scope R_scope.
#[local] Existing Instance Hprec.
#[local] Existing Instance Hmax.

Definition within (k : Z) (n : number) : Prop :=
  match n with
  | NRat q => (Z.abs (Qnum q) <= 2 ^ k)%Z /\ (Zpos (Qden q) <= 2 ^ k)%Z
  | NDbl x => Rabs (doubleValue x) <= bpow radix2 k
  end.
Lemma within_ample k n : (0 <= k <= 400)%Z -> within k n -> ample n.
Proof.
  intros K. assert (2 ^ k <= 2 ^ 400)%Z by (apply Z.pow_le_mono_r; lia). destruct n as [q|x]; cbn [within ample]; [lia|].
  intros B. eapply Rle_trans; [exact B|]. apply bpow_le. lia.
Qed.
Lemma within_le k l n : (0 <= k <= l)%Z -> within k n -> within l n.
Proof.
  intros K. assert (2 ^ k <= 2 ^ l)%Z by (apply Z.pow_le_mono_r; lia). destruct n as [q|x]; cbn [within]; [lia|].
  intros B. eapply Rle_trans; [exact B|]. apply bpow_le. lia.
Qed.
Lemma Qred_le a d : (Z.abs (Qnum (Qred (a # d))) <= Z.abs a)%Z /\ (Zpos (Qden (Qred (a # d))) <= Zpos d)%Z.
Proof.
  unfold Qred. pose proof (Z.ggcd_correct_divisors a (Zpos d)) as H. pose proof (Z.ggcd_gcd a (Zpos d)) as G.
  destruct (Z.ggcd a (Zpos d)) as [g [aa dd]]. cbn [fst snd] in *. destruct H as [H1 H2].
  assert (P : (0 < g)%Z).
  { rewrite G. pose proof (Z.gcd_nonneg a (Zpos d)). assert (Z.gcd a (Zpos d) <> 0)%Z by (intros X; apply Z.gcd_eq_0_r in X; discriminate). lia. }
  assert (D : (0 < dd)%Z) by nia. cbn [Qnum Qden]. rewrite Z2Pos.id by exact D. split; [|nia]. rewrite H1, Z.abs_mul. nia.
Qed.
Lemma value_within k q : (0 <= k)%Z -> (Z.abs (Qnum q) <= 2 ^ k)%Z -> Rabs (Q2R q) <= bpow radix2 k.
Proof.
  intros K H. unfold Q2R. rewrite Rabs_mult, Rabs_inv. assert (D : 1 <= IZR (Zpos (Qden q))) by (apply IZR_le; lia).
  rewrite (Rabs_pos_eq (IZR (Zpos _))) by lra. rewrite <- abs_IZR. assert (N : IZR (Z.abs (Qnum q)) <= bpow radix2 k) by (rewrite <- (IZR_Zpower radix2) by exact K; now apply IZR_le).
  assert (I : / IZR (Zpos (Qden q)) <= 1) by (rewrite <- Rinv_1; apply Rinv_le; lra). rewrite <- (Rmult_1_r (bpow _ _)).
  apply Rmult_le_compat; [apply IZR_le; lia|left; apply Rinv_0_lt_compat; lra|exact N|exact I].
Qed.
Lemma ofDouble_within k x : (0 <= k)%Z -> isDouble x -> Rabs (doubleValue x) <= bpow radix2 k -> within (k + 16) (ofDouble x).
Proof.
  intros K D B. unfold ofDouble. destruct (doubleToFraction x) as [q|] eqn:E.
  - destruct (fraction_close x q D E) as [C (t & ->)]. cbn [within]. rewrite Q2R_tenk in C. change (bpow radix2 (-52)) with (/ 4503599627370496) in C.
    assert (K1 : 1 <= bpow radix2 k) by (change 1 with (bpow radix2 0); apply bpow_le; lia).
    assert (T : Rabs (IZR t) <= bpow radix2 (k + 16)).
    { rewrite bpow_plus. change (bpow radix2 16) with 65536. pose proof (tri (IZR t / 10000) (doubleValue x)) as T. unfold Rdiv in T. rewrite Rabs_mult in T.
      rewrite (Rabs_pos_eq (/ 10000)) in T by lra. unfold Rdiv in C. lra. }
    rewrite <- abs_IZR, <- (IZR_Zpower radix2) in T by lia. apply le_IZR in T. change (radix2 ^ (k + 16))%Z with (2 ^ (k + 16))%Z in T.
    destruct (Qred_le t 10000) as [Q1 Q2]. split; [lia|]. assert (2 ^ 16 <= 2 ^ (k + 16))%Z by (apply Z.pow_le_mono_r; lia). lia.
  - cbn [within]. eapply Rle_trans; [exact B|]. apply bpow_le. lia.
Qed.
Lemma toDouble_within k n : (0 <= k <= 400)%Z -> proper n -> within k n -> isDouble (toDouble n) /\ Rabs (doubleValue (toDouble n)) <= bpow radix2 (k + 1).
Proof.
  intros K P W. destruct (toDouble_ample n P (within_ample k n K W)) as (D & E & _). split; [exact D|].
  assert (V : Rabs (numberValue n) <= bpow radix2 k) by (destruct n as [q|x]; [apply value_within; [lia|apply W]|exact W]).
  pose proof (tri (doubleValue (toDouble n)) (numberValue n)) as T. rewrite bpow_plus. change (bpow radix2 1) with 2. pose proof (bpow_gt_0 radix2 k). lra.
Qed.
Lemma rnd_within r k : (0 <= k)%Z -> Rabs r <= bpow radix2 k -> Rabs (rnd r) <= bpow radix2 k.
Proof. intros K H. rewrite <- rnd_abs, <- (rnd_bpow k) by lia. now apply rnd_le. Qed.
Lemma sum_pow k l : (1 <= k)%Z -> (1 <= l)%Z -> bpow radix2 k + bpow radix2 l <= bpow radix2 (k + l).
Proof.
  intros K L. rewrite bpow_plus. assert (2 <= bpow radix2 k) by (change 2 with (bpow radix2 1); apply bpow_le; lia).
  assert (2 <= bpow radix2 l) by (change 2 with (bpow radix2 1); apply bpow_le; lia). nra.
Qed.
Lemma add_within k l a b : (1 <= k <= 400)%Z -> (1 <= l <= 400)%Z -> proper a -> proper b -> within k a -> within l b -> within (k + l + 20) (numberAdd a b).
Proof.
  intros K L Pa Pb Wa Wb. assert (F : within (k + l + 20) (ofDouble (add (toDouble a) (toDouble b)))).
  { destruct (toDouble_within k a ltac:(lia) Pa Wa) as [Da Ba], (toDouble_within l b ltac:(lia) Pb Wb) as [Db Bb].
    assert (S : Rabs (doubleValue (toDouble a) + doubleValue (toDouble b)) <= bpow radix2 (k + l + 2)).
    { eapply Rle_trans; [apply Rabs_triang|]. pose proof (sum_pow (k + 1) (l + 1) ltac:(lia) ltac:(lia)) as S. replace (k + 1 + (l + 1))%Z with (k + l + 2)%Z in S by lia. lra. }
    destruct (add_value _ _ Da Db) as [D V]; [apply fits_2; eapply Rle_trans; [exact S|apply bpow_le; lia]|].
    apply (within_le (k + l + 2 + 16)); [lia|]. apply ofDouble_within; [lia|exact D|]. rewrite V. apply rnd_within; [lia|exact S]. }
  destruct a as [p|x], b as [q|y]; try exact F. destruct Wa as [A1 A2], Wb as [B1 B2]. unfold numberAdd, qadd. destruct p as [pn pd], q as [qn qd]. cbn [within Qnum Qden Qplus] in *.
  destruct (Qred_le (pn * Zpos qd + qn * Zpos pd) (pd * qd)) as [H1 H2]. change (pn * Zpos qd + qn * Zpos pd # pd * qd) with ((pn # pd) + (qn # qd))%Q in *.
  assert (G : (2 ^ (k + l + 20) = 2 ^ k * 2 ^ l * 2 ^ 20)%Z) by (rewrite !Z.pow_add_r by lia; reflexivity). rewrite G.
  assert (0 < 2 ^ k)%Z by (apply Z.pow_pos_nonneg; lia). assert (0 < 2 ^ l)%Z by (apply Z.pow_pos_nonneg; lia). change (2 ^ 20)%Z with 1048576%Z.
  set (X := (2 ^ k)%Z) in *. set (Z0 := (2 ^ l)%Z) in *. split.
  - assert (Z.abs (pn * Zpos qd + qn * Zpos pd) <= Z.abs pn * Zpos qd + Z.abs qn * Zpos pd)%Z by lia.
    assert (Z.abs pn * Zpos qd <= X * Z0)%Z by (apply Z.mul_le_mono_nonneg; lia). assert (Z.abs qn * Zpos pd <= Z0 * X)%Z by (apply Z.mul_le_mono_nonneg; lia). rewrite (Z.mul_comm Z0 X) in *. set (W := (X * Z0)%Z) in *. lia.
  - rewrite Pos2Z.inj_mul in H2. assert (Zpos pd * Zpos qd <= X * Z0)%Z by (apply Z.mul_le_mono_nonneg; lia). set (W := (X * Z0)%Z) in *. lia.
Qed.
Lemma mul_within k l a b : (1 <= k <= 400)%Z -> (1 <= l <= 400)%Z -> proper a -> proper b -> within k a -> within l b -> within (k + l + 20) (numberMul a b).
Proof.
  intros K L Pa Pb Wa Wb. assert (F : within (k + l + 20) (ofDouble (mul (toDouble a) (toDouble b)))).
  { destruct (toDouble_within k a ltac:(lia) Pa Wa) as [Da Ba], (toDouble_within l b ltac:(lia) Pb Wb) as [Db Bb].
    assert (S : Rabs (doubleValue (toDouble a) * doubleValue (toDouble b)) <= bpow radix2 (k + l + 2)).
    { rewrite Rabs_mult. replace (k + l + 2)%Z with ((k + 1) + (l + 1))%Z by lia. rewrite bpow_plus. apply Rmult_le_compat; try apply Rabs_pos; assumption. }
    destruct (mul_value _ _ Da Db) as [D V]; [apply fits_2; eapply Rle_trans; [exact S|apply bpow_le; lia]|].
    apply (within_le (k + l + 2 + 16)); [lia|]. apply ofDouble_within; [lia|exact D|]. rewrite V. apply rnd_within; [lia|exact S]. }
  destruct a as [p|x], b as [q|y]; try exact F. destruct Wa as [A1 A2], Wb as [B1 B2]. unfold numberMul, qmul. destruct p as [pn pd], q as [qn qd]. cbn [within Qnum Qden Qmult] in *.
  destruct (Qred_le (pn * qn) (pd * qd)) as [H1 H2]. change (pn * qn # pd * qd) with ((pn # pd) * (qn # qd))%Q in *.
  assert (G : (2 ^ (k + l + 20) = 2 ^ k * 2 ^ l * 2 ^ 20)%Z) by (rewrite !Z.pow_add_r by lia; reflexivity). rewrite G.
  assert (0 < 2 ^ k)%Z by (apply Z.pow_pos_nonneg; lia). assert (0 < 2 ^ l)%Z by (apply Z.pow_pos_nonneg; lia). change (2 ^ 20)%Z with 1048576%Z.
  set (X := (2 ^ k)%Z) in *. set (Z0 := (2 ^ l)%Z) in *. split.
  - rewrite Z.abs_mul in H1. assert (Z.abs pn * Z.abs qn <= X * Z0)%Z by (apply Z.mul_le_mono_nonneg; lia). set (W := (X * Z0)%Z) in *. lia.
  - rewrite Pos2Z.inj_mul in H2. assert (Zpos pd * Zpos qd <= X * Z0)%Z by (apply Z.mul_le_mono_nonneg; lia). set (W := (X * Z0)%Z) in *. lia.
Qed.
Lemma bitsQ_pos q : (1 <= bitsQ q)%Z.
Proof. unfold bitsQ. pose proof (Z.log2_nonneg (Z.abs (Qnum q))). lia. Qed.
Lemma bitsQ_within q : (Z.abs (Qnum q) <= 2 ^ bitsQ q)%Z /\ (Zpos (Qden q) <= 2 ^ bitsQ q)%Z.
Proof.
  unfold bitsQ. set (m := Z.max _ _). assert (L : forall z, (0 <= z)%Z -> (Z.log2 z <= m)%Z -> (z <= 2 ^ (m + 1))%Z).
  { intros z Z0 H. destruct (Z.eq_dec z 0) as [-> |N]; [apply Z.pow_nonneg; lia|]. pose proof (Z.log2_spec z ltac:(lia)) as [_ U].
    assert (2 ^ Z.succ (Z.log2 z) <= 2 ^ (m + 1))%Z by (apply Z.pow_le_mono_r; lia). lia. }
  split; apply L; try lia.
Qed.
Lemma bits_pos e : (1 <= bits e)%Z.
Proof.
  induction e as [q|n p|c| |f l IH|l IH|l IH|b x IHb IHx] using expr_ind2; cbn [bits]; try lia; try apply bitsQ_pos.
  - destruct l as [|x [|y l]]; try lia. specialize (IH x ltac:(now left)). lia.
  - induction l as [|x l IHl]; cbn [fold_right]; [lia|]. pose proof (IH x ltac:(now left)). assert (forall z, In z l -> (1 <= bits z)%Z) by (intros z I; apply IH; now right). specialize (IHl H0). lia.
  - induction l as [|x l IHl]; cbn [fold_right]; [lia|]. pose proof (IH x ltac:(now left)). assert (forall z, In z l -> (1 <= bits z)%Z) by (intros z I; apply IH; now right). specialize (IHl H0). lia.
  - destruct b; try lia. destruct x; try lia. pose proof (bitsQ_pos q). pose proof (bitsQ_pos q0). nia.
Qed.
Lemma numPower_within b n r : computeNumPower b n = Some r -> (Z.abs (Qnum r) <= 2 ^ (Z.abs n * bitsQ b))%Z /\ (Zpos (Qden r) <= 2 ^ (Z.abs n * bitsQ b))%Z.
Proof.
  destruct (bitsQ_within b) as [B1 B2]. pose proof (bitsQ_pos b) as BP. intros E.
  assert (PW : forall z, (Z.abs z <= 2 ^ bitsQ b)%Z -> (Z.abs (z ^ Z.abs n) <= 2 ^ (Z.abs n * bitsQ b))%Z).
  { intros z Hz. rewrite Z.abs_pow, Z.mul_comm, Z.pow_mul_r by lia. apply Z.pow_le_mono_l. lia. }
  assert (MK : forall x y, mkRat x y = Some r -> (Z.abs (Qnum r) <= Z.abs x)%Z /\ (Zpos (Qden r) <= Z.abs y)%Z).
  { intros x y M. unfold mkRat in M. destruct y as [|y|y]; [discriminate| |]; injection M as <-.
    - apply Qred_le.
    - destruct (Qred_le (- x) y) as [H1 H2]. rewrite Z.abs_opp in H1. now split. }
  pose proof (PW (qnum b) B1) as P1. pose proof (PW (qden b) B2) as P2. unfold computeNumPower in E. destruct (n <? 0)%Z; apply MK in E; lia.
Qed.

Section Few.
  Variables (lib : library) (limit : Z).
  Hypothesis Hlib : accurate lib.
  Notation Y := (doubleSys lib limit).
  Notation run := (numericEval Y).
  Definition r0 : env := fun _ _ => 1.
  Definition fits_in (e : expr) : Prop := ampleRun lib limit e /\ forall n, run e = Some n -> within (bits e) (toNumber n).
  Lemma proper_run e n : constExpr e -> ampleRun lib limit e -> run e = Some n -> proper (toNumber n).
  Proof. intros C A R. destruct (all_good lib limit r0 Hlib e C A) as (m & v & R' & _ & P & _). rewrite R in R'. injection R' as <-. exact P. Qed.
  Lemma bits_sum l x : bits (Sum (l ++ [x])) = (bits (Sum l) + bits x + 20)%Z /\ bits (Prod (l ++ [x])) = (bits (Prod l) + bits x + 20)%Z.
  Proof. split; induction l as [|y l IH]; cbn [app bits fold_right] in *; lia. Qed.
  Lemma stages_sum l x s : In s (stages (Sum (l ++ [x]))) -> s = Sum (l ++ [x]) \/ In s (stages (Sum l)) \/ In s (stages x).
  Proof.
    intros [<-|I]; [now left|]. right. apply in_app_or in I as [I|I].
    - rewrite flat_map_app in I. apply in_app_or in I as [I|I]; [left; right; apply in_or_app; now left|right]. cbn in I. now rewrite app_nil_r in I.
    - left. apply in_map_iff in I as (k & <- & I). apply in_seq in I. rewrite app_length in I. cbn in I. rewrite firstn_prefix by lia.
      destruct (Nat.eq_dec k (length l)) as [-> |N]; [rewrite firstn_all; now left|]. right. apply in_or_app. right. apply in_map_iff. exists k. split; [reflexivity|]. apply in_seq. lia.
  Qed.
  Lemma stages_prod l x s : In s (stages (Prod (l ++ [x]))) -> s = Prod (l ++ [x]) \/ In s (stages (Prod l)) \/ In s (stages x).
  Proof.
    intros [<-|I]; [now left|]. right. apply in_app_or in I as [I|I].
    - rewrite flat_map_app in I. apply in_app_or in I as [I|I]; [left; right; apply in_or_app; now left|right]. cbn in I. now rewrite app_nil_r in I.
    - left. apply in_map_iff in I as (k & <- & I). apply in_seq in I. rewrite app_length in I. cbn in I. rewrite firstn_prefix by lia.
      destruct (Nat.eq_dec k (length l)) as [-> |N]; [rewrite firstn_all; now left|]. right. apply in_or_app. right. apply in_map_iff. exists k. split; [reflexivity|]. apply in_seq. lia.
  Qed.
  Lemma fits_sum l : (forall x, In x l -> constExpr x -> (bits x <= 400)%Z -> fits_in x) -> constExpr (Sum l) -> (bits (Sum l) <= 400)%Z -> fits_in (Sum l).
  Proof.
    induction l as [|x l IH] using rev_ind; intros HI C B.
    - assert (W : forall n, run (Sum []) = Some n -> within 1 (toNumber n)) by (cbn; intros n [= <-]; cbn; lia). split; [|exact W].
      intros s n [<-|[]] R. apply (within_ample 1); [lia|]. now apply W.
    - destruct (bits_sum l x) as [BS _]. rewrite BS in B. destruct (constants_app l x C) as [C1 C2]. pose proof (bits_pos (Sum l)). pose proof (bits_pos x).
      destruct (IH ltac:(intros; apply HI; try assumption; apply in_or_app; now left) C1 ltac:(lia)) as [A1 W1].
      destruct (HI x ltac:(apply in_or_app; right; now left) C2 ltac:(lia)) as [A2 W2].
      assert (W : forall n, run (Sum (l ++ [x])) = Some n -> within (bits (Sum (l ++ [x]))) (toNumber n)).
      { intros n R. rewrite run_sum in R. destruct (run (Sum l)) as [a|] eqn:R1; [|discriminate]. destruct (run x) as [b|] eqn:R2; [|discriminate]. injection R as <-.
        rewrite nadd_is, BS. apply add_within; [lia|lia|now apply (proper_run (Sum l))|now apply (proper_run x)|now apply W1|now apply W2]. }
      split; [|exact W]. intros s n I R. apply stages_sum in I as [-> |[I|I]]; [|now apply (A1 s)|now apply (A2 s)]. apply (within_ample (bits (Sum (l ++ [x])))); [lia|now apply W].
  Qed.
  Lemma fits_prod l : (forall x, In x l -> constExpr x -> (bits x <= 400)%Z -> fits_in x) -> constExpr (Prod l) -> (bits (Prod l) <= 400)%Z -> fits_in (Prod l).
  Proof.
    induction l as [|x l IH] using rev_ind; intros HI C B.
    - assert (W : forall n, run (Prod []) = Some n -> within 1 (toNumber n)) by (cbn; intros n [= <-]; cbn; lia). split; [|exact W].
      intros s n [<-|[]] R. apply (within_ample 1); [lia|]. now apply W.
    - destruct (bits_sum l x) as [_ BS]. rewrite BS in B. destruct (constants_app l x C) as [C1 C2]. pose proof (bits_pos (Prod l)). pose proof (bits_pos x).
      destruct (IH ltac:(intros; apply HI; try assumption; apply in_or_app; now left) C1 ltac:(lia)) as [A1 W1].
      destruct (HI x ltac:(apply in_or_app; right; now left) C2 ltac:(lia)) as [A2 W2].
      assert (W : forall n, run (Prod (l ++ [x])) = Some n -> within (bits (Prod (l ++ [x]))) (toNumber n)).
      { intros n R. rewrite run_prod in R. destruct (run (Prod l)) as [a|] eqn:R1; [|discriminate]. destruct (run x) as [b|] eqn:R2; [|discriminate]. injection R as <-.
        rewrite nmul_is, BS. apply mul_within; [lia|lia|now apply (proper_run (Prod l))|now apply (proper_run x)|now apply W1|now apply W2]. }
      split; [|exact W]. intros s n I R. apply stages_prod in I as [-> |[I|I]]; [|now apply (A1 s)|now apply (A2 s)]. apply (within_ample (bits (Prod (l ++ [x])))); [lia|now apply W].
  Qed.
  Lemma num_within q : within (bitsQ q) (NRat q).
  Proof. apply bitsQ_within. Qed.
  Lemma pos_value b : (0 < Qnum b)%Z -> 0 < Q2R b.
  Proof. intros H. unfold Q2R. apply Rmult_lt_0_compat; [apply IZR_lt; lia|apply Rinv_0_lt_compat, IZR_lt; lia]. Qed.
  (** b^n for an integer n. *)
  Lemma int_run b z n : canon b -> (0 < Qnum b)%Z -> run (Pow (Num b) (Num (ofZ z))) = Some n ->
    exists r, n = NQ r /\ computeNumPower b z = Some r /\ canon r /\ Q2R r = Rpower (Q2R b) (IZR z).
  Proof.
    intros Cb P R. cbn [numericEval npow] in R. change (s_fl Y) with (powFloats (l_pow lib) (l_root lib)) in R. unfold toThe in R.
    assert (NB : qltb b 0 = false) by (destruct (qltb_0 b) as [-> _]; apply Z.ltb_ge; lia). rewrite NB in R.
    destruct (pos_cases lib Hlib b (ofZ z) Cb (canon_ofZ z) P) as [(r & E & Cr & V)|(r & _ & D & _)]; [|now destruct D].
    rewrite E in R. injection R as <-. exists r. split; [reflexivity|]. destruct (computeNumPower_some b z) as [s Es]; [unfold qnum; lia|].
    pose proof (pos_value b P) as B. destruct (computeNumPower_R b z s Es ltac:(lra)) as [Vs Cs].
    assert (W : Q2R (ofZ z) = IZR z) by (unfold Q2R, ofZ; cbn [Qnum Qden]; field). rewrite W in V.
    assert (s = r) as <-; [|now split]. apply Q2R_inj; [exact Cs|exact Cr|]. rewrite Vs, V. now apply powerRZ_Rpower.
  Qed.
  Lemma canon_pow q d : canon q -> canon (Qnum q ^ Zpos d # Pos.pow (Qden q) d).
  Proof.
    intros C. unfold canon in *. cbn [Qnum Qden]. rewrite Pos2Z.inj_pow. apply Zgcd_1_rel_prime. apply rel_prime_Zpower; [lia|lia|]. now apply Zgcd_1_rel_prime.
  Qed.
  Lemma root_within q s d k : canon q -> canon s -> 0 < Q2R q -> powerRZ (Q2R q) (Zpos d) = Q2R s -> within k (NRat s) -> within k (NRat q).
  Proof.
    intros Cq Cs P E. assert (S : s = (Qnum q ^ Zpos d # Pos.pow (Qden q) d)).
    { apply Q2R_inj; [exact Cs|now apply canon_pow|]. rewrite <- E. unfold Q2R at 2. cbn [Qnum Qden]. rewrite Pos2Z.inj_pow, !IZR_Zpow by lia.
      unfold Q2R. rewrite powerRZ_mult, powerRZ_inv'. reflexivity. }
    subst s. cbn [within Qnum Qden]. rewrite Pos2Z.inj_pow, Z.abs_pow. intros [A B].
    assert (G : forall z, (0 <= z)%Z -> (z <= z ^ Zpos d)%Z).
    { intros z Z0. destruct (Z.eq_dec z 0) as [-> |]; [apply Z.pow_nonneg; lia|]. rewrite <- (Z.pow_1_r z) at 1. apply Z.pow_le_mono_r; lia. }
    pose proof (G (Z.abs (Qnum q)) ltac:(lia)). pose proof (G (Zpos (Qden q)) ltac:(lia)). split; lia.
  Qed.
  Lemma fits_pow b x : constExpr (Pow (Num b) (Num x)) -> (bits (Pow (Num b) (Num x)) <= 400)%Z -> fits_in (Pow (Num b) (Num x)).
  Proof.
    intros (Cb & Cx & P) B. cbn [bits] in B. pose proof (bitsQ_pos b) as Bb. pose proof (bitsQ_pos x) as Bx. pose proof (pos_value b P) as Pb.
    set (n := Qnum x) in *. assert (NB : (0 <= Z.abs n * bitsQ b)%Z) by nia. rewrite Z.mul_add_distr_r, Z.mul_1_l in B.
    assert (WI : forall m, run (Pow (Num b) (Num (ofZ n))) = Some m -> within (Z.abs n * bitsQ b) (toNumber m)).
    { intros m R. destruct (int_run b n m Cb P R) as (r & -> & E & _). exact (numPower_within b n r E). }
    assert (Ab : ample (NRat b)) by (apply (within_ample (bitsQ b)); [lia|apply num_within]).
    assert (Ax : ample (NRat x)) by (apply (within_ample (bitsQ x)); [lia|apply num_within]).
    assert (Ai : forall m, run (Pow (Num b) (Num (ofZ n))) = Some m -> ample (toNumber m)) by (intros m R; apply (within_ample (Z.abs n * bitsQ b)); [lia|now apply WI]).
    destruct (pow_leaf2 lib limit Hlib b x Cb Cx P Ab Ax Ai) as (m & R & PR & _ & S).
    assert (PW : Rpower (Q2R b) (Q2R x) = Rpower (Rpower (Q2R b) (IZR n)) (/ IZR (Zpos (Qden x)))) by (rewrite Rpower_mult; reflexivity).
    assert (W : within (bits (Pow (Num b) (Num x))) (toNumber m)).
    { apply (within_le (Z.abs n * bitsQ b + 1 + 16)); [cbn [bits]; fold n; lia|].
      destruct (computeNumPower_some b n) as [s Es]; [unfold qnum; lia|]. destruct (computeNumPower_R b n s Es ltac:(lra)) as [Vs Cs]. pose proof (numPower_within b n s Es) as Ws.
      rewrite powerRZ_Rpower in Vs by exact Pb. assert (D1 : 1 <= IZR (Zpos (Qden x))) by (apply IZR_le; lia).
      destruct S as [(q & -> & Cq & Vq)|(z & Dz & -> & Vz)].
      - apply (within_le (Z.abs n * bitsQ b)); [lia|]. cbn [toNumber]. apply (root_within q s (Qden x)); try assumption.
        + rewrite Vq. apply exp_pos.
        + rewrite Vq, PW, <- Vs. rewrite powerRZ_Rpower by apply exp_pos. rewrite Rpower_mult, Rinv_l by lra. apply Rpower_1. rewrite Vs. apply exp_pos.
      - apply ofDouble_within; [lia|exact Dz|]. pose proof (tri (doubleValue z) (Rpower (Q2R b) (Q2R x))) as T. set (w := Rpower (Q2R b) (Q2R x)) in *.
        assert (WP : 0 < w) by apply exp_pos. rewrite (Rabs_pos_eq w) in T by lra. rewrite bpow_plus. change (bpow radix2 1) with 2.
        assert (WB : w <= bpow radix2 (Z.abs n * bitsQ b)); [|lra].
        assert (K1 : 1 <= bpow radix2 (Z.abs n * bitsQ b)) by (change 1 with (bpow radix2 0); apply bpow_le; lia).
        rewrite PW, <- Vs. pose proof (value_within _ s NB (proj1 Ws)) as VB. assert (SP : 0 < Q2R s) by (rewrite Vs; apply exp_pos). rewrite (Rabs_pos_eq (Q2R s)) in VB by lra.
        assert (I : 0 < / IZR (Zpos (Qden x)) <= 1) by (split; [apply Rinv_0_lt_compat; lra|rewrite <- Rinv_1; apply Rinv_le; lra]).
        destruct (Rle_or_lt 1 (Q2R s)) as [L|L].
        + apply Rle_trans with (Q2R s); [|exact VB]. rewrite <- (Rpower_1 (Q2R s)) at 2 by exact SP. destruct L as [L|L].
          * destruct I as [_ [I|I]]; [left; now apply Rpower_lt|rewrite I; lra].
          * rewrite <- L. unfold Rpower. rewrite ln_1, !Rmult_0_r, exp_0. lra.
        + apply Rle_trans with 1; [|exact K1]. unfold Rpower. rewrite <- exp_0. assert (ln (Q2R s) < 0) by (rewrite <- ln_1; now apply ln_increasing).
          assert (N : / IZR (Zpos (Qden x)) * ln (Q2R s) <= 0) by nra. destruct N as [N|N]; [left; now apply exp_increasing|rewrite N; lra]. }
    split.
    - intros s k I E. cbn [stages app] in I. destruct I as [<-|[<-|[<-|[<-|[]]]]].
      + rewrite R in E. injection E as <-. apply (within_ample (bits (Pow (Num b) (Num x)))); [cbn [bits]; fold n; lia|exact W].
      + injection E as <-. exact Ab.
      + injection E as <-. exact Ax.
      + now apply Ai.
    - intros k E. rewrite R in E. injection E as <-. exact W.
  Qed.
  Lemma all_fit e : constExpr e -> (bits e <= 400)%Z -> fits_in e.
  Proof.
    induction e as [q|n p|c| |f l IH|l IH|l IH|b x IHb IHx] using expr_ind2; intros C B.
    - assert (W : forall n, run (Num q) = Some n -> within (bits (Num q)) (toNumber n)) by (intros n [= <-]; apply num_within).
      split; [|exact W]. intros s n [<-|[]] R. apply (within_ample (bits (Num q))); [pose proof (bitsQ_pos q); cbn [bits] in *; lia|now apply W].
    - destruct C.
    - assert (W : forall n, run (Cst c) = Some n -> within 3 (toNumber n)).
      { destruct c; intros n E; [change (Some (@ND spec_float mPi) = Some n) in E|change (Some (@ND spec_float mE) = Some n) in E]; injection E as <-; cbn [toNumber within]; change (bpow radix2 3) with 8.
        - destruct pi_close as [_ E]. pose proof (tri (doubleValue mPi) PI) as T. rewrite (Rabs_pos_eq PI) in T by (left; apply PI_RGT_0). pose proof PI_4.
          change (bpow radix2 (-50)) with (/ 1125899906842624) in E. lra.
        - destruct e_close as [_ E]. pose proof (tri (doubleValue mE) (exp 1)) as T. rewrite (Rabs_pos_eq (exp 1)) in T by (left; apply exp_pos). pose proof exp_le_3.
          change (bpow radix2 (-50)) with (/ 1125899906842624) in E. lra. }
      split; [|exact W]. intros s n [<-|[]] R. apply (within_ample 3); [lia|now apply W].
    - destruct C.
    - destruct l as [|x [|y l]]; try destruct C as []; try (destruct f; contradiction).
      assert (If : In f [FSin; FCos; FAtan]) by assumption. assert (Cx : constExpr x) by assumption. pose proof (bits_pos x) as BX. cbn [bits] in B.
      destruct (IH x ltac:(now left) Cx ltac:(lia)) as [Ax Wx].
      assert (W : forall n, run (Fct f [x]) = Some n -> within 18 (toNumber n)).
      { intros n R. destruct (run x) as [a|] eqn:Ra; [|destruct If as [<-|[<-|[<-|[]]]]; cbn [numericEval] in R; rewrite Ra in R; discriminate R].
        assert (E : n = ofNumber (ofDouble (l_fct lib f (toDouble (toNumber a))))) by (destruct If as [<-|[<-|[<-|[]]]]; cbn [numericEval] in R; rewrite Ra in R; injection R as <-; reflexivity).
        rewrite E, ofNumber_is. pose proof (proper_run x a Cx Ax Ra) as Pa. destruct (toDouble_within (bits x) (toNumber a) ltac:(lia) Pa (Wx a eq_refl)) as [D _].
        destruct Hlib as (LF & _). destruct (LF f _ If D) as [ZD ZE]. apply (ofDouble_within 2); [lia|exact ZD|]. change (bpow radix2 2) with 4.
        pose proof (fct_bound f (doubleValue (toDouble (toNumber a))) If). change (bpow radix2 (-52)) with (/ 4503599627370496) in ZE.
        match type of ZE with Rabs (?p - ?q) <= _ => pose proof (tri p q) end. lra. }
      split.
      + intros s n [<-|I] R; [apply (within_ample 18); [lia|now apply W]|]. cbn [flat_map] in I. rewrite app_nil_r in I. now apply (Ax s).
      + intros n R. apply (within_le 18); [cbn [bits]; lia|now apply W].
    - apply fits_sum; try assumption.
    - apply fits_prod; try assumption.
    - destruct b as [b| | | | | | |]; try destruct C. destruct x as [x| | | | | | |]; try destruct C. apply fits_pow; [|exact B]. destruct H0 as [H1 H2]. exact (conj H (conj H1 H2)).
  Qed.
End Few.

(** ** An accurate library *)
Definition ofReal (x : R) : spec_float := SpecFloat.binary_normalize 53 1024 (ZnearestE (scaled_mantissa radix2 (FLT_exp (-1074) 53) x)) (cexp radix2 (FLT_exp (-1074) 53) x) false.
Lemma ofReal_value x : Rabs x <= bpow radix2 1000 -> isDouble (ofReal x) /\ doubleValue (ofReal x) = rnd x.
Proof.
  intros B. unfold ofReal.
  assert (E : F2R (Float radix2 (ZnearestE (scaled_mantissa radix2 (FLT_exp (-1074) 53) x)) (cexp radix2 (FLT_exp (-1074) 53) x)) = rnd x) by reflexivity.
  set (m := ZnearestE _) in *. set (e := cexp _ _ _) in *. change 53%Z with prec. change 1024%Z with emax. rewrite norm_equiv.
  pose proof (binary_normalize_correct prec emax Hprec Hmax mode_NE m e false) as C. cbv zeta in C.
  rewrite E in C. fold (rnd (rnd x)) in C. assert (I : rnd (rnd x) = rnd x) by (apply round_generic; [apply valid_rnd_round_mode|apply generic_format_round; [apply fexp_correct; reflexivity|apply valid_rnd_round_mode]]).
  rewrite I in C. rewrite Rlt_bool_true in C by (apply (fits_2 x B)). destruct C as (C1 & C2 & _). destruct (float_is _ C2) as [D V]. split; [exact D|]. rewrite V. exact C1.
Qed.
Definition realLibrary : library := {|
  l_pow x y := ofReal (Rpower (doubleValue x) (doubleValue y));
  l_fct f x := ofReal (fctR f (doubleValue x));
  l_atan2 x _ := x |}.
Lemma fct_bound_tight f x : In f [FSin; FCos; FAtan] -> Rabs (fctR f x) <= 18 / 10.
Proof.
  assert (P : PI <= 36 / 10).
  { destruct pi_close as [_ E]. unfold mPi in E. rewrite value_frac in E. replace (2 ^ 51)%Z with 2251799813685248%Z in E by reflexivity.
    change (bpow radix2 (-50)) with (/ 1125899906842624) in E. apply Rabs_le_inv in E. lra. }
  intros [<-|[<-|[<-|[]]]]; cbn [fctR]; apply Rabs_le.
  - pose proof (SIN_bound x). lra.
  - pose proof (COS_bound x). lra.
  - pose proof (atan_bound x). lra.
Qed.
Lemma library_exists : accurate realLibrary.
Proof.
  split; [|split].
  - intros f x If D. cbn [l_fct realLibrary]. pose proof (fct_bound_tight f (doubleValue x) If) as B. destruct (ofReal_value (fctR f (doubleValue x))) as [H V].
    { apply Rle_trans with (bpow radix2 1); [change (bpow radix2 1) with 2; lra|]. apply bpow_le. lia. }
    split; [exact H|]. rewrite V. eapply Rle_trans; [apply close_all|]. pose proof tiny as T. change (bpow radix2 (-52)) with (/ 4503599627370496). lra.
  - intros x y Dx Dy [X1 X2] Y. cbn [l_pow realLibrary]. set (w := Rpower (doubleValue x) (doubleValue y)). assert (WP : 0 < w) by apply exp_pos.
    pose proof (bpow_gt_0 radix2 (-500)) as P5. assert (WB : bpow radix2 (- (1000)) <= w <= bpow radix2 1000).
    { assert (L : Rabs (ln (doubleValue x)) <= 500 * ln 2).
      { assert (Bp : forall z, ln (bpow radix2 z) = IZR z * ln 2) by (intros z; rewrite bpow_exp, ln_exp; reflexivity).
        assert (mono : forall x y, 0 < x -> x <= y -> ln x <= ln y) by (intros a b A [E| ->]; [left; apply ln_increasing; lra|lra]).
        pose proof (mono _ _ P5 X1) as M1. pose proof (mono _ _ (Rlt_le_trans _ _ _ P5 X1) X2) as M2. rewrite Bp in M1, M2. apply Rabs_le. lra. }
      assert (L2 : 0 < ln 2) by (rewrite <- ln_1; apply ln_increasing; lra).
      assert (A : Rabs (doubleValue y * ln (doubleValue x)) <= 1000 * ln 2).
      { rewrite Rabs_mult, (Rabs_pos_eq (doubleValue y)) by lra. apply Rle_trans with (1 * (500 * ln 2)); [apply Rmult_le_compat; try apply Rabs_pos; lra|lra]. }
      apply Rabs_le_inv in A. rewrite !bpow_exp. change (IZR radix2) with 2. rewrite opp_IZR. unfold w, Rpower.
      assert (em : forall a b, a <= b -> exp a <= exp b) by (intros a b [E| ->]; [left; now apply exp_increasing|lra]). split; apply em; lra. }
    destruct (ofReal_value w) as [H V]; [rewrite Rabs_pos_eq; lra|]. split; [exact H|]. rewrite V.
    pose proof (rnd_rel w ltac:(rewrite Rabs_pos_eq; [apply WB|lra])) as E. rewrite (Rabs_pos_eq w) in E by lra. change (bpow radix2 (-52)) with (/ 4503599627370496). lra.
  - intros x y _. cbn [l_pow realLibrary]. apply normalize_sign. apply Z.le_trans with (ZnearestE (IZR 0)); [apply Z.eq_le_incl; symmetry; apply (@Zrnd_IZR ZnearestE _)|]. apply (@Zrnd_le ZnearestE _), Rmult_le_pos; [left; apply exp_pos|apply bpow_ge_0].
Qed.
Lemma steps_bits e : constExpr e -> (Z.of_nat (steps e) <= 4 * bits e)%Z.
Proof.
  assert (L : forall l, (forall x, In x l -> constExpr x -> (Z.of_nat (steps x) <= 4 * bits x)%Z) -> fold_right (fun x P => constExpr x /\ P) True l ->
    (Z.of_nat (fold_right (fun x n => S (steps x + n)) 0%nat l) <= 4 * fold_right (fun x k => bits x + k + 20) 1 l)%Z).
  { induction l as [|x l IHl]; cbn [fold_right]; [lia|]. intros IH [C1 C2]. pose proof (IH x ltac:(now left) C1). specialize (IHl ltac:(intros z I; apply IH; now right) C2). lia. }
  induction e as [q|n p|c| |f l IH|l IH|l IH|b x IHb IHx] using expr_ind2; intros C; try contradiction.
  - pose proof (bitsQ_pos q). cbn [steps bits]. lia.
  - cbn. lia.
  - destruct l as [|x [|y l]]; try destruct C as []; try (destruct f; contradiction). specialize (IH x ltac:(now left) ltac:(assumption)). cbn [steps bits]. lia.
  - now apply L.
  - now apply L.
  - destruct b as [b| | | | | | |]; try destruct C. destruct x as [x| | | | | | |]; try destruct C. pose proof (bitsQ_pos b). pose proof (bitsQ_pos x). cbn [steps bits]. nia.
Qed.
Lemma few_digits lib limit r e : accurate lib -> constExpr e -> (bits e <= 400)%Z ->
  exists x v, varToDouble lib limit e = Gives x /\ isDouble x /\ eval r e = Some v /\
    Rabs (doubleValue x - v) <= size e * INR (S (steps e)) * bpow radix2 (-47).
Proof.
  intros HL C B. apply toDouble_accurate; [exact HL|exact C|now apply all_fit|]. pose proof (steps_bits e C). lia.
Qed.
