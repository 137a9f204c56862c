(** Proofs about the simplification of numeric powers (C04). *)
From Verif Require Import NumberSpec NumPowerModel NumberProofs PrimeFacProofs PrimeListProofs RPow.
From Coq Require Import Znumtheory Sorted Permutation ZifyBool Reals Qreals Lra.
Local Open Scope Z_scope.

(** ** Real value of a pair of factor lists *)
Definition pfR (f : pfac) : R := (IZR (mulZ (pfNum f)) / IZR (mulZ (pfDen f)))%R.
Definition posPf (f : pfac) : Prop := allPos (pfNum f) /\ allPos (pfDen f).
Definition goodPf (f : pfac) : Prop :=
  allPrime (pfNum f) /\ allPrime (pfDen f) /\
  StronglySorted Z.le (pfNum f) /\ StronglySorted Z.le (pfDen f) /\
  (forall z, In z (pfNum f) -> In z (pfDen f) -> False).

Lemma goodPf_pos f : goodPf f -> posPf f.
Proof. intros (H1 & H2 & _). split; now apply allPrime_pos. Qed.
Lemma pfR_pos f : posPf f -> (0 < pfR f)%R.
Proof. intros [H1 H2]. apply Rdiv_lt_0_compat; apply IZR_lt; now apply mulZ_pos. Qed.
Lemma mulZ_R0 l : allPos l -> IZR (mulZ l) <> 0%R.
Proof. intros H. apply IZR_neq. apply mulZ_pos in H. lia. Qed.

Lemma prime_divide_mulZ p l : prime p -> (p | mulZ l) -> exists x, In x l /\ (p | x).
Proof.
  intros Hp. induction l as [|x l IH]; cbn [mulZ]; intros H.
  - apply Z.divide_1_r_nonneg in H; [|apply prime_ge_2 in Hp; lia]. apply prime_ge_2 in Hp. lia.
  - apply prime_mult in H as [H|H]; [exists x; split; [now left|assumption]| |assumption].
    destruct (IH H) as [y [Hy1 Hy2]]. exists y. split; [now right|assumption].
Qed.
Lemma in_divide_mulZ x l : In x l -> (x | mulZ l).
Proof.
  induction l as [|y l IH]; intros H; [destruct H|]. cbn [mulZ]. destruct H as [->|H].
  - exists (mulZ l). ring.
  - apply Z.divide_mul_r. now apply IH.
Qed.
Lemma prime_divide_prime p q : prime p -> prime q -> (p | q) -> p = q.
Proof.
  intros Hp Hq H. apply prime_divisors in H; [|assumption].
  apply prime_ge_2 in Hp. apply prime_ge_2 in Hq. lia.
Qed.
Lemma prime_in p l : prime p -> allPrime l -> (p | mulZ l) -> In p l.
Proof.
  intros Hp Hl H. apply prime_divide_mulZ in H as [x [Hx1 Hx2]]; [|assumption].
  apply prime_divide_prime in Hx2; [now subst|assumption|].
  unfold allPrime in Hl. rewrite Forall_forall in Hl. now apply Hl.
Qed.

Lemma pfOf_good q f : canon q -> (0 < Q2R q)%R -> pfOf q = Some f ->
  goodPf f /\ pfR f = Q2R q /\ mulZ (pfNum f) = qnum q /\ mulZ (pfDen f) = qden q.
Proof.
  intros Hc Hq. unfold pfOf.
  destruct (qltb q 0) eqn:E; [apply Q2R_lt0 in E; lra|].
  apply Q2R_pos_num in Hq.
  destruct (primeFactors_pos (qnum q) Hq) as (ln & En & Hn1 & Hn2 & Hn3).
  destruct (primeFactors_pos (qden q)) as (ld & Ed & Hd1 & Hd2 & Hd3); [unfold qden; lia|].
  rewrite En, Ed. intros H. injection H as <-. unfold goodPf, pfR. cbn [pfNum pfDen].
  rewrite Hn3, Hd3. split; [|repeat split; reflexivity].
  split; [assumption|]. split; [assumption|]. split; [now apply Sorted_SS|]. split; [now apply Sorted_SS|].
  intros z Hz1 Hz2. pose proof (proj1 (Forall_forall _ _) Hn1 z Hz1) as Hzp.
  apply in_divide_mulZ in Hz1. apply in_divide_mulZ in Hz2. rewrite Hn3 in Hz1. rewrite Hd3 in Hz2.
  unfold canon in Hc. assert (Hg : (z | 1)) by (rewrite <- Hc; now apply Z.gcd_greatest).
  apply Z.divide_1_r_nonneg in Hg; apply prime_ge_2 in Hzp; lia.
Qed.

Lemma dup_mul l e : e <> 0 ->
  mulZ (dupRuns (Z.to_nat (Z.abs e)) (Z.to_nat (Z.abs e)) l) = mulZ l ^ Z.abs e.
Proof.
  intros He. destruct l as [|x l].
  - cbn [dupRuns mulZ]. now rewrite Z.pow_1_l by lia.
  - rewrite (dupRuns_mul _ (x :: l) _ x l eq_refl) by lia. rewrite Nat.sub_diag.
    change (Z.of_nat 0) with 0. rewrite Z.pow_0_r, Z2Nat.id by lia. lia.
Qed.

Lemma pfToThe_R f e : posPf f -> posPf (pfToThe f e) /\ pfR (pfToThe f e) = powerRZ (pfR f) e.
Proof.
  intros [H1 H2].
  assert (Hdp : forall l, allPos l -> allPos (if e =? 0 then [] else dupRuns (Z.to_nat (Z.abs e)) (Z.to_nat (Z.abs e)) l)).
  { intros l Hl. destruct (e =? 0); [constructor|]. apply Forall_forall. intros x Hx. apply dupRuns_in in Hx.
    unfold allPos in Hl. rewrite Forall_forall in Hl. now apply Hl. }
  assert (Hdm : forall l, mulZ (if e =? 0 then [] else dupRuns (Z.to_nat (Z.abs e)) (Z.to_nat (Z.abs e)) l) = mulZ l ^ Z.abs e).
  { intros l. destruct (e =? 0) eqn:E; [|now rewrite dup_mul by lia]. replace e with 0 by lia. reflexivity. }
  unfold pfToThe. split.
  - destruct (e <? 0); split; cbn [pfNum pfDen]; now apply Hdp.
  - unfold pfR. destruct (e <? 0) eqn:E; cbn [pfNum pfDen]; rewrite !Hdm, !IZR_Zpow by lia.
    + replace e with (- Z.abs e) at 3 by lia. rewrite powerRZ_neg'.
      unfold Rdiv. rewrite powerRZ_mult, powerRZ_inv', Rinv_mult, Rinv_inv. ring.
    + replace (Z.abs e) with e by lia. unfold Rdiv. now rewrite powerRZ_mult, powerRZ_inv'.
Qed.

Lemma pfToThe_good f e : goodPf f -> goodPf (pfToThe f e).
Proof.
  intros (H1 & H2 & H3 & H4 & H5).
  set (d := fun l => if e =? 0 then [] else dupRuns (Z.to_nat (Z.abs e)) (Z.to_nat (Z.abs e)) l).
  assert (Hin : forall l z, In z (d l) -> In z l).
  { intros l z Hz. unfold d in Hz. destruct (e =? 0); [destruct Hz|]. eapply dupRuns_in; eauto. }
  assert (Hpr : forall l, allPrime l -> allPrime (d l)).
  { intros l Hl. apply Forall_forall. intros z Hz. apply Hin in Hz. unfold allPrime in Hl. rewrite Forall_forall in Hl. auto. }
  assert (Hso : forall l, StronglySorted Z.le l -> StronglySorted Z.le (d l)).
  { intros l Hl. unfold d. destruct (e =? 0); [constructor|]. now apply dupRuns_sorted. }
  assert (Ed : pfToThe f e = if e <? 0 then mkPf (d (pfDen f)) (d (pfNum f)) else mkPf (d (pfNum f)) (d (pfDen f))).
  { unfold pfToThe, d. now destruct (e <? 0). }
  rewrite Ed. clearbody d. unfold goodPf. destruct (e <? 0); cbn [pfNum pfDen];
    (split; [auto|split; [auto|split; [auto|split; [auto|]]]]);
    intros z Hz1 Hz2; apply Hin in Hz1; apply Hin in Hz2; eapply H5; eauto.
Qed.

Lemma allPrime_incl a b : incl a b -> allPrime b -> allPrime a.
Proof. intros H Hb. apply Forall_forall. intros z Hz. unfold allPrime in Hb. rewrite Forall_forall in Hb. auto. Qed.
Lemma mergePrimes_in a b z : In z (mergePrimes a b) <-> In z a \/ In z b.
Proof.
  unfold mergePrimes. split; intros H.
  - apply (Permutation_in z (sortZ_perm (a ++ b))) in H. now apply in_app_or.
  - apply (Permutation_in z (Permutation_sym (sortZ_perm (a ++ b)))). now apply in_or_app.
Qed.
Lemma mergePrimes_mul a b : mulZ (mergePrimes a b) = mulZ a * mulZ b.
Proof. unfold mergePrimes. rewrite (mulZ_perm _ _ (sortZ_perm _)). apply mulZ_app. Qed.

Lemma pfMultiply_good f o : goodPf f -> goodPf o ->
  goodPf (pfMultiply f o) /\ pfR (pfMultiply f o) = (pfR f * pfR o)%R.
Proof.
  intros Hf Ho. unfold pfMultiply.
  assert (Hgen : goodPf (let '(num, oden) := cancelPrimes (pfNum f) (pfDen o) in
      let '(den, onum) := cancelPrimes (pfDen f) (pfNum o) in
      mkPf (mergePrimes num onum) (mergePrimes den oden)) /\
      pfR (let '(num, oden) := cancelPrimes (pfNum f) (pfDen o) in
      let '(den, onum) := cancelPrimes (pfDen f) (pfNum o) in
      mkPf (mergePrimes num onum) (mergePrimes den oden)) = (pfR f * pfR o)%R).
  { destruct Hf as (F1 & F2 & F3 & F4 & F5). destruct Ho as (O1 & O2 & O3 & O4 & O5).
    destruct (cancelPrimes (pfNum f) (pfDen o)) as [num oden] eqn:E1.
    destruct (cancelPrimes (pfDen f) (pfNum o)) as [den onum] eqn:E2.
    pose proof (cancelPrimes_mul _ _ _ _ E1) as (M1 & I1 & I2).
    pose proof (cancelPrimes_mul _ _ _ _ E2) as (M2 & I3 & I4).
    pose proof (cancelPrimes_disj _ _ _ _ F3 O4 E1) as D1.
    pose proof (cancelPrimes_disj _ _ _ _ F4 O3 E2) as D2.
    split.
    - unfold goodPf. cbn [pfNum pfDen]. split; [|split; [|split; [|split]]].
      + apply Forall_forall. intros z Hz. apply mergePrimes_in in Hz as [Hz|Hz].
        * apply I1 in Hz. unfold allPrime in F1. rewrite Forall_forall in F1. auto.
        * apply I4 in Hz. unfold allPrime in O1. rewrite Forall_forall in O1. auto.
      + apply Forall_forall. intros z Hz. apply mergePrimes_in in Hz as [Hz|Hz].
        * apply I3 in Hz. unfold allPrime in F2. rewrite Forall_forall in F2. auto.
        * apply I2 in Hz. unfold allPrime in O2. rewrite Forall_forall in O2. auto.
      + apply sortZ_sorted.
      + apply sortZ_sorted.
      + intros z Hz1 Hz2. apply mergePrimes_in in Hz1. apply mergePrimes_in in Hz2.
        destruct Hz1 as [Hz1|Hz1], Hz2 as [Hz2|Hz2]; eauto.
    - unfold pfR. cbn [pfNum pfDen]. rewrite !mergePrimes_mul, !mult_IZR.
      assert (P : forall a b, incl a b -> allPrime b -> IZR (mulZ a) <> 0%R).
      { intros a b Hab Hb. apply mulZ_R0. apply allPrime_pos. now apply allPrime_incl with b. }
      pose proof (P _ _ I1 F1). pose proof (P _ _ I2 O2). pose proof (P _ _ I3 F2). pose proof (P _ _ I4 O1).
      pose proof (P _ _ (incl_refl _) F1). pose proof (P _ _ (incl_refl _) F2).
      pose proof (P _ _ (incl_refl _) O1). pose proof (P _ _ (incl_refl _) O2).
      apply (f_equal IZR) in M1. apply (f_equal IZR) in M2. rewrite !mult_IZR in M1, M2.
      apply Rmult_eq_reg_r with (IZR (mulZ den) * IZR (mulZ oden) * (IZR (mulZ (pfDen f)) * IZR (mulZ (pfDen o))))%R.
      + field_simplify; repeat split; try assumption.
        replace (IZR (mulZ num) * IZR (mulZ onum) * IZR (mulZ (pfDen f)) * IZR (mulZ (pfDen o)))%R
          with ((IZR (mulZ num) * IZR (mulZ (pfDen o))) * (IZR (mulZ (pfDen f)) * IZR (mulZ onum)))%R by ring.
        rewrite <- M1, M2. ring.
      + repeat apply Rmult_integral_contrapositive_currified; assumption. }
  destruct (pfNum o) as [|xn ln] eqn:En; [destruct (pfDen o) as [|xd ld] eqn:Ed|].
  - split; [assumption|]. unfold pfR at 3. rewrite En, Ed. cbn [mulZ]. field.
  - exact Hgen.
  - exact Hgen.
Qed.

Lemma pfExtract_spec f e rem ex : goodPf f -> pfExtract f e = (rem, ex) ->
  goodPf rem /\
  (exists x, posPf x /\ pfR f = (pfR rem * powerRZ (pfR x) (qden e))%R /\
             posPf ex /\ pfR ex = powerRZ (pfR x) (qnum e)) /\
  (1 < qden e -> forall z, Z.of_nat (countZ z (pfNum rem)) < qden e /\ Z.of_nat (countZ z (pfDen rem)) < qden e) /\
  mulZ (pfNum rem) <= mulZ (pfNum f) /\ mulZ (pfDen rem) <= mulZ (pfDen f).
Proof.
  intros (F1 & F2 & F3 & F4 & F5). unfold pfExtract.
  destruct (extractPrimes (qden e) 0 0 [] (pfNum f)) as [n en] eqn:E1.
  destruct (extractPrimes (qden e) 0 0 [] (pfDen f)) as [d ed] eqn:E2.
  intros E. injection E as <- <-.
  assert (Hde : 0 < qden e) by (unfold qden; lia).
  pose proof (extractPrimes_mul _ Hde _ _ _ _ _ _ (Z.le_refl 0) eq_refl E1) as M1.
  pose proof (extractPrimes_mul _ Hde _ _ _ _ _ _ (Z.le_refl 0) eq_refl E2) as M2.
  cbn [mulZ] in M1, M2. rewrite Z.mul_1_l in M1, M2.
  pose proof (extractPrimes_in _ _ _ _ _ _ _ E1) as [In1 Ie1].
  pose proof (extractPrimes_in _ _ _ _ _ _ _ E2) as [In2 Ie2].
  assert (Hi1 : incl n (pfNum f)) by (intros z Hz; apply In1 in Hz as [[]|Hz]; assumption).
  assert (Hi2 : incl d (pfDen f)) by (intros z Hz; apply In2 in Hz as [[]|Hz]; assumption).
  assert (P1 : allPrime n) by now apply allPrime_incl with (pfNum f).
  assert (P2 : allPrime d) by now apply allPrime_incl with (pfDen f).
  assert (P3 : allPrime en) by (apply allPrime_incl with (pfNum f); assumption).
  assert (P4 : allPrime ed) by (apply allPrime_incl with (pfDen f); assumption).
  assert (G1 : Forall (fun z => 0 <= z) (pfNum f)) by (eapply Forall_impl; [|exact (allPrime_pos _ F1)]; cbn; lia).
  assert (G2 : Forall (fun z => 0 <= z) (pfDen f)) by (eapply Forall_impl; [|exact (allPrime_pos _ F2)]; cbn; lia).
  split; [|split; [|split; [|split]]].
  - unfold goodPf. cbn [pfNum pfDen]. split; [assumption|]. split; [assumption|].
    split; [eapply extractPrimes_sorted; [| | | |exact E1]; try assumption; try reflexivity|].
    split; [eapply extractPrimes_sorted; [| | | |exact E2]; try assumption; try reflexivity|].
    intros z Hz1 Hz2. eapply F5; eauto.
  - exists (mkPf en ed).
    assert (Hp : posPf (mkPf en ed)) by (split; now apply allPrime_pos).
    destruct (pfToThe_R (mkPf en ed) (qnum e) Hp) as [T1 T2].
    split; [assumption|]. split; [|now split].
    unfold pfR. cbn [pfNum pfDen]. rewrite M1, M2, !mult_IZR, !IZR_Zpow by lia.
    unfold Rdiv. rewrite powerRZ_mult, powerRZ_inv', !Rinv_mult. ring.
  - intros Hd z. split; cbn [pfNum pfDen].
    + eapply extractPrimes_count; [exact Hd| | | | |exact E1]; try assumption; try reflexivity. lia.
    + eapply extractPrimes_count; [exact Hd| | | | |exact E2]; try assumption; try reflexivity. lia.
  - cbn [pfNum]. rewrite M1. pose proof (mulZ_pos _ (allPrime_pos _ P1)). pose proof (mulZ_pos _ (allPrime_pos _ P3)).
    assert (0 < mulZ en ^ qden e) by (apply Z.pow_pos_nonneg; lia). nia.
  - cbn [pfDen]. rewrite M2. pose proof (mulZ_pos _ (allPrime_pos _ P2)). pose proof (mulZ_pos _ (allPrime_pos _ P4)).
    assert (0 < mulZ ed ^ qden e) by (apply Z.pow_pos_nonneg; lia). nia.
Qed.

(** ** Collecting: right exactly if the primes occur equally often *)
Definition collectGood (f : pfac) : Prop :=
  (1 < equalCount f)%nat ->
  mulZ (uniq (pfNum f)) ^ Z.of_nat (equalCount f) = mulZ (pfNum f) /\
  mulZ (uniq (pfDen f)) ^ Z.of_nat (equalCount f) = mulZ (pfDen f).

Lemma uniq_in l z : In z (uniq l) -> In z l.
Proof.
  induction l as [|x l IH]; [cbn; tauto|]. cbn [uniq]. destruct l as [|y l].
  - cbn. tauto.
  - destruct (x =? y).
    + intros H. right. now apply IH.
    + intros [<-|H]; [now left|right; now apply IH].
Qed.

Lemma pfCollect_spec f e f' e' : goodPf f -> collectGood f -> pfCollect f e = (f', e') ->
  canon e -> posPf f' /\ allPrime (pfNum f') /\ allPrime (pfDen f') /\
  (forall z, In z (pfNum f') -> In z (pfDen f') -> False) /\ canon e' /\
  Rpower (pfR f') (Q2R e') = Rpower (pfR f) (Q2R e) /\
  (pfNum f' = [] -> pfDen f' = [] -> e' = 1%Q).
Proof.
  intros Hg Hc. pose proof (goodPf_pos _ Hg) as Hp. destruct Hg as (F1 & F2 & F3 & F4 & F5).
  unfold pfCollect. destruct (Nat.ltb 1 (equalCount f)) eqn:Ec.
  - apply Nat.ltb_lt in Ec. destruct (Hc Ec) as [C1 C2]. intros E He.
    assert (Ef : f' = mkPf (uniq (pfNum f)) (uniq (pfDen f))) by congruence.
    assert (Ee : e' = qmul (ofZ (Z.of_nat (equalCount f))) e) by congruence. clear E. subst f' e'.
    assert (A1 : allPrime (uniq (pfNum f))) by (apply allPrime_incl with (pfNum f); [intros z; apply uniq_in|assumption]).
    assert (A2 : allPrime (uniq (pfDen f))) by (apply allPrime_incl with (pfDen f); [intros z; apply uniq_in|assumption]).
    cbn [pfNum pfDen]. split; [split; now apply allPrime_pos|]. split; [assumption|]. split; [assumption|].
    split; [intros z Hz1 Hz2; apply uniq_in in Hz1; apply uniq_in in Hz2; eauto|].
    split; [apply qmul_spec|]. split.
    + rewrite Q2R_qmul, Q2R_ofZ, <- Rpower_mult. f_equal.
      rewrite Rpower_IZR by (apply pfR_pos; split; now apply allPrime_pos).
      unfold pfR. cbn [pfNum pfDen]. unfold Rdiv. rewrite powerRZ_mult, powerRZ_inv', <- !IZR_Zpow by lia.
      now rewrite C1, C2.
    + intros U1 U2. exfalso.
      assert (N : forall l, uniq l = [] -> l = []).
      { induction l as [|x l IH]; [reflexivity|]. cbn [uniq]. destruct l as [|y l]; [discriminate|].
        destruct (x =? y); [|discriminate]. intros H. apply IH in H. discriminate. }
      apply N in U1. apply N in U2. unfold equalCount in Ec. rewrite U1, U2 in Ec. lia.
  - intros E He. destruct (pfNum f) as [|xn ln] eqn:En; [destruct (pfDen f) as [|xd ld] eqn:Ed|].
    + injection E as <- <-. rewrite En, Ed. split; [assumption|]. split; [constructor|]. split; [constructor|].
      split; [cbn; tauto|]. split; [reflexivity|]. split; [|reflexivity].
      replace (pfR f) with 1%R by (unfold pfR; rewrite En, Ed; cbn [mulZ]; field).
      unfold Rpower. rewrite ln_1, !Rmult_0_r. reflexivity.
    + injection E as <- <-. rewrite En, Ed. repeat split; try assumption; try apply Hp; try discriminate; try (cbn; tauto).
    + injection E as <- <-. rewrite En. split; [assumption|]. split; [assumption|]. split; [assumption|].
      split; [assumption|]. split; [assumption|]. split; [reflexivity|discriminate].
Qed.

Lemma pfEval_R f q : posPf f -> pfEval f = Some q -> canon q /\ Q2R q = pfR f.
Proof.
  intros Hp. unfold pfEval. rewrite !prodZ_mulZ. intros E. apply mkRat_R in E as (H1 & _ & H2). now split.
Qed.

Lemma pfEval_one f q : allPrime (pfNum f) -> allPrime (pfDen f) ->
  (forall z, In z (pfNum f) -> In z (pfDen f) -> False) -> pfEval f = Some q -> Q2R q = 1%R ->
  pfNum f = [] /\ pfDen f = [].
Proof.
  intros H1 H2 H3 E Eq. apply pfEval_R in E as [_ E]; [|split; now apply allPrime_pos].
  rewrite Eq in E. unfold pfR in E.
  assert (EM : mulZ (pfNum f) = mulZ (pfDen f)).
  { apply eq_IZR. pose proof (mulZ_R0 _ (allPrime_pos _ H2)).
    apply Rmult_eq_reg_r with (/ IZR (mulZ (pfDen f)))%R; [|now apply Rinv_neq_0_compat].
    rewrite Rinv_r by assumption. symmetry. exact E. }
  split.
  - destruct (pfNum f) as [|x l] eqn:En; [reflexivity|]. exfalso.
    inversion H1; subst. apply (H3 x); [now left|]. apply prime_in; try assumption.
    rewrite <- EM. apply in_divide_mulZ. now left.
  - destruct (pfDen f) as [|x l] eqn:En; [reflexivity|]. exfalso.
    inversion H2; subst. apply (H3 x); [|now left]. apply prime_in; try assumption.
    rewrite EM. apply in_divide_mulZ. now left.
Qed.

(** ** Payloads *)

Lemma nbind_ok {A B} (m : nres A) (k : A -> nres B) r :
  nbind m k = NOk r -> exists a, m = NOk a /\ k a = NOk r.
Proof. destruct m; cbn; intros H; [eauto|discriminate|discriminate]. Qed.
Lemma throwIfNone_ok {A} (m : option A) a : throwIfNone m = NOk a -> m = Some a.
Proof. destruct m; cbn; congruence. Qed.
Lemma loopIfNone_ok {A} (m : option A) a : loopIfNone m = NOk a -> m = Some a.
Proof. destruct m; cbn; congruence. Qed.

(** Integer powers are exact whatever the floating point functions do. *)
Lemma computeRational_int fl b e r : qIsInt e = true -> Q2R b <> 0%R ->
  computeRationalPower fl b e = PRat r -> canon r /\ Q2R r = powerRZ (Q2R b) (qnum e).
Proof.
  intros Hi Hb. unfold computeRationalPower.
  destruct (computeNumPower b (qnum e)) as [q|] eqn:E; [|discriminate].
  apply computeNumPower_R in E as [Eq Hq]; [|assumption].
  unfold computeDenomPower. unfold qIsInt in Hi. rewrite Hi. intros H. injection H as <-. now split.
Qed.

Definition noFloats : floats := mkFloats (fun _ _ => None) (fun _ _ => None).
Lemma noFloats_ok : rootsNonneg noFloats /\ exactDoubles noFloats.
Proof. split; intros ? ? ? H; discriminate. Qed.

Lemma toThe_int_nofloats fl b e : qIsInt e = true -> toThe fl b e = toThe noFloats b e.
Proof.
  intros Hi. unfold toThe.
  assert (H : forall c, toThePos fl c e = toThePos noFloats c e).
  { intros c. unfold toThePos, computeRationalPower, computeDenomPower. unfold qIsInt in Hi. rewrite Hi. reflexivity. }
  destruct (qltb b 0); [|apply H]. destruct (qeqb e 1); [reflexivity|]. destruct (qeqb e 0); [reflexivity|].
  destruct (negb (qIsInt e)); [reflexivity|]. destruct (qeqb b (-1 # 1)); [reflexivity|]. now rewrite H.
Qed.

Lemma intPow_R fl b e r : canon b -> canon e -> qIsInt e = true -> Q2R b <> 0%R -> intPow fl b e = NOk r ->
  canon r /\ Q2R r = powerRZ (Q2R b) (qnum e) /\ Q2R r <> 0%R.
Proof.
  intros Hb He Hi Hb0. unfold intPow. rewrite toThe_int_nofloats by assumption.
  destruct (toThe noFloats b e) as [q| |] eqn:E; try discriminate. intros H. injection H as <-.
  destruct noFloats_ok as [N1 N2].
  apply toThe_R in E as [E1 E2]; try assumption.
  - split; [assumption|]. rewrite (qIsInt_iff e Hi), rpow_int in E2 by assumption. injection E2 as E2.
    split; [auto|]. rewrite <- E2. now apply powerRZ_neq0.
  - intros [-> _]. apply Hb0. apply Q2R_0.
Qed.

Lemma qIsInt_ofZ n : qIsInt (ofZ n) = true. Proof. reflexivity. Qed.

Lemma npAdjustExp_sound fl p p' : payCanon p -> (0 < Q2R (pBase p))%R ->
  npAdjustExp fl p = NOk p' -> payVal p' = payVal p /\ payCanon p' /\ pBase p' = pBase p /\
  (Q2R (pPre p) <> 0 -> Q2R (pPre p') <> 0)%R.
Proof.
  intros (C1 & C2 & C3) Hb. unfold npAdjustExp.
  destruct (qgtb (pExp p) 1 || qltb (pExp p) (-1 # 1)); intros E.
  - apply nbind_ok in E as (ex & E1 & E2). injection E2 as <-.
    apply intPow_R in E1 as (H1 & H2 & H3); try assumption; try apply canon_ofZ; try reflexivity; [|lra].
    unfold payVal, payCanon. cbn [pBase pExp pPre]. split; [|split; [|split]].
    + rewrite !rpow_pos by assumption. f_equal. rewrite Q2R_qmul, Q2R_qsub, H2, Q2R_ofZ.
      set (z := Z.quot (qnum (pExp p)) (qden (pExp p))). change (qnum (ofZ z)) with z.
      rewrite Rmult_assoc. f_equal. unfold Rminus. rewrite Rpower_plus, Rpower_Ropp, Rpower_IZR by assumption.
      assert (powerRZ (Q2R (pBase p)) z <> 0)%R by (apply powerRZ_neq0; lra). field. assumption.
    + split; [assumption|]. split; [apply qsub_spec|apply qmul_spec].
    + reflexivity.
    + intros Hp. rewrite Q2R_qmul. now apply Rmult_integral_contrapositive_currified.
  - injection E as <-. repeat split; auto.
Qed.

Lemma npPreFacPrimes_spec fl p pf pre' :
  rootsNonneg fl -> exactDoubles fl -> payCanon p -> (0 < Q2R (pPre p))%R -> (0 < Q2R (pExp p))%R ->
  npPreFacPrimes fl p = NOk (pf, pre') ->
  goodPf pf /\ canon pre' /\ (0 < Q2R pre')%R /\
  Q2R (pPre p) = (Q2R pre' * Rpower (pfR pf) (Q2R (pExp p)))%R.
Proof.
  intros Hfl Hex (C1 & C2 & C3) Hp He. unfold npPreFacPrimes. intros E.
  apply nbind_ok in E as (e & E1 & E). apply throwIfNone_ok in E1.
  apply mkRat_R in E1 as (Ce & Hn0 & ER).
  assert (Hg1 : goodPf (mkPf [] [])).
  { unfold goodPf. cbn [pfNum pfDen]. repeat split; try constructor. cbn. tauto. }
  destruct (toThe fl (pPre p) e) as [r| |] eqn:Et; try discriminate.
  - apply nbind_ok in E as (f & Ef & E). apply loopIfNone_ok in Ef.
    assert (pf = pfToThe f (qden (pExp p))) by congruence. assert (pre' = 1%Q) by congruence. subst. clear E.
    apply toThe_R in Et as [Cr ER2]; try assumption.
    2:{ intros [H0 _]. rewrite H0, Q2R_0 in Hp. lra. }
    rewrite rpow_pos in ER2 by assumption. injection ER2 as ER2.
    assert (Hr : (0 < Q2R r)%R) by (rewrite <- ER2; apply exp_pos).
    apply pfOf_good in Ef as (G & GR & _); try assumption.
    split; [now apply pfToThe_good|]. split; [reflexivity|]. rewrite Q2R_1. split; [lra|].
    destruct (pfToThe_R f (qden (pExp p)) (goodPf_pos _ G)) as [_ T]. rewrite T, GR, <- ER2.
    rewrite <- Rpower_IZR by apply exp_pos. rewrite !Rpower_mult, ER. rewrite (Q2R_frac (pExp p)).
    assert (IZR (qnum (pExp p)) <> 0)%R by now apply IZR_neq.
    pose proof (IZR_den (pExp p)).
    replace (1 / IZR (qnum (pExp p)) * (IZR (qden (pExp p)) * (IZR (qnum (pExp p)) / IZR (qden (pExp p)))))%R with 1%R.
    + rewrite Rpower_1 by assumption. lra.
    + field. split; lra.
  - injection E as <- <-. split; [assumption|]. split; [assumption|]. split; [assumption|].
    unfold pfR. cbn [pfNum pfDen mulZ]. unfold Rdiv. rewrite Rinv_1, Rmult_1_r. unfold Rpower. rewrite ln_1, Rmult_0_r, exp_0. lra.
Qed.

(** The factor lists that reach collectToNewExp. *)
Definition atCollect (fl : floats) (p : payload) (f : pfac) : Prop :=
  exists nb pf, pfOf (pBase p) = Some nb /\ npPreFacPrimes fl p = NOk pf /\
    f = fst (pfExtract (pfMultiply nb (fst pf)) (pExp p)).

Lemma npCancel_sound fl p p' :
  rootsNonneg fl -> exactDoubles fl -> payCanon p ->
  (0 < Q2R (pBase p))%R -> (0 < Q2R (pPre p))%R -> (0 < Q2R (pExp p))%R ->
  (forall f, atCollect fl p f -> collectGood f) ->
  npCancel fl p = NOk p' ->
  payVal p' = payVal p /\ payCanon p' /\ (0 < Q2R (pBase p') /\ Q2R (pPre p') <> 0)%R.
Proof.
  intros Hfl Hex Hc Hb Hp He Hgood. unfold npCancel. intros E.
  apply nbind_ok in E as (nb & E1 & E). apply loopIfNone_ok in E1.
  apply nbind_ok in E as ([pf pre'] & E2 & E). cbn [fst snd] in E.
  assert (Hat : collectGood (fst (pfExtract (pfMultiply nb pf) (pExp p)))).
  { apply Hgood. exists nb, (pf, pre'). auto. }
  destruct (pfExtract (pfMultiply nb pf) (pExp p)) as [nb2 ex] eqn:Eex. cbn [fst] in Hat.
  apply nbind_ok in E as (exv & E3 & E). apply throwIfNone_ok in E3.
  destruct (pfCollect nb2 (pExp p)) as [nb3 exp1] eqn:Ecol.
  apply nbind_ok in E as (b & E4 & E). apply throwIfNone_ok in E4.
  apply npPreFacPrimes_spec in E2 as (Gpf & Cpre & Ppre & Vpre); try assumption.
  destruct Hc as (C1 & C2 & C3).
  apply pfOf_good in E1 as (Gnb & Vnb & _); try assumption.
  destruct (pfMultiply_good nb pf Gnb Gpf) as [G1 V1].
  apply pfExtract_spec in Eex as (G2 & (x & Px & Vx & Pex & Vex) & _ & _); [|assumption].
  apply pfCollect_spec in Ecol as (P3 & A1 & A2 & D3 & C3' & V3 & One); try assumption.
  pose proof (pfEval_R _ _ Pex E3) as [Cexv Vexv].
  pose proof (pfEval_R _ _ P3 E4) as [Cb Vb].
  pose proof (pfR_pos _ (goodPf_pos _ G2)) as Pos2. pose proof (pfR_pos _ Px) as Posx.
  pose proof (pfR_pos _ (goodPf_pos _ Gnb)) as Posnb. pose proof (pfR_pos _ (goodPf_pos _ Gpf)) as Pospf.
  pose proof (pfR_pos _ Pex) as Posex. pose proof (pfR_pos _ P3) as Pos3.
  set (w := (Q2R pre' * pfR ex * Rpower (pfR nb2) (Q2R (pExp p)))%R).
  assert (Hw : payVal p = Some w).
  { unfold payVal. rewrite rpow_pos by assumption. f_equal. unfold w. rewrite Vpre, <- Vnb.
    rewrite Rmult_assoc, Rpower_mult_distr by assumption. rewrite (Rmult_comm (pfR pf)), <- V1, Vx.
    rewrite <- Rpower_mult_distr by (try assumption; now apply powerRZ_lt).
    rewrite <- Rpower_IZR, Rpower_mult by assumption.
    replace (IZR (qden (pExp p)) * Q2R (pExp p))%R with (IZR (qnum (pExp p))).
    - rewrite Rpower_IZR by assumption. rewrite Vex. ring.
    - rewrite (Q2R_frac (pExp p)). pose proof (IZR_den (pExp p)). field. lra. }
  assert (Hp1 : payVal (if qeqb b 1 then mkPay (qmul pre' exv) exp1 b else mkPay b exp1 (qmul pre' exv)) = Some w
      /\ payCanon (if qeqb b 1 then mkPay (qmul pre' exv) exp1 b else mkPay b exp1 (qmul pre' exv))
      /\ (0 < Q2R (pBase (if qeqb b 1 then mkPay (qmul pre' exv) exp1 b else mkPay b exp1 (qmul pre' exv))))%R
      /\ (Q2R (pPre (if qeqb b 1 then mkPay (qmul pre' exv) exp1 b else mkPay b exp1 (qmul pre' exv))) <> 0)%R).
  { destruct (qeqb b 1) eqn:Eb1.
    - apply qeqb_eq in Eb1. subst b. rewrite Q2R_1 in Vb.
      destruct (pfEval_one nb3 1%Q) as [N1 N2]; try assumption; [apply Q2R_1|].
      assert (exp1 = 1%Q) by now apply One. subst exp1.
      unfold payVal, payCanon. cbn [pBase pExp pPre]. rewrite Q2R_1, rpow_r1, Q2R_qmul, Vexv.
      split; [|split; [|split]].
      + f_equal. unfold w. rewrite <- V3, <- Vb. unfold Rpower. rewrite ln_1, Rmult_0_r, exp_0. ring.
      + split; [apply qmul_spec|]. split; [reflexivity|assumption].
      + now apply Rmult_lt_0_compat.
      + lra.
    - unfold payVal, payCanon. cbn [pBase pExp pPre]. rewrite Vb, rpow_pos by assumption.
      rewrite Q2R_qmul, Vexv. split; [|split; [|split]].
      + f_equal. unfold w. now rewrite V3.
      + split; [assumption|]. split; [assumption|apply qmul_spec].
      + assumption.
      + pose proof (Rmult_lt_0_compat _ _ Ppre Posex). lra. }
  destruct Hp1 as (W1 & W2 & W3 & W4).
  apply npAdjustExp_sound in E as (X1 & X2 & X3 & X4); try assumption.
  rewrite X1, W1, X3. split; [auto|]. split; [assumption|]. split; [assumption|]. now apply X4.
Qed.

(** Negative sign of the prefactor. *)
Definition absPre (p : payload) : payload :=
  if qltb (pPre p) 0 then mkPay (pBase p) (pExp p) (qmul (pPre p) (-1 # 1)) else p.

Lemma npPosPos_sound fl limit p p' :
  rootsNonneg fl -> exactDoubles fl -> payCanon p ->
  (0 < Q2R (pBase p))%R -> (Q2R (pPre p) <> 0)%R -> (0 < Q2R (pExp p))%R ->
  (npSmall limit (absPre p) = true -> forall f, atCollect fl (absPre p) f -> collectGood f) ->
  npPosPos fl limit p = NOk p' ->
  payVal p' = payVal p /\ payCanon p' /\ (Q2R (pBase p') <> 0 /\ Q2R (pPre p') <> 0)%R.
Proof.
  intros Hfl Hex Hc Hb Hp He Hgood. unfold npPosPos.
  fold (absPre p). set (neg := qltb (pPre p) 0).
  assert (Ha : payCanon (absPre p) /\ (0 < Q2R (pPre (absPre p)))%R /\ pBase (absPre p) = pBase p /\ pExp (absPre p) = pExp p
     /\ payVal p = match payVal (absPre p) with Some v => Some (if neg then - v else v)%R | None => None end).
  { unfold absPre. fold neg. unfold neg. destruct Hc as (C1 & C2 & C3). destruct (qltb (pPre p) 0) eqn:En.
    - apply Q2R_lt0 in En. unfold payCanon, payVal. cbn [pBase pExp pPre]. rewrite Q2R_qmul, Q2R_m1.
      repeat split; try assumption; [apply qmul_spec|lra|]. destruct (rpow (Q2R (pBase p)) (Q2R (pExp p))); [|reflexivity].
      f_equal. lra.
    - apply Q2R_ge0 in En. repeat split; try assumption; [lra|]. destruct (payVal p); reflexivity. }
  destruct Ha as (A1 & A2 & A3 & A4 & A5).
  intros E. apply nbind_ok in E as (p2 & E1 & E2). injection E2 as <-.
  assert (H2 : payVal p2 = payVal (absPre p) /\ payCanon p2 /\ (0 < Q2R (pBase p2) /\ Q2R (pPre p2) <> 0)%R).
  { destruct (npSmall limit (absPre p)) eqn:Es.
    - apply npCancel_sound with fl; try assumption; [now rewrite A3|now rewrite A4|now apply Hgood].
    - destruct (qIsInt (pExp (absPre p))).
      + apply npAdjustExp_sound in E1 as (X1 & X2 & X3 & X4); [|assumption|now rewrite A3].
        rewrite X3, A3. repeat split; try assumption; try apply X2. apply X4. lra.
      + injection E1 as <-. rewrite A3. repeat split; try assumption; try apply A1. lra. }
  destruct H2 as (V2 & (Y1 & Y2 & Y3) & Hb2 & Hp2).
  unfold npSignBack. destruct neg.
  - destruct (qeqb (pExp p2) 1) eqn:E1'.
    + apply qeqb_eq in E1'. unfold payVal, payCanon in *. cbn [pBase pExp pPre].
      rewrite A5, <- V2. rewrite E1', Q2R_1, !rpow_r1, Q2R_qmul, Q2R_m1.
      repeat split; try assumption; try reflexivity; try apply qmul_spec; try lra. f_equal. lra.
    + unfold payVal, payCanon in *. cbn [pBase pExp pPre]. rewrite A5, <- V2.
      rewrite Q2R_qmul, Q2R_m1. repeat split; try assumption; try apply qmul_spec; try lra.
      destruct (rpow (Q2R (pBase p2)) (Q2R (pExp p2))); [|reflexivity]. f_equal. lra.
  - rewrite A5, V2. repeat split; try assumption; try lra. destruct (payVal (absPre p)); reflexivity.
Qed.

(** Negative base with integer exponent. *)
Definition absBase (p : payload) : nres payload :=
  if qltb (pBase p) 0 then
    ex <~ intPow noFloats (-1 # 1) (pExp p);
    NOk (mkPay (qmul (pBase p) (-1 # 1)) (pExp p) (qmul (pPre p) ex))
  else NOk p.

Lemma npPosExp_sound fl limit p p' :
  rootsNonneg fl -> exactDoubles fl -> payCanon p -> npValid p = true ->
  (Q2R (pBase p) <> 0)%R -> (Q2R (pPre p) <> 0)%R -> (0 < Q2R (pExp p))%R ->
  (forall q, absBase p = NOk q -> npSmall limit (absPre q) = true ->
             forall f, atCollect fl (absPre q) f -> collectGood f) ->
  npPosExp fl limit p = NOk p' ->
  payVal p' = payVal p /\ payCanon p' /\ (Q2R (pBase p') <> 0 /\ Q2R (pPre p') <> 0)%R.
Proof.
  intros Hfl Hex Hc Hv Hb Hp He Hgood. unfold npPosExp. unfold absBase in Hgood.
  destruct (qltb (pBase p) 0) eqn:Eb.
  - unfold npValid in Hv. rewrite Eb in Hv. cbn [andb] in Hv. destruct (qIsInt (pExp p)) eqn:Ei; [|discriminate].
    apply Q2R_lt0 in Eb. destruct Hc as (C1 & C2 & C3).
    intros E. apply nbind_ok in E as (ex & E1 & E).
    assert (E1n : intPow noFloats (-1 # 1) (pExp p) = NOk ex).
    { rewrite <- E1. unfold intPow. now rewrite (toThe_int_nofloats fl). }
    rewrite E1n in Hgood. cbn [nbind] in Hgood.
    apply intPow_R in E1 as (X1 & X2 & X3); try assumption; try reflexivity; [|rewrite Q2R_m1; lra].
    rewrite Q2R_m1 in X2.
    apply npPosPos_sound in E; try assumption.
    + destruct E as (V & Cc & N). split; [|now split]. rewrite V. unfold payVal. cbn [pBase pExp pPre].
      rewrite Q2R_qmul, Q2R_m1. rewrite (qIsInt_iff _ Ei). rewrite !rpow_int by lra. f_equal.
      rewrite Q2R_qmul, X2. rewrite Rmult_assoc, <- powerRZ_mult. do 2 f_equal. lra.
    + repeat split; try assumption; apply qmul_spec.
    + cbn [pBase]. rewrite Q2R_qmul, Q2R_m1. lra.
    + cbn [pPre]. rewrite Q2R_qmul. now apply Rmult_integral_contrapositive_currified.
    + intros Hs. now apply Hgood.
  - apply Q2R_ge0 in Eb. intros E. apply npPosPos_sound in E; try assumption; [lra|].
    intros Hs. now apply Hgood.
Qed.

(** The payload with a positive exponent: p*b^e = 1/((1/p)*b^(-e)). *)
Definition posExp (p : payload) : option payload :=
  if qltb (pExp p) 0 then
    match qinv (pPre p) with Some i => Some (mkPay (pBase p) (qmul (pExp p) (-1 # 1)) i) | None => None end
  else Some p.

(** The payload that reaches the cancellation of primes. *)
Definition cancelInput (p q : payload) : Prop :=
  exists p1 p2, posExp p = Some p1 /\ absBase p1 = NOk p2 /\ q = absPre p2.

Lemma numPowerSimpl_sound fl limit p p' :
  rootsNonneg fl -> exactDoubles fl -> payCanon p ->
  (Q2R (pBase p) <> 0)%R -> (Q2R (pPre p) <> 0)%R -> (Q2R (pExp p) <> 0)%R ->
  (forall q f, cancelInput p q -> npSmall limit q = true -> atCollect fl q f -> collectGood f) ->
  numPowerSimpl fl limit p = NOk p' -> payVal p' = payVal p /\ payCanon p'.
Proof.
  intros Hfl Hex Hc Hb Hp He Hgood. unfold numPowerSimpl.
  destruct (npValid p) eqn:Hv; cbn [negb]; [|intros E; injection E as <-; auto].
  intros E. apply nbind_ok in E as (p1 & E1 & E2).
  assert (H1 : payVal p1 = payVal p /\ payCanon p1 /\ (Q2R (pBase p1) <> 0)%R).
  { destruct (qltb (pExp p) 0) eqn:Ee.
    - unfold npNegExp in E1. apply nbind_ok in E1 as (i & Ei & E1). apply throwIfNone_ok in Ei.
      apply nbind_ok in E1 as (q & Eq & E1). apply nbind_ok in E1 as (i2 & Ei2 & E1). apply throwIfNone_ok in Ei2.
      pose proof (Q2R_qinv _ _ Ei) as [_ Ri]. pose proof (Q2R_qinv _ _ Ei2) as [_ Ri2].
      pose proof (qinv_spec (pPre p)) as Ci. rewrite Ei in Ci. destruct Ci as (Ci & _).
      pose proof (qinv_spec (pPre q)) as Ci2. rewrite Ei2 in Ci2. destruct Ci2 as (Ci2 & _).
      destruct Hc as (C1 & C2 & C3). pose proof Ee as Ee'. apply Q2R_lt0 in Ee.
      apply npPosExp_sound in Eq; try assumption.
      + destruct Eq as (V & (Q1 & Q2 & Q3) & Nb & Np).
        assert (Hqb : qeqb (pBase q) 0 = false).
        { apply qeqb_neq. intros H0. apply Nb. rewrite H0. apply Q2R_0. }
        rewrite Hqb in E1.
        assert (Hpv : payVal p = match payVal (mkPay (pBase p) (qmul (pExp p) (-1 # 1)) i) with Some v => Some (/ v)%R | None => None end).
        { unfold payVal. cbn [pBase pExp pPre]. rewrite Q2R_qmul, Q2R_m1, Ri.
          destruct (rpow (Q2R (pBase p)) (Q2R (pExp p))) as [v|] eqn:Ev.
          - apply rpow_opp in Ev; [|assumption]. replace (Q2R (pExp p) * -1)%R with (- Q2R (pExp p))%R by lra.
            rewrite Ev. f_equal. rewrite Rinv_mult, !Rinv_inv. reflexivity.
          - destruct (rpow (Q2R (pBase p)) (Q2R (pExp p) * -1)) as [v|] eqn:Ev'; [|reflexivity].
            apply rpow_opp in Ev'; [|assumption]. replace (- (Q2R (pExp p) * -1))%R with (Q2R (pExp p)) in Ev' by lra. congruence. }
        destruct (qeqb (pExp q) 1) eqn:Eq1.
        * apply nbind_ok in E1 as (b & Eb & E1). apply throwIfNone_ok in Eb. injection E1 as <-.
          pose proof (Q2R_qinv _ _ Eb) as [_ Rb]. pose proof (qinv_spec (pBase q)) as Cb. rewrite Eb in Cb. destruct Cb as (Cb & _).
          apply qeqb_eq in Eq1. rewrite Hpv, <- V. unfold payVal, payCanon. cbn [pBase pExp pPre].
          rewrite Eq1, Q2R_1, !rpow_r1, Rb, Ri2. repeat split; try assumption.
          -- f_equal. rewrite Rinv_mult. reflexivity.
          -- now apply Rinv_neq_0_compat.
        * injection E1 as <-. rewrite Hpv, <- V. unfold payVal, payCanon. cbn [pBase pExp pPre].
          rewrite Q2R_qmul, Q2R_m1, Ri2. repeat split; try assumption; [|apply qmul_spec].
          replace (Q2R (pExp q) * -1)%R with (- Q2R (pExp q))%R by lra.
          destruct (rpow (Q2R (pBase q)) (Q2R (pExp q))) as [v|] eqn:Ev.
          -- apply rpow_opp in Ev; [|assumption]. rewrite Ev. f_equal. now rewrite Rinv_mult.
          -- destruct (rpow (Q2R (pBase q)) (- Q2R (pExp q))) as [v|] eqn:Ev'; [|reflexivity].
             apply rpow_opp in Ev'; [|assumption]. rewrite Ropp_involutive in Ev'. congruence.
      + repeat split; try assumption. apply qmul_spec.
      + unfold npValid in *. cbn [pBase pExp].
        destruct (qltb (pBase p) 0); [|reflexivity]. cbn [andb] in *. destruct (qIsInt (pExp p)) eqn:Ein; [|discriminate].
        replace (qIsInt (qmul (pExp p) (-1 # 1))) with true; [reflexivity|]. symmetry.
        destruct (qIsInt (qmul (pExp p) (-1 # 1))) eqn:Ein2; [reflexivity|].
        exfalso. apply qIsInt_false with (z := - qnum (pExp p)) in Ein2; [|apply qmul_spec].
        apply Ein2. rewrite Q2R_qmul, Q2R_m1, (qIsInt_iff _ Ein), opp_IZR. lra.
      + cbn [pPre]. rewrite Ri. now apply Rinv_neq_0_compat.
      + cbn [pExp]. rewrite Q2R_qmul, Q2R_m1. lra.
      + intros q' Hq' Hs f Hf. apply (Hgood (absPre q') f); try assumption.
        exists (mkPay (pBase p) (qmul (pExp p) (-1 # 1)) i), q'. unfold posExp. rewrite Ee', Ei. auto.
    - pose proof Ee as Ee'. apply Q2R_ge0 in Ee. apply npPosExp_sound in E1; try assumption; [|lra|].
      + destruct E1 as (V & Cc & N & _). auto.
      + intros q' Hq' Hs f Hf. apply (Hgood (absPre q') f); try assumption.
        exists p, q'. unfold posExp. rewrite Ee'. auto. }
  destruct H1 as (V1 & (C1 & C2 & C3) & N1). rewrite <- V1.
  unfold npAdjustSign in E2.
  destruct (((qnum (pBase p1) =? 1) && negb (qeqb (pExp p1) 1)) || (qltb (pExp p1) 0 && qIsFraction (pBase p1))).
  - apply nbind_ok in E2 as (b & Eb & E2). apply throwIfNone_ok in Eb. injection E2 as <-.
    pose proof (Q2R_qinv _ _ Eb) as [_ Rb]. pose proof (qinv_spec (pBase p1)) as Cb. rewrite Eb in Cb. destruct Cb as (Cb & _).
    unfold payVal, payCanon. cbn [pBase pExp pPre]. split; [|repeat split; try assumption; apply qmul_spec].
    rewrite Rb, Q2R_qmul, Q2R_m1. replace (Q2R (pExp p1) * -1)%R with (- Q2R (pExp p1))%R by lra.
    assert (Nb : (/ Q2R (pBase p1) <> 0)%R) by now apply Rinv_neq_0_compat.
    destruct (rpow (Q2R (pBase p1)) (Q2R (pExp p1))) as [v|] eqn:Ev.
    + apply rpow_inv_base in Ev; [|assumption]. apply rpow_opp in Ev; [|assumption].
      rewrite Ev, Rinv_inv. reflexivity.
    + destruct (rpow (/ Q2R (pBase p1)) (- Q2R (pExp p1))) as [v|] eqn:Ev'; [|reflexivity].
      apply rpow_inv_base in Ev'; [|assumption]. apply rpow_opp in Ev'; [|rewrite Rinv_inv; assumption].
      rewrite Rinv_inv, Ropp_involutive in Ev'. congruence.
  - injection E2 as <-. repeat split; assumption.
Qed.

(** ** Conditions under which the collection of equal primes is right *)

Lemma equalCount_blow f : goodPf f -> (1 < equalCount f)%nat ->
  exists hn hd,
    pfNum f = blow (equalCount f) hn /\ pfDen f = blow (equalCount f) hd /\
    (match hn with [] => True | h :: r => ~ In h r end) /\ (match hd with [] => True | h :: r => ~ In h r end).
Proof.
  intros (F1 & F2 & F3 & F4 & F5) Hc. unfold equalCount in *.
  destruct (pfNum f) as [|xn ln] eqn:En; destruct (pfDen f) as [|xd ld] eqn:Ed.
  - lia.
  - destruct (equalCountOf_blow (xd :: ld)) as (h & hs & H1 & H2); try assumption; [discriminate|].
    exists [], (h :: hs). auto.
  - destruct (equalCountOf_blow (xn :: ln)) as (h & hs & H1 & H2); try assumption; [discriminate|].
    exists (h :: hs), []. auto.
  - destruct (Nat.eqb (equalCountOf (xn :: ln)) (equalCountOf (xd :: ld))) eqn:E; [|lia].
    apply Nat.eqb_eq in E.
    destruct (equalCountOf_blow (xn :: ln)) as (h & hs & H1 & H2); try assumption; [discriminate|].
    destruct (equalCountOf_blow (xd :: ld)) as (h' & hs' & H1' & H2'); try assumption; [discriminate|lia|].
    exists (h :: hs), (h' :: hs'). repeat split; try assumption. rewrite E. assumption.
Qed.

Lemma collectGood_blow f hn hd : (1 < equalCount f)%nat ->
  pfNum f = blow (equalCount f) hn -> pfDen f = blow (equalCount f) hd -> NoDup hn -> NoDup hd ->
  mulZ (uniq (pfNum f)) ^ Z.of_nat (equalCount f) = mulZ (pfNum f) /\
  mulZ (uniq (pfDen f)) ^ Z.of_nat (equalCount f) = mulZ (pfDen f).
Proof.
  intros Hc H1 H2 N1 N2. set (c := equalCount f) in *.
  rewrite H1, H2, !uniq_blow, !blow_mul by (try assumption; lia). auto.
Qed.

(** Less than four copies of each prime. *)
Lemma collectGood_count f : goodPf f ->
  (forall z, (countZ z (pfNum f) < 4)%nat /\ (countZ z (pfDen f) < 4)%nat) -> collectGood f.
Proof.
  intros Hg Hcnt Hc. destruct (equalCount_blow f Hg Hc) as (hn & hd & H1 & H2 & _ & _).
  apply collectGood_blow with hn hd; try assumption.
  - apply (NoDup_count_occ Z.eq_dec). intros z. destruct (Hcnt z) as [Hz _].
    rewrite H1, blow_count in Hz. unfold countZ in Hz. nia.
  - apply (NoDup_count_occ Z.eq_dec). intros z. destruct (Hcnt z) as [_ Hz].
    rewrite H2, blow_count in Hz. unfold countZ in Hz. nia.
Qed.

Lemma NoDup_small g h hs : (1 < g)%nat -> allPrime (blow g (h :: hs)) -> StronglySorted Z.le (blow g (h :: hs)) ->
  ~ In h hs -> mulZ (blow g (h :: hs)) < 324 -> NoDup (h :: hs).
Proof.
  intros Hg Hp Hs Hn Hlt. constructor; [assumption|].
  assert (Hin : forall x l, In x l -> In x (blow g l)).
  { intros x l. induction l as [|a l IH]; [cbn; tauto|]. intros [->|H]; cbn [blow]; apply in_or_app.
    - left. destruct g; [lia|]. now left.
    - right. now apply IH. }
  assert (Hpr : forall x, In x (h :: hs) -> 2 <= x).
  { intros x Hx. apply Hin in Hx. unfold allPrime in Hp. rewrite Forall_forall in Hp. apply Hp in Hx. now apply prime_ge_2. }
  assert (Hh : forall x, In x hs -> h < x).
  { intros x Hx. assert (h <= x).
    { cbn [blow] in Hs. destruct g as [|g']; [lia|]. cbn [repeat app] in Hs. apply StronglySorted_inv in Hs as [_ HF].
      rewrite Forall_forall in HF. apply HF. apply in_or_app. right. now apply Hin. }
    destruct (Z.eq_dec x h) as [->|]; [contradiction|]. lia. }
  apply (NoDup_count_occ Z.eq_dec). intros z.
  destruct (le_lt_dec (count_occ Z.eq_dec hs z) 1) as [|Hz]; [assumption|]. exfalso.
  assert (Hzin : In z hs) by (apply (count_occ_In Z.eq_dec); lia).
  pose proof (Hh z Hzin). pose proof (Hpr h (or_introl eq_refl)).
  assert (Hm : z ^ 2 <= mulZ hs).
  { clear -Hz Hpr. assert (H0 : Forall (fun x => 2 <= x) hs).
    { apply Forall_forall. intros x Hx. apply Hpr. now right. } clear Hpr.
    assert (H1 : forall l, Forall (fun x => 2 <= x) l -> 0 < mulZ l) by (intros l Hl; apply mulZ_pos; eapply Forall_impl; [|exact Hl]; cbn; lia).
    assert (H2 : forall l, Forall (fun x => 2 <= x) l -> (0 < count_occ Z.eq_dec l z)%nat -> z <= mulZ l).
    { induction l as [|a l IH]; intros Hl Hc; [cbn in Hc; lia|]. inversion Hl; subst. cbn [count_occ mulZ] in *.
      specialize (H1 l H4). destruct (Z.eq_dec a z) as [->|]; [nia|]. specialize (IH H4 Hc). nia. }
    induction hs as [|a l IH]; [cbn in Hz; lia|]. inversion H0; subst. cbn [count_occ mulZ] in *.
    specialize (H1 l H5). destruct (Z.eq_dec a z) as [->|].
    - assert (z <= mulZ l) by (apply H2; [assumption|lia]). nia.
    - specialize (IH Hz H5). nia. }
  rewrite blow_mul in Hlt. cbn [mulZ] in Hlt.
  assert (H3 : 18 <= h * mulZ hs) by nia.
  assert (H4 : (h * mulZ hs) ^ 2 <= (h * mulZ hs) ^ Z.of_nat g) by (apply Z.pow_le_mono_r; lia).
  nia.
Qed.

Lemma collectGood_small f : goodPf f -> mulZ (pfNum f) < 324 -> mulZ (pfDen f) < 324 -> collectGood f.
Proof.
  intros Hg L1 L2 Hc. destruct (equalCount_blow f Hg Hc) as (hn & hd & H1 & H2 & N1 & N2).
  destruct Hg as (F1 & F2 & F3 & F4 & F5).
  apply collectGood_blow with hn hd; try assumption.
  - destruct hn as [|h hs]; [constructor|]. rewrite H1 in F1, F3, L1. now apply NoDup_small with (equalCount f).
  - destruct hd as [|h hs]; [constructor|]. rewrite H2 in F2, F4, L2. now apply NoDup_small with (equalCount f).
Qed.

(** Relation of the input with the payload that reaches the cancellation. *)
Lemma cancelInput_spec p q : payCanon p -> npValid p = true ->
  (Q2R (pBase p) <> 0)%R -> (Q2R (pPre p) <> 0)%R -> (Q2R (pExp p) <> 0)%R -> cancelInput p q ->
  payCanon q /\ (Q2R (pBase q) = Rabs (Q2R (pBase p)) /\ Q2R (pExp q) = Rabs (Q2R (pExp p)) /\ 0 < Q2R (pPre q) /\
  (Q2R (pPre q) = Rabs (Q2R (pPre p)) \/ Q2R (pPre q) = / Rabs (Q2R (pPre p))))%R.
Proof.
  intros (C1 & C2 & C3) Hv Hb Hp He (p1 & p2 & E1 & E2 & ->).
  assert (H1 : payCanon p1 /\ pBase p1 = pBase p /\ Q2R (pExp p1) = Rabs (Q2R (pExp p)) /\
     (Q2R (pPre p1) = Q2R (pPre p) \/ Q2R (pPre p1) = / Q2R (pPre p))%R /\ (qIsInt (pExp p) = true -> qIsInt (pExp p1) = true)).
  { unfold posExp in E1. destruct (qltb (pExp p) 0) eqn:Ee.
    - destruct (qinv (pPre p)) as [i|] eqn:Ei; [|discriminate]. injection E1 as <-. cbn [pBase pExp pPre].
      pose proof (Q2R_qinv _ _ Ei) as [_ Ri]. pose proof (qinv_spec (pPre p)) as Ci. rewrite Ei in Ci. destruct Ci as (Ci & _).
      apply Q2R_lt0 in Ee. rewrite Q2R_qmul, Q2R_m1, Rabs_left by assumption.
      repeat split; try assumption; [apply qmul_spec|lra|now right|].
      intros Ein. destruct (qIsInt (qmul (pExp p) (-1 # 1))) eqn:Ein2; [reflexivity|].
      exfalso. apply qIsInt_false with (z := - qnum (pExp p)) in Ein2; [|apply qmul_spec].
      apply Ein2. rewrite Q2R_qmul, Q2R_m1, (qIsInt_iff _ Ein), opp_IZR. lra.
    - injection E1 as <-. apply Q2R_ge0 in Ee. rewrite Rabs_right by lra. repeat split; auto. }
  destruct H1 as ((D1 & D2 & D3) & Eb1 & Ee1 & Ep1 & Hint).
  assert (Hp1 : (Rabs (Q2R (pPre p1)) = Rabs (Q2R (pPre p)) \/ Rabs (Q2R (pPre p1)) = / Rabs (Q2R (pPre p)))%R).
  { destruct Ep1 as [-> | ->]; [now left|right]. now rewrite Rabs_inv. }
  assert (Hp1n : (Q2R (pPre p1) <> 0)%R).
  { destruct Ep1 as [-> | ->]; [assumption|now apply Rinv_neq_0_compat]. }
  assert (H2 : payCanon p2 /\ Q2R (pBase p2) = Rabs (Q2R (pBase p)) /\ Q2R (pExp p2) = Rabs (Q2R (pExp p)) /\
     Rabs (Q2R (pPre p2)) = Rabs (Q2R (pPre p1))).
  { unfold absBase in E2. rewrite Eb1 in E2. destruct (qltb (pBase p) 0) eqn:Eb.
    - unfold npValid in Hv. rewrite Eb in Hv. cbn [andb] in Hv. destruct (qIsInt (pExp p)) eqn:Ei; [|discriminate].
      apply nbind_ok in E2 as (ex & E2 & E3). injection E3 as <-. cbn [pBase pExp pPre].
      apply intPow_R in E2 as (X1 & X2 & X3); try assumption; try reflexivity; [|now apply Hint|rewrite Q2R_m1; lra].
      apply Q2R_lt0 in Eb. rewrite Q2R_qmul, Q2R_m1, Q2R_qmul, Rabs_mult, X2, Q2R_m1, Rabs_left by assumption.
      repeat split; try assumption; try apply qmul_spec; [lra|].
      replace (Rabs (powerRZ (-1) (qnum (pExp p1)))) with 1%R; [lra|].
      destruct (minusOneToThe_R (pExp p1)) as [<- _]; [now apply Hint|].
      unfold minusOneToThe. destruct (Z.rem (qnum (pExp p1)) 2 =? 0); rewrite Q2R_ofZ; [now rewrite Rabs_R1|].
      rewrite Rabs_left by lra. lra.
    - injection E2 as <-. apply Q2R_ge0 in Eb. rewrite Eb1, Rabs_right by lra. repeat split; auto. }
  destruct H2 as ((G1 & G2 & G3) & Eb2 & Ee2 & Ep2).
  assert (Hp2n : (Q2R (pPre p2) <> 0)%R).
  { intros H0. rewrite H0, Rabs_R0 in Ep2. symmetry in Ep2. revert Ep2. now apply Rabs_no_R0. }
  unfold absPre. destruct (qltb (pPre p2) 0) eqn:En.
  - apply Q2R_lt0 in En. cbn [pBase pExp pPre]. rewrite Q2R_qmul, Q2R_m1.
    assert (Ha : (Q2R (pPre p2) * -1 = Rabs (Q2R (pPre p2)))%R) by (rewrite Rabs_left by assumption; lra).
    rewrite Ha, Ep2. repeat split; try assumption; [apply qmul_spec|now apply Rabs_pos_lt].
  - apply Q2R_ge0 in En.
    assert (Ha : (Q2R (pPre p2) = Rabs (Q2R (pPre p2)))%R) by (rewrite Rabs_right by lra; lra).
    repeat split; try assumption; [lra|]. rewrite Ha, Ep2. assumption.
Qed.

Lemma atCollect_spec fl q f : rootsNonneg fl -> exactDoubles fl -> payCanon q ->
  (0 < Q2R (pBase q))%R -> (0 < Q2R (pPre q))%R -> (0 < Q2R (pExp q))%R -> atCollect fl q f ->
  goodPf f /\
  (1 < qden (pExp q) -> forall z, Z.of_nat (countZ z (pfNum f)) < qden (pExp q) /\ Z.of_nat (countZ z (pfDen f)) < qden (pExp q)) /\
  (pPre q = 1%Q -> mulZ (pfNum f) <= qnum (pBase q) /\ mulZ (pfDen f) <= qden (pBase q)).
Proof.
  intros Hfl Hex Hc Hb Hp He (nb & [pf pre'] & E1 & E2 & ->). cbn [fst].
  pose proof E2 as E2'. apply npPreFacPrimes_spec in E2' as (Gpf & _); try assumption.
  destruct Hc as (C1 & C2 & C3).
  apply pfOf_good in E1 as (Gnb & _ & Mn & Md); try assumption.
  destruct (pfMultiply_good nb pf Gnb Gpf) as [G1 _].
  destruct (pfExtract (pfMultiply nb pf) (pExp q)) as [rem ex] eqn:Ex. cbn [fst].
  apply pfExtract_spec in Ex as (G2 & _ & Hcnt & L1 & L2); [|assumption].
  split; [assumption|]. split; [assumption|].
  intros H1. unfold npPreFacPrimes in E2. rewrite H1 in E2.
  apply nbind_ok in E2 as (e & Ee & E2).
  assert (Ht : toThe fl 1 e = PRat 1) by reflexivity. rewrite Ht in E2.
  apply nbind_ok in E2 as (f1 & Ef & E2). apply loopIfNone_ok in Ef. cbn in Ef. injection Ef as <-.
  assert (Epf : pf = mkPf [] []).
  { assert (pf = pfToThe (mkPf [] []) (qden (pExp q))) by congruence. subst pf.
    unfold pfToThe. destruct (qden (pExp q) =? 0), (qden (pExp q) <? 0); reflexivity. }
  subst pf. unfold pfMultiply in *. cbn [pfNum pfDen] in *. rewrite <- Mn, <- Md. now split.
Qed.

Lemma canon_abs_num a b : canon a -> canon b -> Q2R a = Rabs (Q2R b) -> qnum a = Z.abs (qnum b) /\ qden a = qden b.
Proof.
  intros Ha Hb E. destruct (qabs_R b) as [R1 R2]. rewrite <- R1 in E. apply Q2R_inj in E; [|assumption|now apply R2].
  subst a. unfold qabs. destruct (qltb b 0) eqn:El; [|apply qltb_ge in El; unfold Qle in El; cbn in El; unfold qnum; split; [lia|reflexivity]].
  assert (Hq : qneg b = (- Qnum b # Qden b)).
  { unfold qneg. apply canon_red. unfold canon in *. cbn [Qnum Qden]. now rewrite Z.gcd_opp_l. }
  rewrite Hq. unfold qnum, qden. cbn [Qnum Qden]. apply qltb_lt in El. unfold Qlt in El. cbn in El. split; [lia|reflexivity].
Qed.

(** Square, cube and fourth roots: always right. *)
Lemma numPowerSimpl_roots fl limit p p' :
  rootsNonneg fl -> exactDoubles fl -> payCanon p ->
  (Q2R (pBase p) <> 0)%R -> (Q2R (pPre p) <> 0)%R -> 2 <= qden (pExp p) <= 4 ->
  numPowerSimpl fl limit p = NOk p' -> payVal p' = payVal p /\ payCanon p'.
Proof.
  intros Hfl Hex Hc Hb Hp Hd E.
  assert (He : (Q2R (pExp p) <> 0)%R).
  { intros H0. destruct Hc as (_ & C2 & _). apply Q2R_inj with (b := 0%Q) in C2; [|reflexivity|now rewrite Q2R_0].
    rewrite C2 in Hd. change (qden 0%Q) with 1 in Hd. lia. }
  destruct (npValid p) eqn:Hv.
  2:{ unfold numPowerSimpl in E. rewrite Hv in E. cbn [negb] in E. injection E as <-. auto. }
  apply numPowerSimpl_sound with fl limit; try assumption.
  intros q f Hq _ Hf. apply cancelInput_spec in Hq as (Cq & Qb & Qe & Qp & _); try assumption.
  assert (Hqd : qden (pExp q) = qden (pExp p)).
  { destruct Cq as (_ & Cq & _). destruct Hc as (_ & C2 & _). now apply (canon_abs_num (pExp q) (pExp p)). }
  apply atCollect_spec in Hf as (G & Hcnt & _); try assumption.
  - apply collectGood_count; [assumption|]. intros z. destruct (Hcnt ltac:(lia) z). lia.
  - rewrite Qb. now apply Rabs_pos_lt.
  - rewrite Qe. now apply Rabs_pos_lt.
Qed.

(** Numerator and denominator of the base below 324, no prefactor: always right. *)
Lemma numPowerSimpl_small fl limit p p' :
  rootsNonneg fl -> exactDoubles fl -> payCanon p ->
  Q2R (pBase p) <> 0%R -> (Q2R (pExp p) <> 0)%R -> pPre p = 1%Q \/ pPre p = (-1 # 1) ->
  Z.abs (qnum (pBase p)) < 324 -> qden (pBase p) < 324 ->
  numPowerSimpl fl limit p = NOk p' -> payVal p' = payVal p /\ payCanon p'.
Proof.
  intros Hfl Hex Hc Hb He Hp Hn Hd E.
  assert (Hpa : Rabs (Q2R (pPre p)) = 1%R).
  { destruct Hp as [-> | ->]; [rewrite Q2R_1; apply Rabs_R1|rewrite Q2R_m1, Rabs_left by lra; lra]. }
  assert (Hp0 : (Q2R (pPre p) <> 0)%R) by (intros H0; rewrite H0, Rabs_R0 in Hpa; lra).
  destruct (npValid p) eqn:Hv.
  2:{ unfold numPowerSimpl in E. rewrite Hv in E. cbn [negb] in E. injection E as <-. auto. }
  apply numPowerSimpl_sound with fl limit; try assumption.
  intros q f Hq _ Hf. apply cancelInput_spec in Hq as (Cq & Qb & Qe & Qp & Qp2); try assumption.
  assert (Hq1 : pPre q = 1%Q).
  { apply Q2R_inj; [apply Cq|reflexivity|]. rewrite Q2R_1. rewrite Hpa in Qp2. destruct Qp2 as [-> | ->]; lra. }
  destruct (canon_abs_num (pBase q) (pBase p)) as [B1 B2]; [apply Cq|apply Hc|assumption|].
  apply atCollect_spec in Hf as (G & _ & Hle); try assumption.
  - destruct (Hle Hq1). apply collectGood_small; [assumption|lia|lia].
  - rewrite Qb. now apply Rabs_pos_lt.
  - rewrite Qe. now apply Rabs_pos_lt.
Qed.
