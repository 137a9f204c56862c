(** Every expression the library hands out is well formed: products. *)
From Verif Require Export ShapeProofs.
From Verif Require Import ExprProofs NumPowerProofs NormalProofs.
From Coq Require Import Lia.
From Verif Require Import Run.
Open Scope Z_scope.

(** Numeric powers stay in lowest terms. *)
Lemma computeNumPower_canon b n q : computeNumPower b n = Some q -> canon q.
Proof. unfold computeNumPower. destruct (n <? 0); intros H; now apply mkRat_spec in H as [H _]. Qed.
Lemma toThePos_canon fl b e r : canon b -> qIsInt e = true -> toThePos fl b e = PRat r -> canon r.
Proof.
  intros Hb He. unfold toThePos. destruct (qeqb b 0 && (qnum e <? 0)); [discriminate|].
  destruct (qeqb b 0 || qeqb b 1 || qeqb e 1); [now intros [= <-]|]. destruct (qeqb e 0); [intros [= <-]; reflexivity|].
  unfold computeRationalPower. destruct (computeNumPower b (qnum e)) as [q|] eqn:Ec; [|discriminate].
  unfold computeDenomPower. unfold qIsInt in He. rewrite He. intros [= <-]. now apply computeNumPower_canon in Ec.
Qed.
Lemma minusOne_canon e : canon (minusOneToThe e).
Proof. unfold minusOneToThe. destruct (_ =? 0); apply canon_ofZ. Qed.
Lemma qabs_canon q : canon q -> canon (qabs q).
Proof. unfold qabs. destruct (qltb q 0); [intros _; apply qneg_spec | auto]. Qed.
Lemma toThe_canon fl b e r : canon b -> qIsInt e = true -> toThe fl b e = PRat r -> canon r.
Proof.
  intros Hb He. unfold toThe. destruct (qltb b 0); [|now apply toThePos_canon].
  destruct (qeqb e 1); [now intros [= <-]|]. destruct (qeqb e 0); [intros [= <-]; reflexivity|]. rewrite He. cbn [negb].
  destruct (qeqb b (-1 # 1)); [intros [= <-]; apply minusOne_canon|].
  destruct (toThePos fl (qabs b) e); try discriminate. intros [= <-]. apply qmul_spec.
Qed.
Lemma qinv_canon b q : qinv b = Some q -> canon q.
Proof. unfold qinv. intros H. now apply mkRat_spec in H as [H _]. Qed.
Lemma npAdjustExp_canon fl p p' : payCanon p -> npAdjustExp fl p = NOk p' -> payCanon p'.
Proof.
  intros (H1 & H2 & H3). unfold npAdjustExp. destruct (_ || _); [|intros [= <-]; repeat split; assumption].
  destruct (intPow _ _ _); cbn [nbind]; try discriminate. intros [= <-]. repeat split; [assumption|apply qsub_spec|apply qmul_spec].
Qed.
Lemma pfEval_canon f q : pfEval f = Some q -> canon q.
Proof. intros H. now apply mkRat_spec in H as [H _]. Qed.
Lemma npCancel_canon fl p p' : payCanon p -> npCancel fl p = NOk p' -> payCanon p'.
Proof.
  intros (H1 & H2 & H3) H. unfold npCancel in H.
  apply nbind_ok in H as (nb & _ & H). apply nbind_ok in H as (pf & _ & H).
  destruct (pfExtract _ _) as [nb2 ex]. apply nbind_ok in H as (exv & _ & H).
  destruct (pfCollect nb2 (pExp p)) as [nb3 exp1] eqn:Ec. apply nbind_ok in H as (b & Hb & H).
  apply throwIfNone_ok, pfEval_canon in Hb.
  assert (He : canon exp1).
  { unfold pfCollect in Ec. destruct (Nat.ltb _ _); [injection Ec as _ <-; apply qmul_spec|].
    destruct (pfNum nb2); [destruct (pfDen nb2)|]; injection Ec as _ <-; try assumption; reflexivity. }
  eapply npAdjustExp_canon; [|exact H]. destruct (qeqb b 1); repeat split; try assumption; apply qmul_spec.
Qed.
Lemma npPosPos_canon fl lim p p' : payCanon p -> npPosPos fl lim p = NOk p' -> payCanon p'.
Proof.
  intros (H1 & H2 & H3) H. unfold npPosPos in H. apply nbind_ok in H as (p2 & Hp & H). injection H as <-.
  set (p1 := if qltb (pPre p) 0 then _ else p) in Hp.
  assert (C1 : payCanon p1) by (unfold p1; destruct (qltb (pPre p) 0); repeat split; try assumption; apply qmul_spec).
  assert (C2 : payCanon p2).
  { destruct (npSmall lim p1); [now apply npCancel_canon in Hp|]. destruct (qIsInt (pExp p1)); [now apply npAdjustExp_canon in Hp|].
    now injection Hp as <-. }
  unfold npSignBack. destruct (qltb (pPre p) 0); [|exact C2]. destruct C2 as (? & ? & ?).
  destruct (qeqb (pExp p2) 1); repeat split; try assumption; apply qmul_spec.
Qed.
Lemma npPosExp_canon fl lim p p' : payCanon p -> npPosExp fl lim p = NOk p' -> payCanon p'.
Proof.
  intros (H1 & H2 & H3) H. unfold npPosExp in H. destruct (qltb (pBase p) 0); [|apply npPosPos_canon in H; repeat split; try assumption; apply H].
  apply nbind_ok in H as (ex & _ & H). apply npPosPos_canon in H; [exact H|]. repeat split; try assumption; apply qmul_spec.
Qed.
Lemma npNegExp_canon fl lim p p' : payCanon p -> npNegExp fl lim p = NOk p' -> payCanon p'.
Proof.
  intros (H1 & H2 & H3) H. unfold npNegExp in H.
  apply nbind_ok in H as (a & Ha & H). apply throwIfNone_ok, qinv_canon in Ha.
  apply nbind_ok in H as (p1 & Hp & H). apply npPosExp_canon in Hp; [|repeat split; try assumption; apply qmul_spec].
  apply nbind_ok in H as (c & Hc & H). apply throwIfNone_ok, qinv_canon in Hc. destruct Hp as (C1 & C2 & C3).
  destruct (qeqb (pBase p1) 0); [injection H as <-; repeat split; assumption|].
  destruct (qeqb (pExp p1) 1).
  - apply nbind_ok in H as (b & Hb & H). apply throwIfNone_ok, qinv_canon in Hb. injection H as <-. repeat split; assumption.
  - injection H as <-. repeat split; try assumption. apply qmul_spec.
Qed.
Lemma numPowerSimpl_canon fl lim p p' : payCanon p -> numPowerSimpl fl lim p = NOk p' -> payCanon p'.
Proof.
  intros Hp H. unfold numPowerSimpl in H. destruct (negb (npValid p)); [now injection H as <-|].
  apply nbind_ok in H as (p1 & H1 & H).
  assert (C1 : payCanon p1) by (destruct (qltb (pExp p) 0); [now apply npNegExp_canon in H1 | now apply npPosExp_canon in H1]).
  unfold npAdjustSign in H. destruct (_ || _); [|now injection H as <-].
  apply nbind_ok in H as (b & Hb & H). apply throwIfNone_ok, qinv_canon in Hb. injection H as <-. destruct C1 as (? & ? & ?).
  repeat split; try assumption. apply qmul_spec.
Qed.

Section Pairs.
  Variables (Y : sys) (W : oper).
  Hypothesis HW : shapely W.
  Hint Resolve HW : sh.
  Variables (E P : syms).
  Hypothesis HEP : sub E P.
  Hint Resolve HEP : sh.
  Notation S := (shape E P).
  Notation SL := (Forall (shape E P)).
  Hint Resolve s_minus s_oneOver s_sqrtE : sh.

  Lemma s_runNumPow p : payCanon p -> sh payCanon (runNumPow Y p).
  Proof.
    intros Hp. unfold runNumPow. destruct (numPowerSimpl (s_fl Y) (s_limit Y) p) as [p'| |] eqn:En; [|exact I|exact I].
    apply numPowerSimpl_canon in En; [|exact Hp]. exact En.
  Qed.
  Lemma s_nnp a b c : canon a -> canon b -> canon c -> sh SL (simplNumAndNumPow Y W a b c).
  Proof.
    intros Ha Hb Hc. unfold simplNumAndNumPow. eapply sh_bind; [apply s_runNumPow; repeat split; assumption|]. intros p (H1 & H2 & H3).
    eapply sh_bind; [apply (h_pow _ HW E P); auto with sh; assumption|]. intros r Hr. cbn [sh ret].
    destruct (qeqb (pPre p) 1); repeat constructor; assumption.
  Qed.
  Lemma s_nac q c : canon q -> S c -> sh SL (simplNumAndConst Y W q c).
  Proof.
    intros Hq Hc. unfold simplNumAndConst.
    assert (G : SL [Num q; c]) by (repeat constructor; assumption).
    destruct c as [| | | | | | |b x]; try exact G. destruct b; try exact G. destruct x; try exact G.
    destruct Hc as (H1 & H2 & _). now apply s_nnp.
  Qed.
  Lemma s_two a b : S a -> S b -> SL [a; b]. Proof. auto with sh. Qed.
  Lemma s_teb a b : S a -> S b -> sh SL (simplTwoEqualBases Y W a b).
  Proof.
    intros Ha Hb. unfold simplTwoEqualBases.
    eapply sh_bind; [apply (h_sum _ HW E E); [apply sub_refl|constructor; [eapply shape_expo; eassumption|constructor; [eapply shape_expo; eassumption|constructor]]]|].
    intros s Hs. eapply sh_bind; [apply sh_quiet, (h_pos _ HW E P); auto with sh|]. intros p _.
    eapply sh_bind with (Q := tr).
    { destruct p; [exact I|]. apply sh_quiet, (h_neg _ HW E P); auto with sh. }
    intros g _. destruct (_ && _); [now apply s_two|]. eapply sh_bind; [apply (h_pow _ HW E P); auto with sh|]. intros r Hr. cbn. auto.
  Qed.
  Lemma s_tee a b : S a -> S b -> areNumPowersWithEqualExp a b = true -> sh SL (simplTwoEqualExp Y W a b).
  Proof.
    intros Ha Hb H. unfold areNumPowersWithEqualExp in H. unfold simplTwoEqualExp.
    destruct a as [| | | | | | |b1 x1]; try discriminate H. destruct b1; try discriminate H. destruct x1; try discriminate H.
    destruct b as [| | | | | | |b2 x2]; try discriminate H. destruct b2; try discriminate H. destruct x2; try discriminate H.
    destruct Ha as (A1 & A2 & _). apply s_nnp; [reflexivity|apply qmul_spec|exact A2].
  Qed.
  Lemma s_azs a b : S a -> S b ->
    sh (fun z => z = true -> exists b1 x1 b2 x2, a = Pow (Num b1) x1 /\ b = Pow (Num b2) x2) (areNumPowersWithZeroSumExp W a b).
  Proof.
    intros Ha Hb. unfold areNumPowersWithZeroSumExp.
    destruct a as [| | | | | | |b1 x1]; try (cbn; discriminate). destruct b1; try (cbn; discriminate). destruct x1; try (cbn; discriminate).
    destruct b as [| | | | | | |b2 x2]; try (cbn; discriminate). destruct b2; try (cbn; discriminate). destruct x2; try (cbn; discriminate).
    eapply sh_bind; [apply (h_sum _ HW E E); [apply sub_refl|repeat constructor; [apply Ha|apply Hb]]|]. intros s _. cbn [sh ret]. intros _. eauto 8.
  Qed.
  Lemma toThe_m1_canon q i : canon q -> toThe (s_fl Y) q (-1 # 1) = PRat i -> canon i.
  Proof. intros Hq. apply toThe_canon; [exact Hq | reflexivity]. Qed.
  Lemma s_tzs b1 x1 b2 x2 : S (Pow (Num b1) x1) -> S (Pow (Num b2) x2) -> sh SL (simplTwoZeroSumExp Y W (Pow (Num b1) x1) (Pow (Num b2) x2)).
  Proof.
    intros Ha Hb. unfold simplTwoZeroSumExp. destruct (toThe _ _ _) as [i| |]; [|exact I|exact I].
    eapply sh_bind; [apply (h_pow _ HW E P); [assumption|apply qmul_spec|apply Ha]|]. intros r Hr. cbn. auto.
  Qed.
  Lemma s_ted a b : S a -> S b -> areNumPowersWithEqualExpDenom a b = true -> sh SL (simplTwoEqualExpDenom Y W a b).
  Proof.
    intros Ha Hb H. unfold areNumPowersWithEqualExpDenom in H. unfold simplTwoEqualExpDenom.
    destruct a as [| | | | | | |b1 x1]; try discriminate H. destruct b1; try discriminate H. destruct x1; try discriminate H.
    destruct b as [| | | | | | |b2 x2]; try discriminate H. destruct b2; try discriminate H. destruct x2; try discriminate H.
    destruct (toThe _ q _); [|exact I|exact I]. destruct (toThe _ q1 _); [|exact I|exact I]. cbv zeta.
    destruct (mkRat _ _) as [c|] eqn:Ec; [|exact I]. apply mkRat_spec in Ec as [Ec _].
    destruct (_ || _); [now apply s_two|]. apply sh_tr_bind; [apply sh_relyIf; exact I|]. intros _.
    eapply sh_bind; [apply (h_pow _ HW E P); [assumption|exact Ec|]|intros r Hr; cbn; auto].
    cbn [shape]. unfold canon. cbn [Qnum Qden]. apply Z.gcd_1_l.
  Qed.
  Lemma s_tc a b : S a -> S b -> sh SL (simplTwoConst Y W a b).
  Proof.
    intros Ha Hb. unfold simplTwoConst.
    assert (G : sh SL (if haveEqualBases a b then simplTwoEqualBases Y W a b
        else if areNumPowersWithEqualExp a b then simplTwoEqualExp Y W a b
        else z <- areNumPowersWithZeroSumExp W a b ;;
        if (z : bool) then simplTwoZeroSumExp Y W a b
        else if areNumPowersWithEqualExpDenom a b then simplTwoEqualExpDenom Y W a b
        else ret (ordered Y a b))).
    { destruct (haveEqualBases a b); [now apply s_teb|].
      destruct (areNumPowersWithEqualExp a b) eqn:E1; [now apply s_tee|].
      eapply sh_bind; [now apply s_azs|]. intros z Hz. destruct z.
      - destruct (Hz eq_refl) as (b1 & x1 & b2 & x2 & -> & ->). now apply s_tzs.
      - destruct (areNumPowersWithEqualExpDenom a b) eqn:E2; [now apply s_ted|]. cbn. now apply shape_ordered. }
    destruct a; destruct b; try exact G; try (now apply s_nac).
    cbn [sh ret]. unfold simplTwoNumerics. destruct (qeqb _ 1); repeat constructor. apply qmul_spec.
  Qed.
  Lemma s_tfwp a b : S a -> S b -> sh SL (simplTwoFactorsWithoutProduct Y W a b).
  Proof.
    intros Ha Hb. unfold simplTwoFactorsWithoutProduct. destruct (isOne a); [cbn; auto|]. destruct (isOne b); [cbn; auto|].
    destruct (_ && _); [now apply s_tc|]. destruct (haveEqualBases a b); [now apply s_teb|]. cbn. now apply shape_ordered.
  Qed.
  Lemma s_tfac n a b : S a -> S b -> sh SL (simplTwoFactors Y W n a b).
  Proof.
    revert a b. induction n as [|n IH]; intros a b Ha Hb; [exact I|]. cbn [simplTwoFactors].
    destruct (isProduct a || isProduct b); [|now apply s_tfwp]. apply s_merge; auto using s_flatP.
  Qed.
  Section Contract.
    Variables (check : expr -> expr -> bool) (s : expr -> expr -> res (list expr)).
    Hypothesis Hs : forall a b, S a -> S b -> check a b = true -> sh SL (s a b).
    Lemma s_cinner n i j u f : SL u -> sh (fun x => SL (fst x)) (contractInner n check s i j u f).
    Proof.
      revert i j u f. induction n as [|n IH]; intros i j u f Hu; [exact I|]. cbn [contractInner].
      destruct (nth_error u i) as [a|] eqn:Ei; [|exact Hu]. destruct (nth_error u j) as [b|] eqn:Ej; [|exact Hu].
      destruct (check a b) eqn:Ec; [|auto]. eapply sh_bind; [apply Hs; [eapply Fnth; eassumption|eapply Fnth; eassumption|exact Ec]|].
      intros r Hr. destruct (areEqual r [a; b]); [auto|]. destruct (_ && _); [cbn; right; right; left; reflexivity|].
      apply IH. repeat (apply Forall_app; split); auto using Forall_firstn, Forall_skipn.
    Qed.
    Lemma s_couter n i u f : SL u -> sh (fun x => SL (fst x)) (contractOuter n check s i u f).
    Proof.
      revert i u f. induction n as [|n IH]; intros i u f Hu; [exact I|]. cbn [contractOuter].
      destruct (Nat.ltb i (length u)); [|exact Hu]. eapply sh_bind; [now apply s_cinner|]. intros [u' found] Hu'. cbn [fst] in Hu'.
      destruct found; auto.
    Qed.
    Lemma s_contract n u : SL u -> sh SL (contract n check s u).
    Proof.
      revert u. induction n as [|n IH]; intros u Hu; [exact I|]. cbn [contract]. eapply sh_bind; [now apply s_couter|].
      intros [u' ch] Hu'. cbn [fst] in Hu'. destruct ch; auto.
    Qed.
  End Contract.
End Pairs.

(** Products of powers of trigonometric functions: temporary symbols for sine and cosine. *)
From Verif Require Import ProductProofs ProductProofs2.
Lemma shape_short k e : forall E P, shape E P e -> (nameLen e < k)%nat -> shape (both E (short k)) (both P (short k)) e.
Proof.
  assert (HL : forall l x, In x l -> (nameLen x <= fold_right (fun x a => Nat.max (nameLen x) a) 0 l)%nat).
  { induction l as [|y l IH]; intros x Hx; [destruct Hx|]. destruct Hx as [->|Hx]; cbn [fold_right]; [lia|]. specialize (IH x Hx). lia. }
  induction e as [q|n p|c| |f l IH|l IH|l IH|b x IHb IHx] using expr_ind2; intros E P H Hk; auto.
  - split; [exact H|exact Hk].
  - apply shape_fct in H as [Hl H]. apply shape_fct. split; [exact Hl|]. cbn [nameLen] in Hk. rewrite Forall_forall in *. intros y Hy.
    apply IH; auto. specialize (HL l y Hy). lia.
  - apply shape_sum in H as [Hl H]. apply shape_sum. split; [exact Hl|]. cbn [nameLen] in Hk. rewrite Forall_forall in *. intros y Hy.
    apply IH; auto. specialize (HL l y Hy). lia.
  - apply shape_prod in H as [Hl H]. apply shape_prod. split; [exact Hl|]. cbn [nameLen] in Hk. rewrite Forall_forall in *. intros y Hy.
    apply IH; auto. specialize (HL l y Hy). lia.
  - destruct H as (Hb & Hx & H1 & H2). cbn [nameLen] in Hk. repeat split; auto; [apply IHb|apply IHx]; auto; lia.
Qed.
Lemma both_sub E P k : sub E P -> sub (both E (short k)) (both P (short k)).
Proof. intros H n p [H1 H2]. split; auto. Qed.
Lemma both_l P k : sub (both P (short k)) P. Proof. intros n p [H _]. exact H. Qed.

Section TrigPowers.
  Variables (Y : sys) (W : oper).
  Hypothesis HW : shapely W.
  Lemma s_tfpr E P e s c : sub E P -> shape E P s -> shape E P c -> shape E E (expo e) ->
    sh (shape E P) (trigFunctionPowerReplacement W e s c).
  Proof.
    intros HEP Hs Hc He. unfold trigFunctionPowerReplacement.
    assert (G : sh (shape E P) (i <- oneOver W c ;; t <- w_prod W [s; i] ;; w_pow W t (expo e))).
    { eapply sh_bind; [apply (s_oneOver W HW E P); assumption|]. intros i Hi.
      eapply sh_bind; [apply (h_prod _ HW E P); auto with sh|]. intros t Ht. now apply (h_pow _ HW E P). }
    destruct (trigName (base e)) as [[]|]; try exact G; now apply (h_pow _ HW E P).
  Qed.
  Lemma s_ctfp E P n a b : sub E P -> shape E P a -> shape E P b -> areContractableTrigFctPowers Y a b = true ->
    sh (Forall (shape E P)) (contractTrigFctPowers Y W n a b).
  Proof.
    intros HEP Ha Hb Hc. unfold areContractableTrigFctPowers in Hc.
    apply andb_prop in Hc as [Hc H3]. unfold contractTrigFctPowers.
    destruct (ops (base a)) as [|arg ar] eqn:Ea; [discriminate H3|]. clear Hc H3.
    set (k := S (nameLen (Prod [a; b]))). set (E0 := both E (short k)). set (P0 := both P (short k)).
    assert (HEP0 : sub E0 P0) by now apply both_sub.
    assert (Hlen : (nameLen a < k /\ nameLen b < k)%nat) by (unfold k; cbn [nameLen fold_right]; lia).
    assert (Wa0 : shape E0 P0 a) by (apply shape_short; [assumption|lia]).
    assert (Wb0 : shape E0 P0 b) by (apply shape_short; [assumption|lia]).
    apply sh_weaken with (Q := Forall (shape E0 P0)).
    2:{ intros l Hl. eapply Forall_impl; [|exact Hl]. intros x. apply shape_mono2; apply both_l. }
    assert (Warg : shape E0 P0 arg).
    { apply shape_base in Wa0. destruct (base a) as [| | | |f l|l|l|]; try discriminate Ea; cbn [ops] in Ea; subst.
      - apply shape_fct in Wa0 as [_ Wa0]. now inversion Wa0.
      - apply shape_sum in Wa0 as [_ Wa0]. now inversion Wa0.
      - apply shape_prod in Wa0 as [_ Wa0]. now inversion Wa0.
      - injection Ea as -> _. now destruct Wa0. }
    eapply sh_bind; [apply (h_trig _ HW E0 P0); auto|]. intros sn Hsn.
    eapply sh_bind; [apply (h_pos _ HW E0 P0); auto|]. intros ps _.
    eapply sh_bind; [apply (h_trig _ HW E0 P0); auto|]. intros cs Hcs.
    eapply sh_bind; [apply (h_pos _ HW E0 P0); auto|]. intros pc _. cbv zeta.
    set (ns := tmpNm k). set (nc := tmpNm (Datatypes.S k)).
    assert (Nes : ~ E0 ns ps) by (intros [_ H]; unfold short in H; unfold ns in H; rewrite tmpNm_len in H; lia).
    assert (Nec : ~ E0 nc pc) by (intros [_ H]; unfold short in H; unfold nc in H; rewrite tmpNm_len in H; lia).
    set (P2 := plus1 (plus1 P0 nc pc) ns ps).
    assert (HEP2 : sub E0 P2) by (intros m q Hm; left; left; auto).
    eapply sh_bind with (Q := Forall (shape E0 P2)).
    { apply sh_inEnv.
      assert (Vs : shape E0 P2 (Sym ns ps)) by (right; auto). assert (Vc : shape E0 P2 (Sym nc pc)) by (left; right; auto).
      eapply sh_bind; [apply (s_tfpr E0 P2); auto; eapply shape_expo; exact Wa0|]. intros r1 H1.
      eapply sh_bind; [apply (s_tfpr E0 P2); auto; eapply shape_expo; exact Wb0|]. intros r2 H2.
      apply s_tfac; auto. }
    intros r Hr. destruct r as [|x rr] eqn:Er; [cbn; right; left; reflexivity|]. rewrite <- Er in *.
    assert (Hx : shape E0 P2 x) by (rewrite Er in Hr; now inversion Hr).
    assert (Hy : shape E0 P2 (last r x)) by now apply Forall_last.
    apply sh_tr_bind.
    { rewrite Er. destruct rr as [|x2 [|x3 rr]]; [exact I| |exact I]. eapply sh_bind; [apply sh_inEnv, (s_minus W HW E0 E0); auto with sh|].
      - constructor; [|constructor]. eapply shape_expo. rewrite <- Er. exact Hy.
      - intros m _. exact I. }
    intros isTan. destruct isTan.
    - apply sh_tr_bind; [apply sh_relyIf; exact I|]. intros _. apply sh_tr_bind; [exact I|]. intros _.
      eapply sh_bind with (Q := shape E0 E0).
      { destruct (isEqual (base x) (Sym nc pc)); [apply (s_minus W HW E0 E0); auto with sh; constructor; [eapply shape_expo; exact Hx|constructor]|].
        cbn. eapply shape_expo. exact Hx. }
      intros ne Hne. eapply sh_bind; [apply (h_trig _ HW E0 P0); auto|]. intros t Ht.
      eapply sh_bind; [apply (h_pow _ HW E0 P0); auto|]. intros p Hp. cbn. auto.
    - eapply sh_bind.
      { apply sh_inEnv. apply (sh_mapM (shape E0 P2) (shape E0 (plus1 P0 nc pc))); [exact Hr|]. intros e He.
        apply (h_subst1 _ HW E0 (plus1 P0 nc pc)); auto.
        - intros m q Hm. left. auto.
        - eapply shape_mono; [|exact Hsn]. intros m q Hm. now left. }
      intros r1 [_ H1]. eapply sh_bind.
      { apply (sh_mapM (shape E0 (plus1 P0 nc pc)) (shape E0 P0)); [exact H1|]. intros e He.
        apply (h_subst1 _ HW E0 P0); auto. }
      intros r2 [_ H2]. destruct r2 as [|x' r2]; [cbn; right; left; reflexivity|].
      assert (Hx' : shape E0 P0 x') by now inversion H2.
      assert (Hl' : shape E0 P0 (last (x' :: r2) x')) by now apply Forall_last.
      destruct (permuted _ _ _); [|exact H2]. apply sh_tr_bind; [apply sh_relyIf; exact I|]. intros _. cbn [sh ret]. auto.
  Qed.
End TrigPowers.
