(** Every expression the library hands out is well formed: polynomials. *)
From Verif Require Export ShapeTrig.
From Verif Require Import ExprProofs NormalProofs PolyModel.
From Coq Require Import Lia.
From Verif Require Import Run.
Open Scope Z_scope.

Section Polys.
  Variables (Y : sys) (W : oper).
  Hypothesis HW : shapely W.
  Hint Resolve HW : sh.
  Variables (E P : syms).
  Hypothesis HEP : sub E P.
  Hint Resolve HEP : sh.
  Notation S := (shape E P).
  Notation SL := (Forall (shape E P)).
  Notation PR := (pairSh E P).
  Lemma s_minusP l : SL l -> sh S (minus W l). Proof. now apply s_minus. Qed.
  Lemma s_oneOverP e : S e -> sh S (oneOver W e). Proof. now apply s_oneOver. Qed.
  Lemma s_sumP l : SL l -> sh S (w_sum W l). Proof. now apply (h_sum _ HW E P). Qed.
  Lemma s_prodP l : SL l -> sh S (w_prod W l). Proof. now apply (h_prod _ HW E P). Qed.
  Lemma s_expandP e : S e -> sh S (w_expand W e). Proof. now apply (h_expand _ HW E P). Qed.
  Lemma s_powP e k : S e -> sh S (w_pow W e (numZ k)). Proof. intros. apply (h_pow _ HW E P); auto with sh. Qed.
  Lemma s_monomial x k : S x -> sh S (monomial W x k). Proof. apply s_powP. Qed.
  Lemma s_gcdP b L u v : SL L -> S u -> S v -> sh S (w_gcd W b L u v). Proof. now apply (h_gcd _ HW E P). Qed.
  Hint Resolve s_minusP s_oneOverP s_sumP s_prodP s_expandP s_powP s_monomial s_gcdP : sh.
  Ltac st := eapply sh_bind; [solve [auto 6 with sh]|intros ? ?].

  Lemma s_coeffSelf k : sh S (coeffSelf k).
  Proof. unfold coeffSelf. destruct (_ =? _); reflexivity. Qed.
  Lemma s_without p l l' : SL l -> withoutFirst p l = Some l' -> SL l'.
  Proof.
    intros H. revert l'. induction H as [|a l Ha Hl IH]; intros l' E1; [discriminate|]. cbn [withoutFirst] in E1.
    destruct (isEqual a p); [injection E1 as <-; exact Hl|]. destruct (withoutFirst p l) as [s|]; [|discriminate]. injection E1 as <-. auto.
  Qed.
  Lemma s_ifz (b : bool) e : S e -> sh S (ret (if b then e else zero)).
  Proof. intros H. destruct b; [exact H|reflexivity]. Qed.
  Hint Resolve s_coeffSelf s_ifz : sh.
  Lemma s_coeff e x k : S e -> S x -> sh S (coeff W e x k).
  Proof.
    intros He Hx. induction e as [q|m q|c| |f l IH|l IH|l IH|b y IHb IHy] using expr_ind2.
    - now apply s_ifz.
    - cbn [coeff]. destruct (isEqual _ _); auto with sh.
    - cbn [coeff]. destruct (isEqual _ _); auto with sh.
    - cbn [coeff]. destruct (isEqual _ _); auto with sh.
    - cbn [coeff]. destruct (isEqual _ _); auto with sh.
    - cbn [coeff]. destruct (isEqual _ _); auto with sh. destruct (_ && _); [exact He|].
      apply shape_sum in He as [_ He].
      assert (G : forall a, sh S a -> sh S (fold_left (fun a s => c <- a;; d <- coeff W s x k;; w_sum W [c; d]) l a)).
      { induction He as [|s l Hs Hl IHl]; intros a Ha; [exact Ha|]. cbn [fold_left]. apply IHl; [intros; apply IH; [now right|assumption]|].
        eapply sh_bind; [exact Ha|]. intros c Hc. eapply sh_bind; [apply IH; [now left|exact Hs]|]. intros d Hd. auto with sh. }
      apply G. reflexivity.
    - cbn [coeff]. destruct (isEqual _ _); auto with sh. destruct (_ && _); [exact He|].
      apply shape_prod in He as [_ He]. unfold coeffFactorMatch. st. destruct (withoutFirst a l) as [r|] eqn:Ew; [|reflexivity].
      apply s_prodP. eapply s_without; eassumption.
    - cbn [coeff]. destruct (isEqual _ _); auto with sh. unfold coeffPower. st. destruct (isEqual _ a); [reflexivity|].
      destruct (negb _); [now apply s_ifz|reflexivity].
  Qed.
  Lemma s_leading e x : S e -> S x -> sh S (leadingCoeff Y W e x).
  Proof. intros. now apply s_coeff. Qed.
  Hint Resolve s_coeff s_leading : sh.

  Lemma s_addSymbols e acc : S e -> SL acc -> SL (addSymbols acc e).
  Proof.
    revert acc. induction e as [q|m q|c| |f l IH|l IH|l IH|b y IHb IHy] using expr_ind2; intros acc He Ha; auto.
    - cbn [addSymbols]. unfold addIfNotStored. destruct (existsb _ _); [exact Ha|]. apply Forall_app. auto.
    - apply shape_sum in He as [_ He]. cbn [addSymbols]. revert acc Ha. induction He as [|s l Hs Hl IHl]; intros acc Ha; [exact Ha|].
      cbn [fold_left]. apply IHl; [intros; apply IH; auto; now right|]. apply IH; auto. now left.
    - apply shape_prod in He as [_ He]. cbn [addSymbols]. revert acc Ha. induction He as [|s l Hs Hl IHl]; intros acc Ha; [exact Ha|].
      cbn [fold_left]. apply IHl; [intros; apply IH; auto; now right|]. apply IH; auto. now left.
    - cbn [addSymbols]. apply IHb; [|exact Ha]. now destruct He.
  Qed.
  Lemma s_insertBy lt x l : S x -> SL l -> SL (insertBy lt x l).
  Proof. intros Hx Hl. induction Hl as [|y l Hy Hl IH]; cbn [insertBy]; [auto|]. destruct (lt x y); auto. Qed.
  Lemma s_listOfSymbols u v : S u -> S v -> SL (listOfSymbols Y u v).
  Proof.
    intros Hu Hv. unfold listOfSymbols.
    assert (H : SL (addSymbols (addSymbols [] u) v)) by (apply s_addSymbols; auto; now apply s_addSymbols).
    assert (G : forall a, SL a -> SL (fold_left (fun a x => insertBy (compareVars Y u v) x a) (addSymbols (addSymbols [] u) v) a)).
    { induction H as [|x l Hx Hl IH]; intros a Ha; [exact Ha|]. cbn [fold_left]. apply IH. now apply s_insertBy. }
    apply G. constructor.
  Qed.
  Hint Resolve s_listOfSymbols : sh.

  Lemma s_divideEmpty u v : S u -> S v -> sh PR (divideEmptyList Y W u v).
  Proof.
    intros Hu Hv. unfold divideEmptyList. st. st. assert (G : PR (zero, u)) by (split; cbn [fst snd]; auto with sh).
    destruct (numericEval Y a0) as [[]|]; try exact G. apply sh_tr_bind; [destruct v; try exact I; apply sh_relyIf; exact I|intros _].
    split; cbn [fst snd]; auto with sh.
  Qed.
  Lemma s_divideLoop rec x v n q r m : (forall a b, S a -> S b -> sh PR (rec a b)) -> S x -> S v -> S q -> S r ->
    sh PR (divideLoop Y W rec x v n q r m).
  Proof.
    intros Hrec Hx Hv. revert q r m. induction n as [|n IH]; intros q r m Hq Hr; [exact I|]. cbn [divideLoop].
    destruct (_ <? _); [st; split; assumption|]. st. st. eapply sh_bind; [apply Hrec; assumption|]. intros [c s] [Hc Hs]. cbn [fst snd] in *.
    destruct (negb _); [st; split; assumption|]. cbv zeta. st. st. st. st. st. st.
    destruct (isZero _); [st; split; assumption|]. apply IH; assumption.
  Qed.
  Lemma s_divide n L u v : SL L -> S u -> S v -> sh PR (divide Y W n L u v).
  Proof.
    intros HL. revert u v. induction HL as [|x L Hx HL IH]; intros u v Hu Hv; cbn [divide]; (destruct (negb _); [split; exact I|]).
    - now apply s_divideEmpty.
    - destruct (isEqual v u); [split; reflexivity|]. destruct (isZero u); [split; reflexivity|]. apply s_divideLoop; auto with sh.
  Qed.
  Lemma s_polyDivide n u v : S u -> S v -> sh PR (polyDivide Y W n u v).
  Proof. intros. apply s_divide; auto with sh. Qed.
  Hint Resolve s_divide s_polyDivide : sh.
  Lemma s_pseudoLoop cq x v lv n q r m s : S x -> S v -> S lv -> S q -> S r ->
    sh (fun y => PR (fst y)) (pseudoLoop Y W cq x v lv n q r m s).
  Proof.
    intros Hx Hv Hlv. revert q r m s. induction n as [|n IH]; intros q r m s Hq Hr; [exact I|]. cbn [pseudoLoop].
    destruct (_ <? _); [split; assumption|]. st. st. st. eapply sh_bind with (Q := S); [destruct cq; [st; auto with sh|exact Hq]|]. intros q' Hq'.
    st. st. st. st. destruct (isZero _); [split; assumption|]. now apply IH.
  Qed.
  Lemma s_pseudo cq n u v x : S u -> S v -> S x -> sh PR (pseudoDivide Y W cq n u v x).
  Proof.
    intros Hu Hv Hx. unfold pseudoDivide. destruct (negb _); [split; exact I|]. st. st.
    eapply sh_bind; [apply s_pseudoLoop; auto with sh|]. intros [[q r] s] [Hq Hr]. cbn [fst snd] in *. cbv zeta.
    apply sh_tr_bind; [apply sh_relyIf; exact I|intros _]. st. st. st.
    eapply sh_bind with (Q := S); [destruct cq; [st; auto with sh|reflexivity]|]. intros q' Hq'. split; assumption.
  Qed.
  Hint Resolve s_pseudo : sh.
  Lemma s_minDegree e x : S e -> sh tr (minDegree Y e x).
  Proof.
    intros He. induction e as [q|m q|c| |f l IH|l IH|l IH|b y IHb IHy] using expr_ind2; try exact I.
    - cbn [minDegree]. destruct (isEqual _ _); [exact I|]. apply shape_sum in He as [H2 He].
      eapply sh_bind with (Q := fun d => length d = length l).
      { clear H2. induction He as [|s l Hs Hl IHl]; cbn [mapM]; [reflexivity|]. eapply sh_bind; [apply IH; [now left|exact Hs]|]. intros z _.
        eapply sh_bind; [apply IHl; intros; apply IH; [now right|assumption]|]. intros d Hd. cbn. now rewrite Hd. }
      intros d Hd. destruct d; [cbn in Hd; lia|exact I].
    - cbn [minDegree]. destruct (isEqual _ _); [exact I|]. apply shape_prod in He as [_ He].
      apply sh_tr_bind; [|intros; exact I].
      induction He as [|s l Hs Hl IHl]; cbn [mapM]; [exact I|]. eapply sh_bind; [apply IH; [now left|exact Hs]|]. intros z _.
      apply sh_tr_bind; [apply IHl; intros; apply IH; [now right|assumption]|]. intros d. exact I.
    - cbn [minDegree]. destruct (isEqual _ _); [exact I|]. destruct (numericEval Y y) as [a|]; [|cbn; unfold remainingUB; cbn; tauto]. cbv zeta.
      destruct (negb _); [exact I|]. destruct (isEqual b x); [exact I|]. apply sh_tr_bind; [apply IHb; now destruct He|intros; exact I].
  Qed.
  Lemma s_integerContent1 e : S e -> sh tr (integerContent1 Y e).
  Proof.
    intros He. induction e as [q|m q|c| |f l IH|l IH|l IH|b y IHb IHy] using expr_ind2;
      try (cbn [integerContent1]; apply sh_tr_bind; [eapply sh_weaken; [eapply (s_numericTerm E P); exact He|intros; exact I]|intros; exact I]).
    apply shape_sum in He as [_ He]. cbn [integerContent1].
    assert (G : forall a, sh tr a -> sh tr (fold_left (fun a s => z <- a;; y <- integerContent1 Y s;; ret (integerGcd z y)) l a)).
    { induction He as [|s l Hs Hl IHl]; intros a Ha; [exact Ha|]. cbn [fold_left]. apply IHl; [intros; apply IH; [now right|assumption]|].
      apply sh_tr_bind; [exact Ha|]. intros z. apply sh_tr_bind; [apply IH; [now left|exact Hs]|]. intros y. exact I. }
    apply G. exact I.
  Qed.
  Lemma s_integerContent u v : S u -> S v -> sh S (integerContent Y u v).
  Proof. intros. unfold integerContent. do 2 (apply sh_tr_bind; [now apply s_integerContent1|intros ?]). apply shape_numZ. Qed.
  Lemma s_normFactor e L : S e -> SL L -> sh tr (normalizationFactor Y W e L).
  Proof.
    intros He HL. revert e He. induction HL as [|x L Hx HL IH]; intros e He; cbn [normalizationFactor]; [destruct e; exact I|].
    st. destruct a; try exact I; now apply IH.
  Qed.
  Lemma s_gcdNormalize e L : S e -> SL L -> sh S (gcdNormalize Y W e L).
  Proof. intros He HL. unfold gcdNormalize. apply sh_tr_bind; [apply s_normFactor; [exact He|now apply Forall_rev]|]. intros f. auto with sh. Qed.
  Lemma s_gcdCompute b u v : S u -> S v -> sh S (gcdCompute Y W b u v).
  Proof. intros. unfold gcdCompute. destruct (isInputValid _ _ _); [auto with sh|exact I]. Qed.
  Hint Resolve s_minDegree s_integerContent s_gcdNormalize s_gcdCompute : sh.
  Lemma s_contentLoop b e x i n c : S e -> S x -> S c -> sh S (contentLoop Y W b e x i n c).
  Proof. intros He Hx. revert i c. induction n as [|n IH]; intros i c Hc; [exact Hc|]. cbn [contentLoop]. st. st. now apply IH. Qed.
  Lemma s_content b e x : S e -> S x -> sh S (content Y W b e x).
  Proof.
    intros He Hx. unfold content. st.
    assert (G : sh S (d <- minDegree Y a x ;; contentLoop Y W b a x d (Z.to_nat (degree Y a x - d + 1)) zero)).
    { st. apply s_contentLoop; auto with sh. }
    destruct a; try exact G. cbn. apply qabs_canon. exact H.
  Qed.
  Hint Resolve s_content : sh.
  Lemma s_primLoop n k x L u v : S x -> SL L -> S u -> S v -> sh (optSh E P) (primitiveLoop Y W n k x L u v).
  Proof.
    intros Hx HL. revert u v. induction k as [|k IH]; intros u v Hu Hv; [exact I|]. cbn [primitiveLoop]. destruct (isZero v); [exact Hu|].
    eapply sh_bind; [apply s_pseudo; assumption|]. intros [q r] [_ Hr]. cbn [fst snd] in *. destruct (isZero r); [apply IH; auto with sh|].
    destruct (isUndefined r); [exact I|]. st. eapply sh_bind; [apply s_divide; assumption|]. intros [p q'] [Hp _]. now apply IH.
  Qed.
  Lemma s_prim n u v L : L <> [] -> S u -> S v -> SL L -> sh S (primitiveAlgo Y W n u v L).
  Proof.
    intros Hn Hu Hv HL. unfold primitiveAlgo. destruct L as [|x R]; [congruence|]. inversion HL; subst. st. st. st.
    eapply sh_bind; [apply s_divide; assumption|]. intros [up q1] [Hup _]. eapply sh_bind; [apply s_divide; assumption|]. intros [vp q2] [Hvp _].
    eapply sh_bind; [now apply s_primLoop|]. intros [g|] Hg; [|reflexivity]. cbn in Hg. st. auto with sh.
  Qed.
  Lemma s_subLoop n k x L R U V be ps d i : S x -> SL L -> SL R -> S U -> S V -> S be -> S ps ->
    sh (optSh E P) (subresultantLoop Y W n k x L R U V be ps d i).
  Proof.
    intros Hx HL HR. revert U V be ps d i. induction k as [|k IH]; intros U V be ps d i HU HV Hb Hp; [exact I|]. cbn [subresultantLoop].
    eapply sh_bind; [apply s_pseudo; assumption|]. intros [q r] [_ Hr]. cbn [fst snd] in *. destruct (isZero r); [exact HV|].
    destruct (isUndefined r); [exact I|].
    eapply sh_bind with (Q := fun y => S (fst (fst y)) /\ S (snd (fst y))).
    { destruct (Nat.ltb 0 i); [|split; assumption]. cbv zeta. st. st. st. st. st. st. eapply sh_bind; [apply s_divide; assumption|].
      intros [ps' q'] [Hps' _]. cbn [fst snd] in *. st. st. st. split; assumption. }
    intros [[be' ps'] d'] [Hb' Hp']. cbn [fst snd] in *. eapply sh_bind; [apply s_divide; assumption|]. intros [V' q'] [HV' _]. now apply IH.
  Qed.
  Lemma s_subGcd n u v x R : S u -> S v -> S x -> SL R -> sh S (subresultantGcd Y W n u v x R).
  Proof.
    intros Hu Hv Hx HR. unfold subresultantGcd. cbv zeta. assert (HL : SL (x :: R)) by auto. st. st. st.
    eapply sh_bind; [apply s_divide; assumption|]. intros [U q1] [HU _]. eapply sh_bind; [apply s_divide; assumption|]. intros [V q2] [HV _].
    cbn [fst snd] in *. st. st. st. st. eapply sh_bind; [apply s_subLoop; auto with sh|]. intros [U'|] HU'; [|reflexivity]. cbn in HU'. st.
    eapply sh_bind; [apply s_divide; assumption|]. intros [t1 q3] [Ht1 _]. eapply sh_bind; [apply s_divide; assumption|]. intros [t2 q4] [Ht2 _].
    cbn [fst snd] in *. st. eapply sh_bind; [apply s_divide; assumption|]. intros [t3 q5] [Ht3 _]. cbn [fst snd] in *. st. auto with sh.
  Qed.
  Lemma s_gcdAlgo n b u v L : L <> [] -> S u -> S v -> SL L -> sh S (gcdAlgo Y W n b u v L).
  Proof.
    intros Hn Hu Hv HL. unfold gcdAlgo. destruct b; [|now apply s_prim]. destruct L as [|x R]; [congruence|]. inversion HL; subst.
    destruct (_ <? _); now apply s_subGcd.
  Qed.
  Lemma s_viaAlgo n b u v L : L <> [] -> S u -> S v -> SL L -> sh S (gcdViaAlgo Y W n b u v L).
  Proof. intros Hn Hu Hv HL. unfold gcdViaAlgo. st. st. st. st. eapply sh_bind; [apply s_gcdAlgo; auto|]. intros g Hg. auto with sh. Qed.
  Lemma s_gcd n b L u v : SL L -> S u -> S v -> sh S (gcdWith Y W n b L u v).
  Proof.
    intros HL Hu Hv. unfold gcdWith. st. st. rename a into ue, a0 into ve. destruct (_ || _); [auto with sh|]. destruct (_ && _); [exact I|].
    destruct (isZero ue); [auto with sh|]. destruct (isZero ve); [auto with sh|]. destruct (isEqual ue ve); [auto with sh|].
    assert (G : sh S (g <- (if negb (haveCommonSymbol u v L) then integerContent Y u v else gcdViaAlgo Y W n b ue ve L) ;; gcdNormalize Y W g L)).
    { eapply sh_bind with (Q := S); [|intros; auto with sh]. destruct (haveCommonSymbol u v L) eqn:Ec; cbn [negb]; [|auto with sh].
      apply s_viaAlgo; auto. intros ->. discriminate Ec. }
    destruct ue; try exact G. destruct ve; try exact G. apply s_gcdNormalize; [apply shape_numZ|exact HL].
  Qed.
End Polys.
