(** Every expression the library hands out is well formed: products, powers, expansion, substitution. *)
From Verif Require Export ShapeProd.
From Verif Require Import ExprProofs NumPowerProofs NormalProofs.
From Coq Require Import Lia.
From Verif Require Import Run.
Open Scope Z_scope.

Section Prods.
  Variables (Y : sys) (W : oper).
  Hypothesis HW : shapely W.
  Hint Resolve HW : sh.
  Variables (E P : syms).
  Hypothesis HEP : sub E P.
  Hint Resolve HEP : sh.
  Notation S := (shape E P).
  Notation SL := (Forall (shape E P)).

  Lemma s_extract e : S e -> SL (extractProduct e).
  Proof.
    induction e as [q|n p|c| |f l IH|l IH|l IH|b x IHb IHx] using expr_ind2; intros H; try (constructor; [exact H|constructor]).
    apply shape_prod in H as [_ H]. cbn [extractProduct]. rewrite Forall_forall in H. apply Forall_forall. intros x Hx.
    apply in_flat_map in Hx as (y & Hy & Hx). specialize (IH y Hy (H y Hy)). rewrite Forall_forall in IH. auto.
  Qed.
  Lemma s_extracts u : SL u -> SL (extractProducts u).
  Proof.
    intros H. apply Forall_forall. intros x Hx. apply in_flat_map in Hx as (y & Hy & Hx). rewrite Forall_forall in H.
    pose proof (s_extract y (H y Hy)) as H1. rewrite Forall_forall in H1. auto.
  Qed.
  Lemma s_prepare n u : SL u -> sh SL (prepare Y W n u).
  Proof. intros H. unfold prepare. apply s_contract; [intros; now apply s_ctfp|now apply s_extracts]. Qed.
  Lemma s_insertSorted x l : S x -> SL l -> SL (insertSorted Y x l).
  Proof. intros Hx Hl. induction Hl as [|y l Hy Hl IH]; cbn [insertSorted]; [auto|]. destruct (permuted Y y x); auto. Qed.
  Lemma s_sortFactors l : SL l -> SL (sortFactors Y l).
  Proof. intros Hl. induction Hl as [|y l Hy Hl IH]; cbn [sortFactors]; [auto|]. now apply s_insertSorted. Qed.
  Lemma s_contractNumerics l : SL l -> SL (contractNumerics l).
  Proof.
    intros Hl. unfold contractNumerics. cbv zeta.
    assert (Hc : forall a, canon a -> canon (fold_left (fun a e => match e with Num q => qmul a q | _ => a end) l a)).
    { clear Hl. induction l as [|x l IH]; intros a Ha; [exact Ha|]. cbn [fold_left]. apply IH. destruct x; try exact Ha. apply qmul_spec. }
    specialize (Hc 1%Q eq_refl). destruct (negb _); [constructor; [exact Hc|now apply Forall_filter]|].
    pose proof (Forall_filter _ (fun e => negb (isNumeric e)) _ Hl) as Hf. destruct (filter _ l); [constructor; [exact Hc|constructor]|exact Hf].
  Qed.
  Lemma s_cci n i j u : SL u -> sh (fun x => SL (fst x)) (contractConstInner Y W n i j u).
  Proof.
    revert i j u. induction n as [|n IH]; intros i j u Hu; [exact I|]. cbn [contractConstInner].
    destruct (nth_error u i) as [a|] eqn:Ei; [|exact Hu]. destruct (nth_error u j) as [b|] eqn:Ej; [|exact Hu].
    destruct (Nat.eqb i j); [auto|]. destruct (_ && _); [|auto].
    eapply sh_bind; [apply (s_tc Y W HW E P HEP); eapply Fnth; eassumption|]. intros r Hr.
    destruct r as [|x [|y [|z r]]]; auto.
    - inversion Hr as [|? ? Hx _]; subst. cbv zeta.
      assert (G1 : SL (firstn i u ++ x :: skipn (Datatypes.S i) u)).
      { apply Forall_app. split; [now apply Forall_firstn|constructor; [assumption|now apply Forall_skipn]]. }
      assert (G2 : SL (firstn j (firstn i u ++ x :: skipn (Datatypes.S i) u) ++ skipn (Datatypes.S j) (firstn i u ++ x :: skipn (Datatypes.S i) u))).
      { apply Forall_app. split; [now apply Forall_firstn|now apply Forall_skipn]. }
      destruct (Nat.eqb j _); [apply sh_tr_bind; [exact I|]; intros _|]; now apply IH.
    - inversion Hr as [|? ? Hx Hr2]; subst. inversion Hr2 as [|? ? Hy _]; subst. cbv zeta. apply IH.
      assert (G1 : SL (firstn i u ++ x :: skipn (Datatypes.S i) u)).
      { apply Forall_app. split; [now apply Forall_firstn|constructor; [assumption|now apply Forall_skipn]]. }
      apply Forall_app. split; [now apply Forall_firstn|constructor; [assumption|now apply Forall_skipn]].
  Qed.
  Lemma s_cc n i u : SL u -> sh SL (contractConst Y W n i u).
  Proof.
    revert i u. induction n as [|n IH]; intros i u Hu; [exact I|]. cbn [contractConst]. destruct (Nat.ltb i (length u)); [|exact Hu].
    eapply sh_bind; [now apply s_cci|]. intros [u' i'] H. cbn [fst] in H. auto.
  Qed.
  Lemma s_prepareConst n u : SL u -> sh SL (prepareConst Y W n u).
  Proof.
    intros Hu. unfold prepareConst. eapply sh_bind; [apply s_cc, s_contractNumerics, s_sortFactors, Hu|]. intros u1 H1.
    eapply sh_bind; [apply s_contract; [intros; now apply (s_tee Y W HW E P HEP)|exact H1]|]. intros u2 H2.
    apply s_contract; [intros; now apply (s_ted Y W HW E P HEP)|exact H2].
  Qed.
  Lemma s_sprod n u : SL u -> sh SL (simplifyProduct Y W n u).
  Proof.
    revert u. induction n as [|n IH]; intros u Hu; [exact I|]. cbn [simplifyProduct].
    eapply sh_bind; [now apply s_prepare|]. intros f Hf.
    assert (G : sh SL (g <- prepareConst Y W (Datatypes.S n) f ;;
            match g with
            | [] => UB "front of empty list of factors"%string
            | [x] => ret g
            | [a; b] => simplTwoFactors Y W (Datatypes.S n) a b
            | u1 :: r => s <- simplifyProduct Y W n r ;; merge (Datatypes.S n) isOne (simplTwoFactors Y W (Datatypes.S n)) [u1] s
            end)).
    { eapply sh_bind; [now apply s_prepareConst|]. intros g Hg. destruct g as [|a [|b [|c g]]].
      - cbn. right. left. reflexivity.
      - exact Hg.
      - inversion Hg; subst. inversion H2; subst. now apply s_tfac.
      - inversion Hg; subst. eapply sh_bind; [apply IH; assumption|]. intros s Hs. apply s_merge; auto. intros. now apply s_tfac. }
    destruct f as [|a [|b [|c f]]]; try exact G. inversion Hf; subst. inversion H2; subst. now apply s_tfac.
  Qed.
  Lemma s_ops e : S e -> SL (ops e).
  Proof.
    intros H. destruct e; cbn [ops]; auto; [now apply shape_fct in H|now apply shape_sum in H|now apply shape_prod in H|].
    destruct H as (H1 & H2 & _). constructor; [exact H1|]. constructor; [|constructor]. now apply shape_up.
  Qed.
  Lemma s_epo n l : l <> [] -> SL l -> sh S (expandProductOf W n l).
  Proof.
    revert l. induction n as [|n IH]; intros l Hn Hl; [exact I|]. cbn [expandProductOf].
    destruct l as [|f [|g l]]; [congruence|now inversion Hl|]. inversion Hl; subst. inversion H2; subst.
    apply sh_tr_bind; [apply sh_relyIf; exact I|]. intros _. eapply sh_bind.
    { apply (sh_mapM S S); [now apply s_ops|]. intros x Hx. eapply sh_bind; [apply (h_prod _ HW E P); auto with sh|]. intros p Hp.
      now apply (h_expand _ HW E P). }
    intros s [_ Hs]. eapply sh_bind; [apply (h_sum _ HW E P); auto|]. intros t Ht. apply IH; [discriminate|auto].
  Qed.
  Lemma s_esp a l : S a -> SL l -> sh S (expandScalarProduct W a l).
  Proof.
    intros Ha Hl. unfold expandScalarProduct. eapply sh_bind.
    { apply (sh_mapM S S); [exact Hl|]. intros x Hx. eapply sh_bind; [apply (h_prod _ HW E P); auto with sh|]. intros p Hp.
      now apply (h_expand _ HW E P). }
    intros s [_ Hs]. now apply (h_sum _ HW E P).
  Qed.
  Lemma s_eap n l : SL l -> sh S (expandAsProduct W n l).
  Proof.
    intros Hl. unfold expandAsProduct. eapply sh_bind.
    { apply (sh_mapM S S); [exact Hl|]. intros x Hx. now apply (h_expand _ HW E P). }
    intros x [_ Hx]. cbv zeta. eapply sh_bind with (Q := S).
    { pose proof (Forall_filter _ (fun e => negb (isSum e)) _ Hx) as Hf. destruct (filter _ x); [reflexivity|now apply (h_prod _ HW E P)]. }
    intros sc Hsc. pose proof (Forall_filter _ isSum _ Hx) as Hf. destruct (filter isSum x) as [|y ys]; [exact Hsc|].
    eapply sh_bind; [apply s_epo; [discriminate|exact Hf]|]. intros s Hs.
    assert (G : sh S (w_prod W [sc; s])) by (apply (h_prod _ HW E P); auto).
    destruct s; try exact G. apply s_esp; [exact Hsc|]. now apply shape_sum in Hs.
  Qed.
  Lemma s_prod n l : SL l -> sh S (prodCreate Y W n l).
  Proof.
    intros Hl. unfold prodCreate. destruct (existsb isUndefined l); [exact I|]. destruct (existsb isZero l); [reflexivity|].
    assert (G : sh S (r <- simplifyProduct Y W n l ;;
        match r with
        | [] => ret one
        | [x] => ret x
        | _ => if needsExpansion r then expandAsProduct W n r else ret (Prod r)
        end)).
    { eapply sh_bind; [now apply s_sprod|]. intros [|x [|y r]] Hr; [reflexivity|now inversion Hr|].
      destruct (needsExpansion _); [now apply s_eap|]. apply shape_prod. split; [cbn; lia|exact Hr]. }
    destruct l as [|x [|y l]]; [exact G|now inversion Hl|exact G].
  Qed.

  (** Powers *)
  Definition powSh (y : expr * expr) : Prop := S (fst y) /\ shape E E (snd y).
  Lemma s_relyInt x : sh tr (relyInt Y x).
  Proof. unfold relyInt. destruct x; try exact I; (destruct (numericEval Y _) as [[]|]; exact I). Qed.
  Hint Resolve s_relyInt : sh.
  Lemma s_snp a b : canon a -> canon b -> sh powSh (simplifyNumericPower Y W a b).
  Proof.
    intros Ha Hb. unfold simplifyNumericPower. eapply sh_bind; [apply s_runNumPow; repeat split; auto|]. intros p (H1 & H2 & H3).
    destruct (qeqb (pPre p) 1); [split; assumption|].
    eapply sh_bind; [apply (h_pow _ HW E P); assumption|]. intros r Hr.
    eapply sh_bind; [apply (h_prod _ HW E P); auto|]. intros t Ht. split; [exact Ht|reflexivity].
  Qed.
  Lemma s_dcef b x y : S b -> sh tr (doContractExpFirst Y W b x y).
  Proof.
    intros Hb. unfold doContractExpFirst. destruct (_ && _); [do 2 (apply sh_tr_bind; [apply s_relyInt|intros _]); exact I|].
    destruct (areTwoFractionExpWithOddDenom x y); [exact I|]. now apply (h_pos _ HW E P).
  Qed.
  Lemma s_dcs b x : S b -> sh tr (doesChangeSign W b x).
  Proof. intros Hb. unfold doesChangeSign. destruct x; try exact I. destruct (qIsEvenInt q); [now apply (h_neg _ HW E P)|exact I]. Qed.
  Lemma s_dces x y : sh tr (doContractExpSecond Y x y).
  Proof.
    unfold doContractExpSecond. destruct (numericEval Y x) as [a|]; [|exact I]. destruct (numericEval Y y) as [b|]; [|exact I]. cbv zeta.
    assert (G : sh tr (_ <- match x with Num _ => ret tt | _ => rely (CNotInt x) end ;; ret true)) by (destruct x; exact I).
    destruct (nIsOdd Y a); [destruct (negb _); [apply sh_tr_bind; [apply s_relyInt|intros _]; exact I|exact I]|].
    destruct (nIsEven Y a).
    { destruct (nIsEven Y _); [|exact I]. apply sh_tr_bind; [apply s_relyInt|intros _]. apply sh_tr_bind; [|intros _; exact I].
      destruct x, y; destruct (nmul Y a b); exact I. }
    destruct (_ && _); [|exact G]. destruct (nIsFraction Y _); [exact G|exact I].
  Qed.
  Lemma s_spb b x y : S b -> shape E E x -> isOne b = false -> isOne x = false -> shape E E y -> sh powSh (simplifyPowerBase Y W b x y).
  Proof.
    intros Hb Hx Nb Nx Hy. unfold simplifyPowerBase. eapply sh_bind; [now apply s_dcef|]. intros c1 _.
    eapply sh_bind with (Q := fun s => match s with Some b' => S b' | None => True end).
    { destruct c1; [exact Hb|]. eapply sh_bind; [now apply s_dcs|]. intros c2 _. destruct c2.
      - eapply sh_bind; [apply (s_minus W HW E P); auto|]. intros m Hm. exact Hm.
      - eapply sh_bind; [apply s_dces|]. intros c3 _. destruct c3; [exact Hb|exact I]. }
    intros [b'|] Hs; [|split; [repeat split; assumption|exact Hy]].
    eapply sh_bind; [apply (h_prod _ HW E E); auto with sh|]. intros z Hz.
    destruct (isZero z); [split; reflexivity|]. now apply (h_spow _ HW E P).
  Qed.
  Lemma s_split all x l : shape E E x -> SL l -> sh (fun y => SL (fst y) /\ SL (snd y)) (splitFactors W all x l).
  Proof.
    intros Hx Hl. induction Hl as [|f l Hf Hl IH]; cbn [splitFactors]; [split; constructor|].
    eapply sh_bind with (Q := tr).
    { destruct all; [exact I|]. eapply sh_bind; [apply (h_pos _ HW E P); auto|]. intros q _. apply sh_tr_bind; [apply sh_relyIf; exact I|intros _; exact I]. }
    intros p _. destruct p.
    - eapply sh_bind; [apply (h_pow _ HW E P); auto|]. intros y Hy. eapply sh_bind; [exact IH|]. intros [s k] [H1 H2]. cbn in *. auto.
    - eapply sh_bind; [exact IH|]. intros [s k] [H1 H2]. cbn in *. auto.
  Qed.
  Lemma s_sprb l x : (2 <= length l)%nat -> SL l -> shape E E x -> sh powSh (simplifyProductBase Y W l x).
  Proof.
    intros H2 Hl Hx. unfold simplifyProductBase. cbv zeta. apply sh_tr_bind; [destruct (isInteger Y x); [apply s_relyInt|exact I]|intros _].
    eapply sh_bind; [apply s_split; assumption|]. intros [s k] [Hs Hk]. cbn [fst snd] in *. destruct s as [|y s].
    - split; [apply shape_prod; split; assumption|exact Hx].
    - eapply sh_bind; [apply (h_prod _ HW E P); auto|]. intros r Hr.
      eapply sh_bind; [apply (h_pow _ HW E P); auto|]. intros p Hp.
      eapply sh_bind; [apply (h_prod _ HW E P); auto|]; [apply Forall_app; auto|]. intros t Ht. split; [exact Ht|reflexivity].
  Qed.
  Lemma s_scb b x : S b -> shape E E x -> sh powSh (simplifyConstantBase W b x).
  Proof.
    intros Hb Hx. unfold simplifyConstantBase. assert (G : powSh (b, x)) by (split; assumption).
    destruct b as [| |[]| | | | |]; try exact G. destruct x as [| | | |f l| | |]; try exact G.
    apply shape_fct in Hx as [Ha Hx]. destruct l as [|a l]; [destruct f; discriminate Ha|]. inversion Hx; subst.
    apply sh_tr_bind; [apply sh_quiet; eapply sh_weaken; [apply (h_log _ HW E E); auto with sh|intros; exact I]|].
    intros t. destruct (isEqual _ t); [|exact G]. apply sh_tr_bind; [apply sh_relyIf; exact I|intros _].
    split; [now apply shape_up|reflexivity].
  Qed.
  Lemma s_dicn b x : S b -> sh tr (doesInvolveComplexNumbers Y W b x).
  Proof.
    intros Hb. unfold doesInvolveComplexNumbers.
    assert (H : sh tr (w_neg W b)) by now apply (h_neg _ HW E P).
    destruct (numericEval Y x) as [a|]; [destruct (nIsInt Y a)|]; [apply sh_tr_bind; [now apply sh_quiet|intros; exact I]| |apply sh_tr_bind; [now apply sh_quiet|intros; exact I]].
    eapply sh_bind; [exact H|]. intros g _. destruct g; [|exact I]. apply sh_tr_bind; [exact I|intros _]. apply sh_tr_bind; [|intros _; exact I].
    destruct x; exact I.
  Qed.
  Lemma s_spow b x : S b -> shape E E x -> sh powSh (simplifyPower Y W b x).
  Proof.
    intros Hb Hx. unfold simplifyPower. eapply sh_bind; [now apply s_dicn|]. intros c _. destruct c; [split; [exact I|reflexivity]|].
    assert (G : powSh (b, x)) by (split; assumption).
    destruct b; try exact G.
    - destruct x; try exact G. now apply s_snp.
    - now apply s_scb.
    - split; [exact I|reflexivity].
    - apply shape_prod in Hb as [H2 Hb]. now apply s_sprb.
    - destruct Hb as (H1 & H2 & H3 & H4). now apply s_spb.
  Qed.
  Lemma s_pow b x : S b -> shape E E x -> sh S (powCreate W b x).
  Proof.
    intros Hb Hx. unfold powCreate. destruct (_ || _); [exact I|]. destruct (_ || _); [reflexivity|].
    destruct (isZero b).
    { eapply sh_bind; [apply (h_neg _ HW E E); auto with sh|]. intros g _. apply sh_tr_bind; [destruct x; exact I|intros _].
      destruct g; [exact I|reflexivity]. }
    destruct (isOne x); [exact Hb|]. eapply sh_bind; [apply (h_spow _ HW E P); auto|]. intros [b' x'] [H1 H2]. cbn [fst snd] in *. cbn [endsWell ret].
    destruct (isOne x') eqn:E1; [exact H1|]. destruct (isOne b') eqn:E2; [reflexivity|]. repeat split; assumption.
  Qed.

  (** Sign *)
  Lemma s_sosp l s : SL l -> sh tr (signOfSymbolicParts W l s).
  Proof.
    intros Hl. revert s. induction Hl as [|e l He Hl IH]; intros s; cbn [signOfSymbolicParts]; [exact I|].
    eapply sh_bind; [apply (h_pos _ HW E P); auto|]. intros p _. destruct (_ && _); [apply IH|].
    eapply sh_bind; [apply (h_neg _ HW E P); auto|]. intros g _. destruct (_ && _); [apply IH|exact I].
  Qed.
  Lemma s_sumSign l : SL l -> sh tr (sumSign Y W l).
  Proof.
    intros Hl. unfold sumSign. cbv zeta. eapply sh_bind; [apply s_sosp; now apply Forall_filter|]. intros b _.
    apply sh_tr_bind; [|intros _; exact I]. destruct (numericParts Y l) as [|[] [|]]; try exact I; (destruct (_ =? 0); exact I).
  Qed.
  Lemma s_prodSign l s : SL l -> sh tr (prodSign W l s).
  Proof.
    intros Hl. revert s. induction Hl as [|e l He Hl IH]; intros s; cbn [prodSign]; [exact I|].
    eapply sh_bind; [apply (h_pos _ HW E P); auto|]. intros p _. destruct p; [apply IH|].
    eapply sh_bind; [apply (h_neg _ HW E P); auto|]. intros g _. destruct g; [apply IH|exact I].
  Qed.
  Lemma s_numPos e a : sh tr (numPos Y e a).
  Proof. unfold numPos. cbv zeta. apply sh_tr_bind; [apply sh_relyIf; exact I|intros; exact I]. Qed.
  Lemma s_numNeg e a : sh tr (numNeg Y e a).
  Proof. unfold numNeg. cbv zeta. apply sh_tr_bind; [apply sh_relyIf; exact I|intros; exact I]. Qed.
  Lemma fct_arg f l a : S (Fct f l) -> l = [a] -> S a.
  Proof. intros H ->. apply shape_fct in H as [_ H]. now inversion H. Qed.
  Lemma s_pos e : S e -> sh tr (isPositive Y W e).
  Proof.
    intros H. unfold isPositive. destruct e as [q|nn pp|c| |f l|l|l|b x]; try exact I.
    - assert (G : sh tr (match numericEval Y (Fct f l) with Some a => numPos Y (Fct f l) a | None => ret false end))
        by (destruct (numericEval Y _); [apply s_numPos|exact I]).
      destruct f; try exact G; (destruct l as [|a [|]]; try exact G); assert (Ha : S a) by (eapply fct_arg; [exact H|reflexivity]).
      + now apply (h_pos _ HW E P).
      + eapply sh_bind; [apply (h_sum _ HW E P); auto with sh|]. intros s Hs. now apply (h_pos _ HW E P).
    - apply shape_sum in H as [_ H]. destruct (numericEval Y _); [apply s_numPos|]. eapply sh_bind; [now apply s_sumSign|intros; exact I].
    - apply shape_prod in H as [_ H]. eapply sh_bind; [now apply s_prodSign|intros; exact I].
    - destruct H as (Hb & _). eapply sh_bind; [apply (h_pos _ HW E P); auto|]. intros p _. destruct p; [exact I|].
      destruct (numericEval Y x) as [[]|]; try exact I. destruct (_ =? 0); [|exact I]. apply sh_tr_bind; [destruct x; exact I|intros; exact I].
  Qed.
  Lemma s_neg e : S e -> sh tr (isNegative Y W e).
  Proof.
    intros H. unfold isNegative. destruct e as [q|nn pp|c| |f l|l|l|b x]; try exact I.
    - assert (G : sh tr (match numericEval Y (Fct f l) with Some a => numNeg Y (Fct f l) a | None => ret false end))
        by (destruct (numericEval Y _); [apply s_numNeg|exact I]).
      destruct f; try exact G; (destruct l as [|a [|]]; try exact G); assert (Ha : S a) by (eapply fct_arg; [exact H|reflexivity]).
      + now apply (h_neg _ HW E P).
      + eapply sh_bind; [apply (h_sum _ HW E P); auto with sh|]. intros s Hs. now apply (h_neg _ HW E P).
    - apply shape_sum in H as [_ H]. destruct (numericEval Y _); [apply s_numNeg|]. eapply sh_bind; [now apply s_sumSign|intros; exact I].
    - apply shape_prod in H as [_ H]. eapply sh_bind; [now apply s_prodSign|intros; exact I].
  Qed.

  (** Expansion *)
  Lemma s_expand n e : S e -> sh S (expandExpr Y W n e).
  Proof.
    intros H. unfold expandExpr. destruct e as [q|nn pp|c| |f l|l|l|b x]; try exact H.
    - apply shape_sum in H as [_ H]. eapply sh_bind; [apply (sh_mapM S S); [exact H|]; intros y Hy; now apply (h_expand _ HW E P)|].
      intros y [_ Hy]. now apply (h_sum _ HW E P).
    - apply shape_prod in H as [_ H]. now apply s_eap.
    - destruct (numericEval Y x) as [[q|]|]; try exact H. destruct (qIsInt q); [|exact H]. destruct H as (Hb & Hx & _).
      assert (G : sh S (w_pow W b x)) by now apply (h_pow _ HW E P).
      destruct b; try exact G. apply sh_tr_bind; [apply s_relyInt|intros _].
      eapply sh_bind; [apply s_eap; apply Forall_forall; intros y Hy; apply repeat_spec in Hy; now subst|]. intros r Hr.
      destruct (_ <? 0); [now apply (s_oneOver W HW E P)|exact Hr].
  Qed.
End Prods.

Section Subst.
  Variable (W : oper).
  Hypothesis HW : shapely W.
  Lemma isEqual_sym_self n p : isEqual (Sym n p) (Sym n p) = true.
  Proof. now apply (isEqual_iff (Sym n p) (Sym n p)). Qed.
  Lemma substE_other e n p t : e <> Sym n p -> substExpr W e (Sym n p) t =
    match e with
    | Sum l => x <- mapM (fun a => w_subst W a (Sym n p) t) l ;; w_sum W x
    | Prod l => x <- mapM (fun a => w_subst W a (Sym n p) t) l ;; w_prod W x
    | Pow b x => b' <- w_subst W b (Sym n p) t ;; x' <- w_subst W x (Sym n p) t ;; w_pow W b' x'
    | Fct FAtan2 [y; x] => y' <- w_subst W y (Sym n p) t ;; x' <- w_subst W x (Sym n p) t ;; w_atan2 W y' x'
    | Fct FLog [a] => a' <- w_subst W a (Sym n p) t ;; w_log W a'
    | Fct f [a] => a' <- w_subst W a (Sym n p) t ;; w_trig W f a'
    | _ => ret e
    end.
  Proof.
    intros H. unfold substExpr.
    assert (E : isEqual e (Sym n p) = false) by (destruct (isEqual e (Sym n p)) eqn:E; [now apply isEqual_eq in E|reflexivity]).
    destruct e; try (rewrite E; reflexivity). reflexivity.
  Qed.
  Lemma substE_self n p t : substExpr W (Sym n p) (Sym n p) t = ret t.
  Proof. unfold substExpr. now rewrite (isEqual_sym_self n p). Qed.
  Lemma s_substG (E P E' P' : syms) n p e t : sub E P -> (forall m q, P' m q -> m = n /\ q = p \/ P m q) ->
    (P' n p -> shape E P t) ->
    (forall a, shape E' P' a -> sh (shape E P) (w_subst W a (Sym n p) t)) ->
    (forall a, shape E' E' a -> sh (shape E E) (w_subst W a (Sym n p) t)) ->
    shape E' P' e -> sh (shape E P) (substExpr W e (Sym n p) t).
  Proof.
    intros HEP HP Ht H1 H2 He. destruct (isEqual e (Sym n p)) eqn:Eq.
    { apply isEqual_eq in Eq. subst. rewrite substE_self. apply Ht. exact He. }
    rewrite substE_other by (intros ->; rewrite (isEqual_sym_self n p) in Eq; discriminate Eq).
    destruct e as [q|m q|c| |f l|l|l|b x]; try exact He.
    - destruct (HP _ _ He) as [[-> ->]|G]; [rewrite (isEqual_sym_self n p) in Eq; discriminate Eq|exact G].
    - apply shape_fct in He as [Hl He].
      destruct (trigF f) eqn:Ef.
      { destruct l as [|a [|a2 l]]; [destruct f; discriminate|inversion He; subst|destruct f; discriminate].
        assert (G : sh (shape E P) (a' <- w_subst W a (Sym n p) t;; w_trig W f a')).
        { eapply sh_bind; [apply H1; assumption|]. intros a' Ha. now apply (h_trig _ HW E P). }
        destruct f; try discriminate Ef; exact G. }
      destruct f; try discriminate Ef.
      + destruct l as [|a [|b [|]]]; try discriminate. inversion He as [|? ? Ha He2]; subst. inversion He2; subst.
        eapply sh_bind; [apply H1; assumption|]. intros a' Ha'. eapply sh_bind; [apply H1; assumption|]. intros b' Hb'. now apply (h_atan2 _ HW E P).
      + destruct l as [|a [|]]; try discriminate. inversion He; subst. eapply sh_bind; [apply H1; assumption|]. intros a' Ha. now apply (h_log _ HW E P).
    - apply shape_sum in He as [_ He]. eapply sh_bind; [apply (sh_mapM (shape E' P') (shape E P)); auto|]. intros x [_ Hx]. now apply (h_sum _ HW E P).
    - apply shape_prod in He as [_ He]. eapply sh_bind; [apply (sh_mapM (shape E' P') (shape E P)); auto|]. intros x [_ Hx]. now apply (h_prod _ HW E P).
    - destruct He as (Hb & Hx & _). eapply sh_bind; [apply H1; assumption|]. intros b' Hb'. eapply sh_bind; [apply H2; assumption|]. intros x' Hx'.
      now apply (h_pow _ HW E P).
  Qed.
  Lemma s_subst0 E P n p a t : sub E P -> ~ P n p -> shape E P a -> sh (shape E P) (substExpr W a (Sym n p) t).
  Proof.
    intros HEP HP Ha. apply (s_substG E P E P); auto; [tauto| |]; intros; [apply (h_subst0 _ HW E P)|apply (h_subst0 _ HW E E)]; auto using sub_refl.
  Qed.
  Lemma s_subst1 E P n p a t : sub E P -> ~ E n p -> shape E (plus1 P n p) a -> shape E P t ->
    sh (shape E P) (substExpr W a (Sym n p) t).
  Proof.
    intros HEP HE Ha Ht. apply (s_substG E P E (plus1 P n p)); auto; intros.
    - unfold plus1 in *. tauto.
    - now apply (h_subst1 _ HW E P).
    - apply (h_subst0 _ HW E E); auto using sub_refl.
  Qed.
  Lemma s_subst2 E P n p a t : sub E P -> shape (plus1 E n p) (plus1 P n p) a -> shape E E t ->
    sh (shape E P) (substExpr W a (Sym n p) t).
  Proof.
    intros HEP Ha Ht. apply (s_substG E P (plus1 E n p) (plus1 P n p)); auto; intros.
    - unfold plus1 in *. tauto.
    - now apply shape_up.
    - now apply (h_subst2 _ HW E P).
    - apply (h_subst2 _ HW E E); auto using sub_refl.
  Qed.
End Subst.
