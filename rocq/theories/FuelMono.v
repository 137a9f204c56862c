(** The bounds of the model (loops F, nested calls k) don't influence results: an execution that ends
    within the bounds ends in the same way within larger ones. *)
From Verif Require Import World ExprProofs.
From Coq Require Import Lia.
From Verif Require Import Run.
Open Scope Z_scope.

(** [m] ran out of its bounds or ends like [m'].  The recorded facts may differ. *)
Definition rle {A} (m m' : res A) : Prop :=
  match m with
  | Fuel => True
  | Ok a _ => exists l, m' = Ok a l
  | Throw => m' = Throw
  | UB s => m' = UB s
  end.
Record ople (W W' : oper) : Prop := {
  o_sum : forall l, rle (w_sum W l) (w_sum W' l);
  o_prod : forall l, rle (w_prod W l) (w_prod W' l);
  o_pow : forall a b, rle (w_pow W a b) (w_pow W' a b);
  o_spow : forall a b, rle (w_spow W a b) (w_spow W' a b);
  o_trig : forall a b, rle (w_trig W a b) (w_trig W' a b);
  o_atan2 : forall a b, rle (w_atan2 W a b) (w_atan2 W' a b);
  o_log : forall a, rle (w_log W a) (w_log W' a);
  o_expand : forall a, rle (w_expand W a) (w_expand W' a);
  o_subst : forall a b c, rle (w_subst W a b c) (w_subst W' a b c);
  o_pos : forall a, rle (w_pos W a) (w_pos W' a);
  o_neg : forall a, rle (w_neg W a) (w_neg W' a);
  o_normal : forall a, rle (w_normal W a) (w_normal W' a);
  o_normalF : forall a b, rle (w_normalF W a b) (w_normalF W' a b);
  o_gcd : forall a b c d, rle (w_gcd W a b c d) (w_gcd W' a b c d)
}.

Lemma rle_refl {A} (m : res A) : rle m m.
Proof. destruct m; cbn; eauto. Qed.
Lemma rle_trans {A} (a b c : res A) : rle a b -> rle b c -> rle a c.
Proof.
  destruct a as [x l| | |s]; cbn; auto; [intros [l' ->] H|intros -> H|intros -> H]; exact H.
Qed.
Lemma rle_bind {A B} (m m' : res A) (f f' : A -> res B) : rle m m' -> (forall a, rle (f a) (f' a)) -> rle (bind m f) (bind m' f').
Proof.
  intros H Hf. destruct m as [x l| | |s]; cbn in *; auto.
  - destruct H as [l' ->]. cbn. specialize (Hf x). destruct (f x) as [y k| | |s]; cbn in *; auto; [|now rewrite Hf|now rewrite Hf].
    destruct Hf as [k' ->]. cbn. eauto.
  - now subst.
  - now subst.
Qed.
Lemma rle_quiet {A} (m m' : res A) : rle m m' -> rle (quiet m) (quiet m').
Proof. destruct m; cbn; auto; [intros [? ->]; cbn; eauto|intros ->; reflexivity|intros ->; reflexivity]. Qed.
Lemma rle_inEnv {A} e (m m' : res A) : rle m m' -> rle (inEnv e m) (inEnv e m').
Proof. destruct m; cbn; auto; [intros [? ->]; cbn; eauto|intros ->; reflexivity|intros ->; reflexivity]. Qed.
Lemma rle_mapM {A B} (f f' : A -> res B) l : (forall a, rle (f a) (f' a)) -> rle (mapM f l) (mapM f' l).
Proof.
  intros H. induction l as [|x l IH]; cbn [mapM]; [apply rle_refl|].
  apply rle_bind; [apply H|]. intros y. apply rle_bind; [exact IH|]. intros s. apply rle_refl.
Qed.
Lemma rle_fold {A B} (f f' : res B -> A -> res B) l a a' : rle a a' ->
  (forall b b' x, In x l -> rle b b' -> rle (f b x) (f' b' x)) -> rle (fold_left f l a) (fold_left f' l a').
Proof.
  revert a a'. induction l as [|x l IH]; intros a a' Ha H; cbn [fold_left]; [exact Ha|].
  apply IH; [apply H; [now left | exact Ha]|]. intros b b' y Hy. apply H. now right.
Qed.

Create HintDb rle discriminated.
#[global] Hint Resolve rle_refl : rle.
#[global] Hint Resolve o_sum o_prod o_pow o_spow o_trig o_atan2 o_log o_expand o_subst o_pos o_neg o_normal o_normalF o_gcd : rle.

Ltac mstep :=
  match goal with
  | |- forall _, _ => intro
  | |- rle Fuel _ => exact I
  | |- rle ?m ?m => apply rle_refl
  | |- rle (bind _ _) (bind _ _) => apply rle_bind; [|intro]
  | |- rle (quiet _) (quiet _) => apply rle_quiet
  | |- rle (inEnv _ _) (inEnv _ _) => apply rle_inEnv
  | |- rle (mapM _ _) (mapM _ _) => apply rle_mapM; intro
  | |- rle (match ?x with _ => _ end) (match ?x with _ => _ end) => destruct x
  | |- rle (let _ := ?x in _) _ => cbv zeta
  end.
Ltac mono := repeat first [solve [auto with rle] | mstep].

Section Mono.
  Variables (Y : sys) (W W' : oper).
  Hypothesis HW : ople W W'.
  Hint Resolve HW : rle.

  Lemma m_minus l : rle (minus W l) (minus W' l). Proof. apply (o_prod _ _ HW). Qed.
  Lemma m_oneOver e : rle (oneOver W e) (oneOver W' e). Proof. apply (o_pow _ _ HW). Qed.
  Lemma m_sqrtE e : rle (sqrtE W e) (sqrtE W' e). Proof. apply (o_pow _ _ HW). Qed.
  Hint Resolve m_minus m_oneOver m_sqrtE : rle.
  Lemma m_nonNumericTerm e : rle (nonNumericTerm W e) (nonNumericTerm W' e).
  Proof. unfold nonNumericTerm. mono. Qed.
  Lemma m_constTerm e : rle (constTerm W e) (constTerm W' e).
  Proof. unfold constTerm. mono. Qed.
  Lemma m_nonConstTerm e : rle (nonConstTerm W e) (nonConstTerm W' e).
  Proof. unfold nonConstTerm. mono. Qed.
  Hint Resolve m_nonNumericTerm m_constTerm m_nonConstTerm : rle.

  Lemma m_merge n n' u pair pair' p q : (n <= n')%nat -> (forall a b, rle (pair a b) (pair' a b)) ->
    rle (merge n u pair p q) (merge n' u pair' p q).
  Proof.
    revert n' p q. induction n as [|n IH]; intros n' p q Hn Hp; [exact I|]. destruct n' as [|n']; [lia|].
    assert (IH' : forall p q, rle (merge n u pair p q) (merge n' u pair' p q)) by (intros; apply IH; [lia | exact Hp]).
    cbn [merge]. mono.
  Qed.
  Lemma m_heqnct a b : rle (haveEqualNonConstTerms W a b) (haveEqualNonConstTerms W' a b).
  Proof. unfold haveEqualNonConstTerms. mono. Qed.
  Lemma m_seqnct a b : rle (simplEqualNonConstTerms Y W a b) (simplEqualNonConstTerms Y W' a b).
  Proof. unfold simplEqualNonConstTerms. mono. Qed.
  Lemma m_heqnnt a b : rle (haveEqualNonNumericTerms W a b) (haveEqualNonNumericTerms W' a b).
  Proof. unfold haveEqualNonNumericTerms. mono. Qed.
  Lemma m_seqnnt a b : rle (simplEqualNonNumericTerms W a b) (simplEqualNonNumericTerms W' a b).
  Proof. unfold simplEqualNonNumericTerms. mono. Qed.
  Lemma m_hefo a b : rle (haveEqualFirstOperands W a b) (haveEqualFirstOperands W' a b).
  Proof. unfold haveEqualFirstOperands. mono. Qed.
  Hint Resolve m_heqnct m_seqnct m_heqnnt m_seqnnt m_hefo : rle.
  Lemma m_hcsc a b : rle (haveContractableSinCos Y W a b) (haveContractableSinCos Y W' a b).
  Proof. unfold haveContractableSinCos. mono. Qed.
  Hint Resolve m_hcsc : rle.
  Lemma m_tsws a b : rle (simplTwoSummandsWithoutSum Y W a b) (simplTwoSummandsWithoutSum Y W' a b).
  Proof. unfold simplTwoSummandsWithoutSum. mono. Qed.
  Hint Resolve m_tsws : rle.
  Lemma m_tsum n n' a b : (n <= n')%nat -> rle (simplTwoSummands Y W n a b) (simplTwoSummands Y W' n' a b).
  Proof.
    revert n' a b. induction n as [|n IH]; intros n' a b Hn; [exact I|]. destruct n' as [|n']; [lia|].
    assert (IH' : forall a b, rle (simplTwoSummands Y W n a b) (simplTwoSummands Y W' n' a b)) by (intros; apply IH; lia).
    cbn [simplTwoSummands]. destruct (isSum a || isSum b); [|mono]. apply m_merge; [lia | exact IH'].
  Qed.
  Lemma m_ssum n n' l : (n <= n')%nat -> rle (simplifySum Y W n l) (simplifySum Y W' n' l).
  Proof.
    intros Hn. induction l as [|a [|b [|c l]] IH].
    - cbn. mono.
    - cbn [simplifySum]. mono.
    - cbn [simplifySum]. now apply m_tsum.
    - change (simplifySum Y W n (a :: b :: c :: l)) with
        (s <- simplifySum Y W n (b :: c :: l) ;; merge n isZero (simplTwoSummands Y W n) (match a with Sum l => l | _ => [a] end) s).
      change (simplifySum Y W' n' (a :: b :: c :: l)) with
        (s <- simplifySum Y W' n' (b :: c :: l) ;; merge n' isZero (simplTwoSummands Y W' n') (match a with Sum l => l | _ => [a] end) s).
      apply rle_bind; [exact IH|]. intros s. apply m_merge; [exact Hn|]. intros. now apply m_tsum.
  Qed.
  Lemma m_sum n n' l : (n <= n')%nat -> rle (sumCreate Y W n l) (sumCreate Y W' n' l).
  Proof.
    intros Hn. unfold sumCreate. destruct (existsb isUndefined l); [mono|].
    destruct l as [|a [|b l]]; [|mono|]; (apply rle_bind; [now apply m_ssum | mono]).
  Qed.

  (** Products *)
  Lemma m_nnp a b c : rle (simplNumAndNumPow Y W a b c) (simplNumAndNumPow Y W' a b c).
  Proof. unfold simplNumAndNumPow. mono. Qed.
  Hint Resolve m_nnp : rle.
  Lemma m_nac a b : rle (simplNumAndConst Y W a b) (simplNumAndConst Y W' a b).
  Proof. unfold simplNumAndConst. mono. Qed.
  Lemma m_teb a b : rle (simplTwoEqualBases Y W a b) (simplTwoEqualBases Y W' a b).
  Proof. unfold simplTwoEqualBases. mono. Qed.
  Lemma m_tee a b : rle (simplTwoEqualExp Y W a b) (simplTwoEqualExp Y W' a b).
  Proof. unfold simplTwoEqualExp. mono. Qed.
  Lemma m_azs a b : rle (areNumPowersWithZeroSumExp W a b) (areNumPowersWithZeroSumExp W' a b).
  Proof. unfold areNumPowersWithZeroSumExp. mono. Qed.
  Lemma m_tzs a b : rle (simplTwoZeroSumExp Y W a b) (simplTwoZeroSumExp Y W' a b).
  Proof. unfold simplTwoZeroSumExp. mono. Qed.
  Lemma m_ted a b : rle (simplTwoEqualExpDenom Y W a b) (simplTwoEqualExpDenom Y W' a b).
  Proof. unfold simplTwoEqualExpDenom. mono. Qed.
  Hint Resolve m_nac m_teb m_tee m_azs m_tzs m_ted : rle.
  Lemma m_tc a b : rle (simplTwoConst Y W a b) (simplTwoConst Y W' a b).
  Proof. unfold simplTwoConst. mono. Qed.
  Hint Resolve m_tc : rle.
  Lemma m_tfwp a b : rle (simplTwoFactorsWithoutProduct Y W a b) (simplTwoFactorsWithoutProduct Y W' a b).
  Proof. unfold simplTwoFactorsWithoutProduct. mono. Qed.
  Hint Resolve m_tfwp : rle.
  Lemma m_tfac n n' a b : (n <= n')%nat -> rle (simplTwoFactors Y W n a b) (simplTwoFactors Y W' n' a b).
  Proof.
    revert n' a b. induction n as [|n IH]; intros n' a b Hn; [exact I|]. destruct n' as [|n']; [lia|].
    assert (IH' : forall a b, rle (simplTwoFactors Y W n a b) (simplTwoFactors Y W' n' a b)) by (intros; apply IH; lia).
    cbn [simplTwoFactors]. destruct (isProduct a || isProduct b); [|mono]. apply m_merge; [lia | exact IH'].
  Qed.
  Section Contract.
    Variables (check : expr -> expr -> bool) (s s' : expr -> expr -> res (list expr)).
    Hypothesis Hs : forall a b, rle (s a b) (s' a b).
    Hint Resolve Hs : rle.
    Lemma m_cinner n n' i j u f : (n <= n')%nat -> rle (contractInner n check s i j u f) (contractInner n' check s' i j u f).
    Proof.
      revert n' i j u f. induction n as [|n IH]; intros n' i j u f Hn; [exact I|]. destruct n' as [|n']; [lia|].
      assert (IH' : forall i j u f, rle (contractInner n check s i j u f) (contractInner n' check s' i j u f)) by (intros; apply IH; lia).
      cbn [contractInner]. mono.
    Qed.
    Lemma m_couter n n' i u f : (n <= n')%nat -> rle (contractOuter n check s i u f) (contractOuter n' check s' i u f).
    Proof.
      revert n' i u f. induction n as [|n IH]; intros n' i u f Hn; [exact I|]. destruct n' as [|n']; [lia|].
      assert (IH' : forall i u f, rle (contractOuter n check s i u f) (contractOuter n' check s' i u f)) by (intros; apply IH; lia).
      cbn [contractOuter]. destruct (Nat.ltb i (length u)); [|mono].
      apply rle_bind; [now apply m_cinner | mono].
    Qed.
    Lemma m_contract n n' u : (n <= n')%nat -> rle (contract n check s u) (contract n' check s' u).
    Proof.
      revert n' u. induction n as [|n IH]; intros n' u Hn; [exact I|]. destruct n' as [|n']; [lia|].
      assert (IH' : forall u, rle (contract n check s u) (contract n' check s' u)) by (intros; apply IH; lia).
      cbn [contract]. apply rle_bind; [now apply m_couter | mono].
    Qed.
  End Contract.
  Lemma m_tfpr a b c : rle (trigFunctionPowerReplacement W a b c) (trigFunctionPowerReplacement W' a b c).
  Proof. unfold trigFunctionPowerReplacement. mono. Qed.
  Hint Resolve m_tfpr : rle.
  Lemma m_ctfp n n' a b : (n <= n')%nat -> rle (contractTrigFctPowers Y W n a b) (contractTrigFctPowers Y W' n' a b).
  Proof. intros Hn. pose proof (fun a b => m_tfac n n' a b Hn) as H. unfold contractTrigFctPowers. mono. Qed.
  Lemma m_prepare n n' u : (n <= n')%nat -> rle (prepare Y W n u) (prepare Y W' n' u).
  Proof. intros Hn. unfold prepare. apply m_contract; [|exact Hn]. intros. now apply m_ctfp. Qed.
  Lemma m_cci n n' i j u : (n <= n')%nat -> rle (contractConstInner Y W n i j u) (contractConstInner Y W' n' i j u).
  Proof.
    revert n' i j u. induction n as [|n IH]; intros n' i j u Hn; [exact I|]. destruct n' as [|n']; [lia|].
    assert (IH' : forall i j u, rle (contractConstInner Y W n i j u) (contractConstInner Y W' n' i j u)) by (intros; apply IH; lia).
    cbn [contractConstInner]. mono.
  Qed.
  Lemma m_cc n n' i u : (n <= n')%nat -> rle (contractConst Y W n i u) (contractConst Y W' n' i u).
  Proof.
    revert n' i u. induction n as [|n IH]; intros n' i u Hn; [exact I|]. destruct n' as [|n']; [lia|].
    assert (IH' : forall i u, rle (contractConst Y W n i u) (contractConst Y W' n' i u)) by (intros; apply IH; lia).
    cbn [contractConst]. destruct (Nat.ltb i (length u)); [|mono]. apply rle_bind; [now apply m_cci | mono].
  Qed.
  Lemma m_prepareConst n n' u : (n <= n')%nat -> rle (prepareConst Y W n u) (prepareConst Y W' n' u).
  Proof.
    intros Hn. unfold prepareConst. apply rle_bind; [now apply m_cc|]. intros u1.
    apply rle_bind; [apply m_contract; [apply m_tee | exact Hn]|]. intros u2. apply m_contract; [apply m_ted | exact Hn].
  Qed.
  Lemma m_sprod n n' u : (n <= n')%nat -> rle (simplifyProduct Y W n u) (simplifyProduct Y W' n' u).
  Proof.
    revert n' u. induction n as [|n IH]; intros n' u Hn; [exact I|]. destruct n' as [|n']; [lia|].
    assert (IH' : forall u, rle (simplifyProduct Y W n u) (simplifyProduct Y W' n' u)) by (intros; apply IH; lia).
    pose proof (fun a b => m_tfac _ _ a b Hn) as T. pose proof (fun p q => m_merge _ _ isOne _ _ p q Hn T) as M.
    pose proof (fun u => m_prepareConst _ _ u Hn) as C.
    cbn [simplifyProduct]. apply rle_bind; [now apply m_prepare | mono].
  Qed.
  Lemma m_epo n n' l : (n <= n')%nat -> rle (expandProductOf W n l) (expandProductOf W' n' l).
  Proof.
    revert n' l. induction n as [|n IH]; intros n' l Hn; [exact I|]. destruct n' as [|n']; [lia|].
    assert (IH' : forall l, rle (expandProductOf W n l) (expandProductOf W' n' l)) by (intros; apply IH; lia).
    cbn [expandProductOf]. mono.
  Qed.
  Lemma m_esp a l : rle (expandScalarProduct W a l) (expandScalarProduct W' a l).
  Proof. unfold expandScalarProduct. mono. Qed.
  Hint Resolve m_esp : rle.
  Lemma m_eap n n' l : (n <= n')%nat -> rle (expandAsProduct W n l) (expandAsProduct W' n' l).
  Proof. intros Hn. pose proof (fun l => m_epo n n' l Hn) as H. unfold expandAsProduct. mono. Qed.
  Lemma m_prod n n' l : (n <= n')%nat -> rle (prodCreate Y W n l) (prodCreate Y W' n' l).
  Proof.
    intros Hn. pose proof (fun l => m_eap n n' l Hn) as H. pose proof (fun l => m_sprod n n' l Hn) as H'. unfold prodCreate. mono.
  Qed.

  (** Powers *)
  Lemma m_snp a b : rle (simplifyNumericPower Y W a b) (simplifyNumericPower Y W' a b).
  Proof. unfold simplifyNumericPower. mono. Qed.
  Lemma m_dcef a b c : rle (doContractExpFirst Y W a b c) (doContractExpFirst Y W' a b c).
  Proof. unfold doContractExpFirst. mono. Qed.
  Lemma m_dcs a b : rle (doesChangeSign W a b) (doesChangeSign W' a b).
  Proof. unfold doesChangeSign. mono. Qed.
  Hint Resolve m_snp m_dcef m_dcs : rle.
  Lemma m_spb a b c : rle (simplifyPowerBase Y W a b c) (simplifyPowerBase Y W' a b c).
  Proof. unfold simplifyPowerBase. mono. Qed.
  Lemma m_split a b l : rle (splitFactors W a b l) (splitFactors W' a b l).
  Proof. induction l as [|x l IH]; cbn [splitFactors]; mono. Qed.
  Hint Resolve m_spb m_split : rle.
  Lemma m_sprb a b : rle (simplifyProductBase Y W a b) (simplifyProductBase Y W' a b).
  Proof. unfold simplifyProductBase. mono. Qed.
  Lemma m_scb a b : rle (simplifyConstantBase W a b) (simplifyConstantBase W' a b).
  Proof. unfold simplifyConstantBase. mono. Qed.
  Lemma m_dicn a b : rle (doesInvolveComplexNumbers Y W a b) (doesInvolveComplexNumbers Y W' a b).
  Proof. unfold doesInvolveComplexNumbers. mono. Qed.
  Hint Resolve m_sprb m_scb m_dicn : rle.
  Lemma m_spow a b : rle (simplifyPower Y W a b) (simplifyPower Y W' a b).
  Proof. unfold simplifyPower. mono. Qed.
  Lemma m_pow a b : rle (powCreate W a b) (powCreate W' a b).
  Proof. unfold powCreate. mono. Qed.

  (** Sign *)
  Lemma m_sosp l s : rle (signOfSymbolicParts W l s) (signOfSymbolicParts W' l s).
  Proof. revert s. induction l as [|x l IH]; intros s; cbn [signOfSymbolicParts]; mono. Qed.
  Hint Resolve m_sosp : rle.
  Lemma m_sumSign l : rle (sumSign Y W l) (sumSign Y W' l).
  Proof. unfold sumSign. cbv zeta. mono. Qed.
  Lemma m_prodSign l s : rle (prodSign W l s) (prodSign W' l s).
  Proof. revert s. induction l as [|x l IH]; intros s; cbn [prodSign]; mono. Qed.
  Hint Resolve m_sumSign m_prodSign : rle.
  Lemma m_pos e : rle (isPositive Y W e) (isPositive Y W' e).
  Proof. unfold isPositive. mono. Qed.
  Lemma m_neg e : rle (isNegative Y W e) (isNegative Y W' e).
  Proof. unfold isNegative. mono. Qed.
  Lemma m_expand n n' e : (n <= n')%nat -> rle (expandExpr Y W n e) (expandExpr Y W' n' e).
  Proof. intros Hn. pose proof (fun l => m_eap n n' l Hn) as H. unfold expandExpr. mono. Qed.
  Lemma m_subst a b c : rle (substExpr W a b c) (substExpr W' a b c).
  Proof. unfold substExpr. mono. Qed.

  (** Trigonometric functions *)
  Lemma m_timesPi q : rle (timesPi W q) (timesPi W' q). Proof. apply (o_prod _ _ HW). Qed.
  Lemma m_square q : rle (square W q) (square W' q). Proof. apply (o_pow _ _ HW). Qed.
  Hint Resolve m_timesPi m_square : rle.
  Lemma m_sineTable : rle (sineTable W) (sineTable W').
  Proof. unfold sineTable. mono. Qed.
  Lemma m_tanTable : rle (tanTable W) (tanTable W').
  Proof. unfold tanTable. mono. Qed.
  Hint Resolve m_sineTable m_tanTable : rle.
  Lemma m_addUp n n' a b : (n <= n')%nat -> rle (addUp W n a b) (addUp W' n' a b).
  Proof.
    revert n' a. induction n as [|n IH]; intros n' a Hn; [exact I|]. destruct n' as [|n']; [lia|].
    assert (IH' : forall a, rle (addUp W n a b) (addUp W' n' a b)) by (intros; apply IH; lia). cbn [addUp]. mono.
  Qed.
  Lemma m_takeDown n n' a b c : (n <= n')%nat -> rle (takeDown Y W n a b c) (takeDown Y W' n' a b c).
  Proof.
    revert n' a. induction n as [|n IH]; intros n' a Hn; [exact I|]. destruct n' as [|n']; [lia|].
    assert (IH' : forall a, rle (takeDown Y W n a b c) (takeDown Y W' n' a b c)) by (intros; apply IH; lia). cbn [takeDown]. mono.
  Qed.
  Lemma m_bringUp n n' a b c : (n <= n')%nat -> rle (bringUp Y W n a b c) (bringUp Y W' n' a b c).
  Proof.
    revert n' a. induction n as [|n IH]; intros n' a Hn; [exact I|]. destruct n' as [|n']; [lia|].
    assert (IH' : forall a, rle (bringUp Y W n a b c) (bringUp Y W' n' a b c)) by (intros; apply IH; lia). cbn [bringUp]. mono.
  Qed.
  Hint Resolve m_addUp m_takeDown m_bringUp : rle.
  Lemma m_aar n n' a : (n <= n')%nat -> rle (adjustArgRange Y W n a) (adjustArgRange Y W' n' a).
  Proof. intros Hn. unfold adjustArgRange. mono. Qed.
  Lemma m_getQuadrant a : rle (getQuadrant Y W a) (getQuadrant Y W' a).
  Proof.
    unfold getQuadrant. pose proof (m_oneOver pi) as H. destruct (oneOver W pi) as [i l| | |s]; cbn in H; [|exact I|rewrite H; reflexivity|rewrite H; reflexivity].
    destruct H as [l' ->]. pose proof (o_prod _ _ HW [a; i]) as H. destruct (w_prod W [a; i]) as [m k| | |s]; cbn in H; [|exact I|rewrite H; reflexivity|rewrite H; reflexivity].
    destruct H as [k' ->]. apply rle_refl.
  Qed.
  Lemma m_subtractTimes n a b : rle (subtractTimes W n a b) (subtractTimes W' n a b).
  Proof. revert a. induction n as [|n IH]; intros a; cbn [subtractTimes]; mono. Qed.
  Hint Resolve m_aar m_getQuadrant m_subtractTimes : rle.
  Lemma m_stfq a b : rle (shiftToFirstQuadrant W a b) (shiftToFirstQuadrant W' a b).
  Proof. unfold shiftToFirstQuadrant. mono. Qed.
  Lemma m_rts a b : rle (resultTimesSign W a b) (resultTimesSign W' a b).
  Proof. unfold resultTimesSign. mono. Qed.
  Hint Resolve m_stfq m_rts : rle.
  Lemma m_numSin a : rle (numSin Y W a) (numSin Y W' a).
  Proof. unfold numSin. mono. Qed.
  Hint Resolve m_numSin : rle.
  Lemma m_numCos n n' a : (n <= n')%nat -> rle (numCos Y W n a) (numCos Y W' n' a).
  Proof. intros Hn. unfold numCos. mono. Qed.
  Hint Resolve m_numCos : rle.
  Lemma m_ssc n n' c a : (n <= n')%nat -> rle (simplSinCos Y W n c a) (simplSinCos Y W' n' c a).
  Proof. intros Hn. unfold simplSinCos. mono. Qed.
  Hint Resolve m_ssc : rle.
  Lemma m_stan n n' a : (n <= n')%nat -> rle (simplTan Y W n a) (simplTan Y W' n' a).
  Proof. intros Hn. unfold simplTan. mono. Qed.
  Lemma m_sinv a b : rle (simplInverse Y W a b) (simplInverse Y W' a b).
  Proof. unfold simplInverse. mono. Qed.
  Hint Resolve m_stan m_sinv : rle.
  Lemma m_numTrigo n n' f a : (n <= n')%nat -> rle (numTrigo Y W n f a) (numTrigo Y W' n' f a).
  Proof. intros Hn. unfold numTrigo. mono. Qed.
  Lemma m_bySymmetry a b c : rle (bySymmetry W a b c) (bySymmetry W' a b c).
  Proof. unfold bySymmetry. mono. Qed.
  Lemma m_anp l : rle (allNegPrefactors W l) (allNegPrefactors W' l).
  Proof. induction l as [|x l IH]; cbn [allNegPrefactors]; mono. Qed.
  Hint Resolve m_numTrigo m_bySymmetry m_anp : rle.
  Lemma m_dsa a : rle (doesSymmetryApply W a) (doesSymmetryApply W' a).
  Proof. unfold doesSymmetryApply. mono. Qed.
  Lemma m_cnum n n' f a : (n <= n')%nat -> rle (createNumerically Y W n f a) (createNumerically Y W' n' f a).
  Proof. intros Hn. unfold createNumerically. mono. Qed.
  Lemma m_sair n n' f a : (n <= n')%nat -> rle (shiftArgIntoRange Y W n f a) (shiftArgIntoRange Y W' n' f a).
  Proof. intros Hn. unfold shiftArgIntoRange. mono. Qed.
  Lemma m_nfrac a b : rle (normalFrac W a b) (normalFrac W' a b).
  Proof. unfold normalFrac. mono. Qed.
  Hint Resolve m_dsa m_cnum m_sair m_nfrac : rle.
  Lemma m_ftni f g l : rle (fromTrigoNoInverse W f g l) (fromTrigoNoInverse W' f g l).
  Proof. unfold fromTrigoNoInverse. cbv zeta. mono. Qed.
  Lemma m_a2ae a b : rle (atan2ArgEval W a b) (atan2ArgEval W' a b).
  Proof. unfold atan2ArgEval. mono. Qed.
  Hint Resolve m_ftni m_a2ae : rle.
  Lemma m_ff n n' f g l : (n <= n')%nat -> rle (fromFunction Y W n f g l) (fromFunction Y W' n' f g l).
  Proof. intros Hn. unfold fromFunction. mono. Qed.
  Hint Resolve m_ff : rle.
  Lemma m_trig n n' f a : (n <= n')%nat -> rle (trigCreate Y W n f a) (trigCreate Y W' n' f a).
  Proof. intros Hn. unfold trigCreate. mono. Qed.
  Lemma m_sarir n n' a b : (n <= n')%nat -> rle (shiftAtanResultIntoRange Y W n a b) (shiftAtanResultIntoRange Y W' n' a b).
  Proof. intros Hn. unfold shiftAtanResultIntoRange. mono. Qed.
  Hint Resolve m_sarir : rle.
  Lemma m_sa2 n n' a b c d : (n <= n')%nat -> rle (simplAtan2 Y W n a b c d) (simplAtan2 Y W' n' a b c d).
  Proof. intros Hn. unfold simplAtan2. mono. Qed.
  Hint Resolve m_sa2 : rle.
  Lemma m_atan2 n n' a b : (n <= n')%nat -> rle (atan2Create Y W n a b) (atan2Create Y W' n' a b).
  Proof. intros Hn. unfold atan2Create. mono. Qed.
  Lemma m_log a : rle (logCreate Y W a) (logCreate Y W' a).
  Proof. unfold logCreate. mono. Qed.

  (** Polynomials *)
  Lemma m_monomial a b : rle (monomial W a b) (monomial W' a b). Proof. apply (o_pow _ _ HW). Qed.
  Hint Resolve m_monomial : rle.
  Lemma m_coeffPower a b c d : rle (coeffPower W a b c d) (coeffPower W' a b c d).
  Proof. unfold coeffPower. mono. Qed.
  Lemma m_cfm a b c : rle (coeffFactorMatch W a b c) (coeffFactorMatch W' a b c).
  Proof. unfold coeffFactorMatch. mono. Qed.
  Hint Resolve m_coeffPower m_cfm : rle.
  Lemma m_coeff e x k : rle (coeff W e x k) (coeff W' e x k).
  Proof.
    induction e as [q|n p|c| |f l IH|l IH|l IH|b y IHb IHy] using expr_ind2; cbn [coeff]; mono.
    apply rle_fold; [apply rle_refl|]. intros b b' s Hs Hb. apply rle_bind; [exact Hb|]. intros c0.
    apply rle_bind; [now apply IH | mono].
  Qed.
  Hint Resolve m_coeff : rle.
  Lemma m_lcoeff e x : rle (leadingCoeff Y W e x) (leadingCoeff Y W' e x). Proof. apply m_coeff. Qed.
  Hint Resolve m_lcoeff : rle.
  Lemma m_del a b : rle (divideEmptyList Y W a b) (divideEmptyList Y W' a b).
  Proof. unfold divideEmptyList. mono. Qed.
  Hint Resolve m_del : rle.
  Lemma m_divideLoop rc rc' x v n n' q r m : (n <= n')%nat -> (forall a b, rle (rc a b) (rc' a b)) ->
    rle (divideLoop Y W rc x v n q r m) (divideLoop Y W' rc' x v n' q r m).
  Proof.
    intros Hn Hr. revert n' q r m Hn. induction n as [|n IH]; intros n' q r m Hn; [exact I|]. destruct n' as [|n']; [lia|].
    assert (IH' : forall q r m, rle (divideLoop Y W rc x v n q r m) (divideLoop Y W' rc' x v n' q r m)) by (intros; apply IH; lia).
    cbn [divideLoop]. mono.
  Qed.
  Lemma m_divide n n' L u v : (n <= n')%nat -> rle (divide Y W n L u v) (divide Y W' n' L u v).
  Proof.
    intros Hn. revert u v. induction L as [|x L IH]; intros u v; cbn [divide]; mono. now apply m_divideLoop.
  Qed.
  Hint Resolve m_divide : rle.
  Lemma m_polyDivide n n' u v : (n <= n')%nat -> rle (polyDivide Y W n u v) (polyDivide Y W' n' u v).
  Proof. intros Hn. unfold polyDivide. mono. Qed.
  Lemma m_pseudoLoop c x v lv n n' q r m s : (n <= n')%nat -> rle (pseudoLoop Y W c x v lv n q r m s) (pseudoLoop Y W' c x v lv n' q r m s).
  Proof.
    revert n' q r m s. induction n as [|n IH]; intros n' q r m s Hn; [exact I|]. destruct n' as [|n']; [lia|].
    assert (IH' : forall q r m s, rle (pseudoLoop Y W c x v lv n q r m s) (pseudoLoop Y W' c x v lv n' q r m s)) by (intros; apply IH; lia).
    cbn [pseudoLoop]. mono.
  Qed.
  Hint Resolve m_polyDivide m_pseudoLoop : rle.
  Lemma m_pseudoDivide c n n' u v x : (n <= n')%nat -> rle (pseudoDivide Y W c n u v x) (pseudoDivide Y W' c n' u v x).
  Proof. intros Hn. unfold pseudoDivide. mono. Qed.
  Hint Resolve m_pseudoDivide : rle.
  Lemma m_nfactor e L : rle (normalizationFactor Y W e L) (normalizationFactor Y W' e L).
  Proof. revert e. induction L as [|x L IH]; intros e; cbn [normalizationFactor]; mono. Qed.
  Hint Resolve m_nfactor : rle.
  Lemma m_gnorm e L : rle (gcdNormalize Y W e L) (gcdNormalize Y W' e L).
  Proof. unfold gcdNormalize. mono. Qed.
  Lemma m_gcdCompute b u v : rle (gcdCompute Y W b u v) (gcdCompute Y W' b u v).
  Proof. unfold gcdCompute. mono. Qed.
  Hint Resolve m_gnorm m_gcdCompute : rle.
  Lemma m_contentLoop b e x i n c : rle (contentLoop Y W b e x i n c) (contentLoop Y W' b e x i n c).
  Proof. revert i c. induction n as [|n IH]; intros i c; cbn [contentLoop]; mono. Qed.
  Hint Resolve m_contentLoop : rle.
  Lemma m_content b e x : rle (content Y W b e x) (content Y W' b e x).
  Proof. unfold content. mono. Qed.
  Hint Resolve m_content : rle.
  Lemma m_primitiveLoop n n' k k' x L u v : (n <= n')%nat -> (k <= k')%nat -> rle (primitiveLoop Y W n k x L u v) (primitiveLoop Y W' n' k' x L u v).
  Proof.
    intros Hn. revert k' u v. induction k as [|k IH]; intros k' u v Hk; [exact I|]. destruct k' as [|k']; [lia|].
    assert (IH' : forall u v, rle (primitiveLoop Y W n k x L u v) (primitiveLoop Y W' n' k' x L u v)) by (intros; apply IH; lia).
    cbn [primitiveLoop]. mono.
  Qed.
  Hint Resolve m_primitiveLoop : rle.
  Lemma m_primitiveAlgo n n' u v L : (n <= n')%nat -> rle (primitiveAlgo Y W n u v L) (primitiveAlgo Y W' n' u v L).
  Proof. intros Hn. unfold primitiveAlgo. mono. Qed.
  Lemma m_subresultantLoop n n' k k' x L R U V b p d i : (n <= n')%nat -> (k <= k')%nat ->
    rle (subresultantLoop Y W n k x L R U V b p d i) (subresultantLoop Y W' n' k' x L R U V b p d i).
  Proof.
    intros Hn. revert k' U V b p d i. induction k as [|k IH]; intros k' U V b p d i Hk; [exact I|]. destruct k' as [|k']; [lia|].
    assert (IH' : forall U V b p d i, rle (subresultantLoop Y W n k x L R U V b p d i) (subresultantLoop Y W' n' k' x L R U V b p d i)) by (intros; apply IH; lia).
    cbn [subresultantLoop]. mono.
  Qed.
  Hint Resolve m_primitiveAlgo m_subresultantLoop : rle.
  Lemma m_subresultantGcd n n' u v x R : (n <= n')%nat -> rle (subresultantGcd Y W n u v x R) (subresultantGcd Y W' n' u v x R).
  Proof. intros Hn. unfold subresultantGcd. mono. Qed.
  Hint Resolve m_subresultantGcd : rle.
  Lemma m_gcdAlgo n n' b u v L : (n <= n')%nat -> rle (gcdAlgo Y W n b u v L) (gcdAlgo Y W' n' b u v L).
  Proof. intros Hn. unfold gcdAlgo. mono. Qed.
  Hint Resolve m_gcdAlgo : rle.
  Lemma m_gcdViaAlgo n n' b u v L : (n <= n')%nat -> rle (gcdViaAlgo Y W n b u v L) (gcdViaAlgo Y W' n' b u v L).
  Proof. intros Hn. unfold gcdViaAlgo. mono. Qed.
  Hint Resolve m_gcdViaAlgo : rle.
  Lemma m_gcdWith n n' b L u v : (n <= n')%nat -> rle (gcdWith Y W n b L u v) (gcdWith Y W' n' b L u v).
  Proof. intros Hn. unfold gcdWith. mono. Qed.

  (** Normal form *)
  Lemma m_polyGcd u v : rle (polyGcd Y W u v) (polyGcd Y W' u v).
  Proof. unfold polyGcd. mono. Qed.
  Lemma m_exactDivide n n' u v : (n <= n')%nat -> rle (exactDivide Y W n u v) (exactDivide Y W' n' u v).
  Proof. intros Hn. unfold exactDivide. mono. Qed.
  Lemma relyFactor_ok V n u g : exists l, relyFactor Y V n u g = Ok tt l.
  Proof. unfold relyFactor. destruct (polyDivide Y V n u g) as [[q s] l| | |s]; [destruct (isZero s)|..]; unfold rely; eauto. Qed.
  Lemma m_relyFactor n n' u g : rle (relyFactor Y W n u g) (relyFactor Y W' n' u g).
  Proof. destruct (relyFactor_ok W n u g) as [l ->]. apply relyFactor_ok. Qed.
  Lemma m_fracEval u v : rle (fracEval W u v) (fracEval W' u v).
  Proof. unfold fracEval. mono. Qed.
  Hint Resolve m_polyGcd m_exactDivide m_relyFactor m_fracEval : rle.
  Lemma m_cancel n n' u v : (n <= n')%nat -> rle (cancel Y W n u v) (cancel Y W' n' u v).
  Proof. intros Hn. unfold cancel. mono. Qed.
  Lemma m_getTmp m t : rle (getTmp W m t) (getTmp W' m t).
  Proof. unfold getTmp. mono. Qed.
  Lemma m_substAll l e : rle (substAll W l e) (substAll W' l e).
  Proof. revert e. induction l as [|x l IH]; intros e; cbn [substAll]; mono. Qed.
  Hint Resolve m_cancel m_getTmp m_substAll : rle.
  Lemma m_replaceBack n n' m e : (n <= n')%nat -> rle (replaceBack W n m e) (replaceBack W' n' m e).
  Proof.
    revert n' e. induction n as [|n IH]; intros n' e Hn; [exact I|]. destruct n' as [|n']; [lia|].
    assert (IH' : forall e, rle (replaceBack W n m e) (replaceBack W' n' m e)) by (intros; apply IH; lia).
    cbn [replaceBack]. mono.
  Qed.
  Lemma m_evaluatePow m a b : rle (evaluatePow W m a b) (evaluatePow W' m a b).
  Proof. unfold evaluatePow. mono. Qed.
  Hint Resolve m_replaceBack m_evaluatePow : rle.
  Lemma m_nie m a b c d : rle (normalIntegerExp Y W m a b c d) (normalIntegerExp Y W' m a b c d).
  Proof. unfold normalIntegerExp. mono. Qed.
  Lemma m_nnee m a b c : rle (normalNumEvalExp W m a b c) (normalNumEvalExp W' m a b c).
  Proof. unfold normalNumEvalExp. mono. Qed.
  Hint Resolve m_nie m_nnee : rle.
  Lemma m_powerNormal m a b : rle (powerNormal Y W m a b) (powerNormal Y W' m a b).
  Proof. unfold powerNormal. mono. Qed.
  Lemma m_fractions m l : rle (NormalModel.fractions W m l) (NormalModel.fractions W' m l).
  Proof. revert m. induction l as [|x l IH]; intros m; cbn [NormalModel.fractions]; mono. Qed.
  Lemma m_commonDenom n n' a b l : (n <= n')%nat -> rle (commonDenom Y W n a b l) (commonDenom Y W' n' a b l).
  Proof. intros Hn. revert a b. induction l as [|x l IH]; intros a b; cbn [commonDenom]; mono. Qed.
  Lemma m_functionNormal m f l : rle (functionNormal W m f l) (functionNormal W' m f l).
  Proof. unfold functionNormal. mono. Qed.
  Hint Resolve m_powerNormal m_fractions m_commonDenom m_functionNormal : rle.
  Lemma m_normalF n n' m e : (n <= n')%nat -> rle (normalF Y W n m e) (normalF Y W' n' m e).
  Proof. intros Hn. unfold normalF. mono. Qed.
  Lemma m_normalTop n n' e : (n <= n')%nat -> rle (normalTop W n e) (normalTop W' n' e).
  Proof. intros Hn. unfold normalTop. mono. Qed.
End Mono.

Lemma step_mono Y F F' W W' : (F <= F')%nat -> ople W W' -> ople (step Y F W) (step Y F' W').
Proof.
  intros HF HW. constructor; intros; cbn [step w_sum w_prod w_pow w_spow w_trig w_atan2 w_log w_expand w_subst w_pos w_neg w_normal w_normalF w_gcd].
  - now apply m_sum.
  - now apply m_prod.
  - now apply m_pow.
  - now apply m_spow.
  - now apply m_trig.
  - now apply m_atan2.
  - now apply m_log.
  - now apply m_expand.
  - now apply m_subst.
  - now apply m_pos.
  - now apply m_neg.
  - now apply m_normalTop.
  - now apply m_normalF.
  - now apply m_gcdWith.
Qed.
Theorem world_mono Y F F' k k' : (F <= F')%nat -> (k <= k')%nat -> ople (world Y F k) (world Y F' k').
Proof.
  intros HF. revert k'. induction k as [|k IH]; intros k' Hk.
  - constructor; intros; exact I.
  - destruct k' as [|k']; [lia|]. cbn [world]. apply step_mono; [exact HF|]. apply IH. lia.
Qed.

(** Two executions that end, whatever their bounds, end in the same way. *)
Definition ended {A} (m : res A) : Prop := m <> Fuel.
Definition sameEnd {A} (m m' : res A) : Prop :=
  match m, m' with
  | Ok a _, Ok b _ => a = b
  | Throw, Throw => True
  | UB s, UB t => s = t
  | _, _ => False
  end.
Lemma rle_sameEnd {A} (m m' x : res A) : rle m x -> rle m' x -> m <> Fuel -> m' <> Fuel -> sameEnd m m'.
Proof.
  intros H H' N N'. destruct m as [a l| | |s]; [|congruence|..]; (destruct m' as [b l'| | |s']; [|congruence|..]);
    cbn [rle sameEnd] in *; 
    repeat match goal with E : exists _, _ |- _ => destruct E end; congruence || exact I.
Qed.
