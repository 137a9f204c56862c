(** Rational programs rely on nothing but numeric powers: sums, products, powers, expansion and
    substitution of rational expressions. *)
From Verif Require Export RatSpec ShapeProd.
From Verif Require Import ExprProofs NumPowerProofs NumInt HRuns GcdProofs LaurentProd.
From Coq Require Import Lia Reals.
From Verif Require Import Run.
Open Scope Z_scope.

Definition isInt (e : expr) : Prop := exists z, e = numZ z.
Lemma rational_sum l : rational (Sum l) <-> Forall rational l. Proof. cbn [rational]. now rewrite all_Forall. Qed.
Lemma rational_prod l : rational (Prod l) <-> Forall rational l. Proof. cbn [rational]. now rewrite all_Forall. Qed.
Lemma rational_int z : rational (numZ z). Proof. cbn. apply Z.gcd_1_r. Qed.
Lemma isInt_rational e : isInt e -> rational e. Proof. intros (z & ->). apply rational_int. Qed.

(** ** Executions *)
Section Facts.
  Variable Y : sys.
  Fixpoint okFact (c : cond) : Prop :=
    match c with
    | CBug _ => True
    | CNumPow p p' => exists b z, canon b /\ Q2R b <> 0%R /\ z <> 0 /\ p = mkPay b (ofZ z) 1 /\ numPowerSimpl (s_fl Y) (s_limit Y) p = NOk p'
    | CIn _ c' => okFact c'
    | _ => False
    end.
  Definition fx {A} (Q : A -> Prop) (m : res A) : Prop := match m with Ok a l => Forall okFact l /\ Q a | _ => True end.

  Lemma fx_bind {A B} (Q : A -> Prop) (Q' : B -> Prop) m f : fx Q m -> (forall a, Q a -> fx Q' (f a)) -> fx Q' (bind m f).
  Proof.
    destruct m as [a l| | |s]; cbn; auto. intros [Hl H] Hf. specialize (Hf a H). destruct (f a); auto. cbn in *. destruct Hf. split; [now apply Forall_app | assumption].
  Qed.
  Lemma fx_ret {A} (Q : A -> Prop) a : Q a -> fx Q (ret a). Proof. intros H. split; [constructor | exact H]. Qed.
  Lemma fx_weaken {A} (Q Q' : A -> Prop) m : fx Q m -> (forall a, Q a -> Q' a) -> fx Q' m.
  Proof. destruct m; cbn; auto. intros [H1 H2] H. auto. Qed.
  Lemma fx_quiet {A} (m : res A) : fx tr (quiet m). Proof. destruct m; cbn; auto. split; [constructor | exact I]. Qed.
  Lemma fx_inEnv {A} (Q : A -> Prop) l m : fx Q m -> fx Q (inEnv l m).
  Proof. destruct m as [a k| | |]; cbn; auto. intros [H HQ]. split; [|exact HQ]. apply Forall_map. exact H. Qed.
  Lemma fx_mapM {A B} (R : A -> Prop) (Q : B -> Prop) f l : Forall R l -> (forall a, R a -> fx Q (f a)) -> fx (Forall Q) (mapM f l).
  Proof.
    intros Hl Hf. induction Hl as [|x l Hx Hl IH]; cbn [mapM]; [now apply fx_ret|].
    eapply fx_bind; [apply Hf; exact Hx|]. intros y Hy. eapply fx_bind; [exact IH|]. intros s Hs. apply fx_ret. auto.
  Qed.
  Lemma fx_bug s : fx tr (rely (CBug s)). Proof. split; [repeat constructor | exact I]. Qed.
  Lemma fx_bugIf b s : fx tr (relyIf b (CBug s)). Proof. destruct b; [apply fx_bug | now apply fx_ret]. Qed.

  (** The contract. *)
  Definition powPair (y : expr * expr) : Prop :=
    rational (fst y) /\ isInt (snd y) /\ (isNumeric (fst y) = true -> isOne (fst y) = true \/ isOne (snd y) = true).
  Definition baseOK (b : expr) : Prop := rational b /\ isZero b = false.
  Record ratly (W : oper) : Prop := {
    q_sum : forall l, Forall rational l -> fx rational (w_sum W l);
    q_sumZ : forall a b, isInt a -> isInt b -> fx isInt (w_sum W [a; b]);
    q_prod : forall l, Forall rational l -> fx rational (w_prod W l);
    q_prodZ : forall a b, isInt a -> isInt b -> fx isInt (w_prod W [a; b]);
    q_pow : forall b x, rational b -> isInt x -> fx rational (w_pow W b x);
    q_spow : forall b x, baseOK b -> isInt x -> isZero x = false -> fx powPair (w_spow W b x);
    q_expand : forall e, rational e -> fx rational (w_expand W e);
    q_subst : forall e n p t, rational e -> rational t -> fx rational (w_subst W e (Sym n p) t);
    q_substZ : forall e n p t, isInt e -> fx isInt (w_subst W e (Sym n p) t);
    q_negZ : forall e, isInt e -> fx tr (w_neg W e)
  }.

  Section Step.
    Variable W : oper.
    Hypothesis HW : ratly W.
    Notation R := rational.
    Notation RL := (Forall rational).

    Lemma r_base e : R e -> R (base e). Proof. destruct e; cbn [base]; auto. now intros (H & _). Qed.
    Lemma r_expo e : R e -> isInt (expo e).
    Proof. destruct e; cbn [expo]; try (intros _; exists 1; reflexivity). now intros (_ & _ & H). Qed.
    Lemma r_notFct e : R e -> trigName (base e) = None.
    Proof. intros H. apply r_base in H. destruct (base e); try reflexivity. destruct H. Qed.
    Lemma r_numPow e : R e -> isNumericPower e = false.
    Proof. destruct e; try reflexivity. intros (_ & H & _). destruct e1; try reflexivity. destruct H. Qed.
    Lemma r_ordered a b : R a -> R b -> RL (ordered Y a b).
    Proof. intros. unfold ordered. destruct (permuted Y a b); repeat constructor; auto. Qed.
    Lemma r_flatS a : R a -> RL (match a with Sum l => l | _ => [a] end).
    Proof. intros H. destruct a; try (constructor; [exact H|constructor]). now apply rational_sum in H. Qed.
    Lemma r_flatP a : R a -> RL (match a with Prod l => l | _ => [a] end).
    Proof. intros H. destruct a; try (constructor; [exact H|constructor]). now apply rational_prod in H. Qed.

    (** *** Sums *)
    Lemma r_numericTerm e : R e -> fx R (numericTerm e).
    Proof.
      intros H. unfold numericTerm. destruct e as [q|nn pp|c| |f l|l|l|b x]; try (apply fx_ret; (exact H || reflexivity)).
      apply rational_prod in H. destruct l as [|x l]; [exact I|]. inversion H; subst. apply fx_ret. destruct (isNumeric x); [assumption|reflexivity].
    Qed.
    Lemma r_nonNumericTerm e : R e -> fx R (nonNumericTerm W e).
    Proof.
      intros H. unfold nonNumericTerm. destruct e as [q|nn pp|c| |f l|l|l|b x]; try (apply fx_ret; (exact H || reflexivity)).
      pose proof H as H0. apply rational_prod in H0. destruct l as [|x l]; [exact I|]. inversion H0; subst. destruct (isNumeric x); [now apply (q_prod _ HW) | now apply fx_ret].
    Qed.
    Lemma r_constTerm e : R e -> fx R (constTerm W e).
    Proof.
      intros H. unfold constTerm. destruct e; try (apply fx_ret; destruct (isConst _); [exact H | reflexivity]).
      apply rational_prod in H. destruct (constElements l) eqn:Ec; [now apply fx_ret|]. rewrite <- Ec. apply (q_prod _ HW). now apply Forall_filter.
    Qed.
    Lemma r_nonConstTerm e : R e -> fx R (nonConstTerm W e).
    Proof.
      intros H. unfold nonConstTerm. destruct e; try (apply fx_ret; destruct (isConst _); [reflexivity | exact H]).
      apply rational_prod in H. destruct (nonConstElements l) eqn:Ec; [now apply fx_ret|]. rewrite <- Ec. apply (q_prod _ HW). now apply Forall_filter.
    Qed.
    Lemma r_merge n u pair p q : (forall a b, R a -> R b -> fx RL (pair a b)) -> RL p -> RL q -> fx RL (merge n u pair p q).
    Proof.
      intros Hp. revert p q. induction n as [|n IH]; intros p q Hl Hq; [exact I|]. cbn [merge].
      destruct p as [|p1 pr]; [now apply fx_ret|]. destruct q as [|q1 qr]; [now apply fx_ret|].
      inversion Hl; subst. inversion Hq; subst. eapply fx_bind; [apply Hp; assumption|]. intros r Hr.
      destruct r as [|x [|y r]].
      - auto.
      - inversion Hr; subst. destruct (u x); [auto|]. eapply fx_bind; [apply IH; assumption|]. intros t Ht. apply fx_ret. auto.
      - destruct (areEqual _ _); [eapply fx_bind; [apply IH; assumption|]; intros t Ht; apply fx_ret; auto|].
        destruct (areEqual _ _); [eapply fx_bind; [apply IH; assumption|]; intros t Ht; apply fx_ret; auto|].
        eapply fx_bind; [apply fx_bug|]. intros ? _. now apply fx_ret.
    Qed.
    Lemma r_heqnct a b : R a -> R b -> fx tr (haveEqualNonConstTerms W a b).
    Proof. intros. unfold haveEqualNonConstTerms. eapply fx_bind; [now apply r_nonConstTerm|]. intros x _. eapply fx_bind; [now apply r_nonConstTerm|]. intros y _. now apply fx_ret. Qed.
    Lemma r_seqnct a b : R a -> R b -> fx RL (simplEqualNonConstTerms Y W a b).
    Proof.
      intros Ha Hb. unfold simplEqualNonConstTerms. eapply fx_bind; [now apply r_constTerm|]. intros x Hx. eapply fx_bind; [now apply r_constTerm|]. intros y Hy.
      eapply fx_bind; [apply (q_sum _ HW); auto|]. intros s Hs. destruct (negb _); [|apply fx_ret; now apply r_ordered].
      eapply fx_bind; [now apply r_nonConstTerm|]. intros c Hc. eapply fx_bind; [apply (q_prod _ HW); auto|]. intros p Hp. apply fx_ret. auto.
    Qed.
    Lemma r_heqnnt a b : R a -> R b -> fx tr (haveEqualNonNumericTerms W a b).
    Proof. intros. unfold haveEqualNonNumericTerms. eapply fx_bind; [now apply r_nonNumericTerm|]. intros x _. eapply fx_bind; [now apply r_nonNumericTerm|]. intros y _. now apply fx_ret. Qed.
    Lemma r_seqnnt a b : R a -> R b -> fx RL (simplEqualNonNumericTerms W a b).
    Proof.
      intros Ha Hb. unfold simplEqualNonNumericTerms. eapply fx_bind; [now apply r_numericTerm|]. intros x Hx. eapply fx_bind; [now apply r_numericTerm|]. intros y Hy.
      eapply fx_bind; [apply (q_sum _ HW); auto|]. intros s Hs.
      eapply fx_bind; [now apply r_nonNumericTerm|]. intros c Hc. eapply fx_bind; [apply (q_prod _ HW); auto|]. intros p Hp. apply fx_ret. destruct (isZero p); auto.
    Qed.
    Lemma r_hcsc a b : R a -> R b -> fx (fun c => c = false) (haveContractableSinCos Y W a b).
    Proof.
      intros Ha Hb. unfold haveContractableSinCos. eapply fx_bind; [now apply r_nonConstTerm|]. intros x Hx. eapply fx_bind; [now apply r_nonConstTerm|]. intros y Hy.
      eapply fx_bind; [now apply r_constTerm|]. intros c _. eapply fx_bind; [now apply r_constTerm|]. intros d _.
      assert (areSinAndCosSquare Y x y = false) as ->. { destruct x as [| | | | | | |x1 x2]; try reflexivity. destruct x1; try reflexivity. destruct Hx as ([] & _). }
      rewrite andb_false_r. now apply fx_ret.
    Qed.
    Lemma r_tsws a b : R a -> R b -> fx RL (simplTwoSummandsWithoutSum Y W a b).
    Proof.
      intros Ha Hb. unfold simplTwoSummandsWithoutSum. destruct (isZero a); [apply fx_ret; auto|]. destruct (isZero b); [apply fx_ret; auto|].
      assert (G : fx RL (c <- haveEqualNonConstTerms W a b ;;
        if (c : bool) then simplEqualNonConstTerms Y W a b
        else d <- haveEqualNonNumericTerms W a b ;;
        if (d : bool) then simplEqualNonNumericTerms W a b
        else e <- haveContractableSinCos Y W a b ;;
        if (e : bool) then t <- constTerm W a ;; ret [t]
        else ret (ordered Y a b))).
      { eapply fx_bind; [now apply r_heqnct|]. intros c _. destruct c; [now apply r_seqnct|]. eapply fx_bind; [now apply r_heqnnt|]. intros d _. destruct d; [now apply r_seqnnt|].
        eapply fx_bind; [now apply r_hcsc|]. intros ? ->. apply fx_ret. now apply r_ordered. }
      destruct a; try exact G. destruct b; try exact G. cbv zeta. apply fx_ret. destruct (qeqb (qadd q q0) 0); [constructor|]. constructor; [|constructor].
      apply (qadd_spec q q0).
    Qed.
    Lemma r_tsum n a b : R a -> R b -> fx RL (simplTwoSummands Y W n a b).
    Proof.
      revert a b. induction n as [|n IH]; intros a b Ha Hb; [exact I|]. cbn [simplTwoSummands].
      destruct (isSum a || isSum b); [|now apply r_tsws]. apply r_merge; auto using r_flatS.
    Qed.
    Lemma r_ssum n l : RL l -> fx RL (simplifySum Y W n l).
    Proof.
      intros Hl. induction l as [|a [|b [|c l]] IH]; [exact I|exact I| |].
      - inversion Hl; subst. inversion H2; subst. cbn [simplifySum]. now apply r_tsum.
      - change (simplifySum Y W n (a :: b :: c :: l)) with
          (s <- simplifySum Y W n (b :: c :: l) ;; merge n isZero (simplTwoSummands Y W n) (match a with Sum l => l | _ => [a] end) s).
        inversion Hl; subst. eapply fx_bind; [now apply IH|]. intros s Hs. apply r_merge; auto using r_flatS. intros. now apply r_tsum.
    Qed.
    Lemma r_sum n l : RL l -> fx R (sumCreate Y W n l).
    Proof.
      intros Hl. unfold sumCreate. destruct (existsb isUndefined l); [now apply fx_ret|].
      assert (G : fx R (r <- simplifySum Y W n l ;; ret (match r with [] => zero | [x] => x | _ => Sum r end))).
      { eapply fx_bind; [now apply r_ssum|]. intros [|x [|y r]] Hr; apply fx_ret; [reflexivity|now inversion Hr|]. now apply rational_sum. }
      destruct l as [|x [|y l]]; [exact G|apply fx_ret; now inversion Hl|exact G].
    Qed.
    Lemma r_sumZ n a b : isInt a -> isInt b -> fx isInt (sumCreate Y W n [a; b]).
    Proof.
      intros (x & ->) (y & ->). unfold sumCreate, numZ. cbn [existsb isUndefined orb simplifySum]. destruct n as [|n]; [exact I|]. cbn [simplTwoSummands isSum orb].
      unfold simplTwoSummandsWithoutSum. cbn [isZero]. destruct (qeqb (ofZ x) 0); [apply fx_ret; now exists y|]. destruct (qeqb (ofZ y) 0); [apply fx_ret; now exists x|].
      cbv zeta. rewrite qadd_ofZ. cbn [bind ret]. destruct (qeqb (ofZ (x + y)) 0); (split; [constructor|]); [exists 0 | exists (x + y)]; reflexivity.
    Qed.

    (** *** Products *)
    Lemma r_teb a b : R a -> R b -> isNumeric (base a) = false -> fx RL (simplTwoEqualBases Y W a b).
    Proof.
      intros Ha Hb N. unfold simplTwoEqualBases. eapply fx_bind; [apply (q_sumZ _ HW); now apply r_expo|]. intros s Hs.
      eapply fx_bind; [apply fx_quiet|]. intros p _. eapply fx_bind with (Q := tr); [destruct p; [now apply fx_ret | apply fx_quiet]|]. intros g _.
      destruct (_ && _); [apply fx_ret; auto|]. eapply fx_bind; [apply (q_pow _ HW); [now apply r_base | exact Hs]|]. intros r Hr. apply fx_ret. auto.
    Qed.
    Lemma r_baseNum a : R a -> isNumeric a = false -> isNumeric (base a) = false.
    Proof. destruct a; cbn [base]; auto. intros (_ & H & _) _. destruct a1; try reflexivity. destruct H. Qed.
    Lemma r_tc a b : R a -> R b -> fx RL (simplTwoConst Y W a b).
    Proof.
      intros Ha Hb. unfold simplTwoConst.
      assert (NA : forall q c, R (Num q) -> R c -> fx RL (simplNumAndConst Y W q c)).
      { intros q c Hq Hc. unfold simplNumAndConst. assert (G : fx RL (ret [Num q; c])) by (apply fx_ret; auto).
        destruct c as [| | | | | | |c1 c2]; try exact G. destruct c1; try exact G. destruct Hc as (_ & [] & _). }
      assert (G : isNumeric a = false -> fx RL (if haveEqualBases a b then simplTwoEqualBases Y W a b
          else if areNumPowersWithEqualExp a b then simplTwoEqualExp Y W a b
          else z <- areNumPowersWithZeroSumExp W a b ;;
          if (z : bool) then simplTwoZeroSumExp Y W a b
          else if areNumPowersWithEqualExpDenom a b then simplTwoEqualExpDenom Y W a b
          else ret (ordered Y a b))).
      { intros N. destruct (haveEqualBases a b); [apply r_teb; auto using r_baseNum|].
        assert (X : forall c1 c2, a = Pow c1 c2 -> match c1 with Num _ => False | _ => True end) by (intros c1 c2 ->; apply Ha).
        assert (areNumPowersWithEqualExp a b = false) as ->. { destruct a as [| | | | | | |c1 c2]; try reflexivity. specialize (X c1 c2 eq_refl). destruct c1; try reflexivity. destruct X. }
        assert (areNumPowersWithZeroSumExp W a b = ret false) as ->. { destruct a as [| | | | | | |c1 c2]; try reflexivity. specialize (X c1 c2 eq_refl). destruct c1; try reflexivity. destruct X. }
        assert (areNumPowersWithEqualExpDenom a b = false) as ->. { destruct a as [| | | | | | |c1 c2]; try reflexivity. specialize (X c1 c2 eq_refl). destruct c1; try reflexivity. destruct X. }
        eapply fx_bind; [apply fx_ret with (Q := fun z => z = false); reflexivity|]. intros ? ->. apply fx_ret. now apply r_ordered. }
      destruct a; destruct b; try (apply G; reflexivity); try (now apply NA).
      apply fx_ret. unfold simplTwoNumerics. destruct (qeqb _ 1); repeat constructor. apply qmul_spec.
    Qed.
    Lemma r_tfwp a b : R a -> R b -> fx RL (simplTwoFactorsWithoutProduct Y W a b).
    Proof.
      intros Ha Hb. unfold simplTwoFactorsWithoutProduct. destruct (isOne a); [apply fx_ret; auto|]. destruct (isOne b); [apply fx_ret; auto|].
      destruct (isConst a && isConst b) eqn:C; [now apply r_tc|]. destruct (haveEqualBases a b) eqn:E; [|apply fx_ret; now apply r_ordered].
      apply r_teb; auto. destruct (isNumeric (base a)) eqn:N; [exfalso|reflexivity].
      assert (Na : isNumeric a = true) by (destruct (isNumeric a) eqn:N2; [reflexivity | rewrite r_baseNum in N by assumption; discriminate]).
      unfold haveEqualBases in E. apply isEqual_eq in E. destruct a; try discriminate. cbn [base] in E. assert (Nb : isNumeric b = true).
      { destruct (isNumeric b) eqn:N2; [reflexivity|]. apply r_baseNum in N2; [|exact Hb]. rewrite <- E in N2. discriminate. }
      destruct b; discriminate.
    Qed.
    Lemma r_tfac n a b : R a -> R b -> fx RL (simplTwoFactors Y W n a b).
    Proof.
      revert a b. induction n as [|n IH]; intros a b Ha Hb; [exact I|]. cbn [simplTwoFactors].
      destruct (isProduct a || isProduct b); [|now apply r_tfwp]. apply r_merge; auto using r_flatP.
    Qed.
    Lemma r_extract l : RL l -> RL (extractProducts l).
    Proof.
      assert (X : forall e, R e -> RL (extractProduct e)).
      { induction e as [q|n p|c| |f l' IH|l' IH|l' IH|b x IHb IHx] using expr_ind2; intros H; cbn [extractProduct]; try (constructor; [exact H | constructor]).
        apply rational_prod in H. rewrite Forall_forall in *. intros y Hy. apply in_flat_map in Hy as (z & Hz & Hy). specialize (IH z Hz (H z Hz)). rewrite Forall_forall in IH. auto. }
      intros H. unfold extractProducts. rewrite Forall_forall in *. intros y Hy. apply in_flat_map in Hy as (z & Hz & Hy). specialize (X z (H z Hz)). rewrite Forall_forall in X. auto.
    Qed.
    (** Nothing to contract. *)
    Lemma r_contract (check : expr -> expr -> bool) s n u : (forall a b, In a u -> In b u -> check a b = false) -> fx (fun v => v = u) (contract n check s u).
    Proof.
      intros H.
      assert (I1 : forall m i j f, fx (fun x => x = (u, f)) (contractInner m check s i j u f)).
      { induction m as [|m IH]; intros i j f; [exact I|]. cbn [contractInner]. destruct (nth_error u i) as [a|] eqn:Ei; [|now apply fx_ret]. destruct (nth_error u j) as [b|] eqn:Ej; [|now apply fx_ret].
        rewrite H by (eapply nth_error_In; eassumption). apply IH. }
      assert (I2 : forall m i, fx (fun x => x = (u, false)) (contractOuter m check s i u false)).
      { induction m as [|m IH]; intros i; [exact I|]. cbn [contractOuter]. destruct (Nat.ltb i (length u)); [|now apply fx_ret]. eapply fx_bind; [apply I1|]. intros ? ->. apply IH. }
      destruct n as [|n]; [exact I|]. cbn [contract]. eapply fx_bind; [apply I2|]. intros ? ->. now apply fx_ret.
    Qed.
    Lemma r_prepare n u : RL u -> fx (fun v => v = extractProducts u) (prepare Y W n u).
    Proof.
      intros Hu. apply r_extract in Hu. rewrite Forall_forall in Hu. unfold prepare. apply r_contract. intros a b Ha _. unfold areContractableTrigFctPowers, isContractableTrigFctPower.
      rewrite r_notFct by auto. reflexivity.
    Qed.
    Lemma insert_in x l y : In y (insertSorted Y x l) <-> y = x \/ In y l.
    Proof. induction l as [|z l IH]; cbn [insertSorted]; [cbn; intuition|]. destruct (permuted Y z x); cbn [In]; [rewrite IH|]; intuition. Qed.
    Lemma sort_in l y : In y (sortFactors Y l) <-> In y l.
    Proof. induction l as [|x l IH]; cbn [sortFactors]; [reflexivity|]. rewrite insert_in, IH. cbn. intuition. Qed.
    Lemma r_numerics u : RL u -> RL (contractNumerics u) /\ forall x, In x (tl (contractNumerics u)) -> isNumeric x = false.
    Proof.
      intros Hu. unfold contractNumerics.
      assert (C : forall l a, RL l -> canon a -> canon (fold_left (fun a e => match e with Num q => qmul a q | _ => a end) l a)).
      { induction l as [|x l IH]; intros a Hl Ha; [exact Ha|]. inversion Hl; subst. cbn [fold_left]. apply IH; [assumption|]. destruct x; auto. apply qmul_spec. }
      specialize (C u 1%Q Hu eq_refl). set (r := fold_left _ u 1%Q) in *. cbv zeta.
      assert (F : RL (filter (fun e => negb (isNumeric e)) u)) by now apply Forall_filter.
      assert (N : forall x, In x (filter (fun e => negb (isNumeric e)) u) -> isNumeric x = false) by (intros x Hx; apply filter_In in Hx as [_ Hx]; now apply negb_true_iff in Hx).
      destruct (negb (qeqb r 1)); [split; [constructor; [exact C | exact F] | exact N]|].
      destruct (filter _ u) as [|y v]; [split; [repeat constructor; exact C | intros x []]|]. split; [exact F|]. intros x Hx. apply N. now right.
    Qed.
    Lemma r_contractConst n u : RL u -> (forall x, In x (tl u) -> isNumeric x = false) -> forall i, fx (fun v => v = u) (contractConst Y W n i u).
    Proof.
      intros Hu N.
      assert (I1 : forall m i j, fx (fun x => x = (u, i)) (contractConstInner Y W m i j u)).
      { induction m as [|m IH]; intros i j; [exact I|]. cbn [contractConstInner]. destruct (nth_error u i) as [a|] eqn:Ei; [|now apply fx_ret]. destruct (nth_error u j) as [b|] eqn:Ej; [|now apply fx_ret].
        destruct (Nat.eqb_spec i j) as [|NE]; [apply IH|].
        assert (isContractableConst a && isContractableConst b = false) as ->; [|apply IH].
        assert (X : forall k c, nth_error u k = Some c -> isContractableConst c = true -> k = O).
        { intros [|k] c Ek Hc; [reflexivity|exfalso]. assert (Hin : In c (tl u)) by (destruct u; [discriminate | now apply nth_error_In with k]).
          unfold isContractableConst in Hc. rewrite (N c Hin), r_numPow in Hc by (rewrite Forall_forall in Hu; apply Hu; eapply nth_error_In; eassumption). cbn in Hc. rewrite andb_false_r in Hc. discriminate. }
        destruct (isContractableConst a) eqn:Ca; [|reflexivity]. destruct (isContractableConst b) eqn:Cb; [|reflexivity].
        exfalso. apply NE. rewrite (X i a), (X j b); auto. }
      induction n as [|n IH]; intros i; [exact I|]. cbn [contractConst]. destruct (Nat.ltb i (length u)); [|now apply fx_ret]. eapply fx_bind; [apply I1|]. intros ? ->. apply IH.
    Qed.
    Lemma r_prepareConst n u : RL u -> fx RL (prepareConst Y W n u).
    Proof.
      intros Hu. unfold prepareConst. assert (Hs : RL (sortFactors Y u)) by (rewrite Forall_forall in *; intros x Hx; apply Hu; now apply sort_in).
      destruct (r_numerics _ Hs) as [H1 H2]. set (v := contractNumerics _) in *. eapply fx_bind; [now apply r_contractConst|]. intros ? ->.
      assert (X : forall a, In a v -> match a with Pow (Num _) _ => False | _ => True end).
      { intros a Ha. rewrite Forall_forall in H1. specialize (H1 a Ha). destruct a as [| | | | | | |a1 a2]; auto. destruct a1; auto. apply H1. }
      eapply fx_bind; [apply r_contract|].
      - intros a b Ha _. specialize (X a Ha). destruct a as [| | | | | | |a1 a2]; try reflexivity. destruct a1; try reflexivity. destruct X.
      - intros ? ->. eapply fx_weaken; [apply r_contract|].
        + intros a b Ha _. specialize (X a Ha). destruct a as [| | | | | | |a1 a2]; try reflexivity. destruct a1; try reflexivity. destruct X.
        + intros ? ->. exact H1.
    Qed.
    Lemma r_sprod n u : RL u -> fx RL (simplifyProduct Y W n u).
    Proof.
      revert u. induction n as [|n IH]; intros u Hu; [exact I|]. cbn [simplifyProduct]. eapply fx_bind; [now apply r_prepare|]. intros f ->. apply r_extract in Hu.
      assert (G : fx RL (g <- prepareConst Y W (S n) (extractProducts u) ;;
            match g with
            | [] => UB "front of empty list of factors"%string
            | [x] => ret g
            | [a; b] => simplTwoFactors Y W (S n) a b
            | u1 :: r => s <- simplifyProduct Y W n r ;; merge (S n) isOne (simplTwoFactors Y W (S n)) [u1] s
            end)).
      { eapply fx_bind; [now apply r_prepareConst|]. intros g Hg. destruct g as [|a [|b [|c g]]]; [exact I|now apply fx_ret| |].
        - inversion Hg; subst. inversion H2; subst. now apply r_tfac.
        - inversion Hg; subst. eapply fx_bind; [now apply IH|]. intros s Hs. apply r_merge; auto. intros. now apply r_tfac. }
      destruct (extractProducts u) as [|a [|b [|c f]]]; try exact G. inversion Hu; subst. inversion H2; subst. now apply r_tfac.
    Qed.
    Lemma r_opsAny e : R e -> RL (ops e).
    Proof.
      intros H. destruct e as [q|nn pp|c| |f l|l|l|b x]; cbn [ops]; try (now constructor).
      - destruct H.
      - now apply rational_sum in H.
      - now apply rational_prod in H.
      - destruct H as (H & _ & Hx). repeat constructor; auto using isInt_rational.
    Qed.
    Lemma r_epo n l : RL l -> fx R (expandProductOf W n l).
    Proof.
      revert l. induction n as [|n IH]; intros l Hl; [exact I|]. cbn [expandProductOf]. destruct l as [|f [|g r]]; [exact I|apply fx_ret; now inversion Hl|].
      inversion Hl; subst. inversion H2; subst. eapply fx_bind; [apply fx_bugIf|]. intros ? _. eapply fx_bind.
      { apply (fx_mapM R R); [now apply r_opsAny|]. intros x Hx. eapply fx_bind; [apply (q_prod _ HW); auto|]. intros p Hp. now apply (q_expand _ HW). }
      intros s Hs. eapply fx_bind; [now apply (q_sum _ HW)|]. intros t Ht. apply IH. auto.
    Qed.
    Lemma r_esp a l : R a -> RL l -> fx R (expandScalarProduct W a l).
    Proof.
      intros Ha Hl. unfold expandScalarProduct. eapply fx_bind.
      { apply (fx_mapM R R); [exact Hl|]. intros x Hx. eapply fx_bind; [apply (q_prod _ HW); auto|]. intros p Hp. now apply (q_expand _ HW). }
      intros s Hs. now apply (q_sum _ HW).
    Qed.
    Lemma r_eap n l : RL l -> fx R (expandAsProduct W n l).
    Proof.
      intros Hl. unfold expandAsProduct. eapply fx_bind; [apply (fx_mapM R R); [exact Hl|]; intros x Hx; now apply (q_expand _ HW)|].
      intros x Hx. cbv zeta. eapply fx_bind with (Q := R).
      { pose proof (Forall_filter _ (fun e => negb (isSum e)) _ Hx) as Hf. destruct (filter _ x); [now apply fx_ret|now apply (q_prod _ HW)]. }
      intros sc Hsc. pose proof (Forall_filter _ isSum _ Hx) as Hf. destruct (filter isSum x) as [|y ys]; [now apply fx_ret|].
      eapply fx_bind; [now apply r_epo|]. intros s Hs. assert (G : fx R (w_prod W [sc; s])) by (apply (q_prod _ HW); auto).
      destruct s; try exact G. apply r_esp; [exact Hsc|]. now apply rational_sum in Hs.
    Qed.
    Lemma r_prod n l : RL l -> fx R (prodCreate Y W n l).
    Proof.
      intros Hl. unfold prodCreate. destruct (existsb isUndefined l); [now apply fx_ret|]. destruct (existsb isZero l); [now apply fx_ret|].
      assert (G : fx R (r <- simplifyProduct Y W n l ;;
          match r with
          | [] => ret one
          | [x] => ret x
          | _ => if needsExpansion r then expandAsProduct W n r else ret (Prod r)
          end)).
      { eapply fx_bind; [now apply r_sprod|]. intros [|x [|y r]] Hr; [now apply fx_ret|apply fx_ret; now inversion Hr|].
        destruct (needsExpansion _); [now apply r_eap|]. apply fx_ret. now apply rational_prod. }
      destruct l as [|x [|y l]]; [exact G|apply fx_ret; now inversion Hl|exact G].
    Qed.
    Lemma r_prodZ n a b : isInt a -> isInt b -> fx isInt (prodCreate Y W n [a; b]).
    Proof.
      intros (x & ->) (y & ->). unfold prodCreate, numZ. cbn [existsb isUndefined orb]. destruct (_ || _); [apply fx_ret; now exists 0|].
      destruct n as [|n]; [exact I|]. cbn [simplifyProduct]. eapply fx_bind with (Q := fun r => r = [] \/ exists z, r = [numZ z]).
      - eapply fx_bind; [apply r_prepare; repeat constructor; apply rational_int|]. intros ? ->. cbn [extractProducts flat_map extractProduct app simplTwoFactors isProduct orb].
        unfold simplTwoFactorsWithoutProduct. cbn [isOne isConst andb simplTwoConst]. destruct (qeqb (ofZ x) 1); [apply fx_ret; right; now exists y|].
        destruct (qeqb (ofZ y) 1); [apply fx_ret; right; now exists x|]. unfold simplTwoNumerics. rewrite qmul_ofZ. apply fx_ret. destruct (qeqb _ 1); [now left | right; now exists (x * y)].
      - intros r [->|(z & ->)]; apply fx_ret; [now exists 1 | now exists z].
    Qed.

    (** *** Powers *)
    Lemma r_snp q z : canon q -> qeqb q 0 = false -> qeqb (ofZ z) 0 = false -> fx powPair (simplifyNumericPower Y W q (ofZ z)).
    Proof.
      intros Cq Nq Nz. assert (N : Q2R q <> 0%R). { intros E. apply qeqb_neq in Nq. apply Nq. apply Q2R_inj; [exact Cq | reflexivity|]. now rewrite E, Q2R_0. }
      assert (Hz : z <> 0) by (intros ->; discriminate Nz).
      destruct (numPower_int (s_fl Y) (s_limit Y) q z Cq N Hz) as (p' & Ep & S). assert (PC : payCanon p').
      { apply numPowerSimpl_canon in Ep; [exact Ep|]. split; [exact Cq|]. split; [apply canon_ofZ | reflexivity]. }
      unfold simplifyNumericPower, runNumPow. rewrite Ep. destruct PC as (C1 & C2 & C3).
      eapply fx_bind with (Q := fun p => p = p').
      { eapply fx_bind with (Q := tr); [split; [|exact I]; constructor; [|constructor]; exists q, z; auto|]. intros ? _. now apply fx_ret. }
      intros ? ->. destruct S as [(E & P & B)|(E & B & P & R1)].
      - rewrite P, E. change (qeqb 1 1) with true. cbn [orb]. apply fx_ret. split; [exact C1|]. split; [now exists 1|]. intros _. right. reflexivity.
      - destruct (qeqb (pPre p') 1) eqn:P1.
        + apply qeqb_eq in P1. apply fx_ret. split; [exact C1|]. split; [exists 0; cbn [snd]; now rewrite E|]. intros _. left. cbn [fst isOne].
          apply qeqb_eq. apply Q2R_inj; [exact C1 | reflexivity|]. rewrite Q2R_1. apply R1. rewrite P1, Q2R_1. apply Rabs_R1.
        + rewrite E. eapply fx_bind; [apply (q_pow _ HW); [exact C1 | now exists 0]|]. intros r Hr. eapply fx_bind; [apply (q_prod _ HW); repeat constructor; auto|]. intros t Ht.
          apply fx_ret. split; [exact Ht|]. split; [now exists 1|]. intros _. right. reflexivity.
    Qed.
    Lemma r_spb b x y : R b -> isNumeric b = false -> isInt x -> isInt y -> fx powPair (simplifyPowerBase Y W b x y).
    Proof.
      intros Hb Nb Hx Hy. unfold simplifyPowerBase. destruct Hx as (zx & Ex), Hy as (zy & Ey).
      assert (doContractExpFirst Y W b x y = ret true) as ->.
      { rewrite Ex, Ey. reflexivity. }
      unfold ret at 1. rewrite bind_ret. unfold ret at 1. rewrite bind_ret.
      eapply fx_bind; [apply (q_prodZ _ HW); [now exists zx | now exists zy]|]. intros z Hz. destruct (isZero z) eqn:Z.
      - apply fx_ret. split; [reflexivity|]. split; [now exists 1|]. intros _. right. reflexivity.
      - apply (q_spow _ HW); auto. split; [exact Hb|]. destruct b; try reflexivity. discriminate.
    Qed.
    Lemma r_split x l : isInt x -> RL l -> fx (fun y => RL (fst y) /\ RL (snd y)) (splitFactors W true x l).
    Proof.
      intros Hx Hl. induction Hl as [|f l Hf Hl IH]; cbn [splitFactors]; [apply fx_ret; split; constructor|]. unfold ret at 1. rewrite bind_ret.
      eapply fx_bind; [now apply (q_pow _ HW)|]. intros y Hy. eapply fx_bind; [exact IH|]. intros [s k] [H1 H2]. apply fx_ret. cbn in *. auto.
    Qed.
    Lemma r_sprb l x : RL l -> isInt x -> fx powPair (simplifyProductBase Y W l x).
    Proof.
      intros Hl Hx. unfold simplifyProductBase. cbv zeta. pose proof Hx as (z & Ez). assert (isInteger Y x = true) as -> by (now rewrite Ez).
      assert (relyInt Y x = ret tt) as -> by (now rewrite Ez). eapply fx_bind with (Q := tr); [now apply fx_ret|]. intros ? _.
      eapply fx_bind; [apply r_split; assumption|]. intros [s k] [Hs Hk]. cbn [fst snd] in *. destruct s as [|y s].
      - apply fx_ret. split; [now apply rational_prod|]. split; [exact Hx | discriminate].
      - eapply fx_bind; [apply (q_prod _ HW); auto|]. intros r Hr. eapply fx_bind; [apply (q_pow _ HW); auto|]. intros p Hp.
        eapply fx_bind; [apply (q_prod _ HW); auto; apply Forall_app; auto|]. intros t Ht. apply fx_ret. split; [exact Ht|]. split; [now exists 1|]. intros _. right. reflexivity.
    Qed.
    Lemma r_spow b x : baseOK b -> isInt x -> isZero x = false -> fx powPair (simplifyPower Y W b x).
    Proof.
      intros [Hb Nb] Hx Nx. pose proof Hx as (z & Ez). unfold simplifyPower.
      eapply fx_bind with (Q := fun c => c = false).
      { unfold doesInvolveComplexNumbers. rewrite Ez. cbn [numZ numericEval nIsInt qIsInt qden ofZ Qden Z.eqb Pos.eqb]. eapply fx_bind; [apply fx_quiet|]. intros ? _. now apply fx_ret. }
      intros ? ->. assert (G : isNumeric b = false -> fx powPair (ret (b, x))) by (intros N; apply fx_ret; split; [exact Hb|]; split; [exact Hx | cbn [fst]; congruence]).
      destruct b as [q|nn pp|c| |f l|l|l|b1 x1]; try (now apply G).
      - rewrite Ez in *. apply r_snp; auto.
      - destruct Hb.
      - apply fx_ret. split; [exact I|]. split; [now exists 1 | discriminate].
      - apply r_sprb; auto. now apply rational_prod.
      - destruct Hb as (Hb & N & Hx1). apply r_spb; auto. destruct b1; try reflexivity. destruct N.
    Qed.
    Lemma r_pow b x : R b -> isInt x -> fx R (powCreate W b x).
    Proof.
      intros Hb Hx. pose proof Hx as (z & Ez). unfold powCreate. destruct (_ || _); [now apply fx_ret|]. destruct (isZero x) eqn:Zx; [now apply fx_ret|]. cbn [orb]. destruct (isOne b); [now apply fx_ret|].
      destruct (isZero b) eqn:Zb.
      - eapply fx_bind; [now apply (q_negZ _ HW)|]. intros g _. rewrite Ez. cbn [numZ]. eapply fx_bind with (Q := tr); [now apply fx_ret|]. intros ? _. apply fx_ret. destruct g; [exact I | reflexivity].
      - destruct (isOne x); [now apply fx_ret|]. eapply fx_bind; [apply (q_spow _ HW); auto; now split|]. intros [b' x'] (H1 & H2 & H3). cbn [fst snd] in *. apply fx_ret.
        destruct (isOne x') eqn:O1; [exact H1|]. destruct (isOne b') eqn:O2; [reflexivity|]. split; [exact H1|]. split; [|exact H2].
        destruct b'; auto. destruct (H3 eq_refl); congruence.
    Qed.
    Lemma r_expand n e : R e -> fx R (expandExpr Y W n e).
    Proof.
      intros H. destruct e as [q|nn pp|c| |f l|l|l|b x]; cbn [expandExpr]; try (now apply fx_ret).
      - apply rational_sum in H. eapply fx_bind; [apply (fx_mapM R R); [exact H|]; intros x Hx; now apply (q_expand _ HW)|]. intros s Hs. now apply (q_sum _ HW).
      - apply r_eap. now apply rational_prod.
      - destruct H as (Hb & N & (z & ->)). cbn [numZ numericEval]. change (qIsInt (ofZ z)) with true. cbv iota.
        assert (G : fx R (w_pow W b (Num (ofZ z)))) by (apply (q_pow _ HW); [exact Hb | now exists z]).
        destruct b; try exact G. cbn [relyInt]. eapply fx_bind with (Q := tr); [now apply fx_ret|]. intros ? _. eapply fx_bind.
        { apply r_eap. apply Forall_forall. intros y Hy. apply repeat_spec in Hy as ->. exact Hb. }
        intros r Hr. destruct (_ <? 0); [|now apply fx_ret]. unfold oneOver. apply (q_pow _ HW); [exact Hr | now exists (-1)].
    Qed.
    Lemma r_subst e n p t : R e -> R t -> fx R (substExpr W e (Sym n p) t).
    Proof.
      intros H Ht. unfold substExpr. destruct e as [q|nn pp|c| |f l|l|l|b x]; try (destruct (isEqual _ _); [now apply fx_ret|]); try (now apply fx_ret).
      - apply rational_sum in H. eapply fx_bind; [apply (fx_mapM R R); [exact H|]; intros x Hx; now apply (q_subst _ HW)|]. intros s Hs. now apply (q_sum _ HW).
      - apply rational_prod in H. eapply fx_bind; [apply (fx_mapM R R); [exact H|]; intros x Hx; now apply (q_subst _ HW)|]. intros s Hs. now apply (q_prod _ HW).
      - destruct H as (Hb & _ & Hx). eapply fx_bind; [now apply (q_subst _ HW)|]. intros b' Hb'. eapply fx_bind; [now apply (q_substZ _ HW)|]. intros x' Hx'. now apply (q_pow _ HW).
    Qed.
    Lemma r_substZ e n p t : isInt e -> fx isInt (substExpr W e (Sym n p) t).
    Proof. intros (z & ->). cbn. split; [constructor | now exists z]. Qed.
    Lemma r_negZ e : isInt e -> fx tr (isNegative Y W e).
    Proof. intros (z & ->). now apply fx_ret. Qed.
  End Step.

  Lemma step_ratly F W : ratly W -> ratly (step Y F W).
  Proof.
    intros HW. constructor; cbn [step w_sum w_prod w_pow w_spow w_expand w_subst w_neg]; intros.
    - now apply r_sum.
    - now apply r_sumZ.
    - now apply r_prod.
    - now apply r_prodZ.
    - now apply r_pow.
    - now apply r_spow.
    - now apply r_expand.
    - now apply r_subst.
    - now apply r_substZ.
    - now apply r_negZ.
  Qed.
  Lemma world_ratly F k : ratly (world Y F k).
  Proof. induction k as [|k IH]; [constructor; intros; exact I|]. cbn [world]. now apply step_ratly. Qed.

  Lemma r_build F k n t : rationalProgram t -> fx rational (build (world Y F k) n t).
  Proof.
    pose proof (world_ratly F k) as HW. set (W := world Y F k) in *.
    assert (M : forall x, rational x -> fx rational (minus W [x])) by (intros x Hx; apply (q_prod _ HW); repeat constructor; auto).
    induction t as [z|a b|m p|c|a IHa b IHb|a IHa b IHb|a IHa b IHb|a IHa b IHb|a IHa|a IHa b IHb|a IHa|a IHa|f a IHa|a IHa b IHb|a IHa m p b IHb|a IHa|a IHa|a IHa];
      intros H; cbn [build rationalProgram] in *; try destruct H as [Ha Hb]; try (destruct H; fail).
    - apply fx_ret. apply rational_int.
    - destruct (mkRat a b) as [q|] eqn:E; [|exact I]. apply fx_ret. now apply mkRat_spec in E as [E _].
    - now apply fx_ret.
    - eapply fx_bind; [now apply IHa|]. intros x Hx. eapply fx_bind; [now apply IHb|]. intros y Hy. apply (q_sum _ HW); auto.
    - eapply fx_bind; [now apply IHa|]. intros x Hx. eapply fx_bind; [now apply IHb|]. intros y Hy. unfold varSub. eapply fx_bind; [now apply M|]. intros. apply (q_sum _ HW); auto.
    - eapply fx_bind; [now apply IHa|]. intros x Hx. eapply fx_bind; [now apply IHb|]. intros y Hy. apply (q_prod _ HW); auto.
    - eapply fx_bind; [now apply IHa|]. intros x Hx. eapply fx_bind; [now apply IHb|]. intros y Hy. unfold varDiv. eapply fx_bind; [apply (q_pow _ HW); [exact Hy | now exists (-1)]|]. intros. apply (q_prod _ HW); auto.
    - eapply fx_bind; [now apply IHa|]. intros x Hx. now apply M.
    - destruct Hb as (z & ->). cbn [build]. eapply fx_bind; [now apply IHa|]. intros x Hx. eapply fx_bind with (Q := isInt); [apply fx_ret; now exists z|]. intros y Hy. now apply (q_pow _ HW).
    - eapply fx_bind; [now apply IHb|]. intros y Hy. eapply fx_bind; [apply fx_inEnv; now apply IHa|]. intros x Hx. now apply (q_subst _ HW).
    - eapply fx_bind; [now apply IHa|]. intros x Hx. now apply (q_expand _ HW).
  Qed.

  Lemma okFact_inner c : okFact c <-> okFact (inner c).
  Proof. induction c; cbn [inner okFact]; try reflexivity. exact IHc. Qed.
  (** Powers of numbers that kept their values are all a value needs. *)
  Lemma okFact_holds st r c : okFact c -> (forall s, inner c <> CBug s) -> (forall p p', inner c = CNumPow p p' -> payVal p' = payVal p) -> holds st r c.
  Proof.
    revert r. induction c as [p p'| | | | | | | | | | |m c IH]; intros r H B P; cbn [okFact] in H; try (destruct H; fail).
    - destruct H as (b & z & Cb & Nb & Hz & -> & Ep). cbn [holds]. rewrite (P _ _ eq_refl). split; [rewrite payVal_int by exact Nb; reflexivity|].
      apply numPowerSimpl_canon in Ep; [exact Ep|]. split; [exact Cb|]. split; [apply canon_ofZ | reflexivity].
    - now destruct (B s).
    - cbn [holds]. apply IH; auto.
  Qed.
End Facts.
