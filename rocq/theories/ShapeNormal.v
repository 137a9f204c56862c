(** Every expression the library hands out is well formed: normalisation.  No temporary symbol is left. *)
From Verif Require Export ShapePoly.
From Verif Require Import ExprProofs NormalProofs NormalProofs2 NormalModel.
From Coq Require Import Lia.
From Verif Require Import Run.
Open Scope Z_scope.

Lemma ptmp_incl (P : syms) l l' : incl l l' -> sub (ptmp P l) (ptmp P l').
Proof. intros H n p [Hn|[t Ht]]; [now left|right; eauto]. Qed.
Lemma ptmp_base (P : syms) l : sub P (ptmp P l). Proof. intros n p H. now left. Qed.
Lemma ptmp_nil (P : syms) : sub (ptmp P []) P. Proof. intros n p [H|[t []]]. exact H. Qed.
Lemma firstn_incl {A} i (l : list A) : incl (firstn i l) l.
Proof. intros x Hx. rewrite <- (firstn_skipn i l). apply in_or_app. now left. Qed.
Lemma firstn_le {A} i j (l : list A) : (i <= j)%nat -> incl (firstn i l) (firstn j l).
Proof. intros H x Hx. replace (firstn i l) with (firstn i (firstn j l)) in Hx by (rewrite firstn_firstn; f_equal; lia). now apply firstn_incl in Hx. Qed.
Lemma sh_impl {A} (C : Prop) (Q : A -> Prop) m : sh tr m -> (C -> sh Q m) -> sh (fun a => C -> Q a) m.
Proof. destruct m; cbn; auto. Qed.

Section Normals.
  Variables (Y : sys) (W : oper).
  Hypothesis HW : shapely W.
  Hint Resolve HW : sh.
  Variable fuel : nat.

  Section Poly.
    Variables (E P : syms).
    Hypothesis HEP : sub E P.
    Hint Resolve HEP : sh.
    Notation S := (shape E P).
    Lemma s_polyGcd u v : S u -> S v -> sh S (polyGcd Y W u v).
    Proof.
      intros. unfold polyGcd. eapply sh_bind; [apply sh_quiet; now apply (s_gcdCompute Y W HW E P)|]. intros g Hg.
      apply sh_tr_bind; [apply sh_relyIf; exact I|intros _]. exact Hg.
    Qed.
    Lemma s_exactDivide u v : S u -> S v -> sh S (exactDivide Y W fuel u v).
    Proof.
      intros. unfold exactDivide. eapply sh_bind; [now apply (s_polyDivide Y W HW E P)|]. intros [q s] [Hq _].
      apply sh_tr_bind; [apply sh_relyIf; exact I|intros _]. apply sh_tr_bind; [apply s_relyZero|intros _]. exact Hq.
    Qed.
    Lemma s_relyFactor u g : sh tr (relyFactor Y W fuel u g).
    Proof. unfold relyFactor. destruct (polyDivide _ _ _ _ _) as [[q s] l| | |s]; try exact I. destruct (isZero s); exact I. Qed.
    Lemma s_fracEval n d : S n -> S d -> sh S (fracEval W n d).
    Proof. intros. unfold fracEval. eapply sh_bind; [now apply (s_oneOver W HW E P)|]. intros i Hi. apply (h_prod _ HW E P); auto. Qed.
    Lemma s_cancel n d : S n -> S d -> sh (pairSh E P) (cancel Y W fuel n d).
    Proof.
      intros Hn Hd. unfold cancel. assert (G : pairSh E P (n, one)) by (split; [exact Hn|reflexivity]).
      destruct (isOne d); [exact G|]. destruct (isZero n); [exact G|]. eapply sh_bind; [now apply (h_expand _ HW E P)|]. intros x Hx.
      destruct (isZero x); [split; [exact I|reflexivity]|]. eapply sh_bind; [now apply s_polyGcd|]. intros g Hg.
      eapply sh_bind; [now apply s_exactDivide|]. intros d' Hd'. eapply sh_bind; [now apply s_exactDivide|]. intros n' Hn'. split; assumption.
    Qed.
    Lemma s_commonDenom l : Forall (pairSh E P) l -> forall n d, S n -> S d -> sh (pairSh E P) (commonDenom Y W fuel n d l).
    Proof.
      induction 1 as [|[n2 d2] l [Hn2 Hd2] Hl IH]; intros n d Hn Hd; cbn [commonDenom]; [now apply s_cancel|]. cbn [fst snd] in *.
      pose proof (h_sum _ HW E P) as HS. pose proof (h_prod _ HW E P) as HP. pose proof (h_expand _ HW E P) as HX. pose proof (h_normal _ HW E P) as HN.
      destruct (isEqual d d2); [eapply sh_bind; [apply HS; auto|]; intros; now apply IH|].
      eapply sh_bind; [now apply s_polyGcd|]. intros g Hg. apply sh_tr_bind; [apply s_relyFactor|intros _].
      eapply sh_bind; [now apply (s_oneOver W HW E P)|]. intros i Hi.
      do 12 (eapply sh_bind; [solve [apply HS; auto|apply HP; auto|apply HX; auto|apply HN; auto]|intros ? ?]). now apply IH.
    Qed.
  End Poly.

  Variables (E P : syms).
  Hypothesis HEP : sub E P.
  Hint Resolve HEP : sh.
  Notation Pm m := (ptmp P (m_list m)).
  Notation SM m := (shape E (Pm m)).
  Lemma sub_Pm m : sub E (Pm m). Proof. intros n p H. left. auto. Qed.
  Lemma shape_Pm m e : shape E P e -> SM m e. Proof. apply shape_mono. apply ptmp_base. Qed.
  (** m' extends m *)
  Definition mx (m m' : smap) : Prop := m_base m' = m_base m /\ (exists l, m_list m' = m_list m ++ l) /\ mapSh E P m'.
  Lemma mx_refl m : mapSh E P m -> mx m m.
  Proof. intros H. split; [reflexivity|]. split; [exists []; now rewrite app_nil_r|exact H]. Qed.
  Lemma mx_trans m m1 m2 : mx m m1 -> mx m1 m2 -> mx m m2.
  Proof.
    intros (B1 & (l1 & L1) & _) (B2 & (l2 & L2) & O). split; [congruence|]. split; [|exact O]. exists (l1 ++ l2). now rewrite L2, L1, app_assoc.
  Qed.
  Lemma mx_shape m m' e : mx m m' -> SM m e -> SM m' e.
  Proof. intros (_ & (l & L) & _). apply shape_mono. rewrite L. apply ptmp_incl. intros x Hx. apply in_or_app. now left. Qed.
  Lemma mx_ok m m' : mx m m' -> mapSh E P m'. Proof. now intros (_ & _ & H). Qed.

  Definition tmpSh (m : smap) (x : expr * smap) : Prop := mx m (snd x) /\ SM (snd x) (fst x).
  Lemma s_getTmp m t : mapSh E P m -> SM m t -> sh (tmpSh m) (getTmp W m t).
  Proof.
    intros Hm Ht. unfold getTmp. destruct (find _ (m_list m)) as [[[n p] t']|] eqn:Ef.
    - apply find_some in Ef as [Hin _]. split; [now apply mx_refl|]. right. eauto.
    - eapply sh_bind; [apply sh_inEnv; apply (h_pos _ HW E (Pm m)); [apply sub_Pm|exact Ht]|]. intros p _.
      set (n := tmpNm _). set (m' := mkMap _ _). cbn [endsWell ret]. split; cbn [fst snd].
      + split; [reflexivity|]. split; [exists [(n, p, t)]; reflexivity|]. split; [exact (proj1 Hm)|]. cbn [m' m_list m_base]. intros i k q u Hi.
        destruct (Nat.ltb_spec i (length (m_list m))) as [Hlt|Hge].
        * rewrite nth_error_app1 in Hi by assumption. destruct (proj2 Hm _ _ _ _ Hi) as [-> Hw]. split; [reflexivity|].
          rewrite firstn_app. replace (i - length (m_list m))%nat with 0%nat by lia. cbn [firstn]. now rewrite app_nil_r.
        * rewrite nth_error_app2 in Hi by assumption. destruct (i - length (m_list m))%nat as [|j] eqn:Ei; [|destruct j; discriminate Hi].
          cbn in Hi. injection Hi as <- <- <-. assert (i = length (m_list m)) by lia. subst i. split; [reflexivity|].
          rewrite firstn_app, Nat.sub_diag. cbn [firstn]. rewrite app_nil_r, firstn_all. exact Ht.
      + right. exists t. cbn [m' m_list]. apply in_or_app. right. now left.
  Qed.

  Lemma s_substKeep (Q : syms) l : sub E Q -> (forall n p t, In (n, p, t) l -> ~ E n p /\ shape E Q t \/ ~ Q n p) ->
    forall e, shape E Q e -> sh (shape E Q) (substAll W l e).
  Proof.
    intros HQ. induction l as [|[[n p] t] l IH]; intros Hl e He; cbn [substAll]; [exact He|].
    eapply sh_bind with (Q := shape E Q); [|apply IH; intros; apply (Hl n0 p0); now right].
    destruct (Hl n p t (or_introl eq_refl)) as [[H1 H2]|H1].
    - apply (h_subst1 _ HW E Q); auto. eapply shape_mono; [|exact He]. intros k q Hk. now left.
    - now apply (h_subst0 _ HW E Q).
  Qed.
  Lemma s_substApp (Q Q' : expr -> Prop) l l' : (forall e, Q e -> forall n p t, In (n, p, t) l -> sh Q (w_subst W e (Sym n p) t)) ->
    (forall e, Q e -> sh Q' (substAll W l' e)) -> forall e, Q e -> sh Q' (substAll W (l ++ l') e).
  Proof.
    intros Hl Hl'. induction l as [|[[n p] t] l IH]; intros e He; cbn [substAll app]; [auto|].
    eapply sh_bind; [apply Hl; [exact He|now left]|]. apply IH. intros. apply Hl; [assumption|now right].
  Qed.
  Lemma tmp_notE m n p t : mapSh E P m -> In (n, p, t) (m_list m) -> ~ P n p.
  Proof.
    intros [Hb Hm] Hin HE. apply List.In_nth_error in Hin as [i Hi]. destruct (Hm _ _ _ _ Hi) as [-> _]. specialize (Hb _ _ HE).
    rewrite tmpNm_length in Hb. lia.
  Qed.
  Lemma tmp_index m i j n p t : mapSh E P m -> nth_error (m_list m) i = Some (n, p, t) -> (j <= i)%nat -> ~ ptmp P (firstn j (m_list m)) n p.
  Proof.
    intros Hm Hi Hij [H|[t' H]]; [exact (tmp_notE m n p t Hm (nth_error_In _ _ Hi) H)|]. apply List.In_nth_error in H as [k Hk].
    assert (Hlt : (k < j)%nat).
    { assert (Hs : nth_error (firstn j (m_list m)) k <> None) by congruence. apply nth_error_Some in Hs. rewrite firstn_length in Hs. lia. }
    assert (Hk' : nth_error (m_list m) k = Some (n, p, t')).
    { rewrite <- (firstn_skipn j (m_list m)). rewrite nth_error_app1; [exact Hk|]. apply nth_error_Some. congruence. }
    destruct (proj2 Hm _ _ _ _ Hi) as [E1 _]. destruct (proj2 Hm _ _ _ _ Hk') as [E2 _]. rewrite E1 in E2.
    apply (f_equal (fun x => String.length (nvalue x))) in E2. rewrite !tmpNm_length in E2. lia.
  Qed.
  Notation upto m j := (shape E (ptmp P (firstn j (m_list m)))).
  Lemma s_substAll m : mapSh E P m -> forall e, SM m e -> sh (SM m) (substAll W (m_list m) e).
  Proof.
    intros Hm. apply s_substKeep; [apply sub_Pm|]. intros n p t Hin. left. split; [intros H; apply HEP in H; eapply tmp_notE; eauto|].
    apply List.In_nth_error in Hin as [i Hi]. apply (proj2 Hm) in Hi as [_ Hi]. eapply shape_mono; [|exact Hi]. apply ptmp_incl, firstn_incl.
  Qed.
  Lemma s_substDown m j : mapSh E P m -> forall e, upto m (Datatypes.S j) e -> sh (upto m j) (substAll W (m_list m) e).
  Proof.
    intros Hm e He. destruct (nth_error (m_list m) j) as [[[n p] t]|] eqn:Ej.
    2:{ apply nth_error_None in Ej. rewrite !firstn_all2 in * by lia. now apply s_substAll. }
    destruct (nth_error_split _ _ Ej) as (l1 & l2 & El & Ll).
    assert (Es : firstn (Datatypes.S j) (m_list m) = l1 ++ [(n, p, t)]).
    { rewrite El. replace (Datatypes.S j) with (length (l1 ++ [(n, p, t)])) by (rewrite app_length; cbn; lia).
      change (l1 ++ (n, p, t) :: l2) with (l1 ++ [(n, p, t)] ++ l2). rewrite app_assoc, firstn_app, Nat.sub_diag, firstn_all. cbn. now rewrite app_nil_r. }
    assert (Ef : firstn j (m_list m) = l1).
    { rewrite El, <- Ll, firstn_app, Nat.sub_diag, firstn_all. cbn. now rewrite app_nil_r. }
    assert (Hent : forall i k q u, nth_error (m_list m) i = Some (k, q, u) -> ~ E k q /\ upto m i u).
    { intros i k q u Hi. split; [intros H; apply HEP in H; exact (tmp_notE m k q u Hm (nth_error_In _ _ Hi) H)|]. now apply (proj2 Hm) in Hi as [_ Hi]. }
    enough (G : sh (upto m j) (substAll W (l1 ++ (n, p, t) :: l2) e)) by (rewrite <- El in G; exact G).
    apply s_substApp with (Q := upto m (Datatypes.S j)); [| |exact He]; clear e He.
    - intros e He k q u Hin. apply List.In_nth_error in Hin as [i Hi].
      assert (Hlt : (i < j)%nat) by (rewrite <- Ll; apply nth_error_Some; congruence).
      assert (Hi' : nth_error (m_list m) i = Some (k, q, u)) by (rewrite El, nth_error_app1 by lia; exact Hi).
      destruct (Hent _ _ _ _ Hi') as [H1 H2]. apply (h_subst1 _ HW E); auto.
      + intros a b Hab. left. auto.
      + eapply shape_mono; [|exact He]. intros a b Hab. now left.
      + eapply shape_mono; [|exact H2]. apply ptmp_incl, firstn_le. lia.
    - intros e He. cbn [substAll]. destruct (Hent _ _ _ _ Ej) as [H1 H2].
      eapply sh_bind with (Q := upto m j).
      { apply (h_subst1 _ HW E); auto; [intros a b Hab; left; auto|]. eapply shape_mono; [|exact He]. rewrite Es, Ef. intros a b [Hab|[u Hu]]; [now left; left|].
        apply in_app_or in Hu as [Hu|[Hu|[]]]; [left; right; eauto|]. injection Hu as <- <- <-. right. auto. }
      apply s_substKeep; [intros a b Hab; left; auto|]. intros k q u Hin. right. apply List.In_nth_error in Hin as [i Hi].
      apply (tmp_index m (Datatypes.S j + i) j k q u Hm); [|lia]. rewrite El, nth_error_app2 by lia.
      replace (Datatypes.S j + i - length l1)%nat with (Datatypes.S i) by lia. exact Hi.
  Qed.
  Lemma s_replaceBack m : mapSh E P m -> forall k e, SM m e -> sh (shape E P) (replaceBack W k m e).
  Proof.
    intros Hm. induction k as [|k IH]; intros e He; cbn [replaceBack]; [exact I|].
    eapply sh_bind with (Q := fun e' => SM m e' /\ forall j, upto m (Datatypes.S j) e -> upto m j e').
    { apply sh_inEnv. pose proof (s_substAll m Hm e He) as H0. apply sh_and; [exact H0|]. apply (sh_all 0%nat). intros j. apply sh_impl.
      - eapply sh_weaken; [exact H0|]. intros; exact I.
      - now apply s_substDown. }
    intros e' [H1 H2]. destruct (isUndefined e') eqn:Eu; [destruct e'; try discriminate Eu; exact I|].
    destruct (isEqual e' e) eqn:Ee; cbn [negb]; [|now apply IH]. apply isEqual_eq in Ee. subst e'. cbn [endsWell ret].
    assert (G : forall j, upto m j e -> upto m 0 e) by (induction j as [|j IHj]; auto).
    eapply shape_mono; [apply ptmp_nil|]. apply (G (length (m_list m))). now rewrite firstn_all.
  Qed.

  Definition frSh (m : smap) (x : expr * expr * smap) : Prop := let '(n, d, m') := x in mx m m' /\ SM m' n /\ SM m' d.
  Lemma frSh_frac m x : frSh m x <-> fracSh E P m x.
  Proof. destruct x as [[n d] m']. unfold frSh, fracSh, mx. tauto. Qed.
  Lemma s_evaluatePow m b x : mapSh E P m -> SM m b -> shape E E x -> sh (tmpSh m) (evaluatePow W m b x).
  Proof.
    intros Hm Hb Hx. unfold evaluatePow. eapply sh_bind; [apply sh_inEnv, (h_pow _ HW E (Pm m)); auto using sub_Pm|]. intros p Hp.
    destruct (isOne p); [split; [now apply mx_refl|exact Hp]|now apply s_getTmp].
  Qed.
  Lemma s_nie m n d x k : mapSh E P m -> SM m n -> SM m d -> sh (frSh m) (normalIntegerExp Y W m n d x k).
  Proof.
    intros Hm Hn Hd. unfold normalIntegerExp. apply sh_tr_bind; [apply s_relyInt|intros _].
    eapply sh_bind; [apply sh_inEnv, (h_pow _ HW E (Pm m)); auto using sub_Pm, shape_numZ|]. intros p Hp.
    eapply sh_bind; [apply sh_inEnv, (h_pow _ HW E (Pm m)); auto using sub_Pm, shape_numZ|]. intros q Hq. pose proof (mx_refl m Hm).
    destruct (0 <? k); [split; [exact H|split; assumption]|]. destruct (k <? 0); (split; [exact H|]); [split; assumption|split; reflexivity].
  Qed.
  Lemma s_nne m n d x : mapSh E P m -> SM m n -> SM m d -> shape E E x -> sh (frSh m) (normalNumEvalExp W m n d x).
  Proof.
    intros Hm Hn Hd Hx. unfold normalNumEvalExp. eapply sh_bind; [apply sh_quiet, (h_pos _ HW E E); auto using sub_refl|]. intros pos _.
    assert (G : forall a b y, SM m a -> SM m b -> shape E E y ->
      sh (frSh m) ('(p, m1) <- evaluatePow W m a y;; '(q, m2) <- evaluatePow W m1 b y;; ret (p, q, m2))).
    { intros a b y Ha Hb Hy. eapply sh_bind; [apply s_evaluatePow; auto|]. intros [p m1] [X1 H1]. cbn [fst snd] in *.
      eapply sh_bind; [apply s_evaluatePow; eauto using mx_ok, mx_shape|]. intros [q m2] [X2 H2]. cbn [fst snd] in *.
      split; [eapply mx_trans; eauto|]. split; [eapply mx_shape; eauto|exact H2]. }
    destruct pos.
    - apply sh_tr_bind; [apply sh_inEnv, s_relyLt|intros _]. now apply G.
    - apply sh_tr_bind; [apply s_relyLt|intros _]. apply sh_tr_bind; [apply sh_inEnv, s_relyLt|intros _].
      eapply sh_bind; [apply (s_minus W HW E E); auto using sub_refl|]. intros y Hy. now apply G.
  Qed.
  Lemma s_powerNormal m b x : mapSh E P m -> shape E P b -> shape E E x -> sh (frSh m) (powerNormal Y W m b x).
  Proof.
    intros Hm Hb Hx. unfold powerNormal. eapply sh_bind; [now apply (h_normalF _ HW E P)|]. intros [[n d] m1] H. apply frSh_frac in H as (X & Hn & Hd).
    eapply sh_bind; [apply (h_normal _ HW E E); auto using sub_refl|]. intros x' Hx'.
    eapply sh_bind with (Q := tr).
    { destruct (_ || _); [exact I|]. eapply sh_bind; [apply sh_inEnv, (h_expand _ HW E (Pm m1)); auto using sub_Pm|]. intros; exact I. }
    intros z _. destruct z; [split; [exact X|split; [exact I|reflexivity]]|].
    assert (Hm1 : mapSh E P m1) by (eapply mx_ok; eauto).
    assert (G : forall y, frSh m1 y -> frSh m y).
    { intros [[n2 d2] m2] (X2 & H). split; [eapply mx_trans; eauto|exact H]. }
    destruct (numericEval Y x') as [[q|]|].
    - destruct (qIsInt q); (eapply sh_weaken; [|apply G]); [now apply s_nie|now apply s_nne].
    - eapply sh_weaken; [|apply G]. now apply s_nne.
    - eapply sh_bind with (Q := SM m1).
      { apply sh_inEnv. eapply sh_bind; [apply (s_fracEval E (Pm m1)); auto using sub_Pm|]. intros f Hf. apply (h_pow _ HW E (Pm m1)); auto using sub_Pm. }
      intros p Hp. eapply sh_bind; [now apply s_getTmp|]. intros [t m2] [X2 Ht]. cbn [fst snd] in *.
      split; [eapply mx_trans; eauto|]. split; [exact Ht|reflexivity].
  Qed.
  Lemma s_fractions l : Forall (shape E P) l -> forall m, mapSh E P m ->
    sh (fun y => mx m (snd y) /\ length (fst y) = length l /\ Forall (pairSh E (Pm (snd y))) (fst y)) (fractions W m l).
  Proof.
    induction 1 as [|e l He Hl IH]; intros m Hm; cbn [fractions]; [split; [now apply mx_refl|split; [reflexivity|constructor]]|].
    eapply sh_bind; [now apply (h_normalF _ HW E P)|]. intros [[n d] m1] H. apply frSh_frac in H as (X & Hn & Hd).
    eapply sh_bind; [apply IH; eapply mx_ok; eauto|]. intros [f m2] (X2 & L2 & Hf). cbn [fst snd endsWell ret] in *.
    split; [eapply mx_trans; eauto|]. split; [cbn; now rewrite L2|]. constructor; [split; eapply mx_shape; eauto|exact Hf].
  Qed.
  Lemma s_functionNormal m f l : mapSh E P m -> shape E P (Fct f l) -> sh (frSh m) (functionNormal W m f l).
  Proof.
    intros Hm H. apply shape_fct in H as [Ha H]. unfold functionNormal. eapply sh_bind with (Q := shape E P).
    { destruct (trigF f) eqn:Ef.
      { destruct l as [|a [|a2 l]]; [destruct f; discriminate|inversion H; subst|destruct f; discriminate].
        assert (G : sh (shape E P) (a' <- w_normal W a ;; w_trig W f a')).
        { eapply sh_bind; [now apply (h_normal _ HW E P)|]. intros. now apply (h_trig _ HW E P). }
        destruct f; try discriminate Ef; exact G. }
      destruct f; try discriminate Ef.
      - destruct l as [|a [|b [|]]]; try discriminate. inversion H as [|? ? H1 H2]; subst. inversion H2; subst.
        eapply sh_bind; [now apply (h_normal _ HW E P)|]. intros. eapply sh_bind; [now apply (h_normal _ HW E P)|]. intros. now apply (h_atan2 _ HW E P).
      - destruct l as [|a [|]]; try discriminate. inversion H; subst. eapply sh_bind; [now apply (h_normal _ HW E P)|]. intros. now apply (h_log _ HW E P). }
    intros t Ht. eapply sh_bind; [apply s_getTmp; [exact Hm|now apply shape_Pm]|]. intros [s m'] [X Hs]. split; [exact X|]. split; [exact Hs|reflexivity].
  Qed.
  Lemma s_normalF m e : mapSh E P m -> shape E P e -> sh (fracSh E P m) (normalF Y W fuel m e).
  Proof.
    intros Hm He. eapply sh_weaken; [|intros a Ha; apply frSh_frac; exact Ha]. pose proof (mx_refl m Hm) as X0.
    destruct e as [q|n p|c| |f l|l|l|b x]; cbn [normalF].
    - split; [exact X0|]. split; apply shape_numZ.
    - split; [exact X0|]. split; [now apply shape_Pm|reflexivity].
    - eapply sh_bind; [apply s_getTmp; [exact Hm|exact I]|]. intros [s m'] [X Hs]. split; [exact X|]. split; [exact Hs|reflexivity].
    - split; [exact X0|]. split; [exact I|reflexivity].
    - now apply s_functionNormal.
    - eapply sh_bind; [now apply (h_expand _ HW E P)|]. intros z _. destruct (isZero z); [split; [exact X0|split; reflexivity]|].
      apply shape_sum in He as [H2 He]. eapply sh_bind; [now apply s_fractions|]. intros [f m'] (X & L & Hf). cbn [fst snd] in *.
      destruct f as [|[n d] f]; [cbn in L; lia|]. inversion Hf as [|? ? [Hn Hd] Hf']; subst.
      eapply sh_bind; [apply sh_inEnv, (s_commonDenom E (Pm m')); auto using sub_Pm|]. intros [n' d'] [Hn' Hd']. split; [exact X|]. split; assumption.
    - eapply sh_bind; [now apply (h_expand _ HW E P)|]. intros z _. destruct (isZero z); [split; [exact X0|split; reflexivity]|].
      apply shape_prod in He as [H2 He]. eapply sh_bind; [now apply s_fractions|]. intros [f m'] (X & L & Hf). cbn [fst snd] in *.
      assert (H1 : SM m' = SM m') by reflexivity.
      assert (Hfst : Forall (SM m') (map fst f)) by (apply Forall_map; eapply Forall_impl; [|exact Hf]; intros y Hy; apply Hy).
      assert (Hsnd : Forall (SM m') (map snd f)) by (apply Forall_map; eapply Forall_impl; [|exact Hf]; intros y Hy; apply Hy).
      eapply sh_bind with (Q := pairSh E (Pm m')).
      { apply sh_inEnv. eapply sh_bind; [apply (h_prod _ HW E (Pm m')); auto using sub_Pm|]. intros n Hn.
        eapply sh_bind; [apply (h_prod _ HW E (Pm m')); auto using sub_Pm|]. intros d Hd. apply (s_cancel E (Pm m')); auto using sub_Pm. }
      intros [n' d'] [Hn' Hd']. split; [exact X|]. split; assumption.
    - destruct He as (Hb & Hx & _). now apply s_powerNormal.
  Qed.
End Normals.

Section Top.
  Variables (Y : sys) (W : oper).
  Hypothesis HW : shapely W.
  Lemma s_normalTop fuel E P e : sub E P -> shape E P e -> sh (shape E P) (normalTop W fuel e).
  Proof.
    intros HEP He. set (k := Datatypes.S (nameLen e)). set (E0 := both E (short k)). set (P0 := both P (short k)).
    assert (H0 : sub E0 P0) by now apply both_sub.
    assert (He0 : shape E0 P0 e) by (apply shape_short; [exact He|unfold k; lia]).
    eapply sh_weaken with (Q := shape E0 P0); [|intros a; apply shape_mono2; apply both_l].
    unfold normalTop. eapply sh_bind.
    { apply (h_normalF _ HW E0 P0); [exact H0| |exact He0]. split; [intros n p [_ H]; exact H|]. intros [|i] n p t Hi; discriminate Hi. }
    intros [[n d] m] (_ & _ & Hm & Hn & Hd).
    eapply sh_bind; [apply (s_replaceBack W HW E0 P0 H0); assumption|]. intros n' Hn'.
    eapply sh_bind; [apply (s_replaceBack W HW E0 P0 H0); assumption|]. intros d' Hd'.
    apply sh_tr_bind; [apply sh_relyIf; exact I|intros _]. now apply (s_fracEval W HW E0 P0).
  Qed.
End Top.
