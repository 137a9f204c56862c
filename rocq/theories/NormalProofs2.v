(** Normalisation preserves the value: terms replaced by temporary symbols. *)
From Verif Require Export NormalProofs.
From Coq Require Import Lra Lia.
Open Scope R_scope.

Lemma rpow_div a b x v : 0 < b -> rpow (a / b) x = Some v ->
  exists u w, rpow a x = Some u /\ rpow b x = Some w /\ w <> 0 /\ v = u / w.
Proof.
  intros Hb Hv. unfold Rdiv in Hv. rewrite Rmult_comm in Hv.
  assert (Hi : 0 < / b) by now apply Rinv_0_lt_compat.
  apply rpow_split_pos in Hv as (u & w & Eu & Ew & ->); [|assumption].
  pose proof (rpow_pos b x Hb) as Eb. pose proof (rpow_inv_base b x _ (Rgt_not_eq _ _ Hb) Eb) as Ei.
  rewrite Ei in Eu. injection Eu as <-. exists w, (Rpower b x). repeat split; auto.
  - intros E. pose proof (rpow_nz b x _ (Rgt_not_eq _ _ Hb) Eb). contradiction.
  - unfold Rdiv. ring.
Qed.

Section Normal2.
  Variables (Y : sys) (W : oper).
  Hypothesis HW : soundOps W.
  Variables (st : bool) (r : env) (P : name -> bool -> Prop).
  Hypothesis Hg : wgood st r.
  Notation sp := (spec (holds st r)).
  Notation rm m := (ext r (m_list m)).
  Notation Pm m := (ptmp P (m_list m)).
  Variable fuel : nat.

  Definition newVal (m : smap) (l : list (name * bool * expr)) : Prop :=
    forall k p t, In (k, p, t) l -> eval (rm m) t <> None.
  Definition mext (m m' : smap) (l : list (name * bool * expr)) : Prop :=
    m_base m' = m_base m /\ m_list m' = m_list m ++ l /\ mapOK P m' /\ wgood st (rm m').

  Lemma mext_refl m : mapOK P m -> wgood st (rm m) -> mext m m [].
  Proof. intros Hm Hgm. split; [reflexivity|]. split; [now rewrite app_nil_r|auto]. Qed.
  Lemma mext_trans m m1 m2 l1 l2 : mext m m1 l1 -> mext m1 m2 l2 -> mext m m2 (l1 ++ l2).
  Proof. intros (B1 & L1 & _) (B2 & L2 & O2 & G2). split; [congruence|]. split; [rewrite L2, L1; now rewrite app_assoc|auto]. Qed.
  Lemma mext_val m m' l e : mapOK P m -> mext m m' l -> wf (Pm m) e -> eval (rm m') e = eval (rm m) e.
  Proof. intros Hm (B & L & O & _) He. eapply eval_more; eauto. Qed.
  Lemma mext_wf m m' l e : mext m m' l -> wf (Pm m) e -> wf (Pm m') e.
  Proof. intros (_ & L & _) He. rewrite L. now apply wf_more. Qed.
  Lemma entry_wf m n p t : mapOK P m -> In (n, p, t) (m_list m) -> wf (Pm m) t.
  Proof.
    intros [_ Hm] Hin. apply In_nth in Hin as [i Hi]. apply Hm in Hi as [_ Hw]. eapply wf_mono; [|exact Hw].
    intros k q. apply ptmp_mono. intros x Hx. rewrite <- (firstn_skipn i (m_list m)). apply in_or_app. now left.
  Qed.
  Lemma newVal_trans m m1 m2 l1 l2 : mext m m1 l1 -> mext m1 m2 l2 -> newVal m1 l1 -> newVal m2 l2 -> newVal m2 (l1 ++ l2).
  Proof.
    intros H1 H2 N1 N2 k p t Hin. apply in_app_or in Hin as [Hin|Hin]; [|now apply (N2 k p)].
    rewrite (mext_val m1 m2 l2); [now apply (N1 k p)|now destruct H1 as (_ & _ & O & _)|assumption|].
    apply (entry_wf m1 k p); [now destruct H1 as (_ & _ & O & _)|]. destruct H1 as (_ & L & _). rewrite L. apply in_or_app. now right.
  Qed.

  Definition tmpRes (m : smap) (o : option R) (x : expr * smap) : Prop :=
    exists l, mext m (snd x) l /\ wf (Pm (snd x)) (fst x) /\
      forall v, o = Some v -> newVal (snd x) l /\ eval (rm (snd x)) (fst x) = Some v.

  Lemma getTmp_sp m t : mapOK P m -> wgood st (rm m) -> wf (Pm m) t ->
    sp (getTmp W m t) (tmpRes m (eval (rm m) t)).
  Proof.
    intros Hm Hgm Ht. unfold getTmp. destruct (find _ (m_list m)) as [[[n p] t']|] eqn:Ef.
    - apply find_some in Ef as [Hin E]. cbn in E. apply isEqual_eq in E. subst t'. apply spec_ret.
      exists []. split; [now apply mext_refl|]. cbn [fst snd]. split; [right; eauto|]. intros v Ev. split; [intros ? ? ? []|].
      cbn. f_equal. eapply entry_val; eauto.
    - eapply spec_bind; [apply spec_inEnv; apply pos_call with (P := Pm m); assumption|]. intros p Hp. apply spec_ret.
      set (n := tmpNm _). exists [(n, p, t)]. set (m' := mkMap _ _).
      assert (HO : mapOK P m').
      { split; [exact (proj1 Hm)|]. cbn [m' m_list m_base]. intros i k q u Hi.
        destruct (Nat.ltb_spec i (length (m_list m))) as [Hlt|Hge].
        - rewrite nth_error_app1 in Hi by assumption. destruct (proj2 Hm _ _ _ _ Hi) as [-> Hw]. split; [reflexivity|].
          rewrite firstn_app. replace (i - length (m_list m))%nat with 0%nat by lia. cbn [firstn]. now rewrite app_nil_r.
        - rewrite nth_error_app2 in Hi by assumption. destruct (i - length (m_list m))%nat as [|j] eqn:Ei; [|destruct j; discriminate Hi].
          cbn in Hi. assert (i = length (m_list m)) by lia. subst i. apply some_inj in Hi. injection Hi as <- <- <-. split; [reflexivity|].
          rewrite firstn_app, Nat.sub_diag, firstn_all. cbn [firstn]. now rewrite app_nil_r. }
      assert (Er : rm m' = ext1 (rm m) (n, p, t)) by (cbn [m' m_list]; rewrite ext_app; reflexivity).
      assert (HG : wgood st (rm m')).
      { rewrite Er. intros k. cbn [ext1]. unfold upd. destruct (nameEq n k && Bool.eqb p true) eqn:E; [|apply Hgm].
        apply andb_true_iff in E as [_ E]. apply Bool.eqb_prop in E. destruct (eval (rm m) t) as [v|] eqn:Ev; [now apply (Hp E)|].
        destruct st; cbn; lra. }
      assert (HX : mext m m' [(n, p, t)]) by (unfold mext; auto).
      split; [exact HX|]. cbn [fst snd]. split.
      + right. exists t. cbn [m' m_list]. apply in_or_app. right. now left.
      + intros v Ev. split.
        * intros k q u [E|[]]. injection E as <- <- <-. rewrite (mext_val m m' [(n, p, t)]); auto. congruence.
        * cbn [eval]. rewrite Er. cbn [ext1]. rewrite Ev. now rewrite upd_same.
  Qed.

  Notation NRes m o x := (let '(n, d, m') := x in
    exists l, mext m m' l /\ wf (Pm m') n /\ wf (Pm m') d /\ forall v, o = Some v -> newVal m' l /\ fracIs (rm m') n d v).
  Lemma NRes_normalRes m e x : NRes m (eval r e) x -> normalRes st r P m e x.
  Proof. destruct x as [[n d] m']. intros (l & (B & L & O & G) & Hn & Hd & HV). exists l. auto 10. Qed.
  Lemma normalRes_NRes m e x : normalRes st r P m e x -> NRes m (eval r e) x.
  Proof. destruct x as [[n d] m']. intros (l & B & L & O & G & Hn & Hd & HV). exists l. unfold mext. auto 10. Qed.

  (** A term replaced by a temporary symbol. *)
  Lemma tmpFrac m o c : sp c (tmpRes m o) -> sp ('(s, m') <- c ;; ret (s, one, m')) (fun x => NRes m o x).
  Proof.
    intros Hc. eapply spec_bind; [exact Hc|]. intros [s m'] (l & HX & Hw & HV). cbn [fst snd] in *. apply spec_ret.
    exists l. split; [exact HX|]. split; [exact Hw|]. split; [apply wf_one|]. intros v Ev. destruct (HV v Ev) as [HN E].
    split; [exact HN|]. now apply fracIs_one.
  Qed.

  Lemma evaluatePow_sp m b x : mapOK P m -> wgood st (rm m) -> wf (Pm m) b -> wf (Pm m) x ->
    sp (evaluatePow W m b x) (tmpRes m (opow (eval (rm m) b) (eval (rm m) x))).
  Proof.
    intros Hm Hgm Hb Hx. unfold evaluatePow.
    eapply spec_bind; [apply spec_inEnv; apply pow_call with (P := Pm m); assumption|]. intros p (Hp & Vp).
    destruct (isOne p) eqn:E.
    - apply spec_ret. exists []. split; [now apply mext_refl|]. split; [assumption|]. cbn [fst snd]. intros v Ev. split; [intros ? ? ? []|].
      rewrite Ev in Vp. exact Vp.
    - eapply spec_weaken; [apply getTmp_sp; assumption|]. intros y (l & HX & Hw & HV). exists l. split; [exact HX|]. split; [exact Hw|].
      intros v Ev. apply HV. rewrite Ev in Vp. exact Vp.
  Qed.

  Lemma powerZ_frac a b k v : b <> 0 -> rpow (a / b) (IZR k) = Some v ->
    (0 < k)%Z -> v = powerRZ a k / powerRZ b k.
  Proof.
    intros Hb Hv Hk. rewrite rpow_intnn in Hv by lia. injection Hv as <-. unfold Rdiv. rewrite powerRZ_mult, powerRZ_inv' by assumption. reflexivity.
  Qed.

  Lemma normalIntegerExp_sp m n d x q : mapOK P m -> wgood st (rm m) -> wf (Pm m) n -> wf (Pm m) d -> wf P x ->
    numericEval Y x = Some (NQ q) -> qIsInt q = true ->
    sp (normalIntegerExp Y W m n d x (qnum q)) (fun y => let '(n', d', m') := y in
      exists l, mext m m' l /\ wf (Pm m') n' /\ wf (Pm m') d' /\ forall u w v, fracIs (rm m) n d u -> eval r x = Some w ->
        rpow u w = Some v -> newVal m' l /\ fracIs (rm m') n' d' v).
  Proof.
    intros Hm Hgm Hn Hd Hx Ex Ei. unfold normalIntegerExp.
    eapply spec_bind; [apply relyInt_sp with (P := P); eassumption|]. intros un (Hq & Hqv).
    eapply spec_bind; [apply spec_inEnv; apply pow_call with (P := Pm m); auto with sp|]. intros p1 (Hp1 & Vp1).
    eapply spec_bind; [apply spec_inEnv; apply pow_call with (P := Pm m); auto with sp|]. intros p2 (Hp2 & Vp2).
    pose proof (qIsInt_iff q Ei) as Eq. set (k := qnum q) in *. rewrite eval_num_z in Vp1, Vp2.
    destruct (Z.ltb_spec 0 k) as [Hk|Hk].
    - apply spec_ret. exists []. split; [now apply mext_refl|]. split; [assumption|]. split; [assumption|].
      intros u w v (a & b & Ea & Eb & Hb & ->) Ew Ev. split; [intros ? ? ? []|]. rewrite (Hqv w Ew), Eq in Ev.
      rewrite Ea in Vp1. rewrite Eb in Vp2. cbn [opow] in Vp1, Vp2. rewrite rpow_intnn in Vp1, Vp2 by lia. rewrite Z.abs_eq in Vp1, Vp2 by lia.
      exists (powerRZ a k), (powerRZ b k). repeat split; auto; [now apply powerRZ_neq0|]. now apply powerZ_frac.
    - destruct (Z.ltb_spec k 0) as [Hk2|Hk2].
      + apply spec_ret. exists []. split; [now apply mext_refl|]. split; [assumption|]. split; [assumption|].
        intros u w v (a & b & Ea & Eb & Hb & ->) Ew Ev. split; [intros ? ? ? []|]. rewrite (Hqv w Ew), Eq in Ev.
        rewrite Ea in Vp1. rewrite Eb in Vp2. cbn [opow] in Vp1, Vp2. rewrite rpow_intnn in Vp1, Vp2 by lia.
        assert (Ha : a <> 0).
        { intros ->. unfold Rdiv in Ev. rewrite Rmult_0_l, rpow_0_neg in Ev; [discriminate|]. apply IZR_lt. lia. }
        rewrite Z.abs_neq in Vp1, Vp2 by lia.
        exists (powerRZ b (- k)), (powerRZ a (- k)). repeat split; auto; [now apply powerRZ_neq0|].
        assert (Hab : a / b <> 0) by (apply Rmult_integral_contrapositive_currified; [assumption|now apply Rinv_neq_0_compat]).
        rewrite rpow_int in Ev by assumption. injection Ev as <-. unfold Rdiv. rewrite powerRZ_mult, powerRZ_inv' by assumption.
        rewrite !powerRZ_neg' by assumption. rewrite Rinv_inv. ring.
      + apply spec_ret. exists []. split; [now apply mext_refl|]. split; [apply wf_one|]. split; [apply wf_one|].
        intros u w v (a & b & Ea & Eb & Hb & ->) Ew Ev. split; [intros ? ? ? []|]. rewrite (Hqv w Ew), Eq in Ev.
        replace k with 0%Z in Ev by lia. rewrite rpow_r0 in Ev. injection Ev as <-. apply fracIs_one. apply eval_one.
  Qed.

  Lemma normalNumEvalExp_sp m n d x : mapOK P m -> wgood st (rm m) -> wf (Pm m) n -> wf (Pm m) d -> wf P x ->
    sp (normalNumEvalExp W m n d x) (fun y => let '(n', d', m') := y in
      exists l, mext m m' l /\ wf (Pm m') n' /\ wf (Pm m') d' /\ forall u w v, fracIs (rm m) n d u -> eval r x = Some w ->
        rpow u w = Some v -> newVal m' l /\ fracIs (rm m') n' d' v).
  Proof.
    intros Hm Hgm Hn Hd Hx. unfold normalNumEvalExp. eapply spec_bind; [apply spec_true|]. intros pos _.
    assert (Hx' : forall k, wf (Pm k) x) by (intros k; now apply wf_ptmp).
    destruct pos.
    - eapply spec_bind; [apply spec_inEnv; apply relyLt_sp|]. intros un Hpos.
      eapply spec_bind; [apply evaluatePow_sp; auto|]. intros [p m1] (l1 & X1 & W1 & V1). cbn [fst snd] in *.
      assert (O1 : mapOK P m1) by apply X1. assert (G1 : wgood st (rm m1)) by apply X1.
      eapply spec_bind; [apply evaluatePow_sp; auto; eapply mext_wf; eauto|]. intros [q m2] (l2 & X2 & W2 & V2). cbn [fst snd] in *.
      apply spec_ret. exists (l1 ++ l2). split; [eapply mext_trans; eauto|]. split; [eapply mext_wf; eauto|]. split; [assumption|].
      intros u w v (a & b & Ea & Eb & Hb & ->) Ew Ev. specialize (Hpos 0 b (eval_zero _) Eb).
      apply rpow_div in Ev as (u' & w' & Eu & Ew' & Hw' & ->); [|assumption].
      destruct (V1 u') as [N1 E1]; [rewrite Ea, (eval_P r P), Ew by assumption; exact Eu|].
      destruct (V2 w') as [N2 E2].
      { rewrite (mext_val m m1 l1) by auto. rewrite Eb, (eval_P r P m1), Ew by assumption. exact Ew'. }
      split; [eapply newVal_trans; eauto|]. exists u', w'. rewrite (mext_val m1 m2 l2) by auto. auto.
    - eapply spec_bind; [apply relyLt_sp|]. intros un Hneg.
      eapply spec_bind; [apply spec_inEnv; apply relyLt_sp|]. intros un2 Hpos.
      eapply spec_bind; [apply minus_call with (P := P); auto|]. intros y (Hy & Vy).
      assert (Hy' : forall k, wf (Pm k) y) by (intros k; now apply wf_ptmp).
      eapply spec_bind; [apply evaluatePow_sp; auto|]. intros [p m1] (l1 & X1 & W1 & V1). cbn [fst snd] in *.
      assert (O1 : mapOK P m1) by apply X1. assert (G1 : wgood st (rm m1)) by apply X1.
      eapply spec_bind; [apply evaluatePow_sp; auto; eapply mext_wf; eauto|]. intros [q m2] (l2 & X2 & W2 & V2). cbn [fst snd] in *.
      apply spec_ret. exists (l1 ++ l2). split; [eapply mext_trans; eauto|]. split; [eapply mext_wf; eauto|]. split; [assumption|].
      intros u w v (a & b & Ea & Eb & Hb & ->) Ew Ev. specialize (Hpos 0 b (eval_zero _) Eb). specialize (Hneg w 0 Ew (eval_zero _)).
      assert (Hab : a / b <> 0).
      { intros E. rewrite E, rpow_0_neg in Ev by assumption. discriminate. }
      assert (Hv : v <> 0) by (eapply rpow_nz; eauto). apply rpow_opp in Ev; [|assumption].
      assert (Ha : a <> 0) by (intros ->; apply Hab; unfold Rdiv; ring).
      apply rpow_div in Ev as (u' & w' & Eu & Ew' & Hw' & Evv); [|assumption].
      assert (Hu' : u' <> 0) by (eapply rpow_nz; eauto).
      assert (Ey : eval r y = Some (- w)). { rewrite prodVal_1, Ew in Vy. cbn in Vy. rewrite Vy. f_equal. ring. }
      destruct (V1 w') as [N1 E1]; [rewrite Eb, (eval_P r P), Ey by assumption; exact Ew'|].
      destruct (V2 u') as [N2 E2].
      { rewrite (mext_val m m1 l1) by auto. rewrite Ea, (eval_P r P m1), Ey by assumption. exact Eu. }
      split; [eapply newVal_trans; eauto|]. exists w', u'. rewrite (mext_val m1 m2 l2) by auto. repeat split; auto.
      apply (f_equal Rinv) in Evv. rewrite Rinv_inv in Evv. rewrite Evv. field. auto.
  Qed.

  Lemma normalF_call m e : mapOK P m -> wgood st (rm m) -> wf P e -> sp (w_normalF W m e) (fun x => NRes m (eval r e) x).
  Proof.
    intros. eapply spec_weaken; [apply (so_normalF W HW); eassumption|]. intros x Hx. now apply normalRes_NRes in Hx.
  Qed.

  Lemma powerNormal_sp m0 b e : mapOK P m0 -> wgood st (rm m0) -> wf P b -> wf P e ->
    sp (powerNormal Y W m0 b e) (fun x => NRes m0 (eval r (Pow b e)) x).
  Proof.
    intros Hm0 Hg0 Hb He. unfold powerNormal.
    eapply spec_bind; [apply normalF_call; auto|]. intros [[n d] m] (l0 & X0 & Hn & Hd & V0).
    assert (Hm : mapOK P m) by apply X0. assert (Hgm : wgood st (rm m)) by apply X0.
    eapply spec_bind; [apply normal_call with (P := P); auto|]. intros x (Hx & Vx).
    assert (Hx' : forall k, wf (Pm k) x) by (intros k; now apply wf_ptmp).
    eapply spec_bind with (Q1 := fun z => z = true -> forall u w, fracIs (rm m) n d u -> eval r e = Some w -> False).
    { destruct (isUndefined n || isUndefined d || isZero d)%bool eqn:Eu.
      - apply spec_ret. intros _ u w (a & c & Ea & Ec & Hc & _) Ew. apply orb_true_iff in Eu as [Eu|Eu]; [apply orb_true_iff in Eu as [Eu|Eu]|].
        + apply isUndefined_eq in Eu. subst n. discriminate Ea.
        + apply isUndefined_eq in Eu. subst d. discriminate Ec.
        + apply (isZero_eq (Pm m)) in Eu; [|assumption]. subst d. rewrite eval_zero in Ec. injection Ec as <-. now elim Hc.
      - eapply spec_bind; [apply spec_inEnv; apply expand_call with (P := Pm m); auto|]. intros y (Hy & Vy). apply spec_ret.
        intros E u w (a & c & Ea & Ec & Hc & _) Ew. apply orb_true_iff in E as [E|E].
        + apply (isZero_eq (Pm m)) in E; [|assumption]. subst y. rewrite Ec, eval_zero in Vy. injection Vy as <-. now elim Hc.
        + apply isUndefined_eq in E. subst x. rewrite Ew in Vx. discriminate Vx. }
    intros z Hz.
    assert (Hin : forall v, eval r (Pow b e) = Some v -> exists u w, eval r b = Some u /\ eval r e = Some w /\ rpow u w = Some v).
    { intros v Ev. rewrite eval_pow in Ev. now apply opow_some in Ev. }
    assert (Hcomp : forall c, sp c (fun y => let '(n', d', m') := y in
      exists l, mext m m' l /\ wf (Pm m') n' /\ wf (Pm m') d' /\ forall u w v, fracIs (rm m) n d u -> eval r x = Some w ->
        rpow u w = Some v -> newVal m' l /\ fracIs (rm m') n' d' v) -> sp c (fun x => NRes m0 (eval r (Pow b e)) x)).
    { intros c Hc. eapply spec_weaken; [exact Hc|]. intros [[n' d'] m'] (l & X & Hn' & Hd' & V). exists (l0 ++ l).
      split; [eapply mext_trans; eauto|]. split; [assumption|]. split; [assumption|]. intros v Ev.
      destruct (Hin v Ev) as (u & w & Eu & Ew & Er). destruct (V0 u Eu) as [N0 F0]. rewrite Ew in Vx.
      destruct (V u w v F0 Vx Er) as [N F]. split; [eapply newVal_trans; eauto|assumption]. }
    destruct z.
    { apply spec_ret. exists l0. split; [exact X0|]. split; [exact I|]. split; [apply wf_one|]. intros v Ev. exfalso.
      destruct (Hin v Ev) as (u & w & Eu & Ew & Er). destruct (V0 u Eu) as [N0 F0]. eauto. }
    destruct (numericEval Y x) as [[q|dd]|] eqn:Ex.
    - destruct (qIsInt q) eqn:Ei; apply Hcomp.
      + now apply normalIntegerExp_sp.
      + now apply normalNumEvalExp_sp.
    - apply Hcomp. now apply normalNumEvalExp_sp.
    - apply Hcomp.
      eapply spec_bind with (Q1 := fun p => wf (Pm m) p /\ forall u, fracIs (rm m) n d u -> ole (opow (Some u) (eval r x)) (eval (rm m) p)).
      { apply spec_inEnv. eapply spec_bind; [apply fracEval_sp with (P := Pm m); auto|]. intros f (Hf & Vf).
        eapply spec_weaken; [apply pow_call with (P := Pm m); auto|]. intros p (Hp & Vp). split; [assumption|]. intros u Hu.
        rewrite (Vf u Hu), (eval_P r P) in Vp by assumption. exact Vp. }
      intros p (Hp & Vp). eapply spec_bind; [apply getTmp_sp; auto|]. intros [t m'] (l & X & Ht & V). cbn [fst snd] in *.
      apply spec_ret. exists l. split; [exact X|]. split; [exact Ht|]. split; [apply wf_one|]. intros u w v Fu Ew Er.
      specialize (Vp u Fu). rewrite Ew in Vp. cbn in Vp. rewrite Er in Vp. destruct (V v Vp) as [N E]. split; [exact N|].
      now apply fracIs_one.
  Qed.

  Lemma fractions_sp l : Forall (wf P) l -> forall m, mapOK P m -> wgood st (rm m) ->
    sp (fractions W m l) (fun y => exists k, mext m (snd y) k /\
      Forall (fun f => wf (Pm (snd y)) (fst f) /\ wf (Pm (snd y)) (snd f)) (fst y) /\
      forall vs, Forall2 (fun e v => eval r e = Some v) l vs ->
        newVal (snd y) k /\ Forall2 (fun f v => fracIs (rm (snd y)) (fst f) (snd f) v) (fst y) vs).
  Proof.
    induction 1 as [|e l He Hl IH]; intros m Hm Hgm; cbn [fractions].
    - apply spec_ret. exists []. cbn [fst snd]. split; [now apply mext_refl|]. split; [constructor|].
      intros vs Hvs. inversion_clear Hvs. split; [intros ? ? ? []|constructor].
    - eapply spec_bind; [apply normalF_call; auto|]. intros [[n d] m1] (l1 & X1 & Hn & Hd & V1).
      assert (O1 : mapOK P m1) by apply X1. assert (G1 : wgood st (rm m1)) by apply X1.
      eapply spec_bind; [apply IH; assumption|]. intros [f m2] (l2 & X2 & Hf & V2). cbn [fst snd] in *. apply spec_ret.
      exists (l1 ++ l2). cbn [fst snd]. split; [eapply mext_trans; eauto|]. split.
      + constructor; [|assumption]. cbn [fst snd]. split; eapply mext_wf; eauto.
      + intros vs Hvs. inversion_clear Hvs as [|? v ? vs' Ev Hvs']. destruct (V1 v Ev) as [N1 F1], (V2 vs' Hvs') as [N2 F2].
        split; [eapply newVal_trans; eauto|]. constructor; [|assumption]. cbn [fst snd].
        destruct F1 as (a & b & Ea & Eb & Hb & ->). exists a, b. rewrite !(mext_val m1 m2 l2) by auto. auto.
  Qed.

  Lemma functionNormal_sp m f l : mapOK P m -> wgood st (rm m) -> wf P (Fct f l) ->
    sp (functionNormal W m f l) (fun x => NRes m (eval r (Fct f l)) x).
  Proof.
    intros Hm Hgm Hw. unfold functionNormal.
    eapply spec_bind with (Q1 := fun t => wf P t /\ ole (eval r (Fct f l)) (eval r t)).
    { assert (Htrig : forall g a, trigF g = true -> wf P a ->
        sp (x' <- w_normal W a ;; w_trig W g x') (fun t => wf P t /\ ole (eval r (Fct g [a])) (eval r t))).
      { intros g a Hgt Ha. assert (Hg2 : g <> FAtan2) by (intros ->; discriminate Hgt).
        eapply spec_bind; [apply normal_call with (P := P); auto|]. intros a' (Ha' & Va').
        eapply spec_weaken; [apply trig_call with (P := P); auto|]. intros t (Ht & Vt). split; [assumption|]. eapply ole_trans; [|exact Vt].
        rewrite !eval_fct1 by assumption. destruct (eval r a); cbn in *; [|exact I]. rewrite Va'. apply ole_refl. }
      destruct f; cbv iota; try (destruct (fct1_inv P _ _ Hw ltac:(discriminate)) as (a & -> & Ha)).
      1-6: now apply Htrig.
      - destruct (fct2_inv P _ Hw) as (y & x & -> & Hy & Hx).
        eapply spec_bind; [apply normal_call with (P := P); auto|]. intros y' (Hy' & Vy').
        eapply spec_bind; [apply normal_call with (P := P); auto|]. intros x' (Hx' & Vx').
        eapply spec_weaken; [apply (so_atan2 W HW st r P); auto|]. intros t (Ht & Vt). split; [assumption|]. eapply ole_trans; [|exact Vt].
        cbn [eval]. destruct (eval r y); cbn in *; [|exact I]. rewrite Vy'. destruct (eval r x); cbn in *; [|exact I]. rewrite Vx'. apply ole_refl.
      - eapply spec_bind; [apply normal_call with (P := P); auto|]. intros a' (Ha' & Va').
        eapply spec_weaken; [apply (so_log W HW st r P); auto|]. intros t (Ht & Vt). split; [assumption|]. eapply ole_trans; [|exact Vt].
        cbn [eval]. destruct (eval r a); cbn in *; [|exact I]. rewrite Va'. apply ole_refl. }
    intros t (Ht & Vt). apply tmpFrac. eapply spec_weaken; [apply getTmp_sp; auto; now apply wf_ptmp|].
    intros x (k & X & Hx & V). exists k. split; [exact X|]. split; [exact Hx|]. intros v Ev. apply V.
    rewrite (eval_P r P) by assumption. rewrite Ev in Vt. exact Vt.
  Qed.

  Lemma sum_vals l v : sumVal r l = Some v -> exists vs, Forall2 (fun e w => eval r e = Some w) l vs /\ v = fold_right Rplus 0 vs.
  Proof.
    revert v. induction l as [|e l IH]; intros v Ev.
    - exists []. split; [constructor|]. rewrite sumVal_nil in Ev. now injection Ev.
    - rewrite sumVal_cons in Ev. apply oplus_some in Ev as (x & y & Ex & Ey & ->). destruct (IH y Ey) as (vs & Hvs & ->).
      exists (x :: vs). split; [now constructor|reflexivity].
  Qed.
  Lemma prod_vals l v : prodVal r l = Some v -> exists vs, Forall2 (fun e w => eval r e = Some w) l vs /\ v = fold_right Rmult 1 vs.
  Proof.
    revert v. induction l as [|e l IH]; intros v Ev.
    - exists []. split; [constructor|]. rewrite prodVal_nil in Ev. now injection Ev.
    - rewrite prodVal_cons in Ev. apply omult_some in Ev as (x & y & Ex & Ey & ->). destruct (IH y Ey) as (vs & Hvs & ->).
      exists (x :: vs). split; [now constructor|reflexivity].
  Qed.
  Lemma fold_plus vs : forall v, fold_left Rplus vs v = v + fold_right Rplus 0 vs.
  Proof. induction vs as [|w vs IH]; intros v; cbn; [lra|]. rewrite IH. lra. Qed.
  Lemma frac_prod r' f vs : Forall2 (fun f v => fracIs r' (fst f) (snd f) v) f vs ->
    exists a b, prodVal r' (map fst f) = Some a /\ prodVal r' (map snd f) = Some b /\ b <> 0 /\ fold_right Rmult 1 vs = a / b.
  Proof.
    induction 1 as [|[n d] v f vs (a & b & Ea & Eb & Hb & ->) _ IH]; cbn [map fst snd fold_right] in *.
    - exists 1, 1. repeat split; auto; lra.
    - destruct IH as (a' & b' & Ea' & Eb' & Hb' & ->). exists (a * a'), (b * b'). rewrite !prodVal_cons, Ea, Eb, Ea', Eb'. cbn.
      split; [reflexivity|]. split; [reflexivity|]. split; [now apply Rmult_integral_contrapositive_currified|field; auto].
  Qed.

  Lemma normalF_sp m e : mapOK P m -> wgood st (rm m) -> wf P e ->
    sp (normalF Y W fuel m e) (normalRes st r P m e).
  Proof.
    intros Hm Hgm Hw. eapply spec_weaken with (Q1 := fun x => NRes m (eval r e) x); [|intros x Hx; now apply NRes_normalRes in Hx].
    destruct e as [q|n p|c| |f l|l|l|b x]; cbn [normalF].
    - apply spec_ret. exists []. split; [now apply mext_refl|]. split; [apply wf_num|]. split; [apply wf_num|].
      intros v Ev. split; [intros ? ? ? []|]. eexists _, _. rewrite !eval_num_z. split; [reflexivity|]. split; [reflexivity|].
      split; [apply not_0_IZR; lia|]. cbn in Ev. injection Ev as <-. unfold Q2R. reflexivity.
    - apply spec_ret. exists []. split; [now apply mext_refl|]. split; [now left|]. split; [apply wf_one|].
      intros v Ev. split; [intros ? ? ? []|]. apply fracIs_one. rewrite (eval_P r P); auto.
    - apply tmpFrac. eapply spec_weaken; [apply getTmp_sp; auto; exact I|]. intros x (k & X & Hx & V). exists k. auto.
    - apply spec_ret. exists []. split; [now apply mext_refl|]. split; [exact I|]. split; [apply wf_one|]. intros v Ev. discriminate Ev.
    - now apply functionNormal_sp.
    - eapply spec_bind; [apply expand_call with (P := P); auto|]. intros z (Hz & Vz). destruct (isZero z) eqn:Ez.
      + apply (isZero_eq P) in Ez; [|assumption]. subst z. apply spec_ret. exists []. split; [now apply mext_refl|].
        split; [apply wf_zero|]. split; [apply wf_one|]. intros v Ev. split; [intros ? ? ? []|]. rewrite Ev, eval_zero in Vz. injection Vz as <-.
        apply fracIs_one. apply eval_zero.
      + apply wf_sum in Hw. eapply spec_bind; [apply fractions_sp; auto|]. intros [f m'] (k & X & Hf & V). cbn [fst snd] in *.
        destruct f as [|[n d] f]; [exact I|]. inversion_clear Hf as [|? ? [Hn Hd] Hf']. cbn [fst snd] in *.
        eapply spec_bind; [apply spec_inEnv; apply commonDenom_sp with (P := Pm m'); auto; apply X|].
        intros [n' d'] (Hn' & Hd' & V'). cbn [fst snd] in *. apply spec_ret. exists k. split; [exact X|]. split; [assumption|]. split; [assumption|].
        intros v Ev. rewrite eval_sum in Ev. destruct (sum_vals l v Ev) as (vs & Hvs & ->). destruct (V vs Hvs) as [N F]. split; [exact N|].
        inversion F as [|? w ? ws Fw Fws Ea Eb]. subst. cbn [fst snd fold_right] in *. rewrite <- fold_plus. now apply V'.
    - eapply spec_bind; [apply expand_call with (P := P); auto|]. intros z (Hz & Vz). destruct (isZero z) eqn:Ez.
      + apply (isZero_eq P) in Ez; [|assumption]. subst z. apply spec_ret. exists []. split; [now apply mext_refl|].
        split; [apply wf_zero|]. split; [apply wf_one|]. intros v Ev. split; [intros ? ? ? []|]. rewrite Ev, eval_zero in Vz. injection Vz as <-.
        apply fracIs_one. apply eval_zero.
      + apply wf_prod in Hw. eapply spec_bind; [apply fractions_sp; auto|]. intros [f m'] (k & X & Hf & V). cbn [fst snd] in *.
        assert (Gm' : wgood st (rm m')) by apply X.
        assert (Hfn : Forall (wf (Pm m')) (map fst f) /\ Forall (wf (Pm m')) (map snd f)).
        { clear -Hf. induction Hf as [|[a b] f [Ha Hb] _ IH]; cbn; [split; constructor|]. cbn in *. destruct IH. split; constructor; auto. }
        destruct Hfn as [Hfn Hfd].
        eapply spec_bind with (Q1 := fun x => wf (Pm m') (fst x) /\ wf (Pm m') (snd x) /\
          forall a b, prodVal (rm m') (map fst f) = Some a -> prodVal (rm m') (map snd f) = Some b -> b <> 0 -> fracIs (rm m') (fst x) (snd x) (a / b)).
        { apply spec_inEnv. eapply spec_bind; [apply prod_call with (P := Pm m'); auto|]. intros n (Hn & Vn).
          eapply spec_bind; [apply prod_call with (P := Pm m'); auto|]. intros d (Hd & Vd).
          eapply spec_weaken; [apply cancel_sp with (P := Pm m'); auto|]. intros y (H1 & H2 & H3). split; [assumption|]. split; [assumption|].
          intros a b Ea Eb Hb. apply H3. rewrite Ea in Vn. rewrite Eb in Vd. exists a, b. auto. }
        intros [n' d'] (Hn' & Hd' & V'). cbn [fst snd] in *. apply spec_ret. exists k. split; [exact X|]. split; [assumption|]. split; [assumption|].
        intros v Ev. rewrite eval_prod in Ev. destruct (prod_vals l v Ev) as (vs & Hvs & ->). destruct (V vs Hvs) as [N F]. split; [exact N|].
        destruct (frac_prod _ _ _ F) as (a & b & Ea & Eb & Hb & ->). now apply V'.
    - apply wf_pow in Hw as [Hb Hx]. now apply powerNormal_sp.
  Qed.

  (** ** Putting the terms back *)
  Lemma substAll_sp m l : mapOK P m -> wgood st (rm m) -> (forall x, In x l -> In x (m_list m)) -> forall e, wf (Pm m) e ->
    spec (holds st (rm m)) (substAll W l e) (fun e' => wf (Pm m) e' /\ (newVal m l -> ole (eval (rm m) e) (eval (rm m) e'))).
  Proof.
    intros Hm Hgm. induction l as [|[[n p] t] l IH]; intros Hin e He; cbn [substAll].
    - apply spec_ret. split; [assumption|]. intros _. apply ole_refl.
    - assert (Hent : In (n, p, t) (m_list m)) by (apply Hin; now left).
      assert (Ht : wf (Pm m) t) by (eapply entry_wf; eauto).
      eapply spec_bind; [apply (so_subst W HW st (rm m) (Pm m)); auto; eapply wf_mono; [|exact He]; intros; now left|].
      intros e1 (He1 & V1). eapply spec_weaken; [apply IH; auto; intros; apply Hin; now right|]. intros e' (He' & V').
      split; [assumption|]. intros HN. eapply ole_trans; [|apply V'; intros k q u Hu; apply (HN k q); now right].
      destruct (eval (rm m) t) as [v|] eqn:Ev; [|exfalso; apply (HN n p t); [now left|assumption]].
      specialize (V1 v eq_refl). assert (Er : rm m n p = v) by (eapply entry_val; eauto).
      erewrite (eval_agree (Pm m)); [exact V1|assumption|]. intros k q _. unfold upd.
      destruct (nameEq n k && Bool.eqb p q) eqn:E; [|reflexivity]. apply andb_true_iff in E as [E1 E2].
      apply nameEq_eq in E1. apply Bool.eqb_prop in E2. now subst.
  Qed.
  Lemma replaceBack_sp m : mapOK P m -> wgood st (rm m) -> forall k e, wf (Pm m) e ->
    sp (replaceBack W k m e) (fun e' => wf (Pm m) e' /\ (newVal m (m_list m) -> ole (eval (rm m) e) (eval (rm m) e'))).
  Proof.
    intros Hm Hgm. induction k as [|k IH]; intros e He; cbn [replaceBack]; [exact I|].
    eapply spec_bind; [apply spec_inEnv; apply substAll_sp; auto|]. intros e1 (H1 & V1).
    destruct (isUndefined e1); [apply spec_ret; auto|]. destruct (negb _); [|apply spec_ret; auto].
    eapply spec_weaken; [apply IH; assumption|]. intros e' (H' & V'). split; [assumption|]. intros HN. eapply ole_trans; [apply V1|apply V']; assumption.
  Qed.
  Lemma noneLeft_wf m e : wf (Pm m) e -> noneLeft m e = true -> wf P e.
  Proof.
    intros He Hn. eapply wf_noneLeft; [exact He|]. intros n p t Hin. unfold noneLeft in Hn. rewrite forallb_forall in Hn.
    specialize (Hn _ Hin). cbn in Hn. now apply negb_true_iff in Hn.
  Qed.
End Normal2.

Section Top.
  Variables (Y : sys) (W : oper).
  Hypothesis HW : soundOps W.
  Variables (st : bool) (r : env) (P : name -> bool -> Prop).
  Hypothesis Hg : wgood st r.
  Variable fuel : nat.

  Lemma normalTop_sp e : wf P e ->
    spec (holds st r) (normalTop W fuel e) (fun e' => wf P e' /\ ole (eval r e) (eval r e')).
  Proof.
    intros Hw. set (P' := fun n p => P n p /\ (String.length (nvalue n) < S (nameLen e))%nat).
    assert (Hw' : wf P' e) by now apply wf_nameLen.
    eapply spec_weaken with (Q1 := fun e' => wf P' e' /\ ole (eval r e) (eval r e')).
    2:{ intros e' (H1 & H2). split; [|assumption]. eapply wf_mono; [|exact H1]. intros n p [Hn _]. exact Hn. }
    unfold normalTop. set (m0 := mkMap _ []).
    assert (Hm0 : mapOK P' m0).
    { split; [intros n p [_ Hn]; exact Hn|]. cbn. intros [|i] n p t Hi; discriminate Hi. }
    eapply spec_bind; [apply normalF_call with (P := P'); auto|]. intros [[n d] m] (l & X & Hn & Hd & V).
    assert (Hm : mapOK P' m) by apply X. assert (Hgm : wgood st (ext r (m_list m))) by apply X.
    assert (El : m_list m = l) by (destruct X as (_ & L & _); exact L).
    eapply spec_bind; [apply replaceBack_sp with (P := P'); auto|]. intros n' (Hn' & Vn').
    eapply spec_bind; [apply replaceBack_sp with (P := P'); auto|]. intros d' (Hd' & Vd').
    eapply spec_bind; [apply spec_relyIf'|]. intros un E. cbn [holds] in E.
    destruct (noneLeft m n') eqn:En; [|now elim E]. destruct (noneLeft m d') eqn:Ed; [|now elim E]. clear E.
    apply noneLeft_wf with (P := P') in En; [|assumption]. apply noneLeft_wf with (P := P') in Ed; [|assumption].
    eapply spec_weaken; [apply fracEval_sp with (P := P'); auto|]. intros e' (He' & Ve'). split; [assumption|].
    apply ole_intro. intros v Ev. apply Ve'. destruct (V v Ev) as [N (a & b & Ea & Eb & Hb & Hv)]. rewrite <- El in N.
    specialize (Vn' N). specialize (Vd' N). rewrite Ea in Vn'. rewrite Eb in Vd'. cbn in Vn', Vd'.
    rewrite (eval_P r P' m) in Vn' by assumption. rewrite (eval_P r P' m) in Vd' by assumption.
    exists a, b. auto.
  Qed.
End Top.
