(** Normalisation preserves the value. *)
From Verif Require Export PolyProofs TrigProofs2 NormalModel.
From Coq Require Import Lra Lia.
Open Scope R_scope.

(** ** Temporary symbols *)
Lemma tmpNm_length k : String.length (nvalue (tmpNm k)) = (3 + k)%nat.
Proof. cbn. do 3 f_equal. induction k; cbn; congruence. Qed.
Lemma ext_app r l1 l2 : ext r (l1 ++ l2) = ext (ext r l1) l2.
Proof. apply fold_left_app. Qed.
Lemma upd_other r n p v m q : n <> m -> upd r n p v m q = r m q.
Proof.
  intros Hne. unfold upd. destruct (nameEq n m) eqn:E; [|reflexivity]. apply nameEq_eq in E. congruence.
Qed.
Lemma ext_other l : forall r m q, (forall n p t, In (n, p, t) l -> n <> m) -> ext r l m q = r m q.
Proof.
  induction l as [|[[n p] t] l IH]; intros r m q Hl; [reflexivity|]. unfold ext. cbn [fold_left]. fold (ext (ext1 r (n, p, t)) l).
  rewrite IH; [|intros; eapply Hl; right; eassumption]. apply upd_other. apply (Hl n p t). now left.
Qed.
Lemma In_nth {A} (x : A) l : In x l -> exists i, nth_error l i = Some x.
Proof. apply In_nth_error. Qed.

Section Maps.
  Variables (r : env) (P : name -> bool -> Prop).

  Lemma mapOK_name m n p t : mapOK P m -> In (n, p, t) (m_list m) ->
    exists i, (i < length (m_list m))%nat /\ n = tmpNm (m_base m + i).
  Proof.
    intros [_ Hm] Hin. apply In_nth in Hin as [i Hi]. exists i. split; [|now apply (Hm i) in Hi].
    apply nth_error_Some. congruence.
  Qed.
  Lemma ext_P m n p : mapOK P m -> P n p -> ext r (m_list m) n p = r n p.
  Proof.
    intros Hm Hn. apply ext_other. intros k q t Hin E. subst k. destruct (mapOK_name _ _ _ _ Hm Hin) as (i & _ & ->).
    apply (proj1 Hm) in Hn. rewrite tmpNm_length in Hn. lia.
  Qed.
  Lemma ext_more m m' l n p : mapOK P m' -> m_base m' = m_base m -> m_list m' = m_list m ++ l ->
    mapOK P m -> ptmp P (m_list m) n p -> ext r (m_list m') n p = ext r (m_list m) n p.
  Proof.
    intros Hm' Eb El Hm Hn. rewrite El, ext_app. apply ext_other. intros k q t Hin E. subst k.
    apply In_nth in Hin as [i Hi].
    assert (Hi' : nth_error (m_list m') (length (m_list m) + i) = Some (n, q, t)).
    { rewrite El, nth_error_app2 by lia. now replace (length (m_list m) + i - length (m_list m))%nat with i by lia. }
    destruct Hm' as [Hb Hm']. destruct (Hm' _ _ _ _ Hi') as [En _]. destruct Hn as [Hn|[t' Hn]].
    - apply Hb in Hn. rewrite En, tmpNm_length in Hn. lia.
    - destruct (mapOK_name _ _ _ _ Hm Hn) as (j & Hj & En'). rewrite En in En'.
      apply (f_equal (fun x => String.length (nvalue x))) in En'. rewrite !tmpNm_length in En'. lia.
  Qed.
  Lemma ptmp_mono l l' n p : (forall x, In x l -> In x l') -> ptmp P l n p -> ptmp P l' n p.
  Proof. intros Hl [Hn|[t Ht]]; [now left|right; eauto]. Qed.
  Lemma wf_ptmp l e : wf P e -> wf (ptmp P l) e.
  Proof. apply wf_mono. intros n p Hn. now left. Qed.
  Lemma wf_more l l' e : wf (ptmp P l) e -> wf (ptmp P (l ++ l')) e.
  Proof. apply wf_mono. intros n p. apply ptmp_mono. intros x Hx. apply in_or_app. now left. Qed.
  Lemma eval_P m e : mapOK P m -> wf P e -> eval (ext r (m_list m)) e = eval r e.
  Proof. intros Hm He. apply (eval_agree P); [assumption|]. intros n p Hn. now apply ext_P. Qed.
  Lemma eval_more m m' l e : mapOK P m' -> m_base m' = m_base m -> m_list m' = m_list m ++ l ->
    mapOK P m -> wf (ptmp P (m_list m)) e -> eval (ext r (m_list m')) e = eval (ext r (m_list m)) e.
  Proof. intros. eapply eval_agree; [eassumption|]. intros. eapply ext_more; eauto. Qed.

  Definition prefix (i : nat) (m : smap) : smap := mkMap (m_base m) (firstn i (m_list m)).
  Lemma prefix_ok i m : mapOK P m -> mapOK P (prefix i m).
  Proof.
    intros [Hb Hm]. split; [exact Hb|]. cbn [prefix m_list m_base]. intros j n p t Hj.
    assert (Hlt : (j < i)%nat).
    { assert (Hs : nth_error (firstn i (m_list m)) j <> None) by congruence. apply nth_error_Some in Hs.
      rewrite firstn_length in Hs. lia. }
    assert (Hj' : nth_error (m_list m) j = Some (n, p, t)).
    { rewrite <- (firstn_skipn i (m_list m)). rewrite nth_error_app1; [exact Hj|]. apply nth_error_Some. congruence. }
    destruct (Hm _ _ _ _ Hj') as [-> Ht]. split; [reflexivity|]. rewrite firstn_firstn. now replace (Nat.min j i) with j by lia.
  Qed.

  (** A temporary symbol has the value of its term. *)
  Lemma entry_val m n p t v : mapOK P m -> In (n, p, t) (m_list m) -> eval (ext r (m_list m)) t = Some v ->
    ext r (m_list m) n p = v.
  Proof.
    intros Hm Hin Ev. apply In_nth in Hin as [i Hi]. pose proof (proj2 Hm _ _ _ _ Hi) as [En Ht].
    assert (El : m_list m = firstn i (m_list m) ++ skipn i (m_list m)) by (symmetry; apply firstn_skipn).
    assert (Ev' : eval (ext r (firstn i (m_list m))) t = Some v).
    { rewrite <- Ev. symmetry. apply (eval_more (prefix i m) m (skipn i (m_list m))); auto. now apply prefix_ok. }
    assert (El2 : m_list m = firstn (S i) (m_list m) ++ skipn (S i) (m_list m)) by (symmetry; apply firstn_skipn).
    assert (Es : firstn (S i) (m_list m) = firstn i (m_list m) ++ [(n, p, t)]).
    { clear -Hi. revert Hi. generalize (m_list m) as l. induction i as [|i IH]; intros [|x l] Hi; try discriminate Hi; cbn in Hi |- *.
      - now injection Hi as ->.
      - f_equal. now apply IH. }
    transitivity (ext r (firstn (S i) (m_list m)) n p).
    - apply (ext_more (prefix (S i) m) m (skipn (S i) (m_list m))); auto; [now apply prefix_ok|].
      right. exists t. cbn [prefix m_list]. rewrite Es. apply in_or_app. right. now left.
    - rewrite Es, ext_app. unfold ext at 1. cbn [fold_left ext1]. rewrite Ev'. apply upd_same.
  Qed.

  Lemma wf_noneLeft l e : wf (ptmp P l) e -> (forall n p t, In (n, p, t) l -> has e (Sym n p) = false) -> wf P e.
  Proof.
    induction e as [q|n p|c| |f k IH|k IH|k IH|b y IHb IHy] using expr_ind2; intros Hw Hh; auto.
    - destruct Hw as [Hw|[t Hin]]; [exact Hw|]. specialize (Hh n p t Hin). cbn in Hh. now rewrite nameEq_refl, Bool.eqb_reflx in Hh.
    - apply wf_ops in Hw as [Hl Hw]. apply wf_ops. split; [assumption|]. rewrite Forall_forall in *. intros x Hx. apply IH; auto.
      intros n p t Hin. specialize (Hh n p t Hin). cbn [has] in Hh. apply orb_false_elim in Hh as [_ Hh].
      destruct (has x (Sym n p)) eqn:E; [|reflexivity]. assert (existsb (fun x => has x (Sym n p)) k = true) by (apply existsb_exists; eauto). congruence.
    - apply wf_sum in Hw. apply wf_sum. rewrite Forall_forall in *. intros x Hx. apply IH; auto.
      intros n p t Hin. specialize (Hh n p t Hin). cbn [has] in Hh. apply orb_false_elim in Hh as [_ Hh].
      destruct (has x (Sym n p)) eqn:E; [|reflexivity]. assert (existsb (fun x => has x (Sym n p)) k = true) by (apply existsb_exists; eauto). congruence.
    - apply wf_prod in Hw. apply wf_prod. rewrite Forall_forall in *. intros x Hx. apply IH; auto.
      intros n p t Hin. specialize (Hh n p t Hin). cbn [has] in Hh. apply orb_false_elim in Hh as [_ Hh].
      destruct (has x (Sym n p)) eqn:E; [|reflexivity]. assert (existsb (fun x => has x (Sym n p)) k = true) by (apply existsb_exists; eauto). congruence.
    - apply wf_pow in Hw as [Hb Hy]. apply wf_pow. split; [apply IHb|apply IHy]; auto; intros n p t Hin; specialize (Hh n p t Hin);
        cbn [has] in Hh; apply orb_false_elim in Hh as [_ Hh]; now apply orb_false_elim in Hh.
  Qed.
End Maps.

Lemma wf_nameLen P e : wf P e -> wf (fun n p => P n p /\ (String.length (nvalue n) < S (nameLen e))%nat) e.
Proof.
  assert (HL : forall l x, In x l -> (nameLen x <= fold_right (fun x a => Nat.max (nameLen x) a) 0 l)%nat).
  { induction l as [|y l IH]; intros x Hx; [destruct Hx|]. destruct Hx as [->|Hx]; cbn [fold_right]; [lia|]. specialize (IH x Hx). lia. }
  induction e as [q|n p|c| |f k IH|k IH|k IH|b y IHb IHy] using expr_ind2; intros Hw; auto.
  - cbn. split; [exact Hw|lia].
  - apply wf_ops in Hw as [Hl Hw]. apply wf_ops. split; [assumption|]. rewrite Forall_forall in *. intros x Hx.
    eapply wf_mono; [|apply IH; auto]. cbn beta. intros n p [Hn Hlt]. split; [assumption|]. cbn [nameLen]. specialize (HL k x Hx). lia.
  - apply wf_sum in Hw. apply wf_sum. rewrite Forall_forall in *. intros x Hx.
    eapply wf_mono; [|apply IH; auto]. cbn beta. intros n p [Hn Hlt]. split; [assumption|]. cbn [nameLen]. specialize (HL k x Hx). lia.
  - apply wf_prod in Hw. apply wf_prod. rewrite Forall_forall in *. intros x Hx.
    eapply wf_mono; [|apply IH; auto]. cbn beta. intros n p [Hn Hlt]. split; [assumption|]. cbn [nameLen]. specialize (HL k x Hx). lia.
  - apply wf_pow in Hw as [Hb Hy]. apply wf_pow. specialize (IHb Hb). specialize (IHy Hy).
    split; [eapply wf_mono; [|exact IHb]|eapply wf_mono; [|exact IHy]]; cbn beta; intros n p [Hn Hlt]; (split; [assumption|]); cbn [nameLen]; lia.
Qed.

(** ** Fractions *)
Section Frac.
  Variables (Y : sys) (W : oper).
  Hypothesis HW : soundOps W.
  Variables (st : bool) (r : env) (P : name -> bool -> Prop).
  Hypothesis Hg : wgood st r.
  Notation sp := (spec (holds st r)).
  Notation hasVal := (hasVal r).
  Variable fuel : nat.

  Lemma polyOK_sp L g : Forall (wf P) L -> polyOK L g = true -> wf P g /\ hasVal g.
  Proof.
    intros HL. induction g as [q|n p|c| |f k IH|k IH|k IH|b y IHb IHy] using expr_ind2; cbn [polyOK]; try discriminate.
    - intros E. apply Z.eqb_eq in E. split; [exact E|]. eexists. reflexivity.
    - intros E. apply existsb_exists in E as (x & Hx & E). apply isEqual_eq in E. subst x. split; [|eexists; reflexivity].
      rewrite Forall_forall in HL. now apply HL.
    - intros E. rewrite forallb_forall in E. split.
      + apply wf_sum. rewrite Forall_forall. intros x Hx. apply IH; auto.
      + clear -IH E. induction k as [|x k IHk]; [eexists; reflexivity|].
        destruct (IH x) as [_ [v Ev]]; [now left|apply E; now left|].
        destruct IHk as [w Ew]; [intros; apply IH; auto; now right|intros; apply E; now right|].
        exists (v + w). rewrite eval_sum, sumVal_cons, Ev, <- eval_sum, Ew. reflexivity.
    - intros E. rewrite forallb_forall in E. split.
      + apply wf_prod. rewrite Forall_forall. intros x Hx. apply IH; auto.
      + destruct (prodVal_all r k) as [v Ev]; [intros x Hx; apply IH; auto|]. exists v. exact Ev.
    - destruct y; try discriminate. rewrite !andb_true_iff. intros [[[E1 E2] E3] E4]. apply Z.eqb_eq in E2.
      destruct (IHb E1) as [Hb [v Ev]]. split; [apply wf_pow; split; [assumption|exact E2]|].
      apply qIsInt_iff in E3 as Ez. apply qltb_lt in E4. apply Qlt_Rlt in E4. rewrite Ez in E4.
      change (Q2R 0) with (Q2R (0 # 1)) in E4. rewrite (Q2R_IZR 0) in E4. apply lt_IZR in E4.
      exists (powerRZ v (qnum q)). rewrite eval_pow, Ev. cbn [opow eval]. rewrite Ez. apply rpow_intnn. lia.
  Qed.
  Lemma listOfSymbols_wf u v : wf P u -> wf P v -> Forall (wf P) (listOfSymbols Y u v).
  Proof. intros Hu Hv. generalize (listOfSymbols_sp Y P u v Hu Hv). apply Forall_impl. tauto. Qed.

  Lemma polyGcd_sp u v : wf P u -> wf P v -> sp (polyGcd Y W u v) (fun g => wf P g /\ hasVal g).
  Proof.
    intros Hu Hv. unfold polyGcd. eapply spec_bind; [apply spec_true|]. intros g _.
    eapply spec_bind; [apply spec_relyIf'|]. intros un E. cbn [holds] in E. apply spec_ret.
    apply (polyOK_sp (listOfSymbols Y u v)); [now apply listOfSymbols_wf|]. destruct (polyOK _ g); [reflexivity|]. cbn in E. tauto.
  Qed.
  Lemma exactDivide_sp u g : wf P u -> wf P g ->
    sp (exactDivide Y W fuel u g) (fun q => wf P q /\ forall a b, eval r u = Some a -> eval r g = Some b ->
      exists c, eval r q = Some c /\ a = c * b).
  Proof.
    intros Hu Hgg. unfold exactDivide. eapply spec_bind; [apply polyDivide_sp with (P := P); assumption|].
    intros [q s] (Hq & Hs & Hd). cbn [fst snd] in *. eapply spec_bind; [apply spec_relyIf'|]. intros un E. cbn [holds] in E.
    eapply spec_bind; [apply relyZero_sp with (P := P); assumption|]. intros un2 Hz. apply spec_ret. split; [assumption|].
    intros a b Ea Eb. destruct Hd as [[_ Hd]|Hd]; [injection Hd as -> ->; now elim E|].
    destruct (Hd a b Ea Eb) as (c & d & Ec & Ed & Eq). exists c. split; [assumption|]. rewrite (Hz d Ed) in Eq. lra.
  Qed.
  Lemma relyFactor_sp u g : wf P u -> wf P g ->
    sp (relyFactor Y W fuel u g) (fun _ => forall a b, eval r u = Some a -> a <> 0 -> eval r g = Some b -> b <> 0).
  Proof.
    intros Hu Hgg. unfold relyFactor.
    assert (Hr : sp (rely (CNonZero g)) (fun _ => forall a b, eval r u = Some a -> a <> 0 -> eval r g = Some b -> b <> 0)).
    { eapply spec_weaken; [apply spec_rely'|]. intros un Hh a b _ _ Eb. cbn in Hh. congruence. }
    pose proof (polyDivide_sp Y W HW st r P Hg fuel u g Hu Hgg) as Hs.
    destruct (polyDivide Y W fuel u g) as [[q s] l| | |]; try exact Hr. destruct (isZero s) eqn:Ez; [|exact Hr].
    cbn [spec] in Hs |- *. intros Hl. destruct (Hs Hl) as (Hq & Hs' & Hd). cbn [fst snd] in *. intros a b Ea Ha Eb.
    destruct Hd as [[_ Hd]|Hd]; [injection Hd as -> ->; discriminate Ez|]. destruct (Hd a b Ea Eb) as (c & d & Ec & Ed & Eq).
    apply (isZero_eq P) in Ez; [|assumption]. subst s. rewrite eval_zero in Ed. injection Ed as <-. intros ->. apply Ha. lra.
  Qed.

  Lemma fracEval_sp n d : wf P n -> wf P d ->
    sp (fracEval W n d) (fun e => wf P e /\ forall v, fracIs r n d v -> eval r e = Some v).
  Proof.
    intros Hn Hd. unfold fracEval. eapply spec_bind; [apply oneOver_sp with (P := P); assumption|]. intros i (Hi & Vi).
    eapply spec_weaken; [apply prod_call with (P := P); auto|]. intros e (He & Ve). split; [assumption|].
    intros v (a & b & Ea & Eb & Hb & ->). rewrite prodVal_cons, prodVal_1, Ea, (Vi b Eb Hb) in Ve. exact Ve.
  Qed.

  Definition fracOK (n d : expr) (x : expr * expr) : Prop :=
    wf P (fst x) /\ wf P (snd x) /\ forall v, fracIs r n d v -> fracIs r (fst x) (snd x) v.

  Lemma fracIs_one e v : eval r e = Some v -> fracIs r e one v.
  Proof. intros E. exists v, 1. rewrite eval_one. repeat split; auto; lra. Qed.

  Lemma cancel_sp n d : wf P n -> wf P d -> sp (cancel Y W fuel n d) (fracOK n d).
  Proof.
    intros Hn Hd. unfold cancel. destruct (isOne d) eqn:E1.
    { apply (isOne_eq P) in E1; [|assumption]. subst d. apply spec_ret. split; [exact Hn|]. split; [exact Hd|]. auto. }
    destruct (isZero n) eqn:E2.
    { apply (isZero_eq P) in E2; [|assumption]. subst n. apply spec_ret. split; [exact Hn|]. split; [apply wf_one|].
      intros v (a & b & Ea & Eb & Hb & ->). rewrite eval_zero in Ea. injection Ea as <-. apply fracIs_one. rewrite eval_zero. f_equal. cbn. field. assumption. }
    eapply spec_bind; [apply expand_call with (P := P); auto|]. intros x (Hx & Vx). destruct (isZero x) eqn:E3.
    { apply (isZero_eq P) in E3; [|assumption]. subst x. apply spec_ret. split; [exact I|]. split; [apply wf_one|].
      intros v (a & b & Ea & Eb & Hb & ->). rewrite Eb, eval_zero in Vx. injection Vx as <-. now elim Hb. }
    eapply spec_bind; [apply polyGcd_sp; assumption|]. intros g (Hgg & [c Ec]).
    eapply spec_bind; [apply exactDivide_sp; assumption|]. intros d' (Hd' & Vd).
    eapply spec_bind; [apply exactDivide_sp; assumption|]. intros n' (Hn' & Vn). apply spec_ret. split; [exact Hn'|]. split; [exact Hd'|].
    intros v (a & b & Ea & Eb & Hb & ->). destruct (Vd b c Eb Ec) as (qd & Eqd & ->). destruct (Vn a c Ea Ec) as (qn & Eqn & ->).
    exists qn, qd. repeat split; auto.
    - intros ->. apply Hb. ring.
    - field. split; intros ->; apply Hb; ring.
  Qed.

  Lemma commonDenom_sp l : Forall (fun x => wf P (fst x) /\ wf P (snd x)) l -> forall n d, wf P n -> wf P d ->
    sp (commonDenom Y W fuel n d l) (fun x => wf P (fst x) /\ wf P (snd x) /\
      forall v vs, fracIs r n d v -> Forall2 (fun f w => fracIs r (fst f) (snd f) w) l vs ->
        fracIs r (fst x) (snd x) (fold_left Rplus vs v)).
  Proof.
    induction 1 as [|[n2 d2] l [Hn2 Hd2] Hl IH]; intros n d Hn Hd; cbn [commonDenom fst snd] in *.
    - eapply spec_weaken; [apply cancel_sp; assumption|]. intros x (H1 & H2 & H3). repeat split; auto.
      intros v vs Hv Hvs. inversion_clear Hvs. now apply H3.
    - destruct (isEqual d d2) eqn:E.
      + apply isEqual_eq in E. subst d2. eapply spec_bind; [apply sum_call with (P := P); auto|]. intros n' (Hn' & Vn').
        eapply spec_weaken; [apply IH; assumption|]. intros x (H1 & H2 & H3). repeat split; auto.
        intros v vs Hv Hvs. inversion_clear Hvs as [|? w ? vs' Hw Hvs']. cbn [fold_left fst snd] in *. apply H3; [|assumption].
        destruct Hv as (a & b & Ea & Eb & Hb & ->), Hw as (a2 & b2 & Ea2 & Eb2 & Hb2 & ->). rewrite Eb in Eb2. injection Eb2 as <-.
        rewrite sum2, Ea, Ea2 in Vn'. cbn in Vn'. exists (a + a2), b. repeat split; auto. field. assumption.
      + eapply spec_bind; [apply polyGcd_sp; [exact Hd|exact Hd2]|]. intros g (Hgg & [c Ec]).
        eapply spec_bind; [apply relyFactor_sp; assumption|]. intros un Hf.
        eapply spec_bind; [apply oneOver_sp with (P := P); assumption|]. intros i (Hi & Vi).
        eapply spec_bind; [apply prod_call with (P := P); auto|]. intros t1 (Ht1 & Vt1).
        eapply spec_bind; [apply expand_call with (P := P); auto|]. intros lcm (Hlcm & Vlcm).
        eapply spec_bind; [apply prod_call with (P := P); auto|]. intros t2 (Ht2 & Vt2).
        eapply spec_bind; [apply normal_call with (P := P); auto|]. intros fac (Hfac & Vfac).
        eapply spec_bind; [apply prod_call with (P := P); auto|]. intros t3 (Ht3 & Vt3).
        eapply spec_bind; [apply expand_call with (P := P); auto|]. intros x1 (Hx1 & Vx1).
        eapply spec_bind; [apply prod_call with (P := P); auto|]. intros t4 (Ht4 & Vt4).
        eapply spec_bind; [apply expand_call with (P := P); auto|]. intros x2 (Hx2 & Vx2).
        eapply spec_bind; [apply sum_call with (P := P); auto|]. intros t5 (Ht5 & Vt5).
        eapply spec_bind; [apply normal_call with (P := P); auto|]. intros n' (Hn' & Vn').
        eapply spec_bind; [apply prod_call with (P := P); auto|]. intros t6 (Ht6 & Vt6).
        eapply spec_bind; [apply normal_call with (P := P); auto|]. intros d' (Hd' & Vd').
        eapply spec_weaken; [apply IH; assumption|]. intros x (H1 & H2 & H3). repeat split; auto.
        intros v vs Hv Hvs. inversion_clear Hvs as [|? w ? vs' Hw Hvs']. cbn [fold_left fst snd] in *. apply H3; [|assumption].
        destruct Hv as (a & b & Ea & Eb & Hb & ->), Hw as (a2 & b2 & Ea2 & Eb2 & Hb2 & ->).
        assert (Hc : c <> 0) by (eapply Hf; eassumption). specialize (Vi c Ec Hc).
        rewrite prodVal_cons, prodVal_1, Eb2, Vi in Vt1. cbn in Vt1. rewrite Vt1 in Vlcm. cbn in Vlcm.
        rewrite prodVal_cons, prodVal_1, Eb, Vi in Vt2. cbn in Vt2. rewrite Vt2 in Vfac. cbn in Vfac.
        rewrite prodVal_cons, prodVal_1, Ea, Vlcm in Vt3. cbn in Vt3. rewrite Vt3 in Vx1. cbn in Vx1.
        rewrite prodVal_cons, prodVal_1, Ea2, Vfac in Vt4. cbn in Vt4. rewrite Vt4 in Vx2. cbn in Vx2.
        rewrite sum2, Vx1, Vx2 in Vt5. cbn in Vt5. rewrite Vt5 in Vn'. cbn in Vn'.
        rewrite prodVal_cons, prodVal_1, Eb, Vlcm in Vt6. cbn in Vt6. rewrite Vt6 in Vd'. cbn in Vd'.
        eexists _, _. split; [exact Vn'|]. split; [exact Vd'|]. split.
        * apply Rmult_integral_contrapositive_currified; [assumption|]. apply Rmult_integral_contrapositive_currified; [assumption|]. now apply Rinv_neq_0_compat.
        * field. auto.
  Qed.
End Frac.
