(** The derivative has a value: no Undefined at smooth points. *)
From Verif Require Export DiffProofs.
From Coq Require Import Lra Lia.
From Verif Require Import Run.
Open Scope R_scope.

Section DiffTotal.
  Variables (W : oper) (HW : soundOps W) (HX : exactOps W) (st : bool) (r : env) (Hg : wgood st r) (xn : name) (xp : bool).
  Notation sp := (spec (holds st r)).
  Definition logDef (b : expr) : Prop := forall facts, w_log W b <> Ok Undef facts.
  Notation smth := (smooth logDef r xn xp).

  Lemma smooth_list l : (fix all (l : list expr) : Prop := match l with [] => True | x :: s => smth x /\ all s end) l -> Forall smth l.
  Proof. induction l as [|a l IH]; intros H; constructor; [apply H|apply IH, H]. Qed.

  Lemma smooth_regular e : smth e -> regular r xn xp e.
  Proof.
    assert (All : forall l, (forall x, In x l -> smth x -> regular r xn xp x) -> Forall smth l ->
      (fix all (l : list expr) : Prop := match l with [] => True | x :: s => regular r xn xp x /\ all s end) l).
    { induction l as [|a l IH]; intros Hi H; [exact I|]. inversion H; subst. split; [apply Hi; [left; reflexivity|assumption]|].
      apply IH; [intros x Hx; apply Hi; right; exact Hx|assumption]. }
    induction e as [q|n p|c| |f l IH|l IH|l IH|b y IHb IHy] using expr_ind2; intros H; cbn; right; auto.
    - destruct l as [|a [|a2 l]]; try contradiction. destruct H as [H1 H2]. split; [apply IH; [left; reflexivity|exact H1]|exact H2].
    - apply All; [exact IH|]. apply smooth_list, H.
    - apply All; [exact IH|]. apply smooth_list, H.
    - destruct H as (H1 & H2 & v & H3 & H4). repeat split; [apply IHb, H1|apply IHy, H2|]. exists v. split; [exact H3|]. tauto.
  Qed.

  Lemma inside_fct1 f v : inside f v -> fct1 f v <> None.
  Proof.
    destruct f; cbn; intros H; try discriminate; try contradiction.
    all: repeat match goal with |- context [if ?d then _ else _] => destruct d end; try discriminate; lra.
  Qed.
  Lemma sumVal_some l : Forall (fun e => eval r e <> None) l -> sumVal r l <> None.
  Proof.
    induction 1 as [|a l Ha Hl IH]; [discriminate|]. unfold sumVal in *. cbn. destruct (eval r a); [|contradiction].
    destruct (fold_right _ _ l); [discriminate|contradiction].
  Qed.
  Lemma prodVal_some l : Forall (fun e => eval r e <> None) l -> prodVal r l <> None.
  Proof.
    induction 1 as [|a l Ha Hl IH]; [discriminate|]. unfold prodVal in *. cbn. destruct (eval r a); [|contradiction].
    destruct (fold_right _ _ l); [discriminate|contradiction].
  Qed.
  Lemma smooth_eval e : smth e -> eval r e <> None.
  Proof.
    induction e as [q|n p|c| |f l IH|l IH|l IH|b y IHb IHy] using expr_ind2; intros H; try discriminate; try contradiction.
    - destruct c; discriminate.
    - destruct l as [|a [|a2 l]]; try contradiction. destruct H as (H1 & v & H2 & H3). apply inside_fct1 in H3.
      destruct f; cbn [eval]; rewrite ?H2; auto.
    - apply smooth_list in H. apply (sumVal_some l). rewrite Forall_forall in *. auto.
    - apply smooth_list in H. apply (prodVal_some l). rewrite Forall_forall in *. auto.
    - destruct H as (H1 & H2 & v & H3 & [H4|(_ & _ & H4 & _)]); [|exact H4].
      apply IHy in H2. cbn. rewrite H3. destruct (eval r y); [|contradiction]. rewrite rpow_pos by exact H4. discriminate.
  Qed.

  Definition some (d : expr) : Prop := wf anySym d /\ eval r d <> None.

  Lemma ole_none a b : ole a b -> a <> None -> b <> None.
  Proof. destruct a; cbn; intros H1 H2; congruence. Qed.
  Lemma sum_some l : Forall some l -> sp (w_sum W l) some.
  Proof.
    intros H. eapply spec_weaken; [apply (so_sum W HW st r anySym); [exact Hg|]|].
    - eapply Forall_impl; [|exact H]. intros a [Ha _]. exact Ha.
    - cbn. intros e [H1 H2]. split; [exact H1|]. eapply ole_none; [exact H2|]. apply sumVal_some.
      eapply Forall_impl; [|exact H]. intros a [_ Ha]. exact Ha.
  Qed.
  Lemma prod_some l : Forall some l -> sp (w_prod W l) some.
  Proof.
    intros H. eapply spec_weaken; [apply (so_prod W HW st r anySym); [exact Hg|]|].
    - eapply Forall_impl; [|exact H]. intros a [Ha _]. exact Ha.
    - cbn. intros e [H1 H2]. split; [exact H1|]. eapply ole_none; [exact H2|]. apply prodVal_some.
      eapply Forall_impl; [|exact H]. intros a [_ Ha]. exact Ha.
  Qed.
  Lemma normal_some e : some e -> sp (w_normal W e) some.
  Proof.
    intros [H1 H2]. eapply spec_weaken; [apply (so_normal W HW st r anySym); [exact Hg|exact H1]|].
    cbn. intros e' [E1 E2]. split; [exact E1|]. eapply ole_none; eauto.
  Qed.
  Lemma oneOver_some b v : wf anySym b -> eval r b = Some v -> v <> 0 -> sp (oneOver W b) some.
  Proof.
    intros Hb Hv Hz. eapply spec_weaken; [apply oneOver_x; eassumption|]. cbn. intros e [H1 H2].
    split; [exact H1|]. rewrite (H2 v Hv Hz). discriminate.
  Qed.
  Lemma productRule_some d l : (forall e, In e l -> sp (d e) some) -> forall pre, Forall some pre -> Forall some l ->
    sp (productRule W d pre l) (Forall some).
  Proof.
    induction l as [|f l IH]; intros Hd pre Hp Hl; cbn [productRule]; [apply spec_ret; constructor|].
    inversion Hl; subst. eapply spec_bind; [apply Hd; left; reflexivity|]. intros f' Hf'.
    eapply spec_bind; [apply prod_some; constructor; [exact Hf'|apply Forall_app; auto]|]. intros p Hpp.
    eapply spec_bind; [apply IH; [intros e He; apply Hd; right; exact He|apply Forall_app; auto|assumption]|].
    intros s Hs. apply spec_ret. constructor; assumption.
  Qed.

  Lemma diffE_some n : forall e, wf anySym e -> smth e -> sp (diffE W n (Sym xn xp) e) some.
  Proof.
    induction n as [|n IH]; intros e Hw Hs; [exact I|].
    assert (Sm : forall x, wf anySym x -> smth x -> some x) by (intros x H1 H2; split; [exact H1|apply smooth_eval, H2]).
    assert (Zero : some zero) by (split; [apply wf_zero|discriminate]).
    destruct e as [q|m p|c| |f l|l|l|b y]; cbn [diffE].
    - apply spec_ret, Zero.
    - apply spec_ret. destruct (isEqual (Sym m p) (Sym xn xp)); [split; [apply wf_one|discriminate]|exact Zero].
    - apply spec_ret, Zero.
    - contradiction.
    - destruct l as [|a [|a2 l]]; try contradiction. destruct Hs as (Hs & v & Hv & Hi).
      apply wf_ops in Hw. destruct Hw as [_ Hw]. inversion Hw as [|? ? Ha _]; subst.
      assert (General : f <> FAtan2 -> f <> FLog ->
        sp (o <- diffE W n (Sym xn xp) a ;; i <- innerDiff W f [a] ;; p <- w_prod W [i; o] ;; w_normal W p) some).
      { intros Hf1 Hf2. eapply spec_bind; [apply IH; assumption|]. intros o Ho.
        eapply spec_bind; [apply innerDiff_x; eassumption|]. intros i [I1 I2].
        eapply spec_bind; [apply prod_some; constructor; [|constructor; [exact Ho|constructor]]|intros p Hp; apply normal_some, Hp].
        split; [exact I1|]. rewrite (I2 a v eq_refl Hv Hi Hf2). discriminate. }
      destruct f; try contradiction; try (apply General; discriminate).
      eapply spec_bind; [apply oneOver_some with (v := v); [exact Ha|exact Hv|cbn in Hi; lra]|]. intros i Hi'.
      eapply spec_bind; [apply IH; assumption|]. intros o Ho. apply prod_some. constructor; [exact Hi'|constructor; [exact Ho|constructor]].
    - apply wf_sum in Hw. apply smooth_list in Hs. eapply spec_bind; [apply spec_mapM with (Q := fun _ d => some d)|].
      { intros x Hx. rewrite Forall_forall in Hw, Hs. apply IH; auto. }
      intros ds H2. apply sum_some. clear -H2. induction H2; constructor; auto.
    - apply wf_prod in Hw. apply smooth_list in Hs. rewrite Forall_forall in Hw, Hs.
      eapply spec_bind; [apply productRule_some; [intros x Hx; apply IH; auto|constructor|apply Forall_forall; intros x Hx; apply Sm; auto]|].
      intros s Hss. apply sum_some, Hss.
    - pose proof Hw as Hwe. pose proof Hs as Hse. apply wf_pow in Hw. destruct Hw as [Hb Hy]. destruct Hs as (Sb & Sy & v & Hv & Hc).
      assert (Hvz : v <> 0) by (destruct Hc as [|[? _]]; lra).
      eapply spec_bind with (Q1 := fun lb => wf anySym lb /\ ole (eval r (Fct FLog [b])) (eval r lb) /\ (logDef b -> lb <> Undef)).
      { pose proof (so_log W HW st r anySym b Hg Hb) as HL. unfold logDef. destruct (w_log W b) as [lb facts| | |]; try exact I.
        cbn in HL |- *. intros Hf. destruct (HL Hf) as [L1 L2]. repeat split; auto. intros X E. subst. apply (X facts). reflexivity. }
      intros lb (L1 & L2 & L3).
      eapply spec_bind; [apply (spec_and _ _ _ _ (diffE_x W HW HX st r Hg xn xp n y Hy) (IH y Hy Sy))|].
      intros dy [[Y1 [Y2 _]] Y3].
      eapply spec_bind with (Q1 := some).
      { destruct Hc as [Hpos|(Hneg & Hm & _ & Hl)].
        - apply prod_some. constructor; [|constructor; [exact Y3|constructor]]. split; [exact L1|].
          cbn in L2. rewrite Hv in L2. cbn in L2. destruct (Rlt_dec 0 v); [|contradiction]. cbn in L2. rewrite L2. discriminate.
        - assert (Hz : dy = zero).
          { destruct (Y2 (mentions_wf xn xp y Hy Hm)) as [E|E]; [exact E|]. exfalso. subst. destruct Y3 as [_ E]. apply E. reflexivity. }
          subst dy. eapply spec_weaken; [apply (xo_prod_0 W HX)|].
          + right. left. reflexivity.
          + intros [E|[E|[]]]; [exact (L3 Hl E)|discriminate].
          + cbn. intros a ->. exact Zero. }
      intros p Hp. eapply spec_bind; [eapply oneOver_some; eassumption|]. intros ib Hib.
      eapply spec_bind; [apply IH; assumption|]. intros db Hdb.
      eapply spec_bind; [apply prod_some; constructor; [apply Sm; assumption|constructor; [exact Hib|constructor; [exact Hdb|constructor]]]|].
      intros q Hq. eapply spec_bind; [apply sum_some; constructor; [exact Hp|constructor; [exact Hq|constructor]]|]. intros s Hss.
      apply prod_some. constructor; [apply Sm; assumption|constructor; [exact Hss|constructor]].
  Qed.

  Lemma diff_smooth n e : wf anySym e -> smth e -> sp (diffE W n (Sym xn xp) e) (fun d =>
    exists v, eval r d = Some v /\ hasDeriv (fun t => eval (upd r xn xp t) e) (r xn xp) v).
  Proof.
    intros Hw Hs. eapply spec_weaken; [apply (spec_and _ _ _ _ (diffE_x W HW HX st r Hg xn xp n e Hw) (diffE_some n e Hw Hs))|].
    cbn. intros d [[_ [_ H]] [_ Hd]]. destruct (H (smooth_regular e Hs)) as [->|Hv]; [exfalso; apply Hd; reflexivity|exact Hv].
  Qed.
End DiffTotal.
