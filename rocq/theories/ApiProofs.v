(** Programs compute the values they stand for. *)
From Verif Require Export ApiSpec SoundOps DiffProofs.
From Verif Require Import NumberProofs NormalProofs2.
From Coq Require Import Lra Lia.
From Verif Require Import Run.
Open Scope R_scope.

Section ApiProofs.
  Variables (W : oper) (HW : soundOps W) (F : nat).

  Lemma normalLoop_sp st r (Hg : wgood st r) n : forall last next, wf anySym next -> forall v, eval r next = Some v ->
    spec (holds st r) (normalLoop W n last next) (fun e => wf anySym e /\ eval r e = Some v).
  Proof.
    induction n as [|n IH]; intros last next Hn v Hv; cbn [normalLoop].
    - destruct (isEqual next last); [apply spec_ret; auto|exact I].
    - destruct (isEqual next last); [apply spec_ret; auto|].
      eapply spec_bind; [apply (so_normal W HW st r anySym); assumption|]. intros e [E1 E2]. rewrite Hv in E2.
      apply IH; assumption.
  Qed.
  Lemma simplifyVar_sp st r (Hg : wgood st r) e : wf anySym e -> forall v, eval r e = Some v ->
    spec (holds st r) (simplifyVar W F e) (fun e' => wf anySym e' /\ eval r e' = Some v).
  Proof.
    intros He v Hv. unfold simplifyVar.
    eapply spec_bind; [apply (so_expand W HW st r anySym); assumption|]. intros x [X1 X2]. rewrite Hv in X2. cbn in X2.
    eapply spec_bind; [apply (so_normal W HW st r anySym); assumption|]. intros nx [N1 N2]. rewrite Hv in N2. cbn in N2.
    destruct (isUndefined nx) eqn:E; [apply isUndefined_eq in E; subst; discriminate|].
    eapply spec_bind; [apply normalLoop_sp; eassumption|]. intros nl [L1 L2].
    eapply spec_bind; [apply (so_expand W HW st r anySym); assumption|]. intros en [E1 E2]. rewrite L2 in E2. cbn in E2.
    apply spec_ret. destruct (_ <? _)%Z; auto. destruct (_ <? _)%Z; auto.
  Qed.

  Lemma wgood_upd st r n p v : wgood st r -> (p = true -> 0 < v) -> wgood st (upd r n p v).
  Proof.
    intros H Hv m. unfold upd. destruct (nameEq n m) eqn:E; [|apply H]. destruct p; cbn; [|apply H].
    specialize (Hv eq_refl). destruct st; cbn; lra.
  Qed.
  Lemma Q2R_Z z : Q2R (ofZ z) = IZR z.
  Proof. unfold Q2R, ofZ. cbn. field. Qed.
  Lemma canon_Z z : canon (ofZ z).
  Proof. unfold canon. cbn. apply Z.gcd_1_r. Qed.

  Ltac use H := eapply spec_bind; [eapply H; eassumption|].

  Lemma build_sp : forall t st r, wgood st r -> forall v, tval r t = Some v ->
    spec (holds st r) (build W F t) (fun e => wf anySym e /\ eval r e = Some v).
  Proof.
    assert (Dec2 : forall f a b v, omap2 f a b = Some v -> exists x y, a = Some x /\ b = Some y /\ f x y = Some v).
    { intros f [x|] [y|] v; cbn; try discriminate. eauto. }
    assert (Dec1 : forall f a v, omap f a = Some v -> exists x, a = Some x /\ f x = Some v).
    { intros f [x|] v; cbn; try discriminate. eauto. }
    assert (Minus : forall st r, wgood st r -> forall x v, wf anySym x -> eval r x = Some v ->
      spec (holds st r) (minus W [x]) (fun e => wf anySym e /\ eval r e = Some (- v))).
    { intros st r Hg x v Hx Hv. unfold minus. eapply spec_weaken; [apply (so_prod W HW st r anySym); [exact Hg|]|].
      - constructor; [apply wf_mOne|constructor; [exact Hx|constructor]].
      - cbn. intros e [E1 E2]. rewrite Hv in E2. cbn in E2. split; [exact E1|]. rewrite E2. f_equal. unfold Q2R. cbn. lra. }
    induction t; intros st r Hg v Hv; cbn [tval] in Hv; cbn [build].
    - injection Hv as <-. apply spec_ret. split; [apply canon_Z|]. cbn [numZ eval]. f_equal. apply Q2R_Z.
    - destruct (Req_EM_T (IZR d) 0) as [|Hd]; [discriminate|]. injection Hv as <-.
      destruct (mkRat n d) as [q|] eqn:E; [|exact I]. apply spec_ret.
      destruct (mkRat_R _ _ _ E) as (H1 & _ & H2). split; [exact H1|]. cbn. f_equal. exact H2.
    - injection Hv as <-. apply spec_ret. split; [exact I|reflexivity].
    - apply spec_ret. destruct c; split; try exact I; exact Hv.
    - apply Dec2 in Hv. destruct Hv as (x & y & H1 & H2 & [= <-]).
      use IHt1. intros e1 [W1 E1]. use IHt2. intros e2 [W2 E2]. unfold varAdd.
      eapply spec_weaken; [apply (so_sum W HW st r anySym); [exact Hg|repeat constructor; assumption]|].
      cbn. intros e [Q1 Q2]. rewrite E1, E2 in Q2. cbn in Q2. split; [exact Q1|]. rewrite Q2. f_equal. lra.
    - apply Dec2 in Hv. destruct Hv as (x & y & H1 & H2 & [= <-]).
      use IHt1. intros e1 [W1 E1]. use IHt2. intros e2 [W2 E2]. unfold varSub. use Minus. intros m [M1 M2].
      eapply spec_weaken; [apply (so_sum W HW st r anySym); [exact Hg|repeat constructor; assumption]|].
      cbn. intros e [Q1 Q2]. rewrite E1, M2 in Q2. cbn in Q2. split; [exact Q1|]. rewrite Q2. f_equal. lra.
    - apply Dec2 in Hv. destruct Hv as (x & y & H1 & H2 & [= <-]).
      use IHt1. intros e1 [W1 E1]. use IHt2. intros e2 [W2 E2]. unfold varMul.
      eapply spec_weaken; [apply (so_prod W HW st r anySym); [exact Hg|repeat constructor; assumption]|].
      cbn. intros e [Q1 Q2]. rewrite E1, E2 in Q2. cbn in Q2. split; [exact Q1|]. rewrite Q2. f_equal. lra.
    - apply Dec2 in Hv. destruct Hv as (x & y & H1 & H2 & Hq). destruct (Req_EM_T y 0) as [|Hy]; [discriminate|]. injection Hq as <-.
      use IHt1. intros e1 [W1 E1]. use IHt2. intros e2 [W2 E2]. unfold varDiv, oneOver.
      eapply spec_bind; [apply (so_pow W HW st r anySym); [exact Hg|exact W2|apply wf_mOne]|]. intros i [I1 I2].
      rewrite E2 in I2. cbn [mOne eval opow] in I2. replace (Q2R (-1 # 1)) with (-1) in I2 by (unfold Q2R; cbn; lra).
      rewrite rpow_rm1 in I2 by exact Hy. cbn in I2.
      eapply spec_weaken; [apply (so_prod W HW st r anySym); [exact Hg|repeat constructor; assumption]|].
      cbn. intros e [Q1 Q2]. rewrite E1, I2 in Q2. cbn in Q2. split; [exact Q1|]. rewrite Q2. f_equal. unfold Rdiv. ring.
    - apply Dec1 in Hv. destruct Hv as (x & H1 & [= <-]). use IHt. intros e1 [W1 E1]. apply Minus; assumption.
    - apply Dec2 in Hv. destruct Hv as (x & y & H1 & H2 & Hq).
      use IHt1. intros e1 [W1 E1]. use IHt2. intros e2 [W2 E2].
      eapply spec_weaken; [apply (so_pow W HW st r anySym); [exact Hg|exact W1|exact W2]|].
      cbn. intros e [Q1 Q2]. rewrite E1, E2 in Q2. cbn [opow] in Q2. rewrite Hq in Q2. auto.
    - apply Dec1 in Hv. destruct Hv as (x & H1 & Hq). destruct (Rle_dec 0 x) as [Hx|]; [|discriminate]. injection Hq as <-.
      use IHt. intros e1 [W1 E1]. unfold sqrtE.
      eapply spec_weaken; [apply (so_pow W HW st r anySym); [exact Hg|exact W1|reflexivity]|].
      cbn. intros e [Q1 Q2]. rewrite E1 in Q2. cbn [opow] in Q2. split; [exact Q1|].
      replace (Q2R (1 # 2)) with (/ 2) in Q2 by (unfold Q2R; cbn; lra). destruct Hx as [Hx|<-].
      + rewrite rpow_pos, Rpower_sqrt in Q2 by exact Hx. exact Q2.
      + rewrite rpow_0_pos in Q2 by lra. rewrite sqrt_0. exact Q2.
    - apply Dec1 in Hv. destruct Hv as (x & H1 & Hq). use IHt. intros e1 [W1 E1].
      eapply spec_weaken; [apply (so_log W HW st r anySym); [exact Hg|exact W1]|].
      cbn. intros e [Q1 Q2]. rewrite E1 in Q2. cbn [fct1] in Q2. rewrite Hq in Q2. auto.
    - destruct (trigF f) eqn:Ef; [|destruct f; discriminate].
      assert (Hv' : omap (fct1 f) (tval r t) = Some v) by (destruct f; try exact Hv; discriminate).
      apply Dec1 in Hv'. destruct Hv' as (x & H1 & Hq). use IHt. intros e1 [W1 E1].
      eapply spec_weaken; [apply (so_trig W HW st r anySym); [exact Hg|exact W1|exact Ef]|].
      intros e [Q1 Q2]. split; [exact Q1|].
      assert (E : eval r (Fct f [e1]) = Some v) by (destruct f; try discriminate; cbn [eval]; rewrite E1; exact Hq).
      rewrite E in Q2. exact Q2.
    - apply Dec2 in Hv. destruct Hv as (x & y & H1 & H2 & Hq).
      use IHt1. intros e1 [W1 E1]. use IHt2. intros e2 [W2 E2].
      eapply spec_weaken; [apply (so_atan2 W HW st r anySym); [exact Hg|exact W1|exact W2]|].
      cbn [eval]. intros e [Q1 Q2]. rewrite E1, E2, Hq in Q2. auto.
    - apply Dec1 in Hv. destruct Hv as (x & H1 & Hq).
      assert (Hp : (positive = true -> 0 < x) /\ tval (upd r n positive x) t1 = Some v).
      { destruct positive; [destruct (Rlt_dec 0 x); [|discriminate]|]; split; auto; discriminate. }
      destruct Hp as [Hp Ht]. use IHt2. intros e2 [W2 E2].
      assert (Ex : ext r [(n, positive, e2)] = upd r n positive x) by (cbn; rewrite E2; reflexivity).
      eapply spec_bind; [apply spec_inEnv; rewrite Ex; apply IHt1; [apply wgood_upd; eassumption|exact Ht]|].
      intros e1 [W1 E1].
      eapply spec_weaken; [apply (so_subst W HW st r anySym); [exact Hg| |exact W2]|].
      + eapply wf_mono; [|exact W1]. intros; left; exact I.
      + cbn beta. intros e [Q1 Q2]. split; [exact Q1|]. specialize (Q2 x E2). rewrite E1 in Q2. exact Q2.
    - use IHt. intros e1 [W1 E1]. eapply spec_weaken; [apply (so_expand W HW st r anySym); assumption|].
      cbn beta. intros e [Q1 Q2]. rewrite E1 in Q2. auto.
    - use IHt. intros e1 [W1 E1]. eapply spec_weaken; [apply (so_normal W HW st r anySym); assumption|].
      cbn beta. intros e [Q1 Q2]. rewrite E1 in Q2. auto.
    - use IHt. intros e1 [W1 E1]. apply simplifyVar_sp; assumption.
  Qed.
  (** numerator(e) / denominator(e) has the value of e. *)
  Lemma toFraction_sp st r (Hg : wgood st r) e : wf anySym e ->
    spec (holds st r) (toFraction W F e) (fun x => let '(n, d) := x in
      wf anySym n /\ wf anySym d /\ forall v, eval r e = Some v -> fracIs r n d v).
  Proof.
    intros Hw. set (P' := fun n p => anySym n p /\ (String.length (nvalue n) < S (nameLen e))%nat).
    assert (Hw' : wf P' e) by now apply wf_nameLen.
    eapply spec_weaken with (Q1 := fun x => let '(n, d) := x in
      wf P' n /\ wf P' d /\ forall v, eval r e = Some v -> fracIs r n d v).
    2:{ intros [n d] (H1 & H2 & H3).
        split; [|split; [|exact H3]]; (eapply wf_mono; [|eassumption]); intros k p [Hn _]; exact Hn. }
    unfold toFraction. set (m0 := mkMap _ []).
    assert (Hm0 : mapOK P' m0).
    { split; [intros n p [_ Hn]; exact Hn|]. cbn. intros [|i] n p t Hi; discriminate Hi. }
    eapply spec_bind; [apply normalF_call with (P := P'); auto|]. intros [[n d] m] (l & X & Hn & Hd & V).
    assert (Hm : mapOK P' m) by apply X. assert (Hgm : wgood st (ext r (m_list m))) by apply X.
    assert (El : m_list m = l) by (destruct X as (_ & L & _); exact L).
    eapply spec_bind; [apply replaceBack_sp with (P := P'); auto|]. intros d' (Hd' & Vd').
    eapply spec_bind; [apply replaceBack_sp with (P := P'); auto|]. intros n' (Hn' & Vn').
    eapply spec_bind; [apply spec_relyIf'|]. intros un E. cbn [holds] in E.
    destruct (noneLeft m n') eqn:En; [|now elim E]. destruct (noneLeft m d') eqn:Ed; [|now elim E]. clear E.
    apply noneLeft_wf with (P := P') in En; [|assumption]. apply noneLeft_wf with (P := P') in Ed; [|assumption].
    apply spec_ret. split; [exact En|split; [exact Ed|]]. intros v Ev.
    destruct (V v Ev) as [N (a & b & Ea & Eb & Hb & Hv)]. rewrite <- El in N.
    specialize (Vn' N). specialize (Vd' N). rewrite Ea in Vn'. rewrite Eb in Vd'. cbn in Vn', Vd'.
    rewrite (eval_P r P' m) in Vn' by assumption. rewrite (eval_P r P' m) in Vd' by assumption.
    exists a, b. auto.
  Qed.
End ApiProofs.
