(** diff computes the derivative (C14) and zero for absent symbols (C15). *)
From Verif Require Export DiffFacts WorldExact SoundOps DiffModel.
From Coq Require Import Lra Lia.
From Verif Require Import Run.
Open Scope R_scope.

Lemma regular_cases r n p e : regular r n p e ->
  mentions n p e = false /\ eval r e <> None \/
  match e with
  | Num _ | Cst _ | Sym _ _ => True
  | Undef => False
  | Sum l | Prod l => Forall (regular r n p) l
  | Pow b y =>
      regular r n p b /\ regular r n p y /\
      exists v, eval r b = Some v /\ (0 < v \/ v < 0 /\ mentions n p y = false /\ eval r e <> None)
  | Fct f [a] => regular r n p a /\ exists v, eval r a = Some v /\ inside f v
  | Fct _ _ => False
  end.
Proof.
  assert (All : forall l, (fix all (l : list expr) : Prop := match l with [] => True | x :: s => regular r n p x /\ all s end) l ->
    Forall (regular r n p) l).
  { induction l; intros H; constructor; [apply H|apply IHl, H]. }
  destruct e; intros H; try exact H; (destruct H as [H|H]; [left; exact H|right; apply All, H]).
Qed.

Section DiffProofs.
  Variables (W : oper) (HW : soundOps W) (HX : exactOps W) (st : bool) (r : env) (Hg : wgood st r) (xn : name) (xp : bool).
  Notation sp := (spec (holds st r)).
  Let nx : name -> bool -> Prop := fun m q => ~ (m = xn /\ q = xp).
  Let t0 := r xn xp.
  Let g e := fun t => eval (upd r xn xp t) e.

  Lemma mentions_wf e : wf anySym e -> mentions xn xp e = false -> wf nx e.
  Proof.
    induction e as [q|n p|c| |f l IH|l IH|l IH|b x IHb IHx] using expr_ind2; intros Hw Hm.
    - exact Hw.
    - cbn in *. intros [-> ->]. rewrite nameEq_refl, Bool.eqb_reflx in Hm. discriminate.
    - exact I.
    - exact I.
    - apply wf_ops in Hw. apply wf_ops. destruct Hw as [Hl Hw]. split; [exact Hl|].
      rewrite Forall_forall in *. intros y Hy. apply IH; auto. cbn in Hm.
      destruct (mentions xn xp y) eqn:E; auto. rewrite <- Hm. symmetry. apply existsb_exists. eauto.
    - apply wf_sum in Hw. apply wf_sum.
      rewrite Forall_forall in *. intros y Hy. apply IH; auto. cbn in Hm.
      destruct (mentions xn xp y) eqn:E; auto. rewrite <- Hm. symmetry. apply existsb_exists. eauto.
    - apply wf_prod in Hw. apply wf_prod.
      rewrite Forall_forall in *. intros y Hy. apply IH; auto. cbn in Hm.
      destruct (mentions xn xp y) eqn:E; auto. rewrite <- Hm. symmetry. apply existsb_exists. eauto.
    - apply wf_pow in Hw. apply wf_pow. cbn in Hm. apply Bool.orb_false_iff in Hm.
      destruct Hw as [H1 H2], Hm as [H3 H4]. split; [apply IHb|apply IHx]; assumption.
  Qed.
  Lemma eval_absent e t : wf nx e -> g e t = eval r e.
  Proof.
    intros H. apply (eval_agree nx); [exact H|]. intros n p Hn. unfold upd.
    destruct (nameEq xn n) eqn:E; [|reflexivity]. apply nameEq_eq in E. subst n.
    destruct (Bool.eqb xp p) eqn:B; [|reflexivity]. apply Bool.eqb_prop in B. subst p. exfalso. apply Hn. auto.
  Qed.
  Lemma g_at e : wf anySym e -> g e t0 = eval r e.
  Proof. apply upd_id. Qed.
  Lemma nx_any e : wf nx e -> wf anySym e.
  Proof. apply wf_mono. intros; exact I. Qed.

  Definition zu (d : expr) : Prop := d = zero \/ d = Undef.
  Definition good e d : Prop := d = Undef \/ exists v, eval r d = Some v /\ hasDeriv (g e) t0 v.
  Definition okd e d : Prop := wf anySym d /\ (wf nx e -> zu d) /\ (regular r xn xp e -> good e d).

  Lemma good_absent e d : wf nx e -> eval r e <> None -> zu d -> good e d.
  Proof.
    intros Hn He [->| ->]; [right|left; reflexivity].
    destruct (eval r e) as [c|] eqn:E; [|contradiction]. exists 0. split; [cbn; f_equal; apply Q2R_0|].
    apply hd_const with (c := c). intros s. rewrite eval_absent by exact Hn. exact E.
  Qed.

  Lemma in_undef_dec l : In Undef l \/ ~ In Undef l.
  Proof.
    destruct (existsb isUndefined l) eqn:E; [left; apply existsb_undef_inv, E|right].
    intros H. apply existsb_undef in H. congruence.
  Qed.

  (** Exact results. *)
  Lemma spec_and {A} H (m : res A) (Q1 Q2 : A -> Prop) : spec H m Q1 -> spec H m Q2 -> spec H m (fun a => Q1 a /\ Q2 a).
  Proof. destruct m; cbn; auto. Qed.

  Lemma sum_x l : Forall (wf anySym) l ->
    sp (w_sum W l) (fun e => wf anySym e /\ ole (sumVal r l) (eval r e) /\ (In Undef l -> e = Undef) /\ (Forall zu l -> zu e)).
  Proof.
    intros Hl. destruct (in_undef_dec l) as [Hu|Hu].
    - eapply spec_weaken; [apply (spec_and _ _ _ _ (so_sum W HW st r anySym l Hg Hl) (xo_sum_u W HX l Hu _))|].
      cbn. intros a [[H1 H2] ->]. unfold zu. tauto.
    - destruct (forallb (fun d => isZero d || isUndefined d)%bool l) eqn:E.
      + assert (Hz : Forall (eq zero) l).
        { rewrite forallb_forall in E. rewrite Forall_forall in *. intros y Hy. specialize (E y Hy).
          apply Bool.orb_prop in E. destruct E as [E|E].
          - symmetry. apply (isZero_eq anySym); auto.
          - apply isUndefined_eq in E. subst. contradiction. }
        eapply spec_weaken; [apply (spec_and _ _ _ _ (so_sum W HW st r anySym l Hg Hl) (xo_sum_0 W HX l Hz _))|].
        cbn. intros a [[H1 H2] ->]. unfold zu. tauto.
      + eapply spec_weaken; [apply (so_sum W HW st r anySym l Hg Hl)|]. cbn. intros a [H1 H2]. repeat split; auto; [tauto|].
        intros Hz. exfalso. apply Bool.not_true_iff_false in E. apply E. apply forallb_forall. rewrite Forall_forall in Hz.
        intros y Hy. destruct (Hz y Hy) as [->| ->]; reflexivity.
  Qed.
  Lemma prod_x l : Forall (wf anySym) l ->
    sp (w_prod W l) (fun e => wf anySym e /\ ole (prodVal r l) (eval r e) /\ (In Undef l -> e = Undef) /\ (Exists zu l -> zu e)).
  Proof.
    intros Hl. destruct (in_undef_dec l) as [Hu|Hu].
    - eapply spec_weaken; [apply (spec_and _ _ _ _ (so_prod W HW st r anySym l Hg Hl) (xo_prod_u W HX l Hu _))|].
      cbn. intros a [[H1 H2] ->]. unfold zu. tauto.
    - destruct (existsb isZero l) eqn:E.
      + assert (Hz : In zero l).
        { apply existsb_exists in E. destruct E as [y [Hy E]]. rewrite Forall_forall in Hl. apply (isZero_eq anySym) in E; auto. now subst. }
        eapply spec_weaken; [apply (spec_and _ _ _ _ (so_prod W HW st r anySym l Hg Hl) (xo_prod_0 W HX l Hz Hu _))|].
        cbn. intros a [[H1 H2] ->]. unfold zu. tauto.
      + eapply spec_weaken; [apply (so_prod W HW st r anySym l Hg Hl)|]. cbn. intros a [H1 H2]. repeat split; auto; [tauto|].
        intros He. apply Exists_exists in He. destruct He as [y [Hy [->| ->]]]; [|contradiction].
        exfalso. apply Bool.not_true_iff_false in E. apply E. apply existsb_exists. exists zero. auto.
  Qed.

  Lemma pow_x b y : wf anySym b -> wf anySym y ->
    sp (w_pow W b y) (fun e => wf anySym e /\ ole (opow (eval r b) (eval r y)) (eval r e)).
  Proof. intros. apply (so_pow W HW st r anySym); assumption. Qed.
  Lemma oneOver_x b : wf anySym b ->
    sp (oneOver W b) (fun e => wf anySym e /\ forall v, eval r b = Some v -> v <> 0 -> eval r e = Some (/ v)).
  Proof.
    intros Hb. unfold oneOver. eapply spec_weaken; [apply pow_x; [exact Hb|apply wf_mOne]|].
    cbn. intros a [H1 H2]. split; [exact H1|]. intros v Hv Hz. rewrite Hv in H2. cbn [opow] in H2.
    replace (Q2R (-1 # 1)) with (IZR (-1)) in H2 by (unfold Q2R; cbn; lra).
    rewrite rpow_int in H2 by exact Hz. change (powerRZ v (-1)) with (/ (v ^ 1)) in H2. rewrite pow_1 in H2. exact H2.
  Qed.
  Lemma minus_x l : Forall (wf anySym) l ->
    sp (minus W l) (fun e => wf anySym e /\ forall v, prodVal r l = Some v -> eval r e = Some (- v)).
  Proof.
    intros Hl. unfold minus. eapply spec_weaken; [apply prod_x; constructor; [apply wf_mOne|exact Hl]|].
    cbn. intros a [H1 [H2 _]]. split; [exact H1|]. intros v Hv. fold (prodVal r l) in H2. rewrite Hv in H2. cbn in H2.
    rewrite H2. f_equal. unfold Q2R; cbn; lra.
  Qed.
  Lemma square_x e : wf anySym e ->
    sp (square W e) (fun d => wf anySym d /\ forall v, eval r e = Some v -> eval r d = Some (v * v)).
  Proof.
    intros He. unfold square. eapply spec_weaken; [apply pow_x; [exact He|apply wf_two]|].
    cbn. intros a [H1 H2]. split; [exact H1|]. intros v Hv. rewrite Hv in H2. cbn [opow] in H2.
    replace (Q2R 2) with (IZR 2) in H2 by (unfold Q2R; cbn; lra).
    rewrite rpow_intnn in H2 by lia. change (powerRZ v 2) with (v ^ 2) in H2. replace (v * v) with (v ^ 2) by ring. exact H2.
  Qed.
  Lemma sum2_x a b : wf anySym a -> wf anySym b ->
    sp (w_sum W [a; b]) (fun e => wf anySym e /\ forall v w, eval r a = Some v -> eval r b = Some w -> eval r e = Some (v + w)).
  Proof.
    intros Ha Hb. eapply spec_weaken; [apply sum_x; repeat constructor; assumption|].
    cbn. intros e [H1 [H2 _]]. split; [exact H1|]. intros v w Hv Hw. rewrite Hv, Hw in H2. cbn in H2. rewrite H2. f_equal. lra.
  Qed.
  Lemma atan2ArgEval_x y x : wf anySym y -> wf anySym x -> sp (atan2ArgEval W y x) (fun e => wf anySym e).
  Proof.
    intros Hy Hx. unfold atan2ArgEval. eapply spec_bind; [apply oneOver_x, Hx|]. intros i [Hi _].
    eapply spec_weaken; [apply prod_x; repeat constructor; assumption|]. cbn. tauto.
  Qed.

  (** innerDiff is the derivative of the function. *)
  Lemma innerDiff_x f l : Forall (wf anySym) l ->
    sp (innerDiff W f l) (fun e => wf anySym e /\
      forall a v, l = [a] -> eval r a = Some v -> inside f v -> f <> FLog -> eval r e = Some (dfct f v)).
  Proof.
    intros Hl. unfold innerDiff.
    destruct f, l as [|a [|b [|c l]]]; try apply spec_ub; inversion Hl as [|? ? Ha Hl']; subst.
    - eapply spec_weaken; [apply (so_trig W HW st r anySym); auto|]. cbn. intros e [H1 H2]. split; [exact H1|].
      intros a0 v [= <-] Hv _ _. rewrite Hv in H2. exact H2.
    - eapply spec_bind; [apply (so_trig W HW st r anySym); auto|]. intros s [H1 H2].
      eapply spec_weaken; [apply minus_x; repeat constructor; exact H1|]. cbn. intros e [H3 H4]. split; [exact H3|].
      intros a0 v [= <-] Hv _ _. cbn in H2. rewrite Hv in H2. cbn in H2. rewrite H2 in H4. cbn [omult] in H4. rewrite Rmult_1_r in H4.
      apply H4. reflexivity.
    - eapply spec_bind; [apply (so_trig W HW st r anySym); auto|]. intros s [H1 H2].
      eapply spec_bind; [apply square_x, H1|]. intros q [H3 H4].
      eapply spec_weaken; [apply sum2_x; [apply wf_one|exact H3]|]. cbn. intros e [H5 H6]. split; [exact H5|].
      intros a0 v [= <-] Hv Hi _. cbn in H2. rewrite Hv in H2. cbn in H2, Hi. destruct (Req_EM_T (cos v) 0); [contradiction|].
      cbn in H2. apply H6; [rewrite Q2R_1; reflexivity|apply H4, H2].
    - eapply spec_bind; [apply square_x, Ha|]. intros q [H1 H2].
      eapply spec_bind; [apply minus_x; repeat constructor; exact H1|]. intros m [H3 H4].
      eapply spec_bind; [apply sum2_x; [apply wf_one|exact H3]|]. intros t [H5 H6].
      eapply spec_weaken; [apply pow_x; [exact H5|reflexivity]|]. cbn. intros e [H7 H8]. split; [exact H7|].
      intros a0 v [= <-] Hv Hi _. cbn in Hi. rewrite (H6 1 (- (v * v))) in H8.
      + cbn [opow] in H8. replace (1 + - (v * v)) with (1 - v * v) in H8 by ring.
        assert (Hp : 0 < 1 - v * v) by nra.
        rewrite rpow_pos in H8 by exact Hp. cbn in H8. rewrite H8. f_equal.
        replace (Q2R (-1 # 2)) with (- / 2) by (unfold Q2R; cbn; lra).
        rewrite Rpower_Ropp, Rpower_sqrt by exact Hp. reflexivity.
      + cbn. f_equal. apply Q2R_1.
      + apply H4. cbn. rewrite (H2 v Hv). cbn. f_equal. ring.
    - eapply spec_bind; [apply square_x, Ha|]. intros q [H1 H2].
      eapply spec_bind; [apply minus_x; repeat constructor; exact H1|]. intros m [H3 H4].
      eapply spec_bind; [apply sum2_x; [apply wf_one|exact H3]|]. intros t [H5 H6].
      eapply spec_bind; [apply pow_x; [exact H5|reflexivity]|]. intros p [H7 H8].
      eapply spec_weaken; [apply minus_x; repeat constructor; exact H7|]. cbn. intros e [H9 H10]. split; [exact H9|].
      intros a0 v [= <-] Hv Hi _. cbn in Hi. cbn in H8. rewrite (H6 1 (- (v * v))) in H8.
      + cbn [opow] in H8. replace (1 + - (v * v)) with (1 - v * v) in H8 by ring.
        assert (Hp : 0 < 1 - v * v) by nra.
        rewrite rpow_pos in H8 by exact Hp. cbn in H8. apply H10. rewrite H8. cbn. f_equal.
        replace (Q2R (-1 # 2)) with (- / 2) by (unfold Q2R; cbn; lra).
        rewrite Rpower_Ropp, Rpower_sqrt by exact Hp. ring.
      + cbn. f_equal. apply Q2R_1.
      + apply H4. cbn. rewrite (H2 v Hv). cbn. f_equal. ring.
    - eapply spec_bind; [apply square_x, Ha|]. intros q [H1 H2].
      eapply spec_bind; [apply sum2_x; [apply wf_one|exact H1]|]. intros t [H5 H6].
      eapply spec_weaken; [apply oneOver_x; exact H5|]. cbn. intros e [H7 H8]. split; [exact H7|].
      intros a0 v [= <-] Hv Hi _. apply H8; [|nra]. apply H6; [cbn; f_equal; apply Q2R_1|apply H2, Hv].
    - inversion Hl' as [|? ? Hb _]; subst.
      eapply spec_bind; [apply atan2ArgEval_x; assumption|]. intros z Hz.
      eapply spec_bind; [apply square_x, Hz|]. intros q [H1 H2].
      eapply spec_bind; [apply sum2_x; [apply wf_one|exact H1]|]. intros t [H5 H6].
      eapply spec_weaken; [apply oneOver_x; exact H5|]. cbn. intros e [H7 H8]. split; [exact H7|]. discriminate.
  Qed.

  (** Lists of summands. *)
  Lemma hd_sum l ds : Forall (wf anySym) l -> Forall2 okd l ds -> Forall (regular r xn xp) l ->
    In Undef ds \/ exists v, sumVal r ds = Some v /\ hasDeriv (fun t => sumVal (upd r xn xp t) l) t0 v.
  Proof.
    intros Hw H2. induction H2 as [|e d l ds Hd H2 IH]; intros Hr.
    - right. exists 0. split; [reflexivity|]. apply hd_const with (c := 0). reflexivity.
    - inversion Hw as [|? ? W1 W2]; inversion Hr as [|? ? R1 R2]; subst. destruct Hd as [_ [_ Hd]].
      destruct (Hd R1) as [->|[v [Hv1 Hv2]]]; [left; left; reflexivity|].
      destruct (IH W2 R2) as [Hu|[w [Hw1 Hw2]]]; [left; right; exact Hu|].
      right. exists (v + w). rewrite sumVal_cons, Hv1, Hw1. split; [reflexivity|].
      apply (hd_plus (g e) (fun t => sumVal (upd r xn xp t) l)); assumption.
  Qed.

  Lemma eval_at e v : wf anySym e -> hasDeriv (g e) t0 v -> exists w, eval r e = Some w /\ g e t0 = Some w.
  Proof. intros Hw Hd. destruct (hd_val _ _ _ Hd) as [w Hv]. exists w. rewrite <- (g_at e Hw). auto. Qed.
  Lemma prodVal_at l : Forall (wf anySym) l -> prodVal (upd r xn xp t0) l = prodVal r l.
  Proof. intros H. change (g (Prod l) t0 = eval r (Prod l)). apply g_at. apply wf_prod. exact H. Qed.

  (** The product rule. *)
  Lemma productRule_x d l : (forall e, In e l -> sp (d e) (okd e)) -> forall pre, Forall (wf anySym) pre -> Forall (wf anySym) l ->
    sp (productRule W d pre l) (fun s => Forall (wf anySym) s /\
      (Forall (wf nx) l -> Forall zu s) /\
      (Forall (regular r xn xp) l -> forall c, prodVal r pre = Some c ->
         In Undef s \/ exists v, sumVal r s = Some (c * v) /\ hasDeriv (fun t => prodVal (upd r xn xp t) l) t0 v)).
  Proof.
    induction l as [|f l IH]; intros Hd pre Hp Hl; cbn [productRule].
    - apply spec_ret. repeat split; auto. intros _ c Hc. right. exists 0. split; [cbn; f_equal; ring|].
      apply hd_const with (c := 1). reflexivity.
    - inversion Hl as [|? ? Hf Hl']; subst.
      eapply spec_bind; [apply Hd; left; reflexivity|]. intros f' [F1 [F2 F3]].
      eapply spec_bind; [apply prod_x; constructor; [exact F1|apply Forall_app; split; assumption]|].
      intros p [P1 [P2 [P3 P4]]].
      eapply spec_bind; [apply IH with (pre := pre ++ [f]); auto; [intros; apply Hd; right; assumption|apply Forall_app; auto]|].
      intros s [S1 [S2 S3]]. apply spec_ret. repeat split.
      + constructor; assumption.
      + intros Hn. inversion Hn; subst. constructor; [|auto]. apply P4. constructor. auto.
      + intros Hr c Hc. inversion Hr; subst.
        destruct (F3 H1) as [->|[v [Hv1 Hv2]]]; [left; left; apply P3; left; reflexivity|].
        destruct (eval_at f v Hf Hv2) as [w [Hw1 Hw2]].
        destruct (S3 H2 (c * w)) as [Hu|[v' [Hs1 Hs2]]].
        { rewrite prodVal_app, Hc, prodVal_1, Hw1. reflexivity. }
        * left. right. exact Hu.
        * right. destruct (hd_val _ _ _ Hs2) as [q Hq]. rewrite prodVal_at in Hq by exact Hl'.
          assert (Hp' : eval r p = Some (v * (c * q))).
          { rewrite prodVal_cons, prodVal_app, Hv1, Hc, Hq in P2. exact P2. }
          exists (v * q + w * v'). split.
          -- rewrite sumVal_cons, Hp', Hs1. cbn. f_equal. ring.
          -- apply (hd_mult (g f) (fun t => prodVal (upd r xn xp t) l)); auto. rewrite prodVal_at; auto.
  Qed.

  Lemma normal_x e : wf anySym e ->
    sp (w_normal W e) (fun d => wf anySym d /\ ole (eval r e) (eval r d) /\ (zu e -> zu d) /\ (e = Undef -> d = Undef)).
  Proof.
    intros He. destruct (isUndefined e) eqn:Eu.
    - apply isUndefined_eq in Eu. subst e.
      eapply spec_weaken; [apply (spec_and _ _ _ _ (so_normal W HW st r anySym Undef Hg He) (xo_normal_u W HX _))|].
      cbn. intros a [[H1 H2] ->]. unfold zu. tauto.
    - destruct (isZero e) eqn:Ez.
      + apply (isZero_eq anySym) in Ez; [|exact He]. subst e.
        eapply spec_weaken; [apply (spec_and _ _ _ _ (so_normal W HW st r anySym zero Hg He) (xo_normal_0 W HX _))|].
        cbn. intros a [[H1 H2] ->]. unfold zu. repeat split; auto; discriminate.
      + eapply spec_weaken; [apply (so_normal W HW st r anySym e Hg He)|]. cbn. intros a [H1 H2]. unfold zu. repeat split; auto.
        * intros [->| ->]; discriminate.
        * intros ->. discriminate.
  Qed.

  Lemma fct_eval f a s : f <> FAtan2 -> g (Fct f [a]) s = match g a s with Some v => fct1 f v | None => None end.
  Proof. intros Hf. unfold g. destruct f; try reflexivity. contradiction. Qed.

  Lemma wf_nx_list l : Forall (wf anySym) l -> existsb (mentions xn xp) l = false -> Forall (wf nx) l.
  Proof. intros Hw Hm. apply (wf_sum nx). apply mentions_wf; [apply wf_sum; exact Hw|exact Hm]. Qed.

  Lemma diffE_x n : forall e, wf anySym e -> sp (diffE W n (Sym xn xp) e) (okd e).
  Proof.
    induction n as [|n IH]; intros e Hw; [exact I|].
    (* it is enough to look at the second alternative of [regular] *)
    assert (Intro : forall d, wf anySym d -> (wf nx e -> zu d) ->
        (match e with
         | Num _ | Cst _ | Sym _ _ => True
         | Undef => False
         | Sum l | Prod l => Forall (regular r xn xp) l
         | Pow b y => regular r xn xp b /\ regular r xn xp y /\
             exists v, eval r b = Some v /\ (0 < v \/ v < 0 /\ mentions xn xp y = false /\ eval r e <> None)
         | Fct f [a] => regular r xn xp a /\ exists v, eval r a = Some v /\ inside f v
         | Fct _ _ => False
         end -> good e d) -> okd e d).
    { intros d H1 H2 H3. split; [exact H1|]. split; [exact H2|]. intros Hr.
      destruct (regular_cases _ _ _ _ Hr) as [[Hm He]|Hc]; [|apply H3, Hc].
      apply good_absent; auto; [|apply H2]; apply mentions_wf; assumption. }
    destruct e as [q|m p|c| |f l|l|l|b y]; cbn [diffE].
    - apply spec_ret. apply Intro; [apply wf_zero|left; reflexivity|]. intros _. apply good_absent; [exact Hw|discriminate|left; reflexivity].
    - apply spec_ret. destruct (isEqual (Sym m p) (Sym xn xp)) eqn:E.
      + assert (Es : Sym m p = Sym xn xp) by (apply isEqual_eq; [exact E|..]; auto).
        injection Es as -> ->. apply Intro; [apply wf_one|cbn; intros H; exfalso; apply H; auto|].
        intros _. right. exists 1. split; [cbn; f_equal; apply Q2R_1|].
        apply hd_ext with (g := fun s => Some s); [|apply hd_id]. intros s. unfold g. cbn. rewrite upd_same. reflexivity.
      + assert (Hn : wf nx (Sym m p)).
        { cbn. intros [-> ->]. cbn in E. rewrite nameEq_refl, Bool.eqb_reflx in E. discriminate. }
        apply Intro; [apply wf_zero|left; reflexivity|]. intros _. apply good_absent; [exact Hn|discriminate|left; reflexivity].
    - apply spec_ret. apply Intro; [apply wf_zero|left; reflexivity|]. intros _.
      apply good_absent; [exact I|destruct c; discriminate|left; reflexivity].
    - apply spec_ret. apply Intro; [exact I|right; reflexivity|contradiction].
    - (* functions *)
      apply wf_ops in Hw. destruct Hw as [Hlen Hw].
      assert (General : forall a, l = [a] -> f <> FAtan2 -> f <> FLog ->
        sp (o <- diffE W n (Sym xn xp) a ;; i <- innerDiff W f [a] ;; p <- w_prod W [i; o] ;; w_normal W p) (okd (Fct f [a]))).
      { intros a -> Hf1 Hf2. inversion Hw as [|? ? Ha _]; subst.
        eapply spec_bind; [apply IH, Ha|]. intros o [O1 [O2 O3]].
        eapply spec_bind; [apply innerDiff_x; repeat constructor; exact Ha|]. intros i [I1 I2].
        eapply spec_bind; [apply prod_x; repeat constructor; assumption|]. intros p [P1 [P2 [P3 P4]]].
        eapply spec_weaken; [apply normal_x, P1|]. intros d [D1 [D2 [D3 D4]]]. apply Intro; [exact D1| |].
        - intros Hn. apply D3, P4. apply wf_ops in Hn. destruct Hn as [_ Hn]. inversion Hn; subst.
          right. left. auto.
        - intros [Hr [v [Hv Hi]]]. destruct (O3 Hr) as [->|[v' [Hv1 Hv2]]].
          + left. apply D4, P3. right. left. reflexivity.
          + right. exists (dfct f v * v'). split.
            * cbn [prodVal fold_right] in P2. rewrite (I2 a v eq_refl Hv Hi Hf2), Hv1 in P2. cbn in P2. rewrite P2 in D2. cbn in D2.
              rewrite D2. f_equal. ring.
            * eapply hd_ext; [|eapply (hd_fct f (g a)); [exact Hv2|rewrite g_at by exact Ha; exact Hv|exact Hi]].
              intros s. symmetry. apply fct_eval, Hf1. }
      destruct f, l as [|a [|a2 [|a3 l]]]; try discriminate; try apply spec_ub;
        try (apply General; [reflexivity|discriminate|discriminate]).
      + (* atan2 *)
        inversion Hw as [|? ? Ha Hw2]; subst. inversion Hw2 as [|? ? Ha2 _]; subst.
        assert (Hz : sp (atan2ArgEval W a a2) (fun z => wf anySym z /\ (wf nx (Fct FAtan2 [a; a2]) -> wf nx z))).
        { destruct (existsb (mentions xn xp) [a; a2]) eqn:Em.
          - eapply spec_weaken; [apply atan2ArgEval_x; assumption|]. cbn beta. intros z Hz. split; [exact Hz|]. intros Hn. exfalso.
            apply existsb_exists in Em. destruct Em as [z' [Hz1 Hz2]]. apply wf_ops in Hn. destruct Hn as [_ Hn].
            rewrite Forall_forall in Hn. specialize (Hn _ Hz1). apply Bool.not_true_iff_false in Hz2; [exact Hz2|].
            clear -Hn. induction z' as [| | | |f l IH|l IH|l IH|b x IHb IHx] using expr_ind2; cbn; auto.
            + cbn in Hn. destruct (nameEq xn n) eqn:E; [|reflexivity]. apply nameEq_eq in E. subst.
              destruct (Bool.eqb xp p) eqn:B; [|reflexivity]. apply Bool.eqb_prop in B. subst. exfalso. apply Hn. auto.
            + apply wf_ops in Hn. destruct Hn as [_ Hn]. rewrite Forall_forall in *. apply Bool.not_true_iff_false. intros He.
              apply existsb_exists in He. destruct He as [y [Hy1 Hy2]]. rewrite IH in Hy2; auto. discriminate.
            + apply wf_sum in Hn. rewrite Forall_forall in *. apply Bool.not_true_iff_false. intros He.
              apply existsb_exists in He. destruct He as [y [Hy1 Hy2]]. rewrite IH in Hy2; auto. discriminate.
            + apply wf_prod in Hn. rewrite Forall_forall in *. apply Bool.not_true_iff_false. intros He.
              apply existsb_exists in He. destruct He as [y [Hy1 Hy2]]. rewrite IH in Hy2; auto. discriminate.
            + apply wf_pow in Hn. destruct Hn. rewrite IHb, IHx; auto.
          - apply wf_nx_list in Em; [|exact Hw]. inversion Em as [|? ? N1 N2]; subst. inversion N2 as [|? ? N3 _]; subst.
            unfold atan2ArgEval, oneOver.
            eapply spec_bind; [apply (so_pow W HW st r nx); [exact Hg|exact N3|apply wf_mOne]|]. intros i [I1 _].
            eapply spec_weaken; [apply (so_prod W HW st r nx); [exact Hg|repeat constructor; assumption]|].
            cbn beta. intros z [Z1 _]. split; [apply nx_any, Z1|auto]. }
        eapply spec_bind; [exact Hz|]. intros z [Z1 Z2].
        eapply spec_bind; [apply IH, Z1|]. intros o [O1 [O2 O3]].
        eapply spec_bind; [apply innerDiff_x, Hw|]. intros i [I1 I2].
        eapply spec_bind; [apply prod_x; repeat constructor; assumption|]. intros p [P1 [P2 [P3 P4]]].
        eapply spec_weaken; [apply normal_x, P1|]. intros d [D1 [D2 [D3 D4]]]. apply Intro; [exact D1| |contradiction].
        intros Hn. apply D3, P4. right. left. auto.
      + (* log *)
        inversion Hw as [|? ? Ha _]; subst.
        eapply spec_bind; [apply oneOver_x, Ha|]. intros i [I1 I2].
        eapply spec_bind; [apply IH, Ha|]. intros o [O1 [O2 O3]].
        eapply spec_weaken; [apply prod_x; repeat constructor; assumption|]. intros d [P1 [P2 [P3 P4]]].
        apply Intro; [exact P1| |].
        * intros Hn. apply P4. apply wf_ops in Hn. destruct Hn as [_ Hn]. inversion Hn; subst. right. left. auto.
        * intros [Hr [v [Hv Hi]]]. destruct (O3 Hr) as [->|[v' [Hv1 Hv2]]].
          -- left. apply P3. right. left. reflexivity.
          -- right. exists (dfct FLog v * v'). cbn in Hi. split.
             ++ cbn [prodVal fold_right] in P2. rewrite (I2 v Hv), Hv1 in P2 by lra. cbn in P2. rewrite P2. f_equal. cbn. ring.
             ++ eapply hd_ext; [|eapply (hd_fct FLog (g a)); [exact Hv2|rewrite g_at by exact Ha; exact Hv|exact Hi]].
                intros s. symmetry. apply fct_eval. discriminate.
    - (* sums *)
      apply wf_sum in Hw. eapply spec_bind; [apply spec_mapM with (Q := okd)|].
      { intros x Hx. apply IH. rewrite Forall_forall in Hw. auto. }
      intros ds H2.
      assert (Hds : Forall (wf anySym) ds).
      { clear -H2. induction H2; constructor; auto. apply H. }
      eapply spec_weaken; [apply sum_x, Hds|]. intros d [D1 [D2 [D3 D4]]]. apply Intro; [exact D1| |].
      + intros Hn. apply wf_sum in Hn. apply D4. clear -H2 Hn. induction H2; [constructor|].
        inversion Hn; subst. constructor; [apply H; assumption|auto].
      + intros Hr. destruct (hd_sum l ds Hw H2 Hr) as [Hu|[v [Hv1 Hv2]]]; [left; auto|].
        right. exists v. rewrite Hv1 in D2. auto.
    - (* products *)
      apply wf_prod in Hw. eapply spec_bind; [apply productRule_x with (l := l); auto|].
      { intros x Hx. apply IH. rewrite Forall_forall in Hw. auto. }
      intros s [S1 [S2 S3]]. eapply spec_weaken; [apply sum_x, S1|]. intros d [D1 [D2 [D3 D4]]]. apply Intro; [exact D1| |].
      + intros Hn. apply wf_prod in Hn. auto.
      + intros Hr. destruct (S3 Hr 1 eq_refl) as [Hu|[v [Hv1 Hv2]]]; [left; auto|].
        right. exists v. rewrite Hv1, Rmult_1_l in D2. auto.
    - (* powers *)
      pose proof Hw as Hwe. apply wf_pow in Hw. destruct Hw as [Hb Hy].
      eapply spec_bind; [apply (so_log W HW st r anySym); assumption|]. intros lb [L1 L2].
      eapply spec_bind; [apply IH, Hy|]. intros dy [Y1 [Y2 Y3]].
      eapply spec_bind; [apply prod_x; repeat constructor; assumption|]. intros p [P1 [P2 [P3 P4]]].
      eapply spec_bind; [apply oneOver_x, Hb|]. intros ib [I1 I2].
      eapply spec_bind; [apply IH, Hb|]. intros db [B1 [B2 B3]].
      eapply spec_bind; [apply prod_x; repeat constructor; assumption|]. intros q [Q1 [Q2 [Q3 Q4]]].
      eapply spec_bind; [apply sum_x; repeat constructor; assumption|]. intros s [S1 [S2 [S3 S4]]].
      eapply spec_weaken; [apply prod_x; constructor; [exact Hwe|constructor; [exact S1|constructor]]|]. intros d [D1 [D2 [D3 D4]]].
      apply Intro; [exact D1| |].
      + intros Hn. apply wf_pow in Hn. destruct Hn as [N1 N2]. apply D4. right. left. apply S4. constructor; [|constructor; [|constructor]].
        * apply P4. right. left. auto.
        * apply Q4. right. right. left. auto.
      + intros [Rb [Ry [v [Hv Hc]]]].
        assert (Und : p = Undef \/ q = Undef -> good (Pow b y) d).
        { intros Hu. left. apply D3. right. left. apply S3. destruct Hu as [->| ->]; cbn; auto. }
        destruct (Y3 Ry) as [->|[y' [Hy1 Hy2]]]; [apply Und; left; apply P3; right; left; reflexivity|].
        destruct (B3 Rb) as [->|[b' [Hb1 Hb2]]]; [apply Und; right; apply Q3; right; right; left; reflexivity|].
        destruct (eval_at y y' Hy Hy2) as [w [Hw1 Hw2]].
        assert (Hvz : v <> 0) by lra.
        assert (Hq : eval r q = Some (w * / v * b')).
        { cbn [prodVal fold_right] in Q2. rewrite Hw1, (I2 v Hv Hvz), Hb1 in Q2. cbn in Q2. rewrite Q2. f_equal. ring. }
        assert (Hgb : g b t0 = Some v) by (rewrite g_at; assumption).
        destruct Hc as [Hpos|[Hneg [Hm He]]].
        * assert (Hp : eval r p = Some (ln v * y')).
          { cbn in L2. rewrite Hv in L2. cbn in L2. destruct (Rlt_dec 0 v); [|contradiction]. cbn in L2.
            cbn [prodVal fold_right] in P2. rewrite L2, Hy1 in P2. cbn in P2. rewrite P2. f_equal. ring. }
          right. exists (Rpower v w * (ln v * y' + w * / v * b')). split.
          -- cbn [sumVal fold_right] in S2. rewrite Hp, Hq in S2. cbn in S2.
             cbn [prodVal fold_right] in D2. rewrite eval_pow, Hv, Hw1, S2 in D2. cbn [opow] in D2. rewrite rpow_pos in D2 by exact Hpos.
             cbn in D2. rewrite D2. f_equal. ring.
          -- apply (hd_pow_pos (g b) (g y)); assumption.
        * assert (Hny : wf nx y) by (apply mentions_wf; assumption).
          rewrite eval_pow, Hv, Hw1 in He. cbn [opow] in He.
          destruct (rpow v w) as [z|] eqn:Ez; [|contradiction].
          destruct (P4 (Exists_cons_tl _ (Exists_cons_hd _ _ _ (Y2 Hny)))) as [->| ->]; [|apply Und; left; reflexivity].
          right. exists (z * (w * / v * b')). split.
          -- cbn [sumVal fold_right] in S2. rewrite Hq in S2. cbn in S2.
             cbn [prodVal fold_right] in D2. rewrite eval_pow, Hv, Hw1, S2 in D2. cbn [opow] in D2. rewrite Ez in D2. cbn in D2.
             rewrite D2. f_equal. rewrite Q2R_0. ring.
          -- apply (hd_pow_neg (g b) (g y)) with (w := w); auto. intros t. rewrite eval_absent; assumption.
  Qed.
End DiffProofs.
