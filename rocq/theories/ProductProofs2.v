(** Value preservation of products, continued: powers of trigonometric functions, whole products and
    their expansion. *)
From Verif Require Export ProductProofs.
From Coq Require Import Lra Lia Permutation.
Open Scope R_scope.

Lemma trigName_inv e g : trigName e = Some g -> (exists l, e = Fct g l) /\ (g = FSin \/ g = FCos \/ g = FTan).
Proof.
  destruct e; try discriminate. cbn [trigName]. destruct f; cbn; intros E; try discriminate; injection E as <-; eauto.
Qed.

Lemma nameEq_tmp j k : j <> k -> nameEq (tmpNm j) (tmpNm k) = false.
Proof. intros Hn. apply nameEq_neq. intros E. now apply tmpNm_inj in E. Qed.

Lemma upd_other r n p v m q : n <> m -> upd r n p v m q = r m q.
Proof. intros Hn. unfold upd. apply nameEq_neq in Hn. now rewrite Hn. Qed.

Lemma upd_tmp_short r k j p v P e : (j <= 3 + k)%nat -> wf (both P (short j)) e ->
  eval (upd r (tmpNm k) p v) e = eval r e.
Proof.
  intros Hj He. eapply eval_agree; [exact He|]. intros n q [_ Hs]. apply upd_other. intros <-.
  unfold short in Hs. rewrite tmpNm_len in Hs. lia.
Qed.

Lemma wgood_upd st r n p v : wgood st r -> (p = true -> sgnOK st v) -> wgood st (upd r n p v).
Proof.
  intros Hg Hv m. unfold upd. destruct (nameEq n m); cbn [andb]; [|apply Hg].
  destruct p; cbn; [now apply Hv|apply Hg].
Qed.
Lemma last_in {A} (x : A) l : In (last (x :: l) x) (x :: l).
Proof.
  revert x. induction l as [|y l IH]; intros x; [left; reflexivity|].
  right. replace (last (x :: y :: l) x) with (last (y :: l) y); [apply IH|].
  change (last (y :: l) y = last (y :: l) x). clear. revert y. induction l as [|z l IH]; intros y; [reflexivity|].
  change (last (z :: l) y = last (z :: l) x). clear IH. revert z. induction l as [|w l IH]; intros z; [reflexivity|].
  apply (IH w).
Qed.
Lemma sgnOK_1 st : sgnOK st 1. Proof. destruct st; cbn; lra. Qed.

Lemma env_agree r r' e : (forall n p, r n p = r' n p) -> eval r e = eval r' e.
Proof.
  intros HP. induction e using expr_ind2; cbn [eval]; auto.
  - now rewrite HP.
  - destruct l as [|x [|y [|z l]]]; destruct f; try reflexivity; rewrite !H by (cbn; auto); reflexivity.
  - induction l as [|x l IH]; cbn [fold_right]; [reflexivity|].
    rewrite H, IH by (intros; try apply H; cbn; auto). reflexivity.
  - induction l as [|x l IH]; cbn [fold_right]; [reflexivity|].
    rewrite H, IH by (intros; try apply H; cbn; auto). reflexivity.
  - now rewrite IHe1, IHe2.
Qed.

Section Trig.
  Variables (Y : sys) (W : oper).
  Hypothesis HW : soundOps W.
  Variables (st : bool) (r : env) (P : name -> bool -> Prop).
  Hypothesis Hg : wgood st r.
  Notation sp := (spec (holds st r)).
  Notation factOK o := (fun l => Forall (wf P) l /\ ole o (prodVal r l)).

  Definition valOr1 (o : option R) : R := match o with Some v => v | None => 1 end.

  (** The replaced factor has the value of the original one. *)
  Lemma replacement_sp st' r' P' e s c arg g : wgood st' r' -> wf P' s -> wf P' c -> wf P' (expo e) ->
    base e = Fct g [arg] -> trigName (base e) = Some g ->
    eval r' (expo e) = eval r (expo e) ->
    (forall t, eval r arg = Some t -> eval r' s = Some (sin t) /\ eval r' c = Some (cos t)) ->
    spec (holds st' r') (trigFunctionPowerReplacement W e s c)
      (fun x => wf P' x /\ ole (eval r e) (eval r' x)).
  Proof.
    intros Hg' Hs Hc Hx Eb En Ex Hsc. unfold trigFunctionPowerReplacement. rewrite En.
    rewrite (eval_base_expo r e), Eb, <- Ex.
    destruct (trigName_inv _ _ En) as (_ & Hcase).
    destruct Hcase as [-> | [-> | ->]].
    - eapply spec_weaken; [apply pow_call with (P := P'); assumption|]. intros x (Hw & Hv). split; [assumption|].
      eapply ole_trans; [|exact Hv]. apply ole_opow; [|apply ole_refl]. cbn [eval].
      destruct (eval r arg) as [t|]; [|exact I]. destruct (Hsc t eq_refl) as [-> _]. reflexivity.
    - eapply spec_weaken; [apply pow_call with (P := P'); assumption|]. intros x (Hw & Hv). split; [assumption|].
      eapply ole_trans; [|exact Hv]. apply ole_opow; [|apply ole_refl]. cbn [eval].
      destruct (eval r arg) as [t|]; [|exact I]. destruct (Hsc t eq_refl) as [_ ->]. reflexivity.
    - eapply spec_bind; [apply pow_call with (P := P'); auto with sp|]. intros i (Hi & Hiv).
      eapply spec_bind; [apply prod_call with (P := P'); auto|]. intros t (Ht & Htv).
      eapply spec_weaken; [apply pow_call with (P := P'); assumption|]. intros x (Hw & Hv). split; [assumption|].
      eapply ole_trans; [|exact Hv]. apply ole_opow; [|apply ole_refl]. eapply ole_trans; [|exact Htv].
      rewrite prod2. cbn [eval]. destruct (eval r arg) as [a|]; [|exact I].
      destruct (Hsc a eq_refl) as [Es Ec]. rewrite Es. rewrite Ec, eval_mOne in Hiv. cbn [fct1].
      destruct (Req_EM_T (cos a) 0) as [|Hn]; [exact I|]. cbn [opow] in Hiv. rewrite rpow_rm1 in Hiv by assumption.
      cbn in Hiv. rewrite Hiv. reflexivity.
  Qed.

  Lemma contractTrigFctPowers_sp n a b : wf P a -> wf P b -> areContractableTrigFctPowers Y a b = true ->
    sp (contractTrigFctPowers Y W n a b) (factOK (prodVal r [a; b])).
  Proof.
    intros Ha Hb E. unfold areContractableTrigFctPowers in E.
    apply andb_prop in E as [E E3]. apply andb_prop in E as [E1 E2].
    unfold isContractableTrigFctPower in E1, E2.
    destruct (trigName (base a)) as [g1|] eqn:N1; [|discriminate]. destruct (trigName (base b)) as [g2|] eqn:N2; [|discriminate].
    destruct (trigName_inv _ _ N1) as ((l1 & B1) & C1). destruct (trigName_inv _ _ N2) as ((l2 & B2) & C2).
    pose proof (wf_base P a Ha) as Wa. pose proof (wf_base P b Hb) as Wb. rewrite B1 in Wa. rewrite B2 in Wb.
    destruct (fct1_inv P g1 l1 Wa) as (arg & -> & Harg); [intros ->; intuition discriminate|].
    destruct (fct1_inv P g2 l2 Wb) as (arg' & -> & Harg'); [intros ->; intuition discriminate|].
    rewrite B1, B2 in E3. cbn [ops] in E3. apply isEqual_eq in E3. subst arg'. clear E1 E2 Harg'.
    unfold contractTrigFctPowers. rewrite B1. cbn [ops].
    set (k := S (nameLen (Prod [a; b]))). set (P0 := both P (short k)).
    assert (Hlen : (nameLen a < k /\ nameLen b < k)%nat) by (unfold k; cbn [nameLen fold_right]; lia).
    assert (Wa0 : wf P0 a) by (apply wf_short; [assumption|lia]).
    assert (Wb0 : wf P0 b) by (apply wf_short; [assumption|lia]).
    assert (Warg : wf P0 arg).
    { apply wf_base in Wa0. rewrite B1 in Wa0. apply wf_ops in Wa0 as [_ Wa0]. now inversion Wa0. }
    eapply spec_bind; [apply trig_call with (P := P0); auto|]. intros sn (Hsn & Vsn).
    eapply spec_bind; [apply pos_call with (P := P0); auto|]. intros ps Hps.
    eapply spec_bind; [apply trig_call with (P := P0); auto|]. intros cs (Hcs & Vcs).
    eapply spec_bind; [apply pos_call with (P := P0); auto|]. intros pc Hpc.
    set (ns := tmpNm k). set (nc := tmpNm (S k)).
    set (vs := valOr1 (eval r sn)). set (vc := valOr1 (eval r cs)).
    assert (Hne : ns <> nc) by (intros E; apply tmpNm_inj in E; lia).
    assert (Eext : ext r [(ns, ps, sn); (nc, pc, cs)] = upd (upd r ns ps vs) nc pc vc).
    { change (upd (upd r ns ps vs) nc pc (valOr1 (eval (upd r ns ps vs) cs)) = upd (upd r ns ps vs) nc pc vc).
      f_equal. unfold vc. f_equal. apply upd_tmp_short with (j := k) (P := P); [lia|exact Hcs]. }
    assert (Hvs : ps = true -> sgnOK st vs).
    { intros Ep. unfold vs, valOr1. destruct (eval r sn); [now apply Hps|apply sgnOK_1]. }
    assert (Hvc : pc = true -> sgnOK st vc).
    { intros Ep. unfold vc, valOr1. destruct (eval r cs); [now apply Hpc|apply sgnOK_1]. }
    set (r' := upd (upd r ns ps vs) nc pc vc) in *.
    assert (Hg' : wgood st r') by (unfold r'; apply wgood_upd; [apply wgood_upd; assumption|assumption]).
    set (P2 := plus1 (plus1 P0 ns ps) nc pc).
    assert (Up : forall e, wf P0 e -> wf P2 e).
    { intros e. apply wf_mono. intros m q Hm. left. left. exact Hm. }
    assert (Ws : wf P2 (Sym ns ps)) by (left; right; auto).
    assert (Wc : wf P2 (Sym nc pc)) by (right; auto).
    assert (Agree : forall e, wf P0 e -> eval r' e = eval r e).
    { intros e He. unfold r'. rewrite (upd_tmp_short _ (S k) k pc vc P e) by (try lia; exact He).
      apply upd_tmp_short with (j := k) (P := P); [lia|exact He]. }
    assert (Es : eval r' (Sym ns ps) = Some vs).
    { cbn [eval]. unfold r'. rewrite upd_other by congruence. now rewrite upd_same. }
    assert (Ec : eval r' (Sym nc pc) = Some vc).
    { cbn [eval]. unfold r'. now rewrite upd_same. }
    assert (Hsc : forall t, eval r arg = Some t -> vs = sin t /\ vc = cos t).
    { intros t Et. cbn [eval] in Vsn, Vcs. rewrite Et in Vsn, Vcs. cbn in Vsn, Vcs. unfold vs, vc. now rewrite Vsn, Vcs. }
    assert (Hsc' : forall t, eval r arg = Some t ->
        eval r' (Sym ns ps) = Some (sin t) /\ eval r' (Sym nc pc) = Some (cos t)).
    { intros t Et. destruct (Hsc t Et) as [<- <-]. auto. }
    (* the simplified product of the replacements *)
    eapply spec_bind with (Q1 := fun l => Forall (wf P2) l /\ ole (prodVal r [a; b]) (prodVal r' l)).
    { apply spec_inEnv. rewrite Eext.
      eapply spec_bind.
      { apply replacement_sp with (P' := P2) (arg := arg) (g := g1); auto. apply Up, wf_expo, Wa0. apply Agree, wf_expo, Wa0. }
      intros x1 (Wx1 & Vx1).
      eapply spec_bind.
      { apply replacement_sp with (P' := P2) (arg := arg) (g := g2); auto. apply Up, wf_expo, Wb0. apply Agree, wf_expo, Wb0. }
      intros x2 (Wx2 & Vx2).
      eapply spec_weaken; [apply simplTwoFactors_sp with (P := P2); assumption|].
      intros l (Hl & Hv). split; [assumption|]. eapply ole_trans; [|exact Hv]. rewrite !prod2. now apply ole_omult. }
    intros l (Hl & Hv). destruct l as [|x rest]; [exact I|]. set (l := x :: rest) in *.
    set (y := last l x).
    assert (Wx : wf P2 x) by now inversion Hl.
    assert (Wy : wf P2 y).
    { assert (Hin : In y l) by apply last_in.
      rewrite Forall_forall in Hl. auto. }
    eapply spec_bind with (Q1 := fun t => t = true -> l = [x; y] /\
        ole (omult (Some (-1)) (eval r' (expo y))) (eval r' (expo x))).
    { destruct rest as [|x2 [|x3 rest]]; try (apply spec_ret; discriminate).
      eapply spec_bind.
      { apply spec_inEnv. rewrite Eext. apply minus_call with (P := P2); auto. constructor; [now apply wf_expo|constructor]. }
      intros m (Wm & Vm). apply spec_ret. intros E. apply isEqual_eq in E. split; [reflexivity|].
      rewrite E. rewrite prodVal_1 in Vm. exact Vm. }
    intros t Ht. destruct t.
    - destruct (Ht eq_refl) as (El & Hm).
      eapply spec_bind; [apply spec_relyIf'|]. intros ? Hbug. cbn [holds] in Hbug.
      destruct (negb _ || _ || _) eqn:Eb; [now destruct Hbug|]. clear Hbug.
      apply Bool.orb_false_elim in Eb as [Eb Hc2]. apply Bool.orb_false_elim in Eb as [Eb Hc1].
      apply Bool.negb_false_iff in Eb.
      assert (Wex : wf P0 (expo x)).
      { apply (has_wf P0 ns ps); [|assumption]. apply (has_wf _ nc pc); [|assumption]. now apply wf_expo. }
      eapply spec_bind; [apply spec_rely'|]. intros ? Hnz. cbn [holds] in Hnz.
      eapply spec_bind with (Q1 := fun e => wf P0 e /\
         ole (if isEqual (base x) (Sym nc pc) then omult (Some (-1)) (eval r (expo x)) else eval r (expo x)) (eval r e)).
      { destruct (isEqual (base x) (Sym nc pc)).
        - eapply spec_weaken; [apply minus_call with (P := P0); auto|]. intros e (We & Ve). split; [assumption|].
          now rewrite prodVal_1 in Ve.
        - apply spec_ret. split; [assumption|apply ole_refl]. }
      intros newExp (Wne & Vne).
      eapply spec_bind; [apply trig_call with (P := P0); auto|]. intros tn (Wtn & Vtn).
      eapply spec_bind; [apply pow_call with (P := P0); auto|]. intros p (Wp & Vp).
      apply spec_ret. split; [constructor; [|constructor]; revert Wp; apply wf_mono; intros m q [Hm' _]; exact Hm'|].
      rewrite prodVal_1. eapply ole_trans; [|exact Vp].
      (* the value of the quotient *)
      apply ole_intro. intros v Ev. rewrite Ev in Hv. cbn [ole] in Hv. rewrite El, prod2 in Hv.
      apply omult_some in Hv as (u1 & u2 & Eu1 & Eu2 & ->).
      rewrite (eval_base_expo r' x) in Eu1. rewrite (eval_base_expo r' y) in Eu2.
      apply opow_some in Eu1 as (bx & ex & Ebx & Eex & R1). apply opow_some in Eu2 as (by' & ey & Eby & Eey & R2).
      rewrite Eex, Eey in Hm. cbn in Hm. apply some_inj in Hm.
      assert (Earg : exists tt, eval r arg = Some tt).
      { rewrite prod2 in Ev. apply omult_some in Ev as (w1 & w2 & Ew1 & _ & _).
        rewrite (eval_base_expo r a), B1 in Ew1. apply opow_some in Ew1 as (w3 & w4 & Ew3 & _ & _).
        cbn [eval] in Ew3. destruct (eval r arg) as [tt|]; [eauto|]. destruct C1 as [-> | [-> | ->]]; discriminate. }
      destruct Earg as (tt & Earg). destruct (Hsc tt Earg) as [Evs Evc].
      assert (Hcz : cos tt <> 0).
      { intros E0. apply Hnz. cbn [eval] in Vcs. rewrite Earg in Vcs. cbn in Vcs. now rewrite Vcs, E0. }
      cbn [eval] in Vtn. rewrite Earg in Vtn. cbn [fct1] in Vtn. destruct (Req_EM_T (cos tt) 0); [contradiction|].
      cbn in Vtn. rewrite Vtn.
      rewrite (Agree _ Wex) in Eex.
      destruct (isEqual (base x) (Sym nc pc)) eqn:Ex.
      + apply isEqual_eq in Ex. rewrite Ex, Ec in Ebx. apply some_inj in Ebx.
        rewrite Ex in Eb. assert (Eys : isEqual (base y) (Sym ns ps) = true).
        { apply Bool.orb_prop in Eb as [Eb|Eb]; apply andb_prop in Eb as [Eb1 Eb2]; [|assumption].
          apply isEqual_eq in Eb1. congruence. }
        apply isEqual_eq in Eys. rewrite Eys, Es in Eby. apply some_inj in Eby.
        rewrite Eex in Vne. cbn in Vne. rewrite Vne. cbn [opow]. subst bx by'. rewrite Evc in R1. rewrite Evs in R2.
        unfold tan. replace (-1 * ex) with ey by lra. rewrite Rmult_comm.
        apply rpow_quot; [assumption|assumption|]. now replace (- ey) with ex by lra.
      + assert (Exs : isEqual (base x) (Sym ns ps) = true /\ isEqual (base y) (Sym nc pc) = true).
        { apply Bool.orb_prop in Eb as [Eb|Eb]; apply andb_prop in Eb as [Eb1 Eb2]; [auto|congruence]. }
        destruct Exs as [Exs Eys]. apply isEqual_eq in Exs, Eys.
        rewrite Exs, Es in Ebx. rewrite Eys, Ec in Eby. apply some_inj in Ebx, Eby.
        rewrite Eex in Vne. cbn in Vne. rewrite Vne. cbn [opow]. subst bx by'. rewrite Evs in R1. rewrite Evc in R2.
        unfold tan. apply rpow_quot; [assumption|assumption|]. now replace (- ex) with ey by lra.
    - clear Ht.
      set (r1 := upd r nc pc vc).
      assert (Hg1 : wgood st r1) by (apply wgood_upd; assumption).
      assert (Eext1 : ext r [(nc, pc, cs)] = r1) by reflexivity.
      set (P1 := plus1 P0 nc pc).
      eapply spec_bind.
      { apply spec_inEnv. rewrite Eext1.
        apply spec_mapM with (Q := fun e e' => wf P1 e' /\
          forall v, eval r1 sn = Some v -> ole (eval (upd r1 ns ps v) e) (eval r1 e')).
        intros e He. apply (so_subst W HW); [assumption| |].
        - rewrite Forall_forall in Hl. specialize (Hl e He). revert Hl. apply wf_mono.
          unfold P2, P1, plus1. tauto.
        - revert Hsn. apply wf_mono. intros m q Hm. left. exact Hm. }
      intros l' Hl'.
      eapply spec_bind.
      { apply spec_mapM with (Q := fun e e' => wf P0 e' /\
          forall v, eval r cs = Some v -> ole (eval (upd r nc pc v) e) (eval r e')).
        intros e He. apply (so_subst W HW); [assumption| |assumption].
        clear - Hl' He. induction Hl' as [|u1 u2 k1 k2 [Hu _] _ IH]; [destruct He|]. destruct He as [<-|He]; auto. }
      intros l'' Hl''.
      assert (Hfin : Forall (wf P) l'' /\ ole (prodVal r [a; b]) (prodVal r l'')).
      { split.
        - clear - Hl''. induction Hl'' as [|u1 u2 k1 k2 [Hu _] _ IH]; constructor; [|assumption].
          revert Hu. apply wf_mono. intros m q [Hm _]. exact Hm.
        - apply ole_intro. intros v Ev. pose proof (ole_some _ _ _ Hv Ev) as Evl.
          assert (Earg : exists tt, eval r arg = Some tt).
          { rewrite prod2 in Ev. apply omult_some in Ev as (w1 & w2 & Ew1 & _ & _).
            rewrite (eval_base_expo r a), B1 in Ew1. apply opow_some in Ew1 as (w3 & w4 & Ew3 & _ & _).
            cbn [eval] in Ew3. destruct (eval r arg) as [tt|]; [eauto|]. destruct C1 as [-> | [-> | ->]]; discriminate. }
          destruct Earg as (tt & Earg).
          cbn [eval] in Vsn, Vcs. rewrite Earg in Vsn, Vcs. cbn in Vsn, Vcs.
          assert (Evs : vs = sin tt) by (unfold vs; now rewrite Vsn).
          assert (Evc : vc = cos tt) by (unfold vc; now rewrite Vcs).
          assert (Esn1 : eval r1 sn = Some vs).
          { unfold r1. rewrite (upd_tmp_short _ (S k) k pc vc P sn) by (try lia; exact Hsn). now rewrite Vsn, Evs. }
          assert (S1 : ole (prodVal r' l) (prodVal r1 l')).
          { apply prodVal_ole'. clear - Hl' Esn1 Hne. induction Hl' as [|u1 u2 k1 k2 [_ Hu] _ IH]; constructor; [|assumption].
            specialize (Hu vs Esn1). eapply ole_trans; [|exact Hu]. apply ole_eq.
            apply env_agree. intros m q. unfold r1, r', upd.
            destruct (nameEq nc m) eqn:E1, (nameEq ns m) eqn:E2; cbn [andb]; try reflexivity.
            apply nameEq_eq in E1, E2. congruence. }
          assert (S2 : ole (prodVal r1 l') (prodVal r l'')).
          { apply prodVal_ole'. clear - Hl'' Vcs Evc. induction Hl'' as [|u1 u2 k1 k2 [_ Hu] _ IH]; constructor; [|assumption].
            specialize (Hu _ Vcs). unfold r1. rewrite Evc. exact Hu. }
          eapply ole_some; [|exact Evl]. eapply ole_trans; eassumption. }
      destruct Hfin as [Hw Hval].
      destruct l'' as [|x' k'']; [exact I|].
      destruct (permuted Y x' (last (x' :: k'') x')).
      + eapply spec_bind; [apply spec_relyIf'|]. intros ? Hbug. cbn [holds] in Hbug.
        destruct k'' as [|y' [|z' k'']]; cbn [length Nat.eqb negb] in Hbug; try now destruct Hbug.
        apply spec_ret. cbn [last]. split.
        * inversion_clear Hw as [|? ? ? Hw']. inversion_clear Hw'. auto.
        * rewrite !prod2 in *. now rewrite (omult_comm (eval r y')).
      + apply spec_ret. auto.
  Qed.
End Trig.
