(** Value preservation of trigonometric functions and logarithms: functions of functions, angles of
    points, logarithms. *)
From Verif Require Export TrigProofs.
From Coq Require Import Lra Lia.
Open Scope R_scope.

Section TrigP2.
  Variables (Y : sys) (W : oper).
  Hypothesis HW : soundOps W.
  Variables (st : bool) (r : env) (P : name -> bool -> Prop).
  Hypothesis Hg : wgood st r.
  Notation sp := (spec (holds st r)).
  Notation nev := (numericEval Y).
  Notation valOK o := (fun e => wf P e /\ ole o (eval r e)).
  Notation optOK o := (fun m => match m with None => True | Some e => wf P e /\ ole o (eval r e) end).
  Notation valIs := (valIs r P).
  Notation turned := (turned r P).

  Lemma eval_fct1 f a : f <> FAtan2 -> eval r (Fct f [a]) = ofct f (eval r a).
  Proof. intros Hf. destruct f; try reflexivity. congruence. Qed.
  Lemma wf_fct1 f a : f <> FAtan2 -> wf P a -> wf P (Fct f [a]).
  Proof. intros Hf Ha. apply wf_ops. split; [destruct f; try reflexivity; congruence|auto]. Qed.

  Lemma numTrigo_sp n f a : trigF f = true -> wf P a -> sp (numTrigo Y W n f a) (optOK (ofct f (eval r a))).
  Proof.
    intros Hf Ha. destruct f; try discriminate Hf; cbn [numTrigo].
    - eapply spec_weaken; [apply simplSinCos_sp with (P := P); assumption|]. intros m Hm. exact Hm.
    - eapply spec_weaken; [apply simplSinCos_sp with (P := P); assumption|]. intros m Hm. exact Hm.
    - now apply simplTan_sp.
    - apply simplInverse_sp; try assumption. left. reflexivity.
    - apply simplInverse_sp; try assumption. right. left. reflexivity.
    - apply simplInverse_sp; try assumption. right. right. reflexivity.
  Qed.

  Lemma timesPi1 : sp (timesPi W 1) (fun e => valIs e PI).
  Proof. apply timesPi_ex; try assumption; [reflexivity|]. rewrite (Q2R_IZR 1). ring. Qed.

  Lemma bySymmetry_sp again f a : trigF f = true -> wf P a ->
    sp (bySymmetry W again f a) (valOK (eval r (Fct f [a]))).
  Proof.
    intros Hf Ha. assert (Hf2 : f <> FAtan2) by (intros ->; discriminate Hf).
    unfold bySymmetry. eapply spec_bind; [apply minus_call with (P := P); auto|]. intros p (Hp & Vp). rewrite prodVal_1 in Vp.
    eapply spec_bind with (Q1 := valOK (eval r (Fct f [p]))).
    { destruct again; [apply trig_call; auto|]. apply spec_ret. split; [now apply wf_fct1|apply ole_refl]. }
    intros q (Hq & Vq). rewrite eval_fct1 in Vq by assumption. rewrite eval_fct1 by assumption.
    assert (Hodd : (forall v w, fct1 f v = Some w -> fct1 f (- v) = Some (- w)) -> sp (minus W [q]) (valOK (ofct f (eval r a)))).
    { intros Ho. eapply spec_weaken; [apply minus_call with (P := P); auto|]. intros m (Hm & Vm). split; [assumption|].
      rewrite prodVal_1 in Vm. apply ole_intro. intros w Ew. destruct (eval r a) as [v|]; [|discriminate Ew]. cbn in Ew, Vp.
      rewrite Vp in Vq. cbn [ofct] in Vq. replace (-1 * v) with (- v) in Vq by ring. rewrite (Ho v w Ew) in Vq. cbn in Vq.
      rewrite Vq in Vm. cbn in Vm. rewrite Vm. f_equal. ring. }
    destruct f; try discriminate Hf.
    - apply Hodd. intros v w E. cbn in *. injection E as <-. now rewrite sin_neg.
    - apply spec_ret. split; [assumption|]. destruct (eval r a) as [v|]; [|exact I]. cbn in *. rewrite Vp in Vq. cbn in Vq.
      rewrite Vq. f_equal. replace (-1 * v) with (- v) by ring. apply cos_neg.
    - apply Hodd. intros v w E. apply fct1_tan in E as [Hc ->]. rewrite tan_some; [now rewrite tan_neg|now rewrite cos_neg].
    - apply Hodd. apply asin_neg.
    - eapply spec_bind; [apply timesPi1|]. intros t [Ht Et].
      eapply spec_bind; [apply minus_call with (P := P); auto|]. intros m (Hm & Vm).
      eapply spec_weaken; [apply sum_call with (P := P); auto|]. intros s (Hs & Vs). split; [assumption|].
      rewrite prodVal_1 in Vm. apply ole_intro. intros w Ew. destruct (eval r a) as [v|]; [|discriminate Ew]. cbn [ofct] in Ew. cbn in Vp.
      rewrite Vp in Vq. cbn [ofct] in Vq. replace (-1 * v) with (- v) in Vq by ring. rewrite (acos_neg v w Ew) in Vq. cbn in Vq.
      rewrite Vq in Vm. cbn in Vm. rewrite sum2, Et, Vm in Vs. cbn in Vs. rewrite Vs. f_equal. ring.
    - apply Hodd. intros v w E. cbn in *. injection E as <-. now rewrite atan_opp.
  Qed.

  Lemma spec_quiet {A} (m : res A) : sp (quiet m) (fun _ => True).
  Proof. destruct m; try exact I. intros _. exact I. Qed.

  Lemma createNumerically_sp n f a : trigF f = true -> wf P a ->
    sp (createNumerically Y W n f a) (valOK (eval r (Fct f [a]))).
  Proof.
    intros Hf Ha. assert (Hf2 : f <> FAtan2) by (intros ->; discriminate Hf).
    unfold createNumerically. eapply spec_bind; [now apply numTrigo_sp|]. intros [e|] Hm.
    - apply spec_ret. now rewrite eval_fct1.
    - eapply spec_bind; [apply spec_quiet|]. intros [|] _; [now apply bySymmetry_sp|].
      apply spec_ret. split; [now apply wf_fct1|apply ole_refl].
  Qed.

  (** Inverse function of a function. *)

  Lemma shiftArgIntoRange_sp n f g x : isOtherTheInverse g f = true -> wf P x ->
    sp (shiftArgIntoRange Y W n f x) (valOK (ofct f (ofct g (eval r x)))).
  Proof.
    pose proof PI_RGT_0 as Hpi. intros Hfg Hx. unfold shiftArgIntoRange.
    set (lo := match f with FAsin | FAtan => - (PI / 2) | _ => 0 end).
    set (up := match f with FAsin | FAtan => PI / 2 | _ => PI end).
    eapply spec_bind with (Q1 := fun e => valIs e lo).
    { destruct f; try (apply spec_ret; apply valIs_zero); (apply timesPi_ex; [assumption|assumption|reflexivity|rewrite Q2R_lit; unfold lo; lra]). }
    intros lower Hlo. eapply spec_bind with (Q1 := fun e => valIs e up).
    { destruct f; try apply timesPi1; (apply timesPi_ex; [assumption|assumption|reflexivity|rewrite Q2R_lit; unfold up; lra]). }
    intros upper Hup. cbn zeta.
    eapply spec_bind; [apply timesPi_ex with (P := P) (v := - (2 * PI)); [assumption|assumption|reflexivity|rewrite Q2R_lit; lra]|]. intros md Hmd.
    eapply spec_bind; [apply takeDown_sp with (P := P); [assumption..|apply turned_refl; assumption|exact Hmd]|]. intros a Ha.
    eapply spec_bind; [apply twoPi_sp with (P := P); assumption|]. intros mu Hmu.
    eapply spec_bind; [apply bringUp_sp with (P := P); [assumption..|exact Ha|exact Hmu]|]. intros b Hb. clear a Ha.
    set (ev := match f with FAtan => -1 | _ => 1 end).
    assert (Hef : valIs (match f with FAtan => mOne | _ => one end) ev).
    { unfold ev. destruct f; try apply valIs_one. apply valIs_mOne. }
    set (ef := match f with FAtan => mOne | _ => one end) in *.
    eapply spec_bind with (Q1 := fun c => wf P c /\ forall v, eval r x = Some v -> exists w,
       eval r c = Some w /\ match g with FSin => sin w = sin v | FCos => cos w = cos v | _ => fct1 FTan w = fct1 FTan v end).
    { destruct (oGe Y (nev b) (nev upper)).
      - destruct Hb as [Hb Vb]. destruct Hup as [Hup Eup]. destruct Hef as [Hef Eef].
        eapply spec_bind; [apply prod_call with (P := P); auto with sp|]. intros p (Hp & Vp).
        eapply spec_bind; [apply minus_call with (P := P); auto|]. intros q (Hq & Vq).
        eapply spec_weaken; [apply sum_call with (P := P); auto|]. intros s (Hs & Vs). split; [assumption|].
        intros v Ev. destruct (Vb v Ev) as (w & Ew & Hsin & Hcos). rewrite !prodVal_cons, prodVal_nil, Eup, Eef, eval_two in Vp.
        rewrite !prodVal_cons, prodVal_nil, Eef, Ew in Vq. cbn in Vp, Vq. rewrite sum2, Vp, Vq in Vs. cbn in Vs.
        eexists. split; [exact Vs|]. destruct f, g; try discriminate Hfg; unfold ev, up in *.
        + replace (1 * (2 * (PI / 2 * 1)) + -1 * (1 * (w * 1))) with (PI - w) by field. rewrite sin_minus, sin_PI, cos_PI, Hsin. ring.
        + replace (1 * (2 * (PI * 1)) + -1 * (1 * (w * 1))) with (2 * PI - w) by field. rewrite cos_minus, cos_2PI, sin_2PI, Hcos. ring.
        + replace (-1 * (2 * (PI / 2 * 1)) + -1 * (-1 * (w * 1))) with (w - PI) by field.
          rewrite (sameAngle_tan v w) by (split; assumption).
          assert (Ec : cos (w - PI) = - cos w) by (rewrite cos_minus, sin_PI, cos_PI; ring).
          assert (Es : sin (w - PI) = - sin w) by (rewrite sin_minus, sin_PI, cos_PI; ring).
          cbn [fct1]. rewrite Ec. destruct (Req_EM_T (- cos w) 0), (Req_EM_T (cos w) 0); try reflexivity; try lra.
          f_equal. unfold tan. rewrite Ec, Es. field. assumption.
      - apply spec_ret. destruct Hb as [Hb Vb]. split; [assumption|]. intros v Ev. destruct (Vb v Ev) as (w & Ew & Hs).
        exists w. split; [assumption|]. pose proof Hs as [Hsin Hcos]. destruct g; try discriminate Hfg; auto.
        symmetry. now apply sameAngle_tan. }
    intros c (Hc & Vc). eapply spec_bind; [apply spec_rely'|]. intros ? H1. eapply spec_bind; [apply spec_rely'|]. intros ? H2.
    apply spec_ret. split; [assumption|]. cbn [holds] in H1, H2.
    apply ole_intro. intros o Eo. destruct (eval r x) as [v|]; [|discriminate Eo]. destruct (Vc v eq_refl) as (w & Ew & Hw).
    specialize (H1 lo w (proj2 Hlo) Ew). specialize (H2 w up Ew (proj2 Hup)). unfold lo, up in *. rewrite Ew, <- Eo.
    destruct f, g; try discriminate Hfg; cbn [ofct]; symmetry.
    - cbn [fct1 ofct]. apply asin_of; [lra|assumption].
    - apply acos_of; [lra|assumption].
    - rewrite <- Hw in *. cbn [ofct] in Eo. rewrite <- Hw in Eo. destruct (fct1 FTan w) as [u|] eqn:Eu; [|discriminate Eo].
      apply fct1_tan in Eu as [Hcw ->]. cbn. f_equal. apply atan_tan.
      assert (w <> PI / 2) by (intros ->; apply Hcw, cos_PI2).
      assert (w <> - (PI / 2)) by (intros ->; apply Hcw; rewrite cos_neg; apply cos_PI2). lra.
  Qed.

  Lemma normalFrac_sp a b : wf P a -> wf P b ->
    sp (normalFrac W a b) (valOK (omult (eval r a) (opow (eval r b) (Some (-1))))).
  Proof.
    intros Ha Hb. unfold normalFrac, oneOver. eapply spec_bind; [apply pow_call with (P := P); auto with sp|]. intros i (Hi & Vi).
    rewrite eval_mOne in Vi. eapply spec_bind; [apply prod_call with (P := P); auto|]. intros p (Hp & Vp).
    eapply spec_weaken; [apply normal_call with (P := P); auto|]. intros e (He & Ve). split; [assumption|].
    eapply ole_trans; [|exact Ve]. eapply ole_trans; [|exact Vp]. rewrite prod2. apply ole_omult; [apply ole_refl|assumption].
  Qed.

  Lemma square_sp a v : valIs a v -> sp (square W a) (fun e => valIs e (v * v)).
  Proof.
    intros [Ha Ea]. unfold square. eapply spec_weaken; [apply pow_call with (P := P); auto with sp|]. intros e (He & Ve).
    split; [assumption|]. rewrite Ea, eval_two in Ve. cbn [opow] in Ve. rewrite rpow_r2 in Ve. exact Ve.
  Qed.

  Lemma spec_imp {A} (m : res A) (C : Prop) (Q : A -> Prop) (Hdec : C \/ ~ C) : (C -> sp m Q) -> sp m (fun a => C -> Q a).
  Proof.
    intros Hm. destruct Hdec as [Hc|Hn]; [eapply spec_weaken; [now apply Hm|auto]|].
    eapply spec_weaken; [apply spec_true|]. intros a _ Hc. contradiction.
  Qed.

  (** Without a value there is nothing to show, but the result has to be well-formed. *)
  Lemma square_wf a : wf P a -> sp (square W a) (valOK (opow (eval r a) (Some 2))).
  Proof. intros Ha. unfold square. rewrite <- (eval_two r). apply pow_call; auto with sp. Qed.
  Lemma sqrt_wf a : wf P a -> sp (sqrtE W a) (valOK (opow (eval r a) (Some (/ 2)))).
  Proof. intros Ha. unfold sqrtE. rewrite <- (eval_half r). apply pow_call; auto with sp. Qed.

  Lemma aux1_sp x : wf P x ->
    sp (s <- square W x ;; m <- minus W [s] ;; t <- w_sum W [one; m] ;; sqrtE W t)
       (fun e => wf P e /\ forall v, eval r x = Some v -> -1 <= v <= 1 -> eval r e = Some (sqrt (1 - v * v))).
  Proof.
    intros Hx. eapply spec_bind; [now apply square_wf|]. intros s (Hs & Vs).
    eapply spec_bind; [apply minus_call with (P := P); auto|]. intros m (Hm & Vm).
    eapply spec_bind; [apply sum_call with (P := P); auto with sp|]. intros t (Ht & Vt).
    eapply spec_weaken; [now apply sqrt_wf|]. intros e (He & Ve). split; [assumption|]. intros v Ev Hv.
    rewrite Ev in Vs. cbn [opow] in Vs. rewrite rpow_r2 in Vs. cbn in Vs. rewrite prodVal_1, Vs in Vm. cbn in Vm.
    rewrite sum2, eval_one, Vm in Vt. cbn in Vt. rewrite Vt in Ve. cbn [opow] in Ve.
    replace (1 + -1 * (v * v)) with (1 - v * v) in Ve by ring.
    rewrite rpow_half in Ve; [exact Ve|]. assert (0 <= (1 - v) * (1 + v)) by (apply Rmult_le_pos; lra). lra.
  Qed.
  Lemma aux2_sp x : wf P x ->
    sp (s <- square W x ;; t <- w_sum W [one; s] ;; sqrtE W t)
       (fun e => wf P e /\ forall v, eval r x = Some v -> eval r e = Some (sqrt (1 + v * v))).
  Proof.
    intros Hx. eapply spec_bind; [now apply square_wf|]. intros s (Hs & Vs).
    eapply spec_bind; [apply sum_call with (P := P); auto with sp|]. intros t (Ht & Vt).
    eapply spec_weaken; [now apply sqrt_wf|]. intros e (He & Ve). split; [assumption|]. intros v Ev.
    rewrite Ev in Vs. cbn [opow] in Vs. rewrite rpow_r2 in Vs. cbn in Vs.
    rewrite sum2, eval_one, Vs in Vt. cbn in Vt. rewrite Vt in Ve. cbn [opow] in Ve.
    rewrite rpow_half in Ve; [exact Ve|]. pose proof (one_sq_pos v). lra.
  Qed.
  Lemma aux3_sp x y : wf P x -> wf P y ->
    sp (s <- square W x ;; q <- square W y ;; t <- w_sum W [s; q] ;; sqrtE W t)
       (fun e => wf P e /\ forall v w, eval r x = Some v -> eval r y = Some w -> eval r e = Some (sqrt (w * w + v * v))).
  Proof.
    intros Hx Hy. eapply spec_bind; [now apply square_wf|]. intros s (Hs & Vs).
    eapply spec_bind; [now apply square_wf|]. intros q (Hq & Vq).
    eapply spec_bind; [apply sum_call with (P := P); auto with sp|]. intros t (Ht & Vt).
    eapply spec_weaken; [now apply sqrt_wf|]. intros e (He & Ve). split; [assumption|]. intros v w Ev Ew.
    rewrite Ev in Vs. rewrite Ew in Vq. cbn [opow] in Vs, Vq. rewrite rpow_r2 in Vs, Vq. cbn in Vs, Vq.
    rewrite sum2, Vs, Vq in Vt. cbn in Vt. rewrite Vt in Ve. cbn [opow] in Ve.
    rewrite rpow_half in Ve; [rewrite Ve; f_equal; f_equal; ring|]. pose proof (Rle_0_sqr v). pose proof (Rle_0_sqr w). unfold Rsqr in *. lra.
  Qed.

  Lemma use_sp (b : bool) (m : res expr) (Q : expr -> Prop) : sp m Q -> sp (if b then m else quiet m) (fun e => b = true -> Q e).
  Proof.
    intros Hm. destruct b; [eapply spec_weaken; [exact Hm|auto]|]. eapply spec_weaken; [apply spec_quiet|]. discriminate.
  Qed.

  Lemma frac_some a b : b <> 0 -> omult (Some a) (opow (Some b) (Some (-1))) = Some (a * / b).
  Proof. intros Hb. cbn [opow]. rewrite rpow_rm1 by assumption. reflexivity. Qed.

  Lemma fromTrigoNoInverse_sp f g l : trigF f = true -> g <> FLog -> wf P (Fct g l) ->
    sp (fromTrigoNoInverse W f g l) (valOK (eval r (Fct f [Fct g l]))).
  Proof.
    intros Hf Hgl Hl. assert (Hf2 : f <> FAtan2) by (intros ->; discriminate Hf).
    pose proof Hl as Hl'. apply wf_ops in Hl' as [Hlen Hall].
    destruct l as [|x l']; [exact I|]. unfold fromTrigoNoInverse.
    assert (Hx : wf P x) by (inversion Hall; assumption).
    assert (Hy : wf P (last (x :: l') x)).
    { destruct l' as [|y [|]]; cbn; auto; [inversion Hall as [|? ? ? Hall']; inversion Hall'; assumption|].
      cbn in Hlen. destruct g; discriminate Hlen. }
    set (y := last (x :: l') x) in *. cbn zeta.
    eapply spec_bind; [apply use_sp; now apply aux1_sp|]. intros a1 H1.
    eapply spec_bind; [apply use_sp; now apply aux2_sp|]. intros a2 H2.
    eapply spec_bind; [apply use_sp; now apply aux3_sp|]. intros a3 H3. cbn beta in H1, H2, H3.
    assert (Hd : sp (ret (Fct f [Fct g (x :: l')])) (valOK (eval r (Fct f [Fct g (x :: l')])))).
    { apply spec_ret. split; [now apply wf_fct1|apply ole_refl]. }
    assert (Hone : g <> FAtan2 -> eval r (Fct g (x :: l')) = ofct g (eval r x)).
    { intros Hne. assert (l' = []) as -> by (destruct l'; [reflexivity|cbn in Hlen; destruct g; try discriminate Hlen; congruence]).
      now apply eval_fct1. }
    assert (Htwo : g = FAtan2 -> eval r (Fct g (x :: l')) = match eval r x, eval r y with Some v, Some w => angle v w | _, _ => None end).
    { intros ->. cbn in Hlen. destruct l' as [|z [|]]; try discriminate Hlen. reflexivity. }
    rewrite eval_fct1 by assumption.
    destruct f; try discriminate Hf; destruct g; try congruence; try exact Hd; try (rewrite eval_fct1 in Hd by assumption; exact Hd);
      try (rewrite Hone by discriminate); try (rewrite Htwo by reflexivity);
      try (specialize (H1 eq_refl); destruct H1 as [W1 V1]); try (specialize (H2 eq_refl); destruct H2 as [W2 V2]);
      try (specialize (H3 eq_refl); destruct H3 as [W3 V3]).
    - (* sin acos *) apply spec_ret. split; [assumption|]. apply ole_intro. intros o Eo. destruct (eval r x) as [v|]; [|discriminate Eo].
      cbn [ofct] in Eo. destruct (fct1 FAcos v) as [w|] eqn:Ew; [|discriminate Eo]. apply fct1_acos in Ew as [Hv ->].
      cbn in Eo. injection Eo as <-. rewrite (V1 v eq_refl Hv), sin_acos' by assumption. reflexivity.
    - (* sin atan *) eapply spec_weaken; [now apply normalFrac_sp|]. intros e (He & Ve). split; [assumption|].
      destruct (eval r x) as [v|]; [|exact I]. rewrite (V2 v eq_refl) in Ve. pose proof (one_sq_pos v).
      rewrite frac_some in Ve by (apply Rgt_not_eq, sqrt_lt_R0; lra). cbn in *. now rewrite Ve, sin_atan'.
    - (* sin atan2 *) eapply spec_weaken; [now apply normalFrac_sp|]. intros e (He & Ve). split; [assumption|].
      destruct (eval r x) as [v|]; [|exact I]. destruct (eval r y) as [w|]; [|exact I]. rewrite (V3 v w eq_refl eq_refl) in Ve.
      destruct (angle v w) as [a|] eqn:Ea; [|exact I]. apply angle_cos in Ea as (Hp & Ec & Es & _).
      rewrite frac_some in Ve by (apply Rgt_not_eq, sqrt_lt_R0; lra). cbn in *. rewrite Ve, Es. reflexivity.
    - (* cos asin *) apply spec_ret. split; [assumption|]. apply ole_intro. intros o Eo. destruct (eval r x) as [v|]; [|discriminate Eo].
      cbn [ofct] in Eo. destruct (fct1 FAsin v) as [w|] eqn:Ew; [|discriminate Eo]. apply fct1_asin in Ew as [Hv ->].
      cbn in Eo. injection Eo as <-. rewrite (V1 v eq_refl Hv), cos_asin' by assumption. reflexivity.
    - (* cos atan *) eapply spec_weaken; [apply normalFrac_sp; auto with sp|]. intros e (He & Ve). split; [assumption|].
      destruct (eval r x) as [v|]; [|exact I]. rewrite (V2 v eq_refl), eval_one in Ve. pose proof (one_sq_pos v).
      rewrite frac_some in Ve by (apply Rgt_not_eq, sqrt_lt_R0; lra). cbn in *. rewrite Ve, cos_atan'. f_equal. ring.
    - (* cos atan2 *) eapply spec_weaken; [now apply normalFrac_sp|]. intros e (He & Ve). split; [assumption|].
      destruct (eval r x) as [v|]; [|exact I]. destruct (eval r y) as [w|]; [|exact I]. rewrite (V3 v w eq_refl eq_refl) in Ve.
      destruct (angle v w) as [a|] eqn:Ea; [|exact I]. apply angle_cos in Ea as (Hp & Ec & Es & _).
      rewrite frac_some in Ve by (apply Rgt_not_eq, sqrt_lt_R0; lra). cbn in *. rewrite Ve, Ec. reflexivity.
    - (* tan asin *) eapply spec_weaken; [now apply normalFrac_sp|]. intros e (He & Ve). split; [assumption|].
      apply ole_intro. intros o Eo. destruct (eval r x) as [v|]; [|discriminate Eo]. cbn [ofct] in Eo.
      destruct (fct1 FAsin v) as [w|] eqn:Ew; [|discriminate Eo]. apply fct1_asin in Ew as [Hv ->].
      apply fct1_tan in Eo as [Hc ->]. rewrite (V1 v eq_refl Hv) in Ve. rewrite cos_asin' in Hc by assumption.
      rewrite frac_some in Ve by assumption. cbn in Ve. rewrite Ve. unfold tan. rewrite sin_asin, cos_asin' by assumption. reflexivity.
    - (* tan acos *) eapply spec_weaken; [now apply normalFrac_sp|]. intros e (He & Ve). split; [assumption|].
      apply ole_intro. intros o Eo. destruct (eval r x) as [v|] eqn:Ex; [|discriminate Eo]. cbn [ofct] in Eo.
      destruct (fct1 FAcos v) as [w|] eqn:Ew; [|discriminate Eo]. apply fct1_acos in Ew as [Hv ->].
      apply fct1_tan in Eo as [Hc ->]. rewrite (V1 v eq_refl Hv) in Ve. rewrite cos_acos in Hc by assumption.
      rewrite frac_some in Ve by assumption. cbn in Ve. rewrite Ve. unfold tan. rewrite cos_acos, sin_acos' by assumption. reflexivity.
  Qed.

  Lemma atan2ArgEval_sp y x : wf P y -> wf P x ->
    sp (atan2ArgEval W y x) (valOK (omult (eval r y) (opow (eval r x) (Some (-1))))).
  Proof.
    intros Hy Hx. unfold atan2ArgEval, oneOver. eapply spec_bind; [apply pow_call with (P := P); auto with sp|]. intros i (Hi & Vi).
    rewrite eval_mOne in Vi. eapply spec_weaken; [apply prod_call with (P := P); auto|]. intros p (Hp & Vp).
    split; [assumption|]. eapply ole_trans; [|exact Vp]. rewrite prod2. apply ole_omult; [apply ole_refl|assumption].
  Qed.

  Lemma fromFunction_sp n f g l : trigF f = true -> wf P (Fct g l) ->
    sp (fromFunction Y W n f g l) (valOK (eval r (Fct f [Fct g l]))).
  Proof.
    intros Hf Hl. assert (Hf2 : f <> FAtan2) by (intros ->; discriminate Hf).
    pose proof Hl as Hl'. apply wf_ops in Hl' as [Hlen Hall].
    assert (Hd : sp (ret (Fct f [Fct g l])) (valOK (eval r (Fct f [Fct g l])))).
    { apply spec_ret. split; [now apply wf_fct1|apply ole_refl]. }
    unfold fromFunction. cbn zeta. destruct l as [|x l']; [destruct g; try exact I; exact Hd|].
    assert (Hx : wf P x) by (inversion Hall; assumption).
    assert (Hinv : isOtherTheInverse f g = true -> sp (ret x) (valOK (eval r (Fct f [Fct g (x :: l')])))).
    { intros Hi. apply spec_ret. split; [assumption|].
      assert (l' = []) as -> by (destruct l'; [reflexivity|cbn in Hlen; destruct f, g; discriminate]).
      rewrite eval_fct1 by assumption. rewrite eval_fct1 by (intros ->; destruct f; discriminate Hi).
      apply ole_intro. intros o Eo. destruct (eval r x) as [v|]; [|discriminate Eo]. cbn [ofct] in Eo.
      destruct f, g; try discriminate Hi.
      - destruct (fct1 FAsin v) as [w|] eqn:Ew; [|discriminate Eo]. apply fct1_asin in Ew as [Hv ->]. cbn in Eo. rewrite sin_asin in Eo by lra. exact Eo.
      - destruct (fct1 FAcos v) as [w|] eqn:Ew; [|discriminate Eo]. apply fct1_acos in Ew as [Hv ->]. cbn in Eo. rewrite cos_acos in Eo by lra. exact Eo.
      - cbn [ofct fct1] in Eo. destruct (Req_EM_T _ _); [discriminate Eo|]. rewrite atan_right_inv in Eo. exact Eo. }
    assert (Htan : f = FTan -> g = FAtan2 -> sp (atan2ArgEval W x (last (x :: l') x)) (valOK (eval r (Fct f [Fct g (x :: l')])))).
    { intros -> ->. cbn in Hlen. destruct l' as [|y [|]]; try discriminate Hlen. cbn [last].
      assert (Hy : wf P y) by (inversion Hall as [|? ? ? Hall']; inversion Hall'; assumption).
      eapply spec_weaken; [now apply atan2ArgEval_sp|]. intros e (He & Ve). split; [assumption|].
      eapply ole_trans; [|exact Ve]. apply ole_intro. intros o Eo. rewrite eval_fct1 in Eo by discriminate. cbn [eval] in Eo.
      destruct (eval r x) as [v|]; [|discriminate Eo]. destruct (eval r y) as [w|]; [|discriminate Eo].
      destruct (angle v w) as [a|] eqn:Ea; [|discriminate Eo]. cbn [ofct] in Eo. destruct (tan_angle _ _ _ _ Ea Eo) as [Hw ->].
      now apply frac_some. }
    assert (Hsh : isOtherTheInverse g f = true -> sp (shiftArgIntoRange Y W n f x) (valOK (eval r (Fct f [Fct g (x :: l')])))).
    { intros Hi. assert (l' = []) as -> by (destruct l'; [reflexivity|cbn in Hlen; destruct f, g; discriminate]).
      rewrite eval_fct1 by assumption. rewrite eval_fct1 by (intros ->; destruct f; discriminate Hi).
      now apply shiftArgIntoRange_sp. }
    assert (Hno : g <> FLog -> sp (fromTrigoNoInverse W f g (x :: l')) (valOK (eval r (Fct f [Fct g (x :: l')])))).
    { intros Hgl. now apply fromTrigoNoInverse_sp. }
    destruct (isOtherTheInverse f g) eqn:E1.
    { destruct f, g; try discriminate E1; now apply Hinv. }
    destruct (isOtherTheInverse g f) eqn:E2.
    { cbn [andb]. destruct f, g; try discriminate E2; (destruct (nev _); [now apply Hsh|apply Hno; discriminate]). }
    cbn [andb]. destruct f, g; try discriminate Hf; try exact Hd; try (apply Hno; discriminate). now apply Htan.
  Qed.

  Theorem trigCreate_sp n f a : trigF f = true -> wf P a ->
    sp (trigCreate Y W n f a) (valOK (eval r (Fct f [a]))).
  Proof.
    intros Hf Ha. assert (Hf2 : f <> FAtan2) by (intros ->; discriminate Hf).
    assert (Hd : sp (ret (Fct f [a])) (valOK (eval r (Fct f [a])))).
    { apply spec_ret. split; [now apply wf_fct1|apply ole_refl]. }
    assert (Hrest : sp (s <- doesSymmetryApply W a ;;
        if (s : bool) then bySymmetry W true f a
        else match nev a with Some _ => createNumerically Y W n f a | None => ret (Fct f [a]) end) (valOK (eval r (Fct f [a])))).
    { eapply spec_bind; [apply spec_quiet|]. intros [|] _; [now apply bySymmetry_sp|].
      destruct (nev a); [now apply createNumerically_sp|exact Hd]. }
    destruct a; try exact Hrest.
    - apply spec_ret. split; [exact I|]. rewrite eval_fct1 by assumption. exact I.
    - now apply fromFunction_sp.
  Qed.

  (** ** The angle of a point *)

  Lemma shiftAtan_sp n o e s c : wf P e -> valIs s c -> (forall v, o = Some v -> exists w, eval r e = Some w /\ sameAngle v (w + c) /\ 0 <= v < 2 * PI) ->
    sp (shiftAtanResultIntoRange Y W n e s) (valOK o).
  Proof.
    intros He [Hs Es] Ho. unfold shiftAtanResultIntoRange. eapply spec_bind; [apply twoPi_sp with (P := P); assumption|]. intros t Ht.
    eapply spec_bind; [apply spec_relyIf'|]. intros _ _.
    eapply spec_bind; [apply sum_call with (P := P); auto|]. intros b (Hb & Vb).
    assert (Ht0 : turned o b).
    { split; [assumption|]. intros v Ev. destruct (Ho v Ev) as (w & Ew & Hw & _). exists (w + c). rewrite sum2, Ew, Es in Vb. now split. }
    eapply spec_bind; [apply addUp_sp with (P := P); [assumption..|exact Ht0|exact Ht]|]. intros u Hu.
    eapply spec_bind with (Q1 := turned o).
    { destruct (oGe Y (nev u) (nev t)); [|now apply spec_ret].
      eapply spec_bind; [apply minus_ex with (P := P) (vs := [2 * PI]) (v := - (2 * PI)); auto; cbn; ring|]. intros m Hm.
      apply takeDown_sp; assumption. }
    intros d Hd. eapply spec_bind; [apply spec_rely'|]. intros ? H1. eapply spec_bind; [apply spec_rely'|]. intros ? H2. cbn [holds] in *.
    apply spec_ret. destruct Hd as [Hd Vd]. split; [assumption|]. apply ole_intro. intros v Ev. destruct (Vd v Ev) as (w & Ew & Hsin & Hcos).
    destruct (Ho v Ev) as (_ & _ & _ & Hv). specialize (H1 0 w (eval_zero r) Ew). specialize (H2 w (2 * PI) Ew (proj2 Ht)).
    rewrite Ew. f_equal. apply sin_eq_cos_eq; auto.
  Qed.

  (** The angle of a point compared to the arc tangent. *)
  Lemma angle_right y x a : 0 < x -> angle y x = Some a -> sameAngle a (atan (y * / x) + 0).
  Proof.
    intros Hx Ea. apply angle_cos in Ea as (Hp & Ec & Es & _). destruct (atan_sin_cos y x) as [E1 E2]; [lra|].
    rewrite Rabs_right in * by lra. rewrite Rplus_0_r. split; [rewrite Es, E2|rewrite Ec, E1; reflexivity].
    assert (0 < sqrt (x * x + y * y)) by now apply sqrt_lt_R0. field. lra.
  Qed.
  Lemma angle_left y x a c : x < 0 -> c = PI \/ c = - PI -> angle y x = Some a -> sameAngle a (atan (y * / x) + c).
  Proof.
    intros Hx Hc Ea. apply angle_cos in Ea as (Hp & Ec & Es & _). destruct (atan_sin_cos y x) as [E1 E2]; [lra|].
    rewrite Rabs_left in * by lra. assert (0 < sqrt (x * x + y * y)) by now apply sqrt_lt_R0.
    assert (Hcs : cos c = -1 /\ sin c = 0).
    { destruct Hc as [->| ->]; rewrite ?cos_neg, ?sin_neg, cos_PI, sin_PI; split; ring. }
    destruct Hcs as [H1 H2]. split.
    - rewrite sin_plus, H1, H2, Es, E2. field. lra.
    - rewrite cos_plus, H1, H2, Ec, E1. field. lra.
  Qed.
  Lemma angle_first y x a : 0 < x -> 0 <= y -> angle y x = Some a -> a = atan (y * / x).
  Proof.
    intros Hx Hy Ea. pose proof (angle_right y x a Hx Ea) as [Hs Hc]. rewrite Rplus_0_r in *.
    pose proof PI_RGT_0. apply angle_cos in Ea as (_ & _ & _ & Ha).
    assert (H0 : 0 <= y * / x) by (apply Rmult_le_pos; [assumption|left; now apply Rinv_0_lt_compat]).
    pose proof (atan_bound (y * / x)). assert (0 <= atan (y * / x)).
    { destruct H0 as [H0| <-]; [left; rewrite <- atan_0; now apply atan_increasing|rewrite atan_0; lra]. }
    apply sin_eq_cos_eq; auto. lra.
  Qed.

  Lemma simplAtan2_sp n y x inc c first : wf P y -> wf P x -> valIs inc c ->
    (forall v w, eval r y = Some v -> eval r x = Some w -> (0 < w /\ c = 0) \/ (w < 0 /\ (c = PI \/ c = - PI))) ->
    (first = true -> forall v w, eval r y = Some v -> eval r x = Some w -> 0 < w /\ 0 <= v) ->
    sp (simplAtan2 Y W n y x inc first) (valOK (eval r (Fct FAtan2 [y; x]))).
  Proof.
    intros Hy Hx Hinc Hside Hfirst. unfold simplAtan2. cbn zeta. eapply spec_bind; [now apply atan2ArgEval_sp|]. intros a (Ha & Va).
    assert (Hval : forall o, eval r (Fct FAtan2 [y; x]) = Some o -> exists v w, eval r y = Some v /\ eval r x = Some w /\
       angle v w = Some o /\ w <> 0 /\ eval r a = Some (v * / w)).
    { intros o Eo. cbn [eval] in Eo. destruct (eval r y) as [v|]; [|discriminate Eo]. destruct (eval r x) as [w|]; [|discriminate Eo].
      exists v, w. repeat split; auto.
      - destruct (Hside v w eq_refl eq_refl) as [[]|[]]; lra.
      - rewrite frac_some in Va; [exact Va|]. destruct (Hside v w eq_refl eq_refl) as [[]|[]]; lra. }
    assert (Hgen : sp (s <- numTrigo Y W n FAtan a ;;
        match s with
        | Some e => shiftAtanResultIntoRange Y W n e inc
        | None =>
            g <- quiet (w_neg W a) ;;
            r <- (if (g : bool) then bySymmetry W true FAtan a else ret (Fct FAtan [a])) ;;
            _ <- relyIf (negb first) (CSame (Fct FAtan2 [y; x]) r) ;; ret r
        end) (valOK (eval r (Fct FAtan2 [y; x])))).
    { eapply spec_bind; [apply numTrigo_sp; auto|]. intros [e|] Hm.
      - destruct Hm as [He Ve]. apply shiftAtan_sp with (c := c); auto. intros o Eo.
        destruct (Hval o Eo) as (v & w & Ev & Ew & Ea & Hw & Eq). rewrite Eq in Ve. cbn in Ve. exists (atan (v * / w)).
        split; [assumption|]. split; [|apply angle_cos in Ea; tauto].
        destruct (Hside v w Ev Ew) as [[Hp ->]|[Hn Hc]]; [now apply angle_right|now apply angle_left].
      - eapply spec_bind; [apply spec_quiet|]. intros gg _.
        eapply spec_bind with (Q1 := valOK (eval r (Fct FAtan [a]))).
        { destruct gg; [now apply bySymmetry_sp|]. apply spec_ret. split; [now apply wf_fct1|apply ole_refl]. }
        intros q (Hq & Vq). eapply spec_bind; [apply spec_relyIf'|]. intros ? Hs. apply spec_ret. split; [assumption|].
        destruct first; [|exact (Hs eq_refl)]. eapply ole_trans; [|exact Vq]. rewrite eval_fct1 by discriminate.
        apply ole_intro. intros o Eo. destruct (Hval o Eo) as (v & w & Ev & Ew & Ea & Hw & Eq). rewrite Eq. cbn.
        destruct (Hfirst eq_refl v w Ev Ew) as [H1 H2]. f_equal. symmetry. now apply angle_first. }
    destruct a as [| | | |f l| | |]; try exact Hgen. destruct f; try exact Hgen. destruct l as [|b l]; [exact Hgen|].
    eapply spec_bind; [apply spec_rely'|]. intros ? Hs. apply spec_ret. apply wf_ops in Ha as [_ Ha]. split; [now inversion Ha|exact Hs].
  Qed.

  Theorem atan2Create_sp n y x : wf P y -> wf P x ->
    sp (atan2Create Y W n y x) (valOK (eval r (Fct FAtan2 [y; x]))).
  Proof.
    pose proof PI_RGT_0 as Hpi. intros Hy Hx. unfold atan2Create.
    destruct (isUndefined x || isUndefined y) eqn:Eu.
    { apply spec_ret. split; [exact I|]. apply orb_true_iff in Eu as [Eu|Eu]; apply isUndefined_eq in Eu; subst; cbn [eval];
        try destruct (eval r _); exact I. }
    assert (Hd : sp (ret (Fct FAtan2 [y; x])) (valOK (eval r (Fct FAtan2 [y; x])))).
    { apply spec_ret. split; [apply wf_ops; auto|apply ole_refl]. }
    destruct (nev x) as [a|] eqn:Na; [|exact Hd]. destruct (nev y) as [b|] eqn:Nb; [|exact Hd]. clear Hd.
    destruct (neq Y a (NQ 0%Q) && nlt Y (NQ 0%Q) b).
    { eapply spec_bind; [now apply relyZero_sp with (P := P)|]. intros ? H1. eapply spec_bind; [apply relyLt_sp|]. intros ? H2. cbv beta in *.
      eapply spec_weaken; [apply timesPi_ex with (P := P) (v := PI / 2); [assumption|assumption|reflexivity|rewrite Q2R_lit; lra]|].
      intros e [He Ee]. split; [assumption|]. rewrite Ee. apply ole_intro. intros o Eo. cbn [eval] in Eo.
      destruct (eval r y) as [v|]; [|discriminate Eo]. destruct (eval r x) as [w|]; [|discriminate Eo].
      specialize (H1 w eq_refl). specialize (H2 0 v (eval_zero r) eq_refl). subst w. unfold angle in Eo.
      destruct (Req_EM_T 0 0); [|lra]. destruct (Req_EM_T v 0); [lra|]. destruct (Rlt_dec 0 v); [now rewrite <- Eo|lra]. }
    destruct (neq Y a (NQ 0%Q) && nlt Y b (NQ 0%Q)).
    { eapply spec_bind; [now apply relyZero_sp with (P := P)|]. intros ? H1. eapply spec_bind; [apply relyLt_sp|]. intros ? H2. cbv beta in *.
      eapply spec_weaken; [apply timesPi_ex with (P := P) (v := 3 * (PI / 2)); [assumption|assumption|reflexivity|rewrite Q2R_lit; lra]|].
      intros e [He Ee]. split; [assumption|]. rewrite Ee. apply ole_intro. intros o Eo. cbn [eval] in Eo.
      destruct (eval r y) as [v|]; [|discriminate Eo]. destruct (eval r x) as [w|]; [|discriminate Eo].
      specialize (H1 w eq_refl). specialize (H2 v 0 eq_refl (eval_zero r)). subst w. unfold angle in Eo.
      destruct (Req_EM_T 0 0); [|lra]. destruct (Req_EM_T v 0); [lra|]. destruct (Rlt_dec 0 v); [lra|now rewrite <- Eo]. }
    destruct (neq Y a (NQ 0%Q) && neq Y b (NQ 0%Q)).
    { eapply spec_bind; [now apply relyZero_sp with (P := P)|]. intros ? H1. eapply spec_bind; [now apply relyZero_sp with (P := P)|].
      intros ? H2. cbv beta in *. apply spec_ret. split; [exact I|]. cbn [eval].
      destruct (eval r y) as [v|]; [|exact I]. destruct (eval r x) as [w|]; [|exact I].
      specialize (H1 w eq_refl). specialize (H2 v eq_refl). subst. unfold angle.
      destruct (Req_EM_T 0 0); [exact I|lra]. }
    destruct (nlt Y (NQ 0%Q) a).
    { eapply spec_bind; [apply relyLt_sp|]. intros ? H1.
      eapply spec_bind with (Q1 := fun _ => negb (nlt Y b (NQ 0%Q)) = true -> forall v, eval r y = Some v -> 0 <= v).
      { destruct (nlt Y b (NQ 0%Q)); [now apply spec_ret|].
        eapply spec_weaken; [apply relyLe_sp|]. cbv beta. intros _ Hle _ v Ev. apply Hle; [apply eval_zero|assumption]. }
      intros ? H2. apply simplAtan2_sp with (c := 0); auto; [apply valIs_zero|..].
      - intros v w Ev Ew. left. split; [|reflexivity]. now apply (H1 0 w (eval_zero r)).
      - intros Hf v w Ev Ew. split; [now apply (H1 0 w (eval_zero r))|now apply H2]. }
    eapply spec_bind; [apply relyLt_sp|]. intros ? H1.
    eapply spec_bind with (Q1 := fun e => exists c, valIs e c /\ (c = PI \/ c = - PI)).
    { destruct (nge Y b (NQ 0%Q)).
      - eapply spec_weaken; [apply timesPi1|]. intros e He. exists PI. auto.
      - eapply spec_weaken; [apply timesPi_ex with (P := P) (v := - PI); [assumption|assumption|reflexivity|rewrite Q2R_lit; lra]|].
        intros e He. exists (- PI). auto. }
    intros inc (c & Hinc & Hc). apply simplAtan2_sp with (c := c); auto; [|discriminate].
    intros v w Ev Ew. right. split; [now apply (H1 w 0 Ew (eval_zero r))|assumption].
  Qed.

  (** ** Logarithms *)

  Theorem logCreate_sp a : wf P a -> sp (logCreate Y W a) (valOK (eval r (Fct FLog [a]))).
  Proof.
    intros Ha. rewrite eval_fct1 by discriminate. unfold logCreate.
    eapply spec_bind with (Q1 := fun b => b = true -> forall v, eval r a = Some v -> v <= 0).
    { destruct (isUndefined a || isZero a) eqn:E.
      { apply spec_ret. intros _ v Ev. apply orb_true_iff in E as [E|E].
        - apply isUndefined_eq in E. subst. discriminate Ev.
        - apply (isZero_eq P) in E; [|assumption]. subst. rewrite eval_zero in Ev. injection Ev as <-. lra. }
      destruct (match a with Pow (Cst CE) _ => true | _ => false end); [now apply spec_ret|].
      eapply spec_bind; [apply neg_call with (P := P); auto|]. intros [|] Hneg.
      { apply spec_ret. intros _ v Ev. specialize (Hneg eq_refl v Ev). unfold sgnOK in Hneg. destruct st; lra. }
      destruct (nev a); [|now apply spec_ret]. destruct (neq Y n (NQ 0%Q)); [|now apply spec_ret].
      eapply spec_bind; [now apply relyZero_sp with (P := P)|]. intros ? Hz. apply spec_ret. intros _ v Ev. rewrite (Hz v Ev). lra. }
    intros [|] Hi.
    { apply spec_ret. split; [exact I|]. destruct (eval r a) as [v|]; [|exact I]. specialize (Hi eq_refl v eq_refl).
      cbn. destruct (Rlt_dec 0 v); [lra|exact I]. }
    clear Hi. destruct (isOne a) eqn:E1.
    { apply (isOne_eq P) in E1; [|assumption]. subst a. apply spec_ret. split; [auto with sp|]. rewrite eval_one, eval_zero. cbn.
      destruct (Rlt_dec 0 1); [now rewrite ln_1|lra]. }
    assert (Hd : sp (ret (Fct FLog [a])) (valOK (ofct FLog (eval r a)))).
    { apply spec_ret. split; [now apply wf_fct1|]. rewrite eval_fct1 by discriminate. apply ole_refl. }
    destruct a as [| |[]| | | | |b x]; try exact Hd.
    { apply spec_ret. split; [auto with sp|]. rewrite eval_one. cbn. destruct (Rlt_dec 0 (exp 1)); [now rewrite ln_exp|exact I]. }
    clear Hd E1. destruct Ha as [Hb Hx]. eapply spec_bind with (Q1 := fun _ => forall v, eval r b = Some v -> 0 < v).
    { unfold relyPosBase. assert (Hr : sp (rely (CLt zero b)) (fun _ => forall v, eval r b = Some v -> 0 < v)).
      { eapply spec_weaken; [apply spec_rely'|]. intros ? Hh v Ev. exact (Hh 0 v (eval_zero r) Ev). }
      destruct b as [q| |[]| | | | |]; try exact Hr.
      - destruct (qltb 0 q) eqn:E; [|exact Hr]. apply spec_ret. intros v Ev. cbn in Ev. injection Ev as <-.
        apply qltb_lt in E. apply Qlt_Rlt in E. rewrite RMicromega.Q2R_0 in E. exact E.
      - apply spec_ret. intros v Ev. cbn in Ev. injection Ev as <-. apply PI_RGT_0.
      - apply spec_ret. intros v Ev. cbn in Ev. injection Ev as <-. apply exp_pos. }
    intros ? Hpos. eapply spec_bind; [apply (so_log W HW st r P); auto|]. intros l (Hl & Vl). rewrite eval_fct1 in Vl by discriminate.
    eapply spec_weaken; [apply prod_call with (P := P); auto|]. intros p (Hp & Vp). split; [assumption|].
    eapply ole_trans; [|exact Vp]. rewrite prod2. cbn [eval]. apply ole_intro. intros o Eo.
    destruct (eval r b) as [v|]; [|discriminate Eo]. destruct (eval r x) as [w|]; [|discriminate Eo].
    specialize (Hpos v eq_refl). cbn [ofct] in *. rewrite rpow_pos in Eo by assumption. cbn in Eo, Vl.
    destruct (Rlt_dec 0 v); [|lra]. cbn in Vl. rewrite Vl. cbn. destruct (Rlt_dec 0 (Rpower v w)); [|discriminate Eo].
    rewrite <- Eo. f_equal. unfold Rpower. now rewrite ln_exp.
  Qed.
End TrigP2.
