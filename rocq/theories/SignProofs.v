(** The meaning of isPositive and isNegative. *)
From Verif Require Export PowerProofs.
From Coq Require Import Lra Lia.
Open Scope R_scope.

Section Signs.
  Variables (Y : sys) (W : oper).
  Hypothesis HW : soundOps W.
  Variables (st : bool) (r : env) (P : name -> bool -> Prop).
  Hypothesis Hg : wgood st r.
  Notation sp := (spec (holds st r)).
  Notation nev := (numericEval Y).

  Lemma sgn_plus a b : sgnOK st a -> sgnOK st b -> sgnOK st (a + b).
  Proof. destruct st; cbn; lra. Qed.
  Lemma sgn_lt v : 0 < v -> sgnOK st v.
  Proof. destruct st; cbn; lra. Qed.
  Lemma sgn_mult a b : sgnOK st a -> sgnOK st b -> sgnOK st (a * b).
  Proof. destruct st; cbn; intros; [now apply Rmult_lt_0_compat|now apply Rmult_le_pos]. Qed.

  (** A positive result: the starting value wasn't negative and all terms are positive, and there is at
      least one or the starting value was one. *)
  Lemma signOfSymbolicParts_sp l s : Forall (wf P) l -> sp (signOfSymbolicParts W l s) (fun t =>
     (t = 1%Z -> (0 <= s)%Z /\ (s = 1%Z \/ l <> []) /\ forall v, sumVal r l = Some v -> l = [] \/ sgnOK st v) /\
     (t = (-1)%Z -> (s <= 0)%Z /\ (s = (-1)%Z \/ l <> []) /\ forall v, sumVal r l = Some v -> l = [] \/ sgnOK st (- v)) /\
     (t = s \/ t = 1 \/ t = -1 \/ t = 0)%Z).
  Proof.
    intros Hl. revert s. induction Hl as [|e l He Hl IH]; intros s; cbn [signOfSymbolicParts].
    { apply spec_ret. repeat split; intros; subst; auto; lia. }
    eapply spec_bind; [apply pos_call with (P := P); assumption|]. intros p Hp.
    destruct (p && (0 <=? s)%Z) eqn:E1.
    { apply andb_prop in E1 as [-> E1]. apply Z.leb_le in E1. specialize (Hp eq_refl).
      eapply spec_weaken; [apply IH|]. intros t (H1 & H2 & H3). split; [|split].
      - intros Et. destruct (H1 Et) as (_ & _ & Hv). repeat split; auto; [now right|].
        intros v Ev. right. rewrite sumVal_cons in Ev. apply oplus_some in Ev as (x & y & Ex & Ey & ->).
        destruct (Hv y Ey) as [->|Hy]; [|apply sgn_plus; auto].
        rewrite sumVal_nil in Ey. injection Ey as <-. rewrite Rplus_0_r. auto.
      - intros Et. destruct (H2 Et) as (Hc & _). lia.
      - lia. }
    eapply spec_bind; [apply neg_call with (P := P); assumption|]. intros g Hn.
    destruct (g && (s <=? 0)%Z) eqn:E2.
    { apply andb_prop in E2 as [-> E2]. apply Z.leb_le in E2. specialize (Hn eq_refl).
      eapply spec_weaken; [apply IH|]. intros t (H1 & H2 & H3). split; [|split].
      - intros Et. destruct (H1 Et) as (Hc & _). lia.
      - intros Et. destruct (H2 Et) as (_ & _ & Hv). repeat split; auto; [now right|].
        intros v Ev. right. rewrite sumVal_cons in Ev. apply oplus_some in Ev as (x & y & Ex & Ey & ->).
        destruct (Hv y Ey) as [->|Hy].
        + rewrite sumVal_nil in Ey. injection Ey as <-. rewrite Rplus_0_r. auto.
        + replace (- (x + y)) with (- x + - y) by ring. apply sgn_plus; auto.
      - lia. }
    apply spec_ret. repeat split; intros; try lia; auto.
  Qed.

  Lemma parts_split l : sumVal r l = oplus (sumVal r (numericParts Y l)) (sumVal r (symbolicParts Y l)).
  Proof.
    induction l as [|x l IH]; [cbn; f_equal; ring|]. rewrite sumVal_cons, IH.
    unfold numericParts, symbolicParts. cbn [filter]. destruct (nev x).
    - rewrite sumVal_cons, oplus_assoc. reflexivity.
    - rewrite sumVal_cons, <- !oplus_assoc. f_equal. apply oplus_comm.
  Qed.

  Lemma filter_fold l a : fold_left (fun a e => match nev e with Some v => nadd Y a v | None => a end) (numericParts Y l) a
    = fold_left (fun a e => match nev e with Some v => nadd Y a v | None => a end) l a.
  Proof.
    revert a. induction l as [|x l IH]; intros a; [reflexivity|]. unfold numericParts. cbn [filter].
    destruct (nev x) eqn:E.
    - cbn [fold_left]. rewrite E. apply IH.
    - cbn [fold_left]. rewrite E. apply IH.
  Qed.

  Lemma sign_range l : signOfNumericParts Y l = 1%Z \/ signOfNumericParts Y l = 0%Z \/ signOfNumericParts Y l = (-1)%Z.
  Proof. unfold signOfNumericParts. destruct (nlt Y _ _); auto. destruct (nlt Y _ _); auto. Qed.

  (** The exact sign of the numeric parts. *)
  Lemma numericSign l z : Forall (wf P) l -> signOfNumericParts Y l = z ->
    sp (match numericParts Y l with
        | [] => ret tt
        | [Num _] => ret tt
        | ps => rely (if z =? 0 then CEq (Sum ps) 0 else if z =? 1 then CLt zero (Sum ps) else CLt (Sum ps) zero)%Z
        end)
     (fun _ => forall v, sumVal r (numericParts Y l) = Some v ->
        (z = 0%Z -> v = 0) /\ (z = 1%Z -> 0 < v) /\ (z = (-1)%Z -> v < 0)).
  Proof.
    intros Hl Ez.
    assert (Hrel : sp (rely (if z =? 0 then CEq (Sum (numericParts Y l)) 0
        else if z =? 1 then CLt zero (Sum (numericParts Y l)) else CLt (Sum (numericParts Y l)) zero)%Z)
     (fun _ => forall v, sumVal r (numericParts Y l) = Some v ->
        (z = 0%Z -> v = 0) /\ (z = 1%Z -> 0 < v) /\ (z = (-1)%Z -> v < 0))).
    { eapply spec_weaken; [apply spec_rely'|]. intros ? Hh v Ev. destruct (sign_range l) as [E|[E|E]]; rewrite Ez in E; rewrite E in Hh |- *;
        cbn [Z.eqb Pos.eqb] in Hh; cbn [holds] in Hh; repeat split; try discriminate; intros _.
      - apply Hh; [apply eval_zero|exact Ev].
      - destruct Hh as [_ Hh]. rewrite (Hh v Ev). apply (Q2R_IZR 0).
      - apply Hh; [exact Ev|apply eval_zero]. }
    assert (Hw : Forall (wf P) (numericParts Y l)) by now apply Forall_filter.
    destruct (numericParts Y l) as [|x k] eqn:Ek.
    { apply spec_ret. intros v Ev. rewrite sumVal_nil in Ev. injection Ev as <-.
      unfold signOfNumericParts in Ez. rewrite <- filter_fold, Ek in Ez. cbn in Ez. subst z. repeat split; intros; try lia; lra. }
    destruct k as [|y k]; [|destruct x; exact Hrel].
    destruct x as [q| | | | | | |]; try exact Hrel. clear Hrel.
    apply spec_ret. intros v Ev. rewrite sumVal_1 in Ev. cbn [eval] in Ev. injection Ev as <-.
    unfold signOfNumericParts in Ez. rewrite <- filter_fold, Ek in Ez. cbn [fold_left numericEval nadd nlt] in Ez.
    assert (Eq : Q2R (qadd 0 q) = Q2R q) by (rewrite Q2R_qadd; replace (Q2R 0) with 0 by (symmetry; apply (Q2R_IZR 0)); ring).
    destruct (qltb (qadd 0 q) 0) eqn:E1.
    { apply Q2R_lt0 in E1. subst z. repeat split; intros; try lia; lra. }
    apply Q2R_ge0 in E1.
    destruct (qltb 0 (qadd 0 q)) eqn:E2.
    - apply qltb_lt in E2. apply Qlt_Rlt in E2. rewrite Eq in *. replace (Q2R 0) with 0 in E2 by (symmetry; apply (Q2R_IZR 0)).
      subst z. repeat split; intros; try lia; lra.
    - apply qltb_ge in E2. apply Qle_Rle in E2. rewrite Eq in *. replace (Q2R 0) with 0 in E2 by (symmetry; apply (Q2R_IZR 0)).
      subst z. repeat split; intros; try lia; lra.
  Qed.

  Lemma sumSign_sp l : Forall (wf P) l -> sp (sumSign Y W l) (fun t =>
     (t = 1%Z -> forall v, sumVal r l = Some v -> sgnOK st v) /\ (t = (-1)%Z -> forall v, sumVal r l = Some v -> sgnOK st (- v))).
  Proof.
    intros Hl. unfold sumSign. cbn zeta.
    set (a := signOfNumericParts Y l).
    eapply spec_bind; [apply signOfSymbolicParts_sp; now apply Forall_filter|]. intros b (H1 & H2 & H3).
    set (t := (if (a =? 0)%Z then (a + b)%Z else if (1 <? a + b)%Z then 1%Z else if (a + b <? -1)%Z then (-1)%Z else 0%Z)).
    destruct (t =? 0)%Z eqn:E0.
    { apply Z.eqb_eq in E0. eapply spec_bind; [apply spec_true|]. intros ? _. apply spec_ret. rewrite E0. split; discriminate. }
    eapply spec_bind; [|intros ? Hh; apply spec_ret; exact Hh].
    eapply spec_weaken; [|intros ? Hh; exact Hh].
    pose proof (numericSign l a Hl eq_refl) as Hn.
    eapply spec_weaken.
    { instantiate (1 := fun _ => forall v, sumVal r (numericParts Y l) = Some v ->
        (a = 0%Z -> v = 0) /\ (a = 1%Z -> 0 < v) /\ (a = (-1)%Z -> v < 0)).
      exact Hn. }
    intros ? Hv. clear Hn.
    assert (Hb : (t = 1%Z -> (a = 0 \/ a = 1)%Z /\ (1 <= b)%Z) /\ (t = (-1)%Z -> (a = 0 \/ a = -1)%Z /\ (b <= -1)%Z)).
    { pose proof (sign_range l) as Ha. fold a in Ha. subst t.
      destruct (a =? 0)%Z eqn:Ea; [apply Z.eqb_eq in Ea; lia|apply Z.eqb_neq in Ea].
      destruct (1 <? a + b)%Z eqn:E1; [apply Z.ltb_lt in E1; lia|].
      destruct (a + b <? -1)%Z eqn:E2; [apply Z.ltb_lt in E2; lia|]. discriminate E0. }
    destruct Hb as [Hb1 Hb2].
    split; intros Et v Ev; rewrite parts_split in Ev; apply oplus_some in Ev as (x & y & Ex & Ey & ->); specialize (Hv x Ex).
    - destruct (Hb1 Et) as [Ha Hb]. assert (Eb : b = 1%Z) by lia. destruct (H1 Eb) as (_ & [Hc|Hc] & Hy); [discriminate|].
      destruct (Hy y Ey) as [|Hy']; [contradiction|]. destruct Ha as [Ha|Ha].
      + destruct Hv as (Hv & _). rewrite (Hv Ha), Rplus_0_l. assumption.
      + destruct Hv as (_ & Hv & _). apply sgn_plus; [apply sgn_lt; auto|assumption].
    - destruct (Hb2 Et) as [Ha Hb]. assert (Eb : b = (-1)%Z) by lia. destruct (H2 Eb) as (_ & [Hc|Hc] & Hy); [discriminate|].
      destruct (Hy y Ey) as [|Hy']; [contradiction|]. destruct Ha as [Ha|Ha].
      + destruct Hv as (Hv & _). rewrite (Hv Ha), Rplus_0_l. assumption.
      + destruct Hv as (_ & _ & Hv). specialize (Hv Ha). replace (- (x + y)) with (- x + - y) by ring.
        apply sgn_plus; [apply sgn_lt; lra|assumption].
  Qed.

  Lemma prodSign_sp l s : Forall (wf P) l -> (s = 1 \/ s = -1)%Z -> sp (prodSign W l s) (fun t =>
     t = 0%Z \/ ((t = 1 \/ t = -1)%Z /\ forall v, prodVal r l = Some v -> l = [] /\ t = s \/ sgnOK st (IZR (t * s) * v))).
  Proof.
    intros Hl. revert s. induction Hl as [|e l He Hl IH]; intros s Hs; cbn [prodSign].
    { apply spec_ret. right. split; [assumption|]. auto. }
    eapply spec_bind; [apply pos_call with (P := P); assumption|]. intros p Hp. destruct p.
    { specialize (Hp eq_refl). eapply spec_weaken; [now apply IH|]. intros t [Ht|[Ht Hv]]; [now left|right].
      split; [assumption|]. intros v Ev. right. rewrite prodVal_cons in Ev. apply omult_some in Ev as (x & y & Ex & Ey & ->).
      destruct (Hv y Ey) as [[-> ->]|Hy].
      - rewrite prodVal_nil in Ey. injection Ey as <-. replace (IZR (s * s)) with 1 by (destruct Hs as [->| ->]; reflexivity).
        replace (1 * (x * 1)) with x by ring. auto.
      - replace (IZR (t * s) * (x * y)) with (x * (IZR (t * s) * y)) by ring. apply sgn_mult; auto. }
    eapply spec_bind; [apply neg_call with (P := P); assumption|]. intros g Hn. destruct g; [|apply spec_ret; now left].
    specialize (Hn eq_refl). eapply spec_weaken; [apply IH; lia|]. intros t [Ht|[Ht Hv]]; [now left|right].
    split; [assumption|]. intros v Ev. right. rewrite prodVal_cons in Ev. apply omult_some in Ev as (x & y & Ex & Ey & ->).
    destruct (Hv y Ey) as [[-> ->]|Hy].
    - rewrite prodVal_nil in Ey. injection Ey as <-. replace (IZR (- s * s)) with (-1) by (destruct Hs as [->| ->]; reflexivity).
      replace (-1 * (x * 1)) with (- x) by ring. auto.
    - replace (IZR (t * s) * (x * y)) with (- x * (IZR (t * - s) * y)).
      + apply sgn_mult; auto.
      + replace (t * - s)%Z with (- (t * s))%Z by ring. rewrite opp_IZR. ring.
  Qed.

  Lemma prodSign1_sp l : Forall (wf P) l -> sp (prodSign W l 1) (fun t =>
     (t = 1%Z -> forall v, prodVal r l = Some v -> sgnOK st v) /\ (t = (-1)%Z -> forall v, prodVal r l = Some v -> sgnOK st (- v))).
  Proof.
    intros Hl. eapply spec_weaken; [apply prodSign_sp; auto|]. intros t [->|[_ Hv]]; [split; discriminate|].
    split; intros -> v Ev; destruct (Hv v Ev) as [[-> Et]|Hs].
    - rewrite prodVal_nil in Ev. injection Ev as <-. apply sgn_lt. lra.
    - now rewrite Rmult_1_l in Hs.
    - discriminate.
    - replace (- v) with (IZR (-1 * 1) * v) by (cbn; ring). assumption.
  Qed.

  Lemma numPos_sp e a : sp (numPos Y e a) (fun b => b = true -> forall v, eval r e = Some v -> sgnOK st v).
  Proof.
    unfold numPos. cbn zeta. eapply spec_bind; [apply spec_relyIf'|]. intros ? Hh. apply spec_ret. intros E v Ev.
    apply sgn_lt. apply (Hh E); [apply eval_zero|assumption].
  Qed.
  Lemma numNeg_sp e a : sp (numNeg Y e a) (fun b => b = true -> forall v, eval r e = Some v -> sgnOK st (- v)).
  Proof.
    unfold numNeg. cbn zeta. eapply spec_bind; [apply spec_relyIf'|]. intros ? Hh. apply spec_ret. intros E v Ev.
    apply sgn_lt. specialize (Hh E). cbn [holds] in Hh. specialize (Hh v 0 Ev (eval_zero r)). lra.
  Qed.

  Lemma atan_sgn v : sgnOK st v -> sgnOK st (atan v).
  Proof.
    destruct st; cbn; intros Hv.
    - rewrite <- atan_0. now apply atan_increasing.
    - destruct Hv as [Hv| <-]; [|rewrite atan_0; lra]. left. rewrite <- atan_0. now apply atan_increasing.
  Qed.
  Lemma ln_sgn v : sgnOK st (v + -1) -> sgnOK st (ln v).
  Proof.
    destruct st; cbn; intros Hv.
    - rewrite <- ln_1. apply ln_increasing; lra.
    - destruct (Req_dec v 1) as [->|]; [rewrite ln_1; lra|]. left. rewrite <- ln_1. apply ln_increasing; lra.
  Qed.
  Lemma ln_sgn_neg v : 0 < v -> sgnOK st (- (v + -1)) -> sgnOK st (- ln v).
  Proof.
    destruct st; cbn; intros H0 Hv.
    - assert (ln v < ln 1) by (apply ln_increasing; lra). rewrite ln_1 in *. lra.
    - destruct (Req_dec v 1) as [->|]; [rewrite ln_1; lra|].
      assert (ln v < ln 1) by (apply ln_increasing; lra). rewrite ln_1 in *. lra.
  Qed.

  (** A power with an even numerator in the exponent. *)
  Lemma even_power b q u : canon q -> (Z.rem (qnum q) 2 =? 0)%Z = true -> rpow b (Q2R q) = Some u -> 0 <= u /\ (b <> 0 -> 0 < u).
  Proof.
    intros Hc He Hu. rewrite even_of_rem in He.
    destruct (total_order_T b 0) as [[Hb|Hb]|Hb].
    - pose proof Hu as Hu'. destruct (qIsInt q) eqn:Ei.
      + rewrite (qIsInt_iff q Ei) in Hu. pose proof (rpow_even_nonneg b (qnum q) u He Hu).
        split; [assumption|]. intros _. assert (u <> 0) by (apply (rpow_nz b (IZR (qnum q)) u); [lra|assumption]). lra.
      + rewrite rpow_neg_none in Hu; [discriminate|assumption|]. now apply qIsInt_false.
    - subst b. split; [apply (rpow_ge0 0 (Q2R q)); [lra|assumption]|]. lra.
    - assert (0 < u) by now apply (rpow_gt0 b (Q2R q)). split; [lra|auto].
  Qed.

  Lemma isPositive_sp e : wf P e -> sp (isPositive Y W e) (fun b => b = true -> forall v, eval r e = Some v -> sgnOK st v).
  Proof.
    intros He. destruct e as [q|n p|c| |f l|l|l|b x].
    - apply spec_ret. intros E v Ev. cbn in Ev. injection Ev as <-. apply sgn_lt. unfold qgtb in E.
      apply qltb_lt in E. apply Qlt_Rlt in E. now replace (Q2R 0) with 0 in E by (symmetry; apply (Q2R_IZR 0)).
    - apply spec_ret. intros -> v Ev. cbn in Ev. injection Ev as <-. apply Hg.
    - apply spec_ret. intros _ v Ev. apply sgn_lt. destruct c; cbn in Ev; injection Ev as <-; [apply PI_RGT_0|apply exp_pos].
    - apply spec_ret. discriminate.
    - assert (Hdef : sp (match nev (Fct f l) with Some a => numPos Y (Fct f l) a | None => ret false end)
          (fun b => b = true -> forall v, eval r (Fct f l) = Some v -> sgnOK st v)).
      { destruct (nev (Fct f l)); [apply numPos_sp|apply spec_ret; discriminate]. }
      destruct f; try exact Hdef; destruct l as [|a [|a2 l]]; try exact Hdef.
      + apply wf_ops in He as [_ He]. inversion_clear He as [|? ? Ha _].
        eapply spec_weaken; [apply pos_call with (P := P); assumption|]. intros b Hb E v Ev.
        cbn [eval] in Ev. destruct (eval r a) as [w|]; [|discriminate]. cbn in Ev. injection Ev as <-. apply atan_sgn. auto.
      + apply wf_ops in He as [_ He]. inversion_clear He as [|? ? Ha _]. cbn [isPositive].
        eapply spec_bind; [apply sum_call with (P := P); auto with sp|]. intros s (Hs & Vs).
        eapply spec_weaken; [apply pos_call with (P := P); assumption|]. intros b Hb E v Ev.
        cbn [eval] in Ev. destruct (eval r a) as [w|] eqn:Ea; [|discriminate]. cbn [fct1] in Ev.
        destruct (Rlt_dec 0 w); [|discriminate]. injection Ev as <-. apply ln_sgn. apply (Hb E).
        rewrite sum2, Ea, eval_mOne in Vs. exact Vs.
    - cbn [isPositive]. destruct (nev (Sum l)); [apply numPos_sp|]. apply wf_sum in He.
      eapply spec_bind; [now apply sumSign_sp|]. intros t [Ht _]. apply spec_ret. intros E. apply Z.eqb_eq in E. auto.
    - cbn [isPositive]. apply wf_prod in He.
      eapply spec_bind; [now apply prodSign1_sp|]. intros t [Ht _]. apply spec_ret. intros E. apply Z.eqb_eq in E. auto.
    - cbn [isPositive]. destruct He as [Hb Hx].
      eapply spec_bind; [apply pos_call with (P := P); assumption|]. intros [|] Hp.
      { apply spec_ret. intros _ v Ev. rewrite eval_pow in Ev. apply opow_some in Ev as (vb & vx & Eb & Ex & Ev).
        specialize (Hp eq_refl vb Eb). destruct st; cbn in *; [now apply (rpow_gt0 vb vx)|now apply (rpow_ge0 vb vx)]. }
      destruct (nev x) as [[q|d]|] eqn:Ex; try (apply spec_ret; discriminate).
      destruct (Z.rem (qnum q) 2 =? 0)%Z eqn:Ee; [|apply spec_ret; discriminate].
      eapply spec_bind with (Q1 := fun _ => canon q /\ forall v, eval r x = Some v -> v = Q2R q).
      { destruct x; try (eapply spec_weaken; [apply spec_rely'|]; intros ? Hh; exact Hh).
        apply spec_ret. cbn in Ex. injection Ex as <-. split; [exact Hx|]. intros v Ev. cbn in Ev. now injection Ev. }
      intros ? [Hc Hq]. eapply spec_bind; [apply spec_rely'|]. intros ? Hev. cbn [holds] in Hev.
      apply spec_ret. intros _ v Ev. rewrite eval_pow in Ev. apply opow_some in Ev as (vb & vx & Eb & Exv & Ev).
      rewrite (Hq vx Exv) in Ev. destruct (even_power vb q v Hc Ee Ev) as [H1 H2].
      destruct st; cbn; [|assumption]. apply H2. intros ->. now apply Hev.
  Qed.

  Lemma isNegative_sp e : wf P e -> sp (isNegative Y W e) (fun b => b = true -> forall v, eval r e = Some v -> sgnOK st (- v)).
  Proof.
    intros He. destruct e as [q|n p|c| |f l|l|l|b x]; try (apply spec_ret; discriminate).
    - apply spec_ret. intros E v Ev. cbn in Ev. injection Ev as <-. apply sgn_lt. apply Q2R_lt0 in E. lra.
    - assert (Hdef : sp (match nev (Fct f l) with Some a => numNeg Y (Fct f l) a | None => ret false end)
          (fun b => b = true -> forall v, eval r (Fct f l) = Some v -> sgnOK st (- v))).
      { destruct (nev (Fct f l)); [apply numNeg_sp|apply spec_ret; discriminate]. }
      destruct f; try exact Hdef; destruct l as [|a [|a2 l]]; try exact Hdef.
      + apply wf_ops in He as [_ He]. inversion_clear He as [|? ? Ha _].
        eapply spec_weaken; [apply neg_call with (P := P); assumption|]. intros b Hb E v Ev.
        cbn [eval] in Ev. destruct (eval r a) as [w|]; [|discriminate]. cbn in Ev. injection Ev as <-.
        rewrite <- atan_opp. apply atan_sgn. auto.
      + apply wf_ops in He as [_ He]. inversion_clear He as [|? ? Ha _]. cbn [isNegative].
        eapply spec_bind; [apply sum_call with (P := P); auto with sp|]. intros s (Hs & Vs).
        eapply spec_weaken; [apply neg_call with (P := P); assumption|]. intros b Hb E v Ev.
        cbn [eval] in Ev. destruct (eval r a) as [w|] eqn:Ea; [|discriminate]. cbn [fct1] in Ev.
        destruct (Rlt_dec 0 w) as [Hw|]; [|discriminate]. injection Ev as <-. apply ln_sgn_neg; [assumption|]. apply (Hb E).
        rewrite sum2, Ea, eval_mOne in Vs. exact Vs.
    - cbn [isNegative]. destruct (nev (Sum l)); [apply numNeg_sp|]. apply wf_sum in He.
      eapply spec_bind; [now apply sumSign_sp|]. intros t [_ Ht]. apply spec_ret. intros E. apply Z.eqb_eq in E. auto.
    - cbn [isNegative]. apply wf_prod in He.
      eapply spec_bind; [now apply prodSign1_sp|]. intros t [_ Ht]. apply spec_ret. intros E. apply Z.eqb_eq in E. auto.
  Qed.
End Signs.
