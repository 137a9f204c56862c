(** Value preservation of powers and of the expansion of powers, and the meaning of signs. *)
From Verif Require Export CreateProofs.
From Coq Require Import Lra Lia Permutation.
Open Scope R_scope.

Lemma even_of_rem z : (Z.rem z 2 =? 0)%Z = Z.even z.
Proof.
  pose proof (Z.quot_rem' z 2). pose proof (Z.rem_bound_abs z 2 ltac:(lia)).
  destruct (Z.rem z 2 =? 0)%Z eqn:E; symmetry.
  - apply Z.eqb_eq in E. apply Z.even_spec. exists (z ÷ 2)%Z. lia.
  - apply Z.eqb_neq in E. destruct (Z.even z) eqn:Ev; [|reflexivity]. exfalso. apply E.
    apply Z.even_spec in Ev as [k ->]. rewrite Z.mul_comm. apply Z.rem_mul. lia.
Qed.
Lemma qIsEven_R q : qIsEvenInt q = true -> Z.even (qnum q) = true /\ Q2R q = IZR (qnum q).
Proof.
  unfold qIsEvenInt. intros E. apply andb_prop in E as [E1 E2]. rewrite even_of_rem in E2.
  split; [assumption|]. now apply qIsInt_iff.
Qed.
Lemma qIsOdd_R q : qIsOddInt q = true -> Z.even (qnum q) = false /\ Q2R q = IZR (qnum q).
Proof.
  unfold qIsOddInt. intros E. apply andb_prop in E as [E1 E2]. rewrite even_of_rem in E2.
  split; [now apply Bool.negb_true_iff|]. now apply qIsInt_iff.
Qed.

Section Powers.
  Variables (Y : sys) (W : oper).
  Hypothesis HW : soundOps W.
  Variables (st : bool) (r : env) (P : name -> bool -> Prop).
  Hypothesis Hg : wgood st r.
  Notation sp := (spec (holds st r)).
  Notation nev := (numericEval Y).
  Notation valOK o := (fun e => wf P e /\ ole o (eval r e)).

  Lemma relyInt_sp e q : wf P e -> nev e = Some (NQ q) ->
    sp (relyInt Y e) (fun _ => canon q /\ forall v, eval r e = Some v -> v = Q2R q).
  Proof.
    intros Hw E. destruct e; cbn [relyInt].
    1:{ apply spec_ret. cbn in E. injection E as <-. split; [exact Hw|]. intros v Hv. cbn in Hv. now injection Hv. }
    all: rewrite E; eapply spec_weaken; [apply spec_rely'|]; intros ? Hh; exact Hh.
  Qed.

  Lemma isInteger_inv e : isInteger Y e = true -> exists q, nev e = Some (NQ q) /\ qIsInt q = true.
  Proof.
    unfold isInteger. destruct (nev e) as [[q|d]|]; try discriminate. cbn. intros E. eauto.
  Qed.
  Lemma relyInteger_sp e : wf P e -> isInteger Y e = true ->
    sp (relyInt Y e) (fun _ => exists z, forall v, eval r e = Some v -> v = IZR z).
  Proof.
    intros Hw E. apply isInteger_inv in E as (q & Eq & Ei).
    eapply spec_weaken; [now apply relyInt_sp with (q := q)|]. intros ? [_ Hv].
    exists (qnum q). intros v E. rewrite (Hv v E). now apply qIsInt_iff.
  Qed.

  (** (b^x)^y may be written b'^(x*y). *)
  Definition contr (b' : expr) (b x y : expr) : Prop :=
    forall vb vx vy u w, eval r b = Some vb -> eval r x = Some vx -> eval r y = Some vy ->
      rpow vb vx = Some u -> rpow u vy = Some w ->
      exists vb', eval r b' = Some vb' /\ rpow vb' (vx * vy) = Some w.

  Lemma sgnOK_ge v : sgnOK st v -> 0 <= v.
  Proof. destruct st; cbn; lra. Qed.

  Lemma doContractExpFirst_sp b x y : wf P b -> wf P x -> wf P y ->
    sp (doContractExpFirst Y W b x y) (fun c => c = true -> contr b b x y).
  Proof.
    intros Hb Hx Hy. unfold doContractExpFirst.
    destruct (isInteger Y x && isInteger Y y) eqn:E.
    { apply andb_prop in E as [E1 E2].
      eapply spec_bind; [now apply relyInteger_sp|]. intros ? [zx Zx].
      eapply spec_bind; [now apply relyInteger_sp|]. intros ? [zy Zy].
      apply spec_ret. intros _ vb vx vy u w Eb Ex Ey Hu Hw. exists vb. split; [assumption|].
      apply Zx in Ex. apply Zy in Ey. subst. now apply rpow_pow_int with u. }
    destruct (areTwoFractionExpWithOddDenom x y) eqn:E2.
    { apply spec_ret. intros _ vb vx vy u w Eb Ex Ey Hu Hw. exists vb. split; [assumption|].
      destruct x as [qx| | | | | | |]; try discriminate. destruct y as [qy| | | | | | |]; try discriminate.
      cbn [areTwoFractionExpWithOddDenom] in E2. repeat (apply andb_prop in E2 as [E2 ?]).
      cbn in Ex. injection Ex as <-. apply rpow_pow_nonneg with u; try assumption.
      eapply rpow_nonint_base; [|exact Hu]. apply qIsInt_false; [exact Hx|].
      unfold qIsFraction in E2. unfold qIsInt. now apply Bool.negb_true_iff. }
    eapply spec_weaken; [apply pos_call with (P := P); assumption|]. intros c Hc Ec vb vx vy u w Eb Ex Ey Hu Hw.
    exists vb. split; [assumption|]. apply rpow_pow_nonneg with u; try assumption.
    apply sgnOK_ge. now apply Hc.
  Qed.

  Lemma doesChangeSign_sp b x y m : wf P b -> wf P x ->
    ole (omult (Some (-1)) (prodVal r [b])) (eval r m) ->
    sp (doesChangeSign W b x) (fun c => c = true -> contr m b x y).
  Proof.
    intros Hb Hx Hm. destruct x as [q| | | | | | |]; try (apply spec_ret; discriminate). cbn [doesChangeSign].
    destruct (qIsEvenInt q) eqn:E; [|apply spec_ret; discriminate].
    apply qIsEven_R in E as [Ee Eq].
    eapply spec_weaken; [apply neg_call with (P := P); assumption|]. intros c Hc Ec vb vx vy u w Eb Ex Ey Hu Hw.
    specialize (Hc Ec vb Eb). apply sgnOK_ge in Hc. rewrite prodVal_1, Eb in Hm. cbn in Hm.
    exists (-1 * vb). split; [exact Hm|]. cbn in Ex. injection Ex as <-.
    replace (-1 * vb) with (- vb) by ring. rewrite Eq in *.
    destruct (Req_dec vb 0) as [->|Hn].
    - replace (- 0) with 0 by ring. apply rpow_pow_nonneg with u; try assumption. lra.
    - apply rpow_pow_even_neg with u; try assumption. lra.
  Qed.

  Lemma notInt_sp x a : wf P x -> nev x = Some a -> (forall q, a = NQ q -> qIsInt q = false) ->
    sp (match x with Num _ => ret tt | _ => rely (CNotInt x) end)
       (fun _ => forall v z, eval r x = Some v -> v <> IZR z).
  Proof.
    intros Hw E Hn. destruct x as [q| | | | | | |].
    1:{ apply spec_ret. intros v z Ev. cbn in Ev. injection Ev as <-. cbn in E. injection E as E.
        apply qIsInt_false; [exact Hw|]. now apply Hn. }
    all: eapply spec_weaken; [apply spec_rely'|]; intros ? Hh; exact Hh.
  Qed.

  Lemma contr_nonint b x y : (forall v z, eval r x = Some v -> v <> IZR z) -> contr b b x y.
  Proof.
    intros Hn vb vx vy u w Eb Ex Ey Hu Hw. exists vb. split; [assumption|].
    apply rpow_pow_nonneg with u; try assumption. apply (rpow_nonint_base vb vx u); auto.
  Qed.

  Lemma doContractExpSecond_sp b x y : wf P b -> wf P x -> wf P y ->
    sp (doContractExpSecond Y x y) (fun c => c = true -> contr b b x y).
  Proof.
    intros Hb Hx Hy. unfold doContractExpSecond.
    destruct (nev x) as [a|] eqn:Ex; [|apply spec_ret; discriminate].
    destruct (nev y) as [c|] eqn:Ey; [|apply spec_ret; discriminate].
    cbn zeta. destruct (nIsOdd Y a) eqn:Eo.
    { destruct (negb (absIsOne Y (nmul Y a c))); [|apply spec_ret; discriminate].
      destruct a as [q|d]; [|discriminate]. cbn in Eo. apply qIsOdd_R in Eo as [Eo Eq].
      eapply spec_bind; [now apply relyInt_sp with (q := q)|]. intros ? [_ Hv].
      apply spec_ret. intros _ vb vx vy u w Eb Exv Eyv Hu Hw. exists vb. split; [assumption|].
      rewrite (Hv vx Exv), Eq in *. now apply rpow_pow_odd with u. }
    destruct (nIsEven Y a) eqn:Ee.
    { destruct (nIsEven Y (nmul Y a c)) eqn:Em; [|apply spec_ret; discriminate].
      destruct a as [q|d]; [|discriminate]. cbn [nIsEven] in Ee. pose proof (qIsEven_R q Ee) as [Ev Eq].
      eapply spec_bind; [now apply relyInt_sp with (q := q)|]. intros ? [_ Hv].
      assert (Hfin : forall q', nmul Y (NQ q) c = NQ q' ->
        (forall vx vy, eval r x = Some vx -> eval r y = Some vy -> vx * vy = Q2R q') -> contr b b x y).
      { intros q' Eq' Hp vb vx vy u w Eb Exv Eyv Hu Hw. exists vb. split; [assumption|].
        rewrite Eq' in Em. cbn [nIsEven] in Em. apply qIsEven_R in Em as [Em1 Em2].
        specialize (Hp vx vy Exv Eyv). rewrite (Hv vx Exv), Eq in *.
        apply rpow_pow_even_even with (z := qnum q') (u := u); auto. now rewrite <- Em2. }
      assert (Hrel : sp (match nmul Y (NQ q) c with NQ q' => rely (CEq (Prod [x; y]) q') | _ => ret tt end)
        (fun _ => contr b b x y)).
      { destruct (nmul Y (NQ q) c) as [q'|d'] eqn:Eq'; [|discriminate Em].
        eapply spec_weaken; [apply spec_rely'|]. intros ? [_ Hh]. apply Hfin with q'; [reflexivity|].
        intros vx vy Exv Eyv. apply Hh. rewrite eval_prod, prod2, Exv, Eyv. reflexivity. }
      eapply spec_bind with (Q1 := fun _ => contr b b x y); [|intros; apply spec_ret; auto].
      destruct x as [qx| | | | | | |]; try exact Hrel.
      destruct y as [qy| | | | | | |]; try exact Hrel.
      apply spec_ret. cbn in Ex, Ey. injection Ex as <-. injection Ey as <-.
      apply Hfin with (qmul qx qy); [reflexivity|]. intros vx vy Exv Eyv. cbn in Exv, Eyv.
      injection Exv as <-. injection Eyv as <-. symmetry. apply Q2R_qmul. }
    assert (Hni : forall q, a = NQ q -> qIsInt q = false).
    { intros q ->. cbn in Eo, Ee. unfold qIsOddInt, qIsEvenInt in *. destruct (qIsInt q); [|reflexivity].
      cbn [andb] in *. rewrite Ee in Eo. discriminate. }
    destruct (nIsFraction Y a && (nIsInt Y c || nIsFraction Y c)).
    { destruct (nIsFraction Y (nmul Y a c)); [|apply spec_ret; discriminate].
      eapply spec_bind; [now apply notInt_sp with (a := a)|]. intros ? Hn. apply spec_ret. intros _. now apply contr_nonint. }
    eapply spec_bind; [now apply notInt_sp with (a := a)|]. intros ? Hn. apply spec_ret. intros _. now apply contr_nonint.
  Qed.

  Notation pairV b x := (fun e => wf P (fst e) /\ wf P (snd e) /\
      ole (opow (eval r b) (eval r x)) (opow (eval r (fst e)) (eval r (snd e)))).

  Lemma spow_call b x : wf P b -> wf P x -> sp (w_spow W b x) (pairV b x).
  Proof. now apply (so_spow W HW). Qed.
  Lemma opow_1 o : opow o (Some 1) = o.
  Proof. destruct o; [apply rpow_r1|reflexivity]. Qed.

  Lemma simplifyPowerBase_sp b x y : wf P b -> wf P x -> wf P y ->
    sp (simplifyPowerBase Y W b x y) (pairV (Pow b x) y).
  Proof.
    intros Hb Hx Hy. unfold simplifyPowerBase.
    eapply spec_bind; [now apply doContractExpFirst_sp|]. intros c1 H1.
    eapply spec_bind with (Q1 := fun s => match s with Some b' => wf P b' /\ contr b' b x y | None => True end).
    { destruct c1; [apply spec_ret; auto|].
      assert (H2 : sp (doesChangeSign W b x) (fun c => c = true ->
        forall m, ole (omult (Some (-1)) (prodVal r [b])) (eval r m) -> contr m b x y)).
      { pose proof (fun m Hm => doesChangeSign_sp b x y m Hb Hx Hm) as Hd.
        destruct (doesChangeSign W b x) as [c l| | |]; try exact I. intros Hl Hc m Hm. exact (Hd m Hm Hl Hc). }
      eapply spec_bind; [exact H2|]. intros c2 H3. destruct c2.
      - eapply spec_bind; [apply minus_call with (P := P); auto|]. intros m (Hm & Vm). apply spec_ret. auto.
      - eapply spec_bind; [apply doContractExpSecond_sp with (b := b); assumption|]. intros c3 H4.
        apply spec_ret. destruct c3; auto. }
    intros [b'|] Hs.
    - destruct Hs as [Hb' Hc]. eapply spec_bind; [apply prod_call with (P := P); auto|]. intros z (Hz & Vz).
      assert (Hpow : forall w, opow (eval r (Pow b x)) (eval r y) = Some w ->
                exists vb' vz, eval r b' = Some vb' /\ eval r z = Some vz /\ rpow vb' vz = Some w).
      { intros w Ew. apply opow_some in Ew as (u & vy & Eu & Ey & Ew). rewrite eval_pow in Eu.
        apply opow_some in Eu as (vb & vx & Eb & Ex & Eu).
        destruct (Hc vb vx vy u w Eb Ex Ey Eu Ew) as (vb' & Eb' & Ew').
        exists vb', (vx * vy). repeat split; try assumption. rewrite prod2, Ex, Ey in Vz. exact Vz. }
      destruct (isZero z) eqn:Ez.
      + apply (isZero_eq P) in Ez; [|assumption]. subst z. apply spec_ret. cbn [fst snd]. repeat split; auto with sp.
        apply ole_intro. intros w Ew. destruct (Hpow w Ew) as (vb' & vz & _ & Evz & Ew').
        rewrite eval_zero in Evz. injection Evz as <-. rewrite rpow_r0 in Ew'. injection Ew' as <-.
        rewrite eval_one. cbn. apply rpow_l1.
      + eapply spec_weaken; [apply spow_call; assumption|]. intros e (H2 & H3 & H4). repeat split; try assumption.
        eapply ole_trans; [|exact H4]. apply ole_intro. intros w Ew.
        destruct (Hpow w Ew) as (vb' & vz & -> & -> & Ew'). exact Ew'.
    - apply spec_ret. cbn [fst snd wf]. repeat split; try assumption. apply ole_refl.
  Qed.

  Definition splitOK (x f : expr) : Prop :=
    (exists z, forall v, eval r x = Some v -> v = IZR z) \/ forall v, eval r f = Some v -> 0 < v.

  Lemma split_pow x s0 s k : Forall2 (fun f y => splitOK x f /\ ole (opow (eval r f) (eval r x)) (eval r y)) s0 s ->
    ole (opow (prodVal r (s0 ++ k)) (eval r x)) (omult (prodVal r s) (opow (prodVal r k) (eval r x))).
  Proof.
    induction 1 as [|f y s0 s [Hp Vy] _ IH].
    { rewrite prodVal_nil, omult_1_l. apply ole_refl. }
    cbn [app]. rewrite (prodVal_cons r y s), omult_assoc. eapply ole_trans; [|apply ole_omult; [exact Vy|exact IH]].
    rewrite prodVal_cons. apply ole_intro. intros w Ew.
    apply opow_some in Ew as (m & vx & Em & Ex & Ew). apply omult_some in Em as (vf & vl & Ef & El & ->).
    rewrite Ef, El, Ex. cbn [opow].
    assert (exists u v, rpow vf vx = Some u /\ rpow vl vx = Some v /\ w = u * v) as (u & v & -> & -> & ->); [|reflexivity].
    destruct Hp as [[z Hz]|Hp].
    - rewrite (Hz vx Ex) in *. now apply rpow_split_int'.
    - apply rpow_split_pos; auto.
  Qed.

  Lemma splitFactors_sp all x l : wf P x -> Forall (wf P) l ->
    (all = true -> exists z, forall v, eval r x = Some v -> v = IZR z) ->
    sp (splitFactors W all x l) (fun sk => Forall (wf P) (fst sk) /\ Forall (wf P) (snd sk) /\
       exists s0, Forall2 (fun f y => splitOK x f /\ ole (opow (eval r f) (eval r x)) (eval r y)) s0 (fst sk) /\
         Permutation l (s0 ++ snd sk)).
  Proof.
    intros Hx Hl Hall. induction Hl as [|f l Hf Hl IH]; cbn [splitFactors].
    { apply spec_ret. cbn [fst snd]. repeat split; auto. exists []. split; constructor. }
    eapply spec_bind with (Q1 := fun p => p = true -> splitOK x f).
    { destruct all; [apply spec_ret; left; auto|].
      eapply spec_bind; [apply pos_call with (P := P); assumption|]. intros q Hq.
      eapply spec_bind; [apply spec_relyIf'|]. intros ? Hs. apply spec_ret. intros Eq. right. intros v Ev.
      specialize (Hq Eq v Ev). specialize (Hs Eq). cbn [holds] in Hs. destruct st; cbn in Hq; [assumption|].
      specialize (Hs eq_refl). rewrite Ev in Hs. destruct (Req_dec v 0); [congruence|lra]. }
    intros [|] Hp.
    - specialize (Hp eq_refl).
      eapply spec_bind; [apply pow_call with (P := P); assumption|]. intros y (Hy & Vy).
      eapply spec_bind; [exact IH|]. intros [s k] (Hs & Hk & s0 & F & Pm). cbn [fst snd] in *.
      apply spec_ret. cbn [fst snd]. split; [auto|split; [assumption|]].
      exists (f :: s0). split; [constructor; auto|]. cbn [app]. now constructor.
    - eapply spec_bind; [exact IH|]. intros [s k] (Hs & Hk & s0 & F & Pm). cbn [fst snd] in *.
      apply spec_ret. cbn [fst snd]. split; [assumption|split; [auto|]].
      exists s0. split; [assumption|]. apply Permutation_trans with (f :: s0 ++ k); [now constructor|].
      apply Permutation_middle.
  Qed.

  Lemma simplifyProductBase_sp l x : Forall (wf P) l -> wf P x ->
    sp (simplifyProductBase Y W l x) (pairV (Prod l) x).
  Proof.
    intros Hl Hx. unfold simplifyProductBase. cbn zeta.
    eapply spec_bind with (Q1 := fun _ => isInteger Y x = true -> exists z, forall v, eval r x = Some v -> v = IZR z).
    { destruct (isInteger Y x) eqn:E; [|apply spec_ret; discriminate].
      eapply spec_weaken; [now apply relyInteger_sp|]. auto. }
    intros ? Hall. eapply spec_bind; [now apply splitFactors_sp|]. intros [s k] (Hs & Hk & s0 & F & Pm). cbn [fst snd] in *.
    destruct s as [|y s].
    { apply spec_ret. cbn [fst snd]. repeat split; [now apply wf_prod|assumption|apply ole_refl]. }
    eapply spec_bind; [apply prod_call with (P := P); eassumption|]. intros rest (Hr & Vr).
    eapply spec_bind; [apply pow_call with (P := P); eassumption|]. intros p (Hp & Vp).
    eapply spec_bind; [apply prod_call with (P := P); try eassumption; apply Forall_app; auto|]. intros t (Ht & Vt).
    apply spec_ret. cbn [fst snd]. repeat split; auto with sp.
    rewrite eval_one, opow_1. eapply ole_trans; [|exact Vt]. rewrite prodVal_app, prodVal_1.
    rewrite eval_prod, (prodVal_perm r _ _ Pm). eapply ole_trans; [apply split_pow; exact F|].
    apply ole_omult; [apply ole_refl|]. eapply ole_trans; [|exact Vp]. apply ole_opow; [assumption|apply ole_refl].
  Qed.

  Lemma simplifyConstantBase_sp b x : wf P b -> wf P x ->
    sp (simplifyConstantBase W b x) (pairV b x).
  Proof.
    intros Hb Hx. assert (Hid : sp (ret (b, x)) (pairV b x)).
    { apply spec_ret. cbn [fst snd]. repeat split; try assumption. apply ole_refl. }
    unfold simplifyConstantBase. destruct b as [| |c| | | | |]; try exact Hid. destruct c; [exact Hid|].
    destruct x as [| | | |f l| | |]; try exact Hid.
    destruct l as [|a l]; [exact I|].
    eapply spec_bind with (Q1 := fun _ => True).
    { destruct (w_log W a); try exact I. intros _. exact I. }
    intros t _. destruct (isEqual (Fct f (a :: l)) t); [|exact Hid].
    eapply spec_bind; [apply spec_relyIf'|]. intros ? Hh. cbn [holds] in Hh.
    destruct (isEqual (Fct f (a :: l)) (Fct FLog [a])) eqn:E; [|now destruct (Hh eq_refl)].
    apply isEqual_eq in E. rewrite E in *. destruct (fct1_inv P FLog [a] Hx ltac:(discriminate)) as (a' & Ea & Ha).
    injection Ea as <-. apply spec_ret. cbn [fst snd]. repeat split; auto with sp.
    rewrite eval_one, opow_1. apply ole_intro. intros w Ew. cbn [eval] in Ew.
    destruct (eval r a) as [v|]; [|discriminate Ew]. cbn [fct1] in Ew. destruct (Rlt_dec 0 v); [|discriminate Ew].
    cbn [opow] in Ew. rewrite rpow_pos in Ew by apply exp_pos. unfold Rpower in Ew.
    rewrite ln_exp, Rmult_1_r, exp_ln in Ew by assumption. exact Ew.
  Qed.

  Lemma doesInvolveComplexNumbers_sp b x : wf P b -> wf P x ->
    sp (doesInvolveComplexNumbers Y W b x) (fun c => c = true -> opow (eval r b) (eval r x) = None).
  Proof.
    intros Hb Hx. unfold doesInvolveComplexNumbers.
    assert (N : sp (_ <- quiet (w_neg W b) ;; ret false) (fun c => c = true -> opow (eval r b) (eval r x) = None)) by (destruct (w_neg W b); cbn; auto; discriminate).
    destruct (nev x) as [a|] eqn:E; [|exact N].
    destruct (nIsInt Y a) eqn:Ei; [exact N|]. clear N.
    eapply spec_bind; [apply neg_call with (P := P); assumption|]. intros [|] Hn; [|apply spec_ret; discriminate].
    eapply spec_bind; [apply spec_rely'|]. intros ? Hs.
    eapply spec_bind; [apply notInt_sp with (a := a); try assumption|].
    { intros q ->. exact Ei. }
    intros ? Hi. apply spec_ret. intros _. specialize (Hn eq_refl). cbn [holds] in Hs.
    destruct (eval r b) as [vb|] eqn:Eb; [|reflexivity]. destruct (eval r x) as [vx|] eqn:Ex; [|reflexivity].
    cbn [opow]. apply rpow_neg_none; [|intros z; now apply Hi].
    specialize (Hn vb eq_refl). destruct st; cbn in Hn; [lra|].
    destruct (Req_dec vb 0) as [->|]; [now destruct (Hs eq_refl)|lra].
  Qed.

  Lemma simplifyNumericPower_sp b x : canon b -> canon x ->
    sp (simplifyNumericPower Y W b x) (pairV (Num b) (Num x)).
  Proof.
    intros Hb Hx. unfold simplifyNumericPower.
    eapply spec_bind; [apply runNumPow_sp; repeat split; cbn [pBase pExp pPre]; try assumption; reflexivity|].
    intros p [Vp (Cb & Cx & Cp)].
    assert (V0 : payVal (mkPay b x 1) = opow (eval r (Num b)) (eval r (Num x))).
    { rewrite payVal_omult. cbn [pPre pBase pExp eval opow].
      replace (Q2R 1) with 1 by (symmetry; apply (Q2R_IZR 1)). apply omult_1_l. }
    rewrite V0, payVal_omult in Vp.
    destruct (qeqb (pPre p) 1) eqn:E.
    - apply qeqb_leib in E. apply spec_ret. cbn [fst snd wf]. repeat split; try assumption.
      rewrite E in Vp. replace (Q2R 1) with 1 in Vp by (symmetry; apply (Q2R_IZR 1)). rewrite omult_1_l in Vp. exact Vp.
    - eapply spec_bind; [apply pow_call with (P := P); assumption|]. intros e (He & Ve).
      eapply spec_bind; [apply prod_call with (P := P); try assumption; repeat constructor; assumption|].
      intros t (Ht & Vt). apply spec_ret. cbn [fst snd]. repeat split; auto with sp.
      rewrite eval_one, opow_1. eapply ole_trans; [exact Vp|]. eapply ole_trans; [|exact Vt].
      rewrite prod2. apply ole_omult; [apply ole_refl|exact Ve].
  Qed.

  Lemma simplifyPower_sp b x : wf P b -> wf P x -> sp (simplifyPower Y W b x) (pairV b x).
  Proof.
    intros Hb Hx. assert (Hid : sp (ret (b, x)) (pairV b x)).
    { apply spec_ret. cbn [fst snd]. repeat split; try assumption. apply ole_refl. }
    unfold simplifyPower. eapply spec_bind; [now apply doesInvolveComplexNumbers_sp|]. intros [|] Hc.
    { apply spec_ret. cbn [fst snd]. repeat split; auto with sp. rewrite (Hc eq_refl). exact I. }
    destruct b as [q| |c| | | |l|b' x']; try exact Hid.
    - destruct x; try exact Hid. now apply simplifyNumericPower_sp.
    - now apply simplifyConstantBase_sp.
    - apply spec_ret. cbn [fst snd]. repeat split; auto with sp.
    - apply simplifyProductBase_sp; [now apply wf_prod|assumption].
    - destruct Hb. now apply simplifyPowerBase_sp.
  Qed.

  Lemma powCreate_sp b x : wf P b -> wf P x -> sp (powCreate W b x) (valOK (opow (eval r b) (eval r x))).
  Proof.
    intros Hb Hx. unfold powCreate.
    destruct (isUndefined x || isUndefined b) eqn:Eu.
    { apply spec_ret. split; [exact I|]. apply Bool.orb_prop in Eu as [E|E]; apply isUndefined_eq in E; subst; cbn [eval opow].
      - destruct (eval r b); exact I.
      - exact I. }
    destruct (isZero x || isOne b) eqn:E1.
    { apply spec_ret. split; [auto with sp|]. rewrite eval_one.
      apply Bool.orb_prop in E1 as [E|E].
      - apply (isZero_eq P) in E; [|assumption]. subst. rewrite eval_zero. destruct (eval r b); [|exact I].
        cbn [opow]. rewrite rpow_r0. reflexivity.
      - apply (isOne_eq P) in E; [|assumption]. subst. rewrite eval_one. destruct (eval r x); [|exact I].
        cbn [opow]. rewrite rpow_l1. reflexivity. }
    apply Bool.orb_false_elim in E1 as [Ex0 Eb1].
    destruct (isZero b) eqn:E0.
    { apply (isZero_eq P) in E0; [|assumption]. subst b.
      eapply spec_bind; [apply neg_call with (P := P); assumption|]. intros g Hn.
      eapply spec_bind with (Q1 := fun _ => eval r x <> Some 0).
      { destruct x as [q| | | | | | |].
        1:{ apply spec_ret. cbn [eval]. intros E. apply some_inj in E. revert E. apply Q2R_nz; [exact Hx|exact Ex0]. }
        all: eapply spec_weaken; [apply spec_rely'|]; intros ? Hh; destruct g; cbn [holds] in Hh; try exact Hh;
          intros E; specialize (Hn eq_refl 0 E); destruct st; cbn in Hn; [lra|now apply Hh]. }
      intros ? Hnz. apply spec_ret. split; [destruct g; auto with sp|]. rewrite eval_zero.
      destruct (eval r x) as [v|] eqn:Ev; [|exact I]. cbn [opow].
      destruct (rpow 0 v) as [w|] eqn:Ew; [|exact I]. apply rpow_0_inv in Ew as [[Hv ->]|[-> ->]]; [|now destruct Hnz].
      destruct g; [|rewrite eval_zero; reflexivity].
      specialize (Hn eq_refl v eq_refl). apply sgnOK_ge in Hn. lra. }
    destruct (isOne x) eqn:Ex1.
    { apply (isOne_eq P) in Ex1; [|assumption]. subst. apply spec_ret. split; [assumption|]. rewrite eval_one, opow_1. apply ole_refl. }
    eapply spec_bind; [apply spow_call; assumption|]. intros [b' x'] (Hb' & Hx' & V). cbn [fst snd] in *.
    apply spec_ret. destruct (isOne x') eqn:E2.
    { apply (isOne_eq P) in E2; [|assumption]. subst. rewrite eval_one, opow_1 in V. auto. }
    destruct (isOne b') eqn:E3.
    { apply (isOne_eq P) in E3; [|assumption]. subst. rewrite eval_one in V. rewrite eval_one. split; [auto with sp|].
      eapply ole_trans; [exact V|]. destruct (eval r x'); [|exact I]. cbn [opow]. rewrite rpow_l1. reflexivity. }
    split; [split; assumption|]. exact V.
  Qed.

  (** ** Expansion *)

  Lemma prodVal_repeat b n v : eval r b = Some v -> prodVal r (repeat b n) = Some (v ^ n).
  Proof.
    intros E. induction n as [|n IH]; [reflexivity|]. cbn [repeat]. rewrite prodVal_cons, IH, E. reflexivity.
  Qed.

  Lemma expandExpr_sp n e : wf P e -> sp (expandExpr Y W n e) (valOK (eval r e)).
  Proof.
    intros He. assert (Hid : sp (ret e) (valOK (eval r e))) by (apply spec_ret; split; [assumption|apply ole_refl]).
    destruct e as [q|m p|c| |f l|l|l|b x]; try exact Hid; cbn [expandExpr].
    - apply wf_sum in He. eapply spec_bind.
      { apply mapM_expand with (P := P) (g := eval r) (r := r). intros x Hx. rewrite Forall_forall in He.
        apply expand_call with (P := P); auto. }
      intros k (Hk & Vk). eapply spec_weaken; [apply sum_call with (P := P); assumption|]. intros e (We & Ve).
      split; [assumption|]. eapply ole_trans; [|exact Ve]. rewrite eval_sum. now apply sumVal_ole.
    - apply wf_prod in He. now apply expandAsProduct_sp.
    - destruct (nev x) as [[q|d]|] eqn:Ex; try exact Hid. destruct (qIsInt q) eqn:Ei; [|exact Hid].
      destruct He as [Hb Hx].
      assert (Hp : sp (w_pow W b x) (valOK (eval r (Pow b x)))) by (apply pow_call with (P := P); assumption).
      destruct b as [| | | | |l| |]; try exact Hp. clear Hp.
      eapply spec_bind; [now apply relyInt_sp with (q := q)|]. intros ? [_ Hv].
      eapply spec_bind; [apply expandAsProduct_sp with (P := P); try assumption; apply Forall_forall; intros y Hy;
        apply repeat_spec in Hy; now subst|]. intros e (We & Ve).
      assert (Hev : forall w, eval r (Pow (Sum l) x) = Some w -> exists v vb, eval r e = Some v /\ eval r (Sum l) = Some vb /\
                 v = vb ^ Z.to_nat (Z.abs (qnum q)) /\ rpow vb (IZR (qnum q)) = Some w).
      { intros w Ew. rewrite eval_pow in Ew. apply opow_some in Ew as (vb & vx & Eb & Exv & Ew).
        rewrite (prodVal_repeat (Sum l) _ vb Eb) in Ve. cbn [ole] in Ve. exists (vb ^ Z.to_nat (Z.abs (qnum q))), vb.
        repeat split; try assumption. rewrite (Hv vx Exv) in Ew. now rewrite (qIsInt_iff q Ei) in Ew. }
      destruct (qnum q <? 0)%Z eqn:En.
      + unfold oneOver. eapply spec_weaken; [apply pow_call with (P := P); auto with sp|]. intros e' (We' & Ve').
        split; [assumption|]. eapply ole_trans; [|exact Ve']. apply ole_intro. intros w Ew.
        destruct (Hev w Ew) as (v & vb & -> & _ & -> & Er). rewrite eval_mOne. cbn [opow].
        apply Z.ltb_lt in En. destruct (Req_dec vb 0) as [->|Hnz].
        { rewrite rpow_0_neg in Er by now apply IZR_lt. discriminate. }
        rewrite rpow_int in Er by assumption. injection Er as <-.
        rewrite rpow_rm1 by now apply pow_nonzero. f_equal.
        replace (qnum q) with (- Z.of_nat (Z.to_nat (Z.abs (qnum q))))%Z at 2 by lia.
        rewrite powerRZ_neg' by assumption. now rewrite <- pow_powerRZ.
      + apply spec_ret. split; [assumption|]. apply ole_intro. intros w Ew.
        destruct (Hev w Ew) as (v & vb & -> & _ & -> & Er). apply Z.ltb_ge in En.
        rewrite rpow_intnn in Er by assumption. rewrite <- Er. f_equal.
        replace (qnum q) with (Z.of_nat (Z.to_nat (Z.abs (qnum q)))) at 2 by lia. apply pow_powerRZ.
  Qed.
End Powers.
