(** Polynomials: coefficients have values, division and pseudo-division satisfy their identities. *)
From Verif Require Export PolyModel SignProofs.
From Coq Require Import Lra Lia.
Open Scope R_scope.

Lemma withoutFirst_in p l f : withoutFirst p l = Some f -> forall x, In x f -> In x l.
Proof.
  revert f. induction l as [|a l IH]; cbn; [discriminate|]. intros f. destruct (isEqual a p).
  - intros E x Hx. injection E as <-. now right.
  - destruct (withoutFirst p l) as [s|]; [|discriminate]. intros E x Hx. injection E as <-.
    destruct Hx as [->|Hx]; [now left|right; eapply IH; eauto].
Qed.

Section PolyP.
  Variables (Y : sys) (W : oper).
  Hypothesis HW : soundOps W.
  Variables (st : bool) (r : env) (P : name -> bool -> Prop).
  Hypothesis Hg : wgood st r.
  Notation sp := (spec (holds st r)).
  Notation degree := (degree Y).

  Definition hasVal (e : expr) : Prop := exists v, eval r e = Some v.
  Lemma hasVal_zero : hasVal zero. Proof. eexists. apply eval_zero. Qed.
  Lemma hasVal_one : hasVal one. Proof. eexists. apply eval_one. Qed.

  Lemma prodVal_all l : (forall x, In x l -> hasVal x) -> exists v, prodVal r l = Some v.
  Proof.
    induction l as [|a l IH]; intros Hl; [now exists 1|]. destruct IH as [v Ev]; [auto with datatypes|].
    destruct (Hl a) as [w Ew]; [now left|]. exists (w * v). now rewrite prodVal_cons, Ew, Ev.
  Qed.

  Lemma coeff_sp x : wf P x -> forall e k, wf P e ->
    sp (coeff W e x k) (fun c => wf P c /\ (hasVal e -> hasVal c)).
  Proof.
    intros Hx. assert (Hself : forall e k, sp (coeffSelf k) (fun c => wf P c /\ (hasVal e -> hasVal c))).
    { intros e k. apply spec_ret. destruct (k =? 1)%Z; split; auto using hasVal_zero, hasVal_one with sp. }
    assert (Hself2 : forall e (b : bool), wf P e ->
      sp (ret (if b then e else zero)) (fun c => wf P c /\ (hasVal e -> hasVal c))).
    { intros e b He. apply spec_ret. destruct b; split; auto using hasVal_zero with sp. }
    induction e as [q|n p|c| |f l IH|l IH|l IH|b y IHb IHy] using expr_ind2; intros k Hw; cbn [coeff].
    - now apply Hself2.
    - destruct (isEqual _ x); [apply Hself|now apply Hself2].
    - destruct (isEqual _ x); [apply Hself|now apply Hself2].
    - destruct (isEqual _ x); [apply Hself|now apply Hself2].
    - destruct (isEqual _ x); [apply Hself|now apply Hself2].
    - destruct (isEqual _ x); [apply Hself|]. destruct (_ && _)%bool; [apply spec_ret; split; [assumption|auto]|].
      apply wf_sum in Hw.
      assert (HL : forall a (Q : Prop), sp a (fun c => wf P c /\ (Q -> hasVal c)) ->
        sp (fold_left (fun a s => c <- a ;; d <- coeff W s x k ;; w_sum W [c; d]) l a)
          (fun c => wf P c /\ (Q /\ (forall s, In s l -> hasVal s) -> hasVal c))).
      { induction l as [|s l IHl]; intros a Q Ha; cbn [fold_left].
        - eapply spec_weaken; [exact Ha|]. cbn. tauto.
        - inversion_clear Hw as [|? ? Hs Hl]. eapply spec_weaken; [apply IHl with (Q := Q /\ hasVal s); auto with datatypes|].
          + eapply spec_bind; [exact Ha|]. intros c (Hc & Vc). eapply spec_bind; [apply IH; auto with datatypes|]. intros d (Hd & Vd).
            eapply spec_weaken; [apply sum_call with (P := P); auto|]. intros t (Ht & Vt). split; [assumption|].
            intros [HQ HV]. destruct (Vc HQ) as [vc Ec], (Vd HV) as [vd Ed]. rewrite sum2, Ec, Ed in Vt. eexists. exact Vt.
          + cbn. intros c (Hc & Vc). split; [assumption|]. intros [HQ HA]. apply Vc. auto. }
      eapply spec_weaken; [apply (HL (ret zero) True); apply spec_ret; split; auto using hasVal_zero with sp|].
      cbn. intros c (Hc & Vc). split; [assumption|]. intros [v Ev]. apply Vc. split; [exact I|].
      intros s Hs. eapply sumVal_in; eauto.
    - destruct (isEqual _ x); [apply Hself|]. destruct (_ && _)%bool; [apply spec_ret; split; [assumption|auto]|].
      unfold coeffFactorMatch, monomial. eapply spec_bind; [apply spec_true|]. intros p _.
      destruct (withoutFirst p l) as [f|] eqn:E; [|apply spec_ret; split; auto using hasVal_zero with sp].
      apply wf_prod in Hw. pose proof (withoutFirst_in _ _ _ E) as Hin.
      eapply spec_weaken; [apply prod_call with (P := P); auto; rewrite Forall_forall in *; auto|].
      intros c (Hc & Vc). split; [assumption|]. intros [v Ev].
      destruct (prodVal_all f) as [w Ew]; [intros s Hs; eapply prodVal_in; eauto|]. rewrite Ew in Vc. eexists. exact Vc.
    - destruct (isEqual _ x); [apply Hself|]. unfold coeffPower, monomial. eapply spec_bind; [apply spec_true|]. intros p _.
      destruct (isEqual _ p); [apply spec_ret; split; auto using hasVal_one with sp|].
      destruct (negb _); [now apply Hself2|apply spec_ret; split; auto using hasVal_zero with sp].
  Qed.

  Lemma leadingCoeff_sp x e : wf P x -> wf P e ->
    sp (leadingCoeff Y W e x) (fun c => wf P c /\ (hasVal e -> hasVal c)).
  Proof. intros. now apply coeff_sp. Qed.

  (** ** Division *)
  Definition isSym (x : expr) : Prop := match x with Sym _ _ => True | _ => False end.

  Definition divides (u v q s : expr) : Prop :=
    forall a b, eval r u = Some a -> eval r v = Some b ->
      exists c d, eval r q = Some c /\ eval r s = Some d /\ a = c * b + d.
  Definition divOK (u v : expr) (p : expr * expr) : Prop :=
    wf P (fst p) /\ wf P (snd p) /\ (isInputValid Y u v = false /\ p = (Undef, Undef) \/ divides u v (fst p) (snd p)).

  Lemma oneOver_sp v : wf P v ->
    sp (oneOver W v) (fun i => wf P i /\ forall b, eval r v = Some b -> b <> 0 -> eval r i = Some (/ b)).
  Proof.
    intros Hv. unfold oneOver. eapply spec_weaken; [apply pow_call with (P := P); auto with sp|].
    intros i (Hi & Vi). split; [assumption|]. intros b Eb Hb. rewrite Eb, eval_mOne in Vi. cbn in Vi. now rewrite rpow_rm1 in Vi.
  Qed.

  Lemma divideEmpty_sp u v : wf P u -> wf P v -> sp (divideEmptyList Y W u v) (divOK u v).
  Proof.
    intros Hu Hv. unfold divideEmptyList. eapply spec_bind; [apply oneOver_sp; assumption|]. intros i (Hi & Vi).
    eapply spec_bind; [apply prod_call with (P := P); auto|]. intros q (Hq & Vq).
    assert (H0 : sp (ret (zero, u)) (divOK u v)).
    { apply spec_ret. repeat split; cbn [fst snd]; auto with sp. right. intros a b Ea Eb. exists 0, a.
      rewrite eval_zero. repeat split; auto. ring. }
    assert (H1 : forall m, sp m (fun _ : Datatypes.unit => eval r v <> Some 0) -> sp (_ <- m ;; ret (q, zero)) (divOK u v)).
    { intros m Hm. eapply spec_bind; [exact Hm|]. cbn beta. intros _ Hnz. apply spec_ret. repeat split; cbn [fst snd]; auto with sp.
      right. intros a b Ea Eb. assert (Hb : b <> 0) by congruence. rewrite prodVal_cons, prodVal_1, Ea, (Vi b Eb Hb) in Vq. cbn in Vq.
      exists (a * / b), 0. rewrite eval_zero. repeat split; auto. field. assumption. }
    destruct (numericEval Y q) as [[c|c]|]; try exact H0. apply H1.
    destruct v; try apply (spec_rely' (holds st r) (CNonZero _)).
    destruct (qeqb q0 0) eqn:Eq; cbn [relyIf]; [apply (spec_rely' (holds st r) (CNonZero _))|].
    apply spec_ret. cbn. pose proof (Q2R_nz _ Hv Eq). congruence.
  Qed.

  Lemma monomial_sp x k : wf P x -> (0 <= k)%Z ->
    sp (monomial W x k) (fun t => wf P t /\ forall v, eval r x = Some v -> eval r t = Some (powerRZ v k)).
  Proof.
    intros Hx Hk. unfold monomial. eapply spec_weaken; [apply pow_call with (P := P); auto with sp|].
    intros t (Ht & Vt). split; [assumption|]. intros v Ev. rewrite Ev, eval_num_z in Vt. cbn in Vt. now rewrite rpow_intnn in Vt.
  Qed.

  Lemma divideLoop_sp rec x u v : wf P x -> isSym x -> wf P u -> wf P v ->
    (forall a b, wf P a -> wf P b -> sp (rec a b) (divOK a b)) ->
    forall n q s m, wf P q -> wf P s -> divides u v q s ->
    sp (divideLoop Y W rec x v n q s m) (divOK u v).
  Proof.
    intros Hx Hsym Hu Hv Hrec. induction n as [|n IH]; intros q s m Hq Hs Hd; cbn [divideLoop]; [exact I|].
    assert (Hend : forall q s, wf P q -> wf P s -> divides u v q s -> sp (e <- w_expand W q ;; ret (e, s)) (divOK u v)).
    { clear q s Hq Hs Hd. intros q s Hq Hs Hd. eapply spec_bind; [apply expand_call with (P := P); auto|]. intros e (He & Ve). apply spec_ret.
      repeat split; cbn [fst snd]; auto. right. intros a b Ea Eb. destruct (Hd a b Ea Eb) as (c & d & Ec & Ed & E). exists c, d.
      rewrite Ec in Ve. auto. }
    destruct (m <? degree v x)%Z eqn:Em; [now apply Hend|].
    eapply spec_bind; [apply leadingCoeff_sp; eassumption|]. intros lr (Hlr & Vlr).
    eapply spec_bind; [apply leadingCoeff_sp; eassumption|]. intros lv (Hlv & Vlv).
    eapply spec_bind; [apply Hrec; assumption|]. intros [c d] (Hc & Hd0 & Vc). cbn [fst snd] in *.
    destruct (isZero d) eqn:Ez; cbn [negb]; [|now apply Hend].
    destruct Vc as [[_ E]|Vc]; [injection E as -> ->; discriminate Ez|].
    eapply spec_bind; [apply monomial_sp; [assumption|lia]|]. intros t (Ht & Vt).
    eapply spec_bind; [apply prod_call with (P := P); auto|]. intros p (Hp & Vp).
    eapply spec_bind; [apply sum_call with (P := P); auto|]. intros q' (Hq' & Vq').
    eapply spec_bind; [apply minus_call with (P := P); auto|]. intros z (Hz & Vz).
    eapply spec_bind; [apply sum_call with (P := P); auto|]. intros r1 (Hr1 & Vr1).
    eapply spec_bind; [apply expand_call with (P := P); auto|]. intros r' (Hr' & Vr').
    assert (Hd' : divides u v q' r').
    { intros a b Ea Eb. destruct (Hd a b Ea Eb) as (qa & sa & Eqa & Esa & E).
      destruct (Vlr (ex_intro _ sa Esa)) as [wr Ewr]. destruct (Vlv (ex_intro _ b Eb)) as [wv Ewv].
      destruct (Vc wr wv Ewr Ewv) as (ca & _ & Eca & _).
      destruct x as [|nx px| | | | | |]; try contradiction. specialize (Vt (r nx px) eq_refl). set (ta := powerRZ _ _) in *.
      rewrite prodVal_cons, prodVal_1, Eca, Vt in Vp. cbn in Vp. rewrite sum2, Eqa, Vp in Vq'. cbn in Vq'.
      rewrite !prodVal_cons, prodVal_nil, Eca, Eb, Vt in Vz. cbn in Vz. rewrite sum2, Esa, Vz in Vr1. cbn in Vr1. rewrite Vr1 in Vr'. cbn in Vr'.
      eexists _, _. split; [exact Vq'|]. split; [exact Vr'|]. rewrite E. ring. }
    destruct (isZero r'); [now apply Hend|now apply IH].
  Qed.

  Lemma divide_sp n L : Forall (wf P) L -> Forall isSym L -> forall u v, wf P u -> wf P v ->
    sp (divide Y W n L u v) (divOK u v).
  Proof.
    induction L as [|x L IH]; intros HL HS u v Hu Hv; cbn [divide];
      (destruct (isInputValid Y u v) eqn:Ev; cbn [negb]; [|apply spec_ret; repeat split; cbn [fst snd]; auto with sp]).
    - now apply divideEmpty_sp.
    - inversion_clear HL. inversion_clear HS. destruct (isEqual v u) eqn:E.
      + apply isEqual_eq in E as ->. apply spec_ret. repeat split; cbn [fst snd]; auto with sp. right. intros a b Ea Eb.
        exists 1, 0. rewrite eval_zero, eval_one. repeat split; auto. rewrite Ea in Eb. injection Eb as ->. ring.
      + destruct (isZero u) eqn:Eu.
        * apply (isZero_eq P) in Eu; [|assumption]. subst u. apply spec_ret. repeat split; cbn [fst snd]; auto with sp.
          right. intros a b Ea Eb. rewrite eval_zero in Ea. injection Ea as <-. exists 0, 0. rewrite eval_zero. repeat split; auto. ring.
        * apply divideLoop_sp; auto with sp. intros a b Ea Eb. exists 0, a. rewrite eval_zero. repeat split; auto. ring.
  Qed.

  (** Symbols of a polynomial. *)
  Lemma addIfNotStored_in l s x : In x (addIfNotStored l s) -> In x l \/ x = s.
  Proof. unfold addIfNotStored. destruct (existsb _ l); [auto|]. rewrite in_app_iff. cbn. intuition. Qed.
  Lemma addSymbols_sp e : wf P e -> forall acc, Forall (fun x => wf P x /\ isSym x) acc ->
    Forall (fun x => wf P x /\ isSym x) (addSymbols acc e).
  Proof.
    induction e as [q|n p|c| |f l IH|l IH|l IH|b y IHb IHy] using expr_ind2; intros Hw acc Ha; cbn [addSymbols]; auto.
    - rewrite Forall_forall in *. intros x Hx. apply addIfNotStored_in in Hx as [Hx| ->]; auto. split; [assumption|exact I].
    - apply wf_sum in Hw. revert acc Ha. induction l as [|a l IHl]; intros acc Ha; cbn [fold_left]; [assumption|].
      inversion_clear Hw. apply IHl; auto with datatypes.
    - apply wf_prod in Hw. revert acc Ha. induction l as [|a l IHl]; intros acc Ha; cbn [fold_left]; [assumption|].
      inversion_clear Hw. apply IHl; auto with datatypes.
    - apply wf_pow in Hw as [Hb _]. now apply IHb.
  Qed.
  Lemma insertBy_Forall lt (Q : expr -> Prop) x l : Q x -> Forall Q l -> Forall Q (insertBy lt x l).
  Proof. intros Hx. induction 1; cbn; [auto|]. destruct (lt _ _); auto. Qed.
  Lemma listOfSymbols_sp u v : wf P u -> wf P v -> Forall (fun x => wf P x /\ isSym x) (listOfSymbols Y u v).
  Proof.
    intros Hu Hv. unfold listOfSymbols.
    assert (Ha : Forall (fun x => wf P x /\ isSym x) (addSymbols (addSymbols [] u) v)) by (repeat apply addSymbols_sp; auto).
    revert Ha. generalize (addSymbols (addSymbols [] u) v) as L. intros L. assert (H0 : Forall (fun x => wf P x /\ isSym x) []) by constructor.
    revert H0. generalize (@nil expr) as acc. induction L as [|a L IH]; intros acc Hacc HL; cbn [fold_left]; [assumption|].
    inversion_clear HL. apply IH; [now apply insertBy_Forall|assumption].
  Qed.
  Lemma polyDivide_sp n u v : wf P u -> wf P v -> sp (polyDivide Y W n u v) (divOK u v).
  Proof.
    intros Hu Hv. pose proof (listOfSymbols_sp u v Hu Hv) as HL. apply divide_sp; auto; revert HL; apply Forall_impl; tauto.
  Qed.

  (** ** Pseudo-division *)
  Definition pseudo (k : Z) (u v lv q s : expr) : Prop :=
    forall a b c, eval r u = Some a -> eval r v = Some b -> eval r lv = Some c ->
      exists x y, eval r q = Some x /\ eval r s = Some y /\ powerRZ c k * a = x * b + y.

  Lemma pseudoLoop_sp x u v lv : wf P x -> isSym x -> wf P v -> wf P lv ->
    forall n q s m sigma, wf P q -> wf P s -> (0 <= sigma)%Z -> pseudo sigma u v lv q s ->
    sp (pseudoLoop Y W true x v lv n q s m sigma) (fun '(q', s', t) => wf P q' /\ wf P s' /\ (0 <= t)%Z /\
      (pseudo t u v lv q' s' \/ s' = zero /\ pseudo (t + 1) u v lv q' s')).
  Proof.
    intros Hx Hsym Hv Hlv. induction n as [|n IH]; intros q s m sigma Hq Hs Hsg Hp; cbn [pseudoLoop]; [exact I|].
    destruct (m <? degree v x)%Z eqn:Em; [apply spec_ret; auto|].
    eapply spec_bind; [apply coeff_sp; eassumption|]. intros lr (Hlr & Vlr).
    eapply spec_bind; [apply monomial_sp; [assumption|lia]|]. intros t (Ht & Vt).
    eapply spec_bind; [apply prod_call with (P := P); auto|]. intros w (Hw & Vw). cbv iota.
    eapply spec_bind with (Q1 := fun q' => wf P q' /\ ole (oplus (omult (eval r lv) (eval r q)) (eval r w)) (eval r q')).
    { eapply spec_bind; [apply prod_call with (P := P); auto|]. intros a (Ha & Va).
      eapply spec_weaken; [apply sum_call with (P := P); auto|]. intros q' (Hq' & Vq'). split; [assumption|].
      rewrite sum2 in Vq'. rewrite prodVal_cons, prodVal_1 in Va. eapply ole_trans; [|exact Vq']. auto with sp. }
    intros q' (Hq' & Vq').
    eapply spec_bind; [apply prod_call with (P := P); auto|]. intros a (Ha & Va).
    eapply spec_bind; [apply minus_call with (P := P); auto|]. intros b (Hb & Vb).
    eapply spec_bind; [apply sum_call with (P := P); auto|]. intros r1 (Hr1 & Vr1).
    eapply spec_bind; [apply expand_call with (P := P); auto|]. intros r' (Hr' & Vr').
    assert (Hp' : pseudo (sigma + 1) u v lv q' r').
    { intros va vb vc Ea Eb Ec. destruct (Hp va vb vc Ea Eb Ec) as (vq & vs & Eq & Es & E).
      destruct (Vlr (ex_intro _ vs Es)) as [wr Ewr]. destruct x as [|nx px| | | | | |]; try contradiction.
      specialize (Vt (r nx px) eq_refl). set (ta := powerRZ (r nx px) _) in *.
      rewrite prodVal_cons, prodVal_1, Ewr, Vt in Vw. cbn in Vw. rewrite Ec, Eq, Vw in Vq'. cbn in Vq'.
      rewrite prodVal_cons, prodVal_1, Ec, Es in Va. cbn in Va. rewrite prodVal_cons, prodVal_1, Eb, Vw in Vb. cbn in Vb.
      rewrite sum2, Va, Vb in Vr1. cbn in Vr1. rewrite Vr1 in Vr'. cbn in Vr'.
      eexists _, _. split; [exact Vq'|]. split; [exact Vr'|].
      replace (powerRZ vc (sigma + 1)) with (vc * powerRZ vc sigma).
      - rewrite Rmult_assoc, E. ring.
      - 
        destruct (Z_of_nat_complete sigma Hsg) as [j ->]. replace (Z.of_nat j + 1)%Z with (Z.of_nat (S j)) by lia.
        rewrite <- !pow_powerRZ. reflexivity. }
    destruct (isZero r') eqn:Ez.
    - apply spec_ret. apply (isZero_eq P) in Ez; [|assumption]. subst r'. repeat split; auto.
    - apply IH; auto. lia.
  Qed.

  Lemma powerRZ_add_nn c i j : (0 <= i)%Z -> (0 <= j)%Z -> powerRZ c (i + j) = powerRZ c i * powerRZ c j.
  Proof.
    intros Hi Hj. destruct (Z_of_nat_complete i Hi) as [a ->], (Z_of_nat_complete j Hj) as [b ->].
    rewrite <- Nat2Z.inj_add, <- !pow_powerRZ. apply pow_add.
  Qed.

  Lemma pseudoDivide_sp n u v x : wf P x -> isSym x -> wf P u -> wf P v ->
    sp (pseudoDivide Y W true n u v x) (fun p => wf P (fst p) /\ wf P (snd p) /\ (isInputValid Y u v = false /\ p = (Undef, Undef) \/
      exists l k, (exists f, leadingCoeff Y W v x = Ok l f) /\ wf P l /\
        (k = Z.max (degree u x - degree v x + 1) 0 \/ k = Z.max (degree u x - degree v x + 1) 0 + 1)%Z /\
        pseudo k u v l (fst p) (snd p))).
  Proof.
    intros Hx Hsym Hu Hv. unfold pseudoDivide. destruct (isInputValid Y u v) eqn:Ev; cbn [negb].
    2:{ apply spec_ret. cbn. auto. }
    assert (Hlc : sp (leadingCoeff Y W v x) (fun lv => (wf P lv /\ (hasVal v -> hasVal lv)) /\ exists f, leadingCoeff Y W v x = Ok lv f)).
    { pose proof (leadingCoeff_sp x v Hx Hv) as H0. destruct (leadingCoeff Y W v x) as [lv f| | |]; cbn in *; eauto. }
    eapply spec_bind; [exact Hlc|]. intros lv ((Hlv & Vlv) & Elv).
    eapply spec_bind; [apply expand_call with (P := P); auto|]. intros r0 (Hr0 & Vr0).
    eapply spec_bind; [apply pseudoLoop_sp with (u := u); auto with sp; [lia|]|].
    { intros a b c Ea Eb Ec. exists 0, a. rewrite eval_zero. rewrite Ea in Vr0. repeat split; auto. cbn. ring. }
    intros [[q s] sg] (Hq & Hs & Hsg & Hor). set (k := (Z.max _ 0 - sg)%Z).
    eapply spec_bind; [apply spec_relyIf'|]. intros un Hk. cbn [holds] in Hk.
    eapply spec_bind; [apply pow_call with (P := P); auto with sp|]. intros t (Ht & Vt).
    eapply spec_bind; [apply prod_call with (P := P); auto|]. intros a (Ha & Va).
    eapply spec_bind; [apply expand_call with (P := P); auto|]. intros r' (Hr' & Vr').
    eapply spec_bind with (Q1 := fun q' => wf P q' /\ ole (omult (eval r t) (eval r q)) (eval r q')).
    { eapply spec_bind; [apply prod_call with (P := P); auto|]. intros b (Hb & Vb).
      eapply spec_weaken; [apply expand_call with (P := P); auto|]. intros q' (Hq' & Vq'). split; [assumption|].
      rewrite prodVal_cons, prodVal_1 in Vb. eapply ole_trans; eassumption. }
    intros q' (Hq' & Vq').
    apply spec_ret. cbn [fst snd]. repeat split; auto. right.
    assert (Hfin : forall sg', (0 <= sg')%Z -> pseudo sg' u v lv q s -> pseudo (k + sg') u v lv q' r').
    { intros sg' Hsg' Hp va vb vc Ea Eb Ec. destruct (Hp va vb vc Ea Eb Ec) as (vq & vs & Eq & Es & E).
      assert (Et : eval r t = Some (powerRZ vc k) /\ powerRZ vc (k + sg') = powerRZ vc k * powerRZ vc sg').
      { rewrite Ec, eval_num_z in Vt. cbn [opow] in Vt. clearbody k. destruct (Z.ltb_spec k 0).
        - assert (Hnz : vc <> 0) by (intros ->; now apply Hk). rewrite rpow_int in Vt by assumption. split; [exact Vt|].
          now apply powerRZ_add.
        - rewrite rpow_intnn in Vt by assumption. split; [exact Vt|]. now apply powerRZ_add_nn. }
      destruct Et as [Et Epow]. rewrite prodVal_cons, prodVal_1, Et, Es in Va. cbn in Va. rewrite Va in Vr'. cbn in Vr'.
      rewrite Et, Eq in Vq'. cbn in Vq'.
      eexists _, _. split; [exact Vq'|]. split; [exact Vr'|]. rewrite Epow, Rmult_assoc, E. ring. }
    exists lv. destruct Hor as [Hp|[_ Hp]].
    - exists (k + sg)%Z. repeat split; auto. left. unfold k. lia.
    - exists (k + (sg + 1))%Z. repeat split; auto; [right; unfold k; lia|]. apply Hfin; [lia|assumption].
  Qed.
End PolyP.
