(** The printed text denotes the value of the expression, part 2. *)
From Verif Require Import ParserSound ParserText TextSpec WorldProofs SimplApi PrinterModel PrintSpec PrinterProofs GrammarSpec ProductProofs.
From Coq Require Import Reals ZArith List Ascii String Lia Lra.
Import ListNotations.
From Verif Require Import Run RunFacts SoundOps RPow.
Open Scope R_scope.
Open Scope list_scope.

Lemma str_txt s : str (txt s) = s. Proof. apply string_of_list_ascii_of_string. Qed.
Lemma greek_fct f : greek (functionName f) = None. Proof. destruct f; reflexivity. Qed.
Lemma fct_text cs f : symbolText cs (nm (str (functionName f))) = functionName f.
Proof. destruct cs, f; vm_compute; reflexivity. Qed.
Lemma rpow_half b v : rpow b (Q2R (1 # 2)) = Some v -> 0 <= b /\ v = sqrt b.
Proof.
  intros H. assert (E : Q2R (1 # 2) = / 2) by (unfold Q2R; cbn; lra). rewrite E in H.
  assert (B : 0 <= b).
  { eapply rpow_nonint_base; [|exact H]. intros z K. assert (X : IZR (2 * z) = 1) by (rewrite mult_IZR; lra).
    apply (eq_IZR _ 1) in X. lia. }
  split; [exact B|]. destruct (Req_dec b 0) as [->|N].
  - rewrite rpow_0_pos in H by lra. injection H as <-. now rewrite sqrt_0.
  - rewrite rpow_pos in H by lra. injection H as <-. apply Rpower_sqrt. lra.
Qed.

Section Main.
  Variables (Y : sys) (W : oper) (HW : soundOps W) (cs : charset) (fr : bool) (st : bool) (r : env) (P : name -> bool -> Prop).
  Hypothesis good : wgood st r.
  Hypothesis HP : forall n p, P n p -> readAs cs r n p.
  Notation sp := (spec (holds st r)).
  Notation level := (textLevel fr).

  Definition says (e : expr) (s : text) : Prop :=
    forall v, eval r e = Some v ->
      atLevel r (level e) s v /\ match e with Pow _ _ => atLevel r 2 ("-"%char :: s) (- v) | _ => True end.
  Lemma level5 e : (level e <= 5)%nat.
  Proof. destruct e; cbn; try lia; repeat match goal with |- context [if ?b then _ else _] => destruct b end; lia. Qed.
  Lemma says_at e s v j : says e s -> eval r e = Some v -> (j <= level e)%nat -> atLevel r j s v.
  Proof. intros H E L. apply (down r j (level e)); [split; [exact L|apply level5]|]. now apply H. Qed.
  Lemma says_1 e s v : says e s -> eval r e = Some v -> atLevel r 1 s v.
  Proof.
    intros H E. eapply says_at; eauto. destruct e; cbn; try lia; repeat match goal with |- context [if ?b then _ else _] => destruct b end; lia.
  Qed.
  Lemma tight_ok k e : sp (tight fr k e) (fun _ => (k <= level e)%nat).
  Proof. apply spec_relyIf. intros H. destruct (Nat.ltb_spec (level e) k); [|lia]. destruct (H eq_refl). Qed.

  Lemma sym_says n p : P n p -> says (Sym n p) (symbolText cs n).
  Proof.
    intros H. destruct (HP n p H) as [[Hi [Hp [Hs [Hu Hg]]]] Hr]. intros v [= <-]. split; [|exact I].
    assert (E : symbolText cs n = txt (nvalue n) ++ delim "_" (nsub n)).
    { assert (E : PrinterModel.concat n = txt (nvalue n) ++ delim "_" (nsub n)) by (unfold PrinterModel.concat; rewrite Hu; cbn [delim txt list_ascii_of_string]; now rewrite app_nil_r).
      clear HP. destruct cs; cbn [symbolText]; [exact E|]. unfold unicode. now rewrite (Hg eq_refl). }
    rewrite E. cbn [textLevel].
    exists (PSym (txt (nvalue n)) (txt (nsub n))). split.
    - apply (g_token asRead noPrefix [] (txt (nvalue n) ++ delim "_" (nsub n))); [constructor|].
      generalize (nsub n) as x, Hs. intros x Hx. unfold delim. destruct (txt x) as [|c [|d l]].
      + rewrite app_nil_r. now apply g_symbol.
      + apply g_subscript; auto. now inversion Hx.
      + apply (g_subscripts _ _ (txt (nvalue n)) (c :: d :: l)); auto. discriminate.
    - cbn. rewrite !str_txt, Hr. destruct n as [a b c]. cbn in *. now rewrite Hu.
  Qed.

  Lemma minus_ok l : Forall (wf P) l -> sp (minus W l) (fun e => wf P e /\ forall v, prodVal r l = Some v -> eval r e = Some (- v)).
  Proof.
    intros H. unfold minus. eapply spec_weaken; [apply (so_prod W HW st r P); auto; constructor; auto; reflexivity|].
    intros e [He Hv]. split; [exact He|]. intros v E. rewrite prodVal_cons, E in Hv. cbn in Hv. rewrite Hv. f_equal.
    unfold Q2R. cbn. lra.
  Qed.
  Lemma minus1_ok x : wf P x -> sp (minus W [x]) (fun e => wf P e /\ forall v, eval r x = Some v -> eval r e = Some (- v)).
  Proof.
    intros H. eapply spec_weaken; [apply minus_ok; auto|]. intros e [He Hv]. split; [exact He|]. intros v E. apply Hv.
    now rewrite prodVal_1.
  Qed.
  (** b^(-x) is the reciprocal. *)
  Lemma recip b x m : wf P b -> wf P m -> isNegativeNumeric x = true -> (forall v, eval r x = Some v -> eval r m = Some (- v)) ->
    sp (w_pow W b m) (fun e => wf P e /\ forall v, eval r (Pow b x) = Some v -> v <> 0 /\ eval r e = Some (/ v)).
  Proof.
    intros Hb Hm Hn E. eapply spec_weaken; [apply (so_pow W HW st r P); auto|]. intros e [He Hv]. split; [exact He|].
    intros v Ev. destruct x as [q| | | | | | |]; try discriminate. cbn in Hn. apply qltb_lt in Hn. apply Qlt_Rlt in Hn. rewrite Q2R_0 in Hn.
    specialize (E _ eq_refl). cbn [eval] in Ev. destruct (eval r b) as [vb|]; [|discriminate]. rewrite E in Hv. cbn [opow] in Hv.
    destruct (Req_dec vb 0) as [->|N]; [rewrite rpow_0_neg in Ev by exact Hn; discriminate|].
    split; [eapply rpow_nz; eauto|]. rewrite (rpow_opp vb (Q2R q) v) in Hv by auto. exact Hv.
  Qed.

  Section Step.
    Variable top : expr -> res text.
    Hypothesis Htop : forall e, wf P e -> sp (top e) (says e).

    Lemma scalarExp_level x : isScalarExp x = true -> level x = 5%nat.
    Proof.
      destruct x as [q| | | | | | |]; cbn; try discriminate; auto. intros H. apply andb_prop in H as [Hi Hp]. rewrite Hi.
      destruct (qltb q 0) eqn:E; [|reflexivity]. apply qltb_lt in Hp, E. exfalso. eapply Qlt_irrefl, Qlt_trans; eauto.
    Qed.
    Lemma neg2 s v : atLevel r 4 s v -> atLevel r 2 ("-"%char :: s) (- v).
    Proof. intros H. apply (down r 2 3); [lia|]. now apply d_neg. Qed.

    Lemma power_ok b x : wf P b -> wf P x -> sp (power Y W fr top b x) (says (Pow b x)).
    Proof.
      intros Hb Hx. unfold power. unfold says at 1. cbn [textLevel]. destruct (isEqual x half) eqn:Eh; [|destruct (isNegativeNumeric x && fr)%bool eqn:En].
      - eapply spec_bind; [apply Htop, Hb|]. intros s Hs. apply spec_ret. intros v Ev.
        apply isEqual_eq in Eh. subst x. cbn [eval half] in Ev. destruct (eval r b) as [vb|] eqn:Eb; [|discriminate].
        apply rpow_half in Ev as [B ->].
        assert (X : atLevel r 5 (txt "sqrt" ++ parens s) (sqrt vb)).
        { apply (d_fct r PSqrt s vb); [eapply says_1; eauto|]. intros t Et. cbn. rewrite Et. cbn. now destruct (Rle_dec 0 vb). }
        split; [exact X|]. apply neg2, (down r 4 5); auto.
      - apply andb_prop in En as [En _].
        eapply spec_bind; [apply minus1_ok, Hx|]. intros m [Hm Em].
        eapply spec_bind; [apply (recip b x m); auto|]. intros d [Hd Ed].
        eapply (spec_bind _ _ _ (fun _ => isScalarBase Y b = true -> (3 <= level d)%nat)).
        { destruct (isScalarBase Y b); [eapply spec_weaken; [apply tight_ok|auto]|apply spec_ret; discriminate]. }
        intros ? Hl. eapply spec_bind; [apply Htop, Hd|]. intros s Hs. apply spec_ret. intros v Ev.
        destruct (Ed v Ev) as [N E].
        assert (X : atLevel r 3 (if isScalarBase Y b then s else parens s) (/ v)).
        { destruct (isScalarBase Y b); [eapply says_at; eauto|]. apply (down r 3 5); [lia|]. apply d_parens. eapply says_1; eauto. }
        assert (Nv : / v <> 0) by now apply Rinv_neq_0_compat.
        change (txt "1/" ++ ?s) with ("1"%char :: "/"%char :: s).
        split.
        + replace v with (1 / / v) by (field; exact N).
          apply (d_div r ["1"%char] (if isScalarBase Y b then s else parens s)); auto. apply (down r 2 5); [lia|]. apply (d_nat r 1). lia.
        + replace (- v) with (- (1) / / v) by (field; exact N).
          apply (d_div r ["-"%char; "1"%char] (if isScalarBase Y b then s else parens s)); auto.
          apply (neg2 ["1"%char]), (down r 4 5); [lia|]. apply (d_nat r 1). lia.
      - eapply (spec_bind _ _ _ (fun s => forall v, eval r b = Some v -> atLevel r 5 s v)).
        { destruct (isScalarBase Y b).
          - eapply spec_bind; [apply tight_ok|]. intros ? L. eapply spec_weaken; [apply Htop, Hb|]. intros s Hs v Ev. eapply says_at; eauto.
          - eapply spec_bind; [apply Htop, Hb|]. intros s Hs. apply spec_ret. intros v Ev. apply d_parens. eapply says_1; eauto. }
        intros s Hs.
        assert (X : forall t k, (k <= 5)%nat -> (4 <= k)%nat -> (forall v, eval r (Pow b x) = Some v -> atLevel r k t v) ->
          forall v, eval r (Pow b x) = Some v -> atLevel r k t v /\ atLevel r 2 ("-"%char :: t) (- v)).
        { intros t k K K' H v Ev. split; [auto|]. apply neg2, (down r 4 k); auto. }
        destruct (isOne x) eqn:E1; [|destruct (isScalarExp x) eqn:Es].
        + apply spec_ret. apply X; [lia|lia|]. intros v Ev. destruct x as [q| | | | | | |]; try discriminate. cbn in E1. apply qeqb_eq in E1. subst q.
          cbn [eval] in Ev. destruct (eval r b) as [vb|]; [|discriminate]. rewrite Q2R_1, rpow_r1 in Ev. injection Ev as <-. now apply Hs.
        + eapply spec_bind; [apply Htop, Hx|]. intros t Ht. apply spec_ret. apply X; [lia|lia|]. intros v Ev. cbn [eval] in Ev.
          destruct (eval r b) as [vb|]; [|discriminate]. destruct (eval r x) as [vx|] eqn:Ex; [|discriminate].
          eapply d_pow; [now apply Hs| |exact Ev]. eapply says_at; eauto. rewrite scalarExp_level by exact Es. lia.
        + eapply spec_bind; [apply Htop, Hx|]. intros t Ht. apply spec_ret. apply X; [lia|lia|]. intros v Ev. cbn [eval] in Ev.
          destruct (eval r b) as [vb|]; [|discriminate]. destruct (eval r x) as [vx|] eqn:Ex; [|discriminate].
          eapply d_pow; [now apply Hs| |exact Ev]. apply (down r 4 5); [lia|]. apply d_parens. eapply says_1; eauto.
    Qed.

    Lemma summands_ok l : Forall (wf P) l ->
      sp (summands W fr top l) (fun t => forall s u v, sumVal r l = Some v -> atLevel r 1 s u -> atLevel r 1 (s ++ t) (u + v)).
    Proof.
      induction 1 as [|x l Hx Hl IH]; cbn [summands].
      - apply spec_ret. intros s u v [= <-] H. rewrite app_nil_r. replace (u + 0) with u by ring. exact H.
      - eapply (spec_bind _ _ _ (fun t => forall s u v, eval r x = Some v -> atLevel r 1 s u -> atLevel r 1 (s ++ t) (u + v))).
        { destruct (isNegativeProduct x).
          - eapply spec_bind; [apply minus1_ok, Hx|]. intros m [Hm Em]. eapply spec_bind; [apply tight_ok|]. intros ? L.
            eapply spec_bind; [apply Htop, Hm|]. intros t Ht. apply spec_ret. intros s u v Ev Hs.
            replace (u + v) with (u - - v) by ring. apply d_minus; auto. eapply says_at; eauto.
          - eapply spec_bind; [apply tight_ok|]. intros ? L.
            eapply spec_bind; [apply Htop, Hx|]. intros t Ht. apply spec_ret. intros s u v Ev Hs.
            apply d_plus; auto. eapply says_at; eauto. }
        intros t Ht. eapply spec_bind; [exact IH|]. intros t' Ht'. apply spec_ret. intros s u v Ev Hs.
        rewrite sumVal_cons in Ev. destruct (eval r x) as [a|]; [|discriminate]. destruct (sumVal r l) as [b|]; [|discriminate].
        injection Ev as <-. rewrite app_assoc. replace (u + (a + b)) with (u + a + b) by ring. apply Ht'; auto.
    Qed.
    Lemma sum_ok l : Forall (wf P) l -> sp (PrinterModel.sum W fr top l) (says (Sum l)).
    Proof.
      intros H. destruct l as [|x l]; cbn [PrinterModel.sum]; [apply spec_ub|]. inversion H as [|? ? Hx Hl]; subst.
      eapply spec_bind; [apply Htop, Hx|]. intros s Hs. eapply spec_bind; [apply summands_ok, Hl|]. intros t Ht.
      apply spec_ret. intros v Ev. split; [|exact I]. rewrite eval_sum, sumVal_cons in Ev.
      destruct (eval r x) as [a|] eqn:Ea; [|discriminate]. destruct (sumVal r l) as [b|]; [|discriminate]. injection Ev as <-.
      apply Ht; [reflexivity|]. eapply says_1; eauto.
    Qed.

    Lemma level_prec x : (prec x <? 2)%nat = false -> (2 <= level x)%nat.
    Proof. destruct x; cbn; try discriminate; intros _; try lia; repeat match goal with |- context [if ?b then _ else _] => destruct b end; lia. Qed.
    Lemma factor_ok f : wf P f -> sp (factor top f) (fun s => forall v, eval r f = Some v ->
      atLevel r 2 s v /\ match f with Num _ | Prod _ => True | _ => atLevel r 2 ("-"%char :: s) (- v) end).
    Proof.
      intros H. unfold factor. eapply spec_bind; [apply Htop, H|]. intros s Hs. apply spec_ret. intros v Ev.
      destruct (prec f <? 2)%nat eqn:E.
      - assert (X : atLevel r 5 (parens s) v) by (apply d_parens; eapply says_1; eauto).
        split; [apply (down r 2 5); [lia|exact X]|]. destruct f; auto; apply neg2, (down r 4 5); auto; lia.
      - split; [eapply says_at; eauto using level_prec|].
        destruct f; try discriminate; auto; try (apply neg2; eapply says_at; eauto; cbn; lia).
        destruct (Hs v Ev) as [_ X]. exact X.
    Qed.
    Lemma factors_ok l : Forall (wf P) l -> l <> [] -> sp (factors top l) (fun s => forall v, prodVal r l = Some v ->
      atLevel r 2 s v /\ match l with Num _ :: _ | Prod _ :: _ => True | _ => atLevel r 2 ("-"%char :: s) (- v) end).
    Proof.
      intros H. induction H as [|f l Hf Hl IH]; intros N; [easy|]. destruct l as [|g l].
      - cbn [factors]. eapply spec_weaken; [apply factor_ok, Hf|]. intros s Hs v Ev. rewrite prodVal_1 in Ev.
        destruct (Hs v Ev) as [A B]. split; [exact A|]. now destruct f.
      - change (factors top (f :: g :: l)) with (bind (factor top f) (fun s => bind (factors top (g :: l)) (fun t => ret (s ++ "*"%char :: t)))).
        eapply spec_bind; [apply factor_ok, Hf|]. intros s Hs. eapply spec_bind; [apply IH; discriminate|]. intros t Ht.
        apply spec_ret. intros v Ev. rewrite prodVal_cons in Ev. destruct (eval r f) as [a|]; [|discriminate].
        destruct (prodVal r (g :: l)) as [b|]; [|discriminate]. injection Ev as <-.
        destruct (Hs a eq_refl) as [A A']. destruct (Ht b eq_refl) as [B _]. split; [now apply d_times|].
        assert (X : atLevel r 2 ("-"%char :: s) (- a) -> atLevel r 2 ("-"%char :: s ++ "*"%char :: t) (- (a * b))).
        { intros X. replace (- (a * b)) with (- a * b) by ring. apply (d_times r ("-"%char :: s) t); auto. }
        destruct f; auto.
    Qed.
    Lemma withoutFractions_ok l : Forall (wf P) l ->
      sp (withoutFractions W fr top l) (fun s => forall v, prodVal r l = Some v -> atLevel r 2 s v).
    Proof.
      intros H. destruct l as [|x l]; [apply spec_ub|]. inversion H as [|? ? Hx Hl]; subst. destruct l as [|y l].
      - cbn [withoutFractions]. eapply spec_bind; [apply tight_ok|]. intros ? L. eapply spec_weaken; [apply Htop, Hx|].
        intros s Hs v Ev. rewrite prodVal_1 in Ev. eapply says_at; eauto.
      - cbn [withoutFractions]. eapply spec_bind; [apply minus1_ok, Hx|]. intros m [Hm Em].
        destruct (isOne m) eqn:E1; [|destruct (isOne x) eqn:E2].
        + eapply (spec_bind _ _ _ (fun s => (match y with Num _ | Prod _ => True | _ => False end -> False) /\ s = ["-"%char])).
          { eapply spec_bind; [apply spec_relyIf'|]. intros ? N. apply spec_ret. split; [|reflexivity]. destruct y; auto; intros _; now apply N. }
          intros s' [N ->]. eapply spec_bind; [apply factors_ok; [exact Hl|discriminate]|]. intros s Hs.
          apply spec_ret. intros v Ev. rewrite prodVal_cons in Ev. destruct (eval r x) as [a|]; [|discriminate].
          destruct (prodVal r (y :: l)) as [b|]; [|discriminate]. injection Ev as <-. destruct (Hs b eq_refl) as [_ A].
          specialize (Em a eq_refl). destruct m as [q| | | | | | |]; try discriminate. cbn in E1. apply qeqb_eq in E1. subst q.
          injection Em as Em. rewrite Q2R_1 in Em. replace (a * b) with (- b) by nra.
          destruct y; try exact A; destruct (N I).
        + eapply (spec_bind _ _ _ (fun s => s = [])); [now apply spec_ret|]. intros s0 ->.
          eapply spec_bind; [apply factors_ok; [exact Hl|discriminate]|]. intros s Hs.
          apply spec_ret. intros v Ev. rewrite prodVal_cons in Ev. destruct x as [q| | | | | | |]; try discriminate. cbn in E2. apply qeqb_eq in E2. subst q.
          cbn [eval] in Ev. rewrite Q2R_1, omult_1_l in Ev. now destruct (Hs v Ev).
        + eapply (spec_bind _ _ _ (fun s' => exists s, s' = s ++ ["*"%char] /\ forall v, eval r x = Some v -> atLevel r 2 s v)).
          { eapply spec_bind; [apply factor_ok, Hx|]. intros s Hs. apply spec_ret. exists s. split; [reflexivity|]. intros v Ev. now apply Hs. }
          intros s' [s0 [-> Hs]]. eapply spec_bind; [apply factors_ok; [exact Hl|discriminate]|]. intros t Ht.
          apply spec_ret. intros v Ev. rewrite prodVal_cons in Ev. destruct (eval r x) as [a|]; [|discriminate].
          destruct (prodVal r (y :: l)) as [b|]; [|discriminate]. injection Ev as <-. rewrite <- app_assoc.
          apply d_times; [now apply Hs|now apply Ht].
    Qed.

    Definition isFrac (l : list expr) (p : list expr * list expr) : Prop :=
      Forall (wf P) (fst p) /\ Forall (wf P) (snd p) /\
      forall v, prodVal r l = Some v -> exists a b, prodVal r (fst p) = Some a /\ prodVal r (snd p) = Some b /\ b <> 0 /\ v = a / b.
    Lemma splitFrac_ok l : Forall (wf P) l -> sp (splitFrac W l) (isFrac l).
    Proof.
      induction 1 as [|f l Hf Hl IH]; cbn [splitFrac].
      - apply spec_ret. split; [constructor|split; [constructor|]]. intros v [= <-]. exists 1, 1. repeat split; try lra.
      - destruct (isNegativeNumeric (expo f)) eqn:E.
        + assert (Hx : wf P (expo f) /\ wf P (base f)) by (destruct f; cbn in E |- *; try discriminate; cbn [wf] in Hf; tauto).
          destruct Hx as [Hx Hb].
          eapply spec_bind; [apply minus1_ok, Hx|]. intros m [Hm Em].
          eapply spec_bind; [apply (recip (base f) (expo f) m); auto|]. intros d [Hd Ed].
          eapply spec_bind; [apply IH|]. intros [n e] [Hn [He Hv]]. apply spec_ret. cbn [fst snd] in *. split; [now try constructor|split; [now try constructor|]].
          cbn [fst snd]. intros v Ev. rewrite prodVal_cons in Ev. destruct (eval r f) as [vf|] eqn:Ef; [|discriminate].
          destruct (prodVal r l) as [vl|]; [|discriminate]. injection Ev as <-. destruct (Hv vl eq_refl) as [a [b [Ha [Hb' [Nb ->]]]]].
          rewrite eval_base_expo in Ef. destruct (Ed vf Ef) as [Nf Ed'].
          exists a, (/ vf * b). rewrite prodVal_cons, Ed', Hb'. repeat split; auto.
          * apply Rmult_integral_contrapositive_currified; auto. now apply Rinv_neq_0_compat.
          * field. auto.
        + eapply spec_bind; [apply IH|]. intros [n e] [Hn [He Hv]]. apply spec_ret. cbn [fst snd] in *. split; [now try constructor|split; [now try constructor|]].
          cbn [fst snd]. intros v Ev. rewrite prodVal_cons in Ev. destruct (eval r f) as [vf|] eqn:Ef; [|discriminate].
          destruct (prodVal r l) as [vl|]; [|discriminate]. injection Ev as <-. destruct (Hv vl eq_refl) as [a [b [Ha [Hb' [Nb ->]]]]].
          exists (vf * a), b. rewrite prodVal_cons, Ef, Ha. repeat split; auto. now field.
    Qed.
    Lemma moveNumber_ok l p : isFrac l p -> isFrac l (moveNumber p).
    Proof.
      destruct p as [n d]. destruct n as [|x n]; [auto|]. destruct x as [q| | | | | | |]; auto. destruct d as [|x [|y d]]; auto.
      intros [Hn [Hd Hv]]. cbn [fst snd moveNumber] in *.
      assert (Z1 : forall z, wf P (numZ z)) by (intros; cbn; unfold canon; cbn; now rewrite Z.gcd_1_r).
      repeat split; cbn [fst snd].
      - inversion Hn; subst. now constructor.
      - now constructor.
      - intros v Ev. destruct (Hv v Ev) as [a [b [Ha [Hb [Nb ->]]]]]. rewrite prodVal_cons in Ha. rewrite !(prodVal_cons r (numZ _)).
        cbn [eval numZ] in *. rewrite !Q2R_ofZ. rewrite Q2R_frac in Ha. rewrite Hb. destruct (prodVal r n) as [c|]; [|discriminate]. injection Ha as <-.
        assert (Nq : IZR (qden q) <> 0) by (intros X; apply (eq_IZR _ 0) in X; discriminate X).
        exists (IZR (qnum q) * c), (IZR (qden q) * b). cbn. repeat split.
        + now apply Rmult_integral_contrapositive_currified.
        + field. auto.
    Qed.
    Lemma product_ok l : Forall (wf P) l -> sp (product W fr top l) (fun s => forall v, prodVal r l = Some v -> atLevel r 2 s v).
    Proof.
      intros H. unfold product. generalize fr at 1. intros [|]; [|now apply withoutFractions_ok].
      eapply spec_bind; [apply splitFrac_ok, H|]. intros p Hp. apply moveNumber_ok in Hp. destruct (moveNumber p) as [num den].
      destruct Hp as [Hn [Hd Hv]]. cbn [fst snd] in *.
      eapply (spec_bind _ _ _ (fun s => forall v, prodVal r num = Some v -> atLevel r 2 s v)).
      { destruct num as [|x num]; [|destruct num as [|y num]].
        - apply spec_ret. intros v [= <-]. apply (down r 2 5); [lia|]. apply (d_nat r 1). lia.
        - destruct (prec x <? 2)%nat; [|now apply withoutFractions_ok]. inversion Hn; subst.
          eapply spec_bind; [now apply Htop|]. intros s Hs. apply spec_ret. intros v Ev. rewrite prodVal_1 in Ev.
          apply (down r 2 5); [lia|]. apply d_parens. eapply says_1; eauto.
        - now apply withoutFractions_ok. }
      intros s Hs.
      assert (C : sp (bind (w_prod W den) (fun d => bind (top d) (fun t => ret (parens t)))) (fun t => forall v, prodVal r den = Some v -> atLevel r 3 t v)).
      { eapply spec_bind; [apply (so_prod W HW st r P); auto|]. intros d [Hwd Ed]. eapply spec_bind; [apply Htop, Hwd|]. intros t Ht.
        apply spec_ret. intros v Ev. rewrite Ev in Ed. cbn in Ed. apply (down r 3 5); [lia|]. apply d_parens. eapply says_1; eauto. }
      assert (D : forall m, sp m (fun t => forall v, prodVal r den = Some v -> atLevel r 3 t v) ->
        sp (bind m (fun t => ret (s ++ "/"%char :: t))) (fun s => forall v, prodVal r l = Some v -> atLevel r 2 s v)).
      { intros m Hm. eapply spec_bind; [exact Hm|]. intros t Ht. apply spec_ret. intros v Ev.
        destruct (Hv v Ev) as [a [b [Ha [Hb [Nb ->]]]]]. apply d_div; auto. }
      destruct den as [|d den]; [|destruct den as [|d' den]].
      - apply spec_ret. intros v Ev. destruct (Hv v Ev) as [a [b [Ha [Hb [Nb ->]]]]]. injection Hb as <-.
        replace (a / 1) with a by field. now apply Hs.
      - apply D. destruct (2 <? prec d)%nat; [|exact C]. eapply spec_bind; [apply tight_ok|]. intros ? L.
        inversion Hd; subst. eapply spec_weaken; [now apply Htop|]. intros t Ht v Ev. rewrite prodVal_1 in Ev. eapply says_at; eauto.
      - apply D, C.
    Qed.
    Lemma function_ok f l : wf P (Fct f l) -> sp (PrinterModel.function cs top f l) (says (Fct f l)).
    Proof.
      intros H. apply wf_ops in H as [Hl H]. unfold PrinterModel.function. rewrite fct_text.
      destruct l as [|x l]; [apply spec_ub|]. inversion H as [|? ? Hx Hr]; subst.
      eapply spec_bind; [now apply Htop|]. intros s Hs. destruct l as [|y [|? l]].
      - eapply (spec_bind _ _ _ (fun t => t = [])); [now apply spec_ret|]. intros t ->. apply spec_ret. rewrite app_nil_r. intros v Ev. split; [|exact I].
        destruct f; try discriminate; cbn [eval] in Ev; destruct (eval r x) as [a|] eqn:Ea; try discriminate;
        pose proof (says_1 x s a Hs Ea) as S1; cbn [textLevel functionName];
        [apply (d_fct r PSin s a)|apply (d_fct r PCos s a)|apply (d_fct r PTan s a)|apply (d_fct r PAsin s a)|apply (d_fct r PAcos s a)
        |apply (d_fct r PAtan s a)|apply (d_fct r PLog s a)]; auto; intros t Et; cbn; rewrite Et; exact Ev.
      - inversion Hr; subst.
        eapply (spec_bind _ _ _ (fun t => exists u, t = txt ", " ++ u /\ says y u)).
        { eapply spec_bind; [now apply Htop|]. intros t Ht. apply spec_ret. eauto. }
        intros t [u [-> Hu]]. apply spec_ret. intros v Ev. split; [|exact I].
        destruct f; try discriminate. cbn [eval] in Ev. destruct (eval r x) as [a|] eqn:Ea; [|discriminate].
        destruct (eval r y) as [b|] eqn:Eb; [|discriminate]. cbn [textLevel functionName].
        apply (d_atan2 r s u a b); auto; eapply says_1; eauto.
      - destruct f; discriminate.
    Qed.
  End Step.

  Lemma toplevel_ok n : forall e, wf P e -> sp (toplevel Y W cs fr n e) (says e).
  Proof.
    induction n as [|n IH]; intros e H; [apply spec_fuel|]. cbn [toplevel]. destruct e as [q|k p|c| |f l|l|l|b x].
    - apply spec_ret. intros v [= <-]. split; [apply d_num|exact I].
    - apply spec_ret. now apply sym_says.
    - eapply spec_bind; [apply spec_relyIf'|]. intros ? N. apply spec_ret.
      destruct c; [|destruct (N eq_refl)]. clear HP. destruct cs; [|destruct (N eq_refl)].
      intros v [= <-]. split; [|exact I]. exists PPi. split; [|reflexivity]. apply (g_token _ _ [] (txt "pi")); [constructor|]. apply g_pi, self_word.
    - apply spec_ret. intros v [=].
    - now apply function_ok.
    - apply sum_ok; auto. now apply wf_sum.
    - eapply spec_weaken; [apply product_ok; [exact IH|now apply wf_prod]|]. intros s Hs v Ev. split; [|exact I]. now apply Hs.
    - apply wf_pow in H as [Hb Hx]. now apply power_ok.
  Qed.
End Main.

Lemma print_text Y F k cs fr n r e s facts v : posEnv r -> wf (readAs cs r) e ->
  printTop Y (world Y F k) cs fr n e = Ok s facts -> rightFacts r facts -> eval r e = Some v ->
  exists t, gText asRead noPrefix s t /\ pval r t = Some v.
Proof.
  intros Hr He Hp [st Hf] Ev. unfold printTop in Hp.
  pose proof (toplevel_ok Y (world Y F k) (world_sound Y F k) cs fr st r (readAs cs r) (posEnv_good st r Hr) ltac:(auto) n e He) as H.
  assert (X : says fr r e s) by (eapply SimplApi.spec_ok; eauto). apply says_1 with (v := v) in X as [t [Ht Et]]; [|exact Ev].
  exists t. split; [|exact Et]. rewrite <- (app_nil_r s). constructor; [now constructor|constructor].
Qed.
