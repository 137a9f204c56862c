(** Value preservation of sums. *)
From Verif Require Export SoundOps.
From Coq Require Import Lra Lia.
Open Scope R_scope.

(** Run the next call: its contract is found by [sp_call]. *)
Ltac sp_side := first [assumption | solve [auto with sp] | solve [eauto with sp]].

Section Prelim.
  Variables (Y : sys) (W : oper).
  Hypothesis HW : soundOps W.
  Variables (st : bool) (r : env) (P : name -> bool -> Prop).
  Hypothesis Hg : wgood st r.
  Notation H := (holds st r).
  Notation sp := (spec H).

  (** Parts of a product. *)
  Definition constPart (e : expr) : list expr :=
    match e with Prod l => constElements l | _ => if isConst e then [e] else [] end.
  Definition nonConstPart (e : expr) : list expr :=
    match e with Prod l => nonConstElements l | _ => if isConst e then [] else [e] end.
  Definition numericPart (e : expr) : list expr :=
    match e with Num _ => [e] | Prod (x :: l) => if isNumeric x then [x] else [] | _ => [] end.
  Definition nonNumericPart (e : expr) : list expr :=
    match e with Num _ => [] | Prod (x :: l) => if isNumeric x then l else [e] | _ => [e] end.

  Lemma filter_split (f : expr -> bool) l :
    prodVal r l = omult (prodVal r (filter f l)) (prodVal r (filter (fun e => negb (f e)) l)).
  Proof.
    induction l as [|x l IH]; cbn [filter]; [now rewrite !prodVal_nil, omult_1_l|].
    rewrite prodVal_cons, IH. destruct (f x); cbn [negb]; rewrite prodVal_cons.
    - now rewrite omult_assoc.
    - rewrite <- !omult_assoc. f_equal. apply omult_comm.
  Qed.

  Lemma const_split e : eval r e = omult (prodVal r (constPart e)) (prodVal r (nonConstPart e)).
  Proof.
    unfold constPart, nonConstPart.
    destruct e; try (destruct (isConst _); now rewrite prodVal_1, prodVal_nil, ?omult_1_l, ?omult_1_r).
    rewrite eval_prod. apply filter_split.
  Qed.
  Lemma numeric_split e : eval r e = omult (prodVal r (numericPart e)) (prodVal r (nonNumericPart e)).
  Proof.
    unfold numericPart, nonNumericPart.
    destruct e as [| | | | | |l|]; try now rewrite prodVal_1, prodVal_nil, ?omult_1_l, ?omult_1_r.
    destruct l as [|x l]; [now rewrite prodVal_1, prodVal_nil, omult_1_l|].
    destruct (isNumeric x).
    - now rewrite prodVal_1.
    - now rewrite prodVal_1, prodVal_nil, omult_1_l.
  Qed.

  Lemma Forall_filter (Q : expr -> Prop) f l : Forall Q l -> Forall Q (filter f l).
  Proof. rewrite !Forall_forall. intros Hl x Hx. apply filter_In in Hx as [Hx _]. auto. Qed.

  Lemma sum_call l : Forall (wf P) l -> sp (w_sum W l) (fun e => wf P e /\ ole (sumVal r l) (eval r e)).
  Proof. now apply (so_sum W HW). Qed.
  Lemma prod_call l : Forall (wf P) l -> sp (w_prod W l) (fun e => wf P e /\ ole (prodVal r l) (eval r e)).
  Proof. now apply (so_prod W HW). Qed.
  Lemma pow_call b x : wf P b -> wf P x ->
    sp (w_pow W b x) (fun e => wf P e /\ ole (opow (eval r b) (eval r x)) (eval r e)).
  Proof. now apply (so_pow W HW). Qed.
  Lemma normal_call e : wf P e -> sp (w_normal W e) (fun e' => wf P e' /\ ole (eval r e) (eval r e')).
  Proof. now apply (so_normal W HW). Qed.
  Lemma expand_call e : wf P e -> sp (w_expand W e) (fun e' => wf P e' /\ ole (eval r e) (eval r e')).
  Proof. now apply (so_expand W HW). Qed.
  Lemma trig_call f a : wf P a -> trigF f = true ->
    sp (w_trig W f a) (fun e => wf P e /\ ole (eval r (Fct f [a])) (eval r e)).
  Proof. now apply (so_trig W HW). Qed.
  Lemma pos_call e : wf P e -> sp (w_pos W e) (fun b => b = true -> forall v, eval r e = Some v -> sgnOK st v).
  Proof. now apply (so_pos W HW). Qed.
  Lemma neg_call e : wf P e -> sp (w_neg W e) (fun b => b = true -> forall v, eval r e = Some v -> sgnOK st (- v)).
  Proof. now apply (so_neg W HW). Qed.

  Lemma minus_call l : Forall (wf P) l ->
    sp (minus W l) (fun e => wf P e /\ ole (omult (Some (-1)) (prodVal r l)) (eval r e)).
  Proof.
    intros Hl. unfold minus. eapply spec_weaken; [apply prod_call; constructor; auto with sp|].
    intros e (Hw & Hv). split; [assumption|]. rewrite prodVal_cons, eval_mOne in Hv. exact Hv.
  Qed.

  Lemma constTerm_sp e : wf P e -> sp (constTerm W e) (fun c => wf P c /\ ole (prodVal r (constPart e)) (eval r c)).
  Proof.
    intros Hw. unfold constTerm, constPart.
    destruct e; try (apply spec_ret; destruct (isConst _); split; auto with sp;
      rewrite ?prodVal_1, ?prodVal_nil, ?eval_one; apply ole_refl).
    destruct (constElements l) eqn:E.
    - apply spec_ret. split; [auto with sp|]. rewrite prodVal_nil, eval_one. apply ole_refl.
    - rewrite <- E. apply prod_call. apply wf_prod in Hw. now apply Forall_filter.
  Qed.
  Lemma nonConstTerm_sp e : wf P e -> sp (nonConstTerm W e) (fun c => wf P c /\ ole (prodVal r (nonConstPart e)) (eval r c)).
  Proof.
    intros Hw. unfold nonConstTerm, nonConstPart.
    destruct e; try (apply spec_ret; destruct (isConst _); split; auto with sp;
      rewrite ?prodVal_1, ?prodVal_nil, ?eval_one; apply ole_refl).
    destruct (nonConstElements l) eqn:E.
    - apply spec_ret. split; [auto with sp|]. rewrite prodVal_nil, eval_one. apply ole_refl.
    - rewrite <- E. apply prod_call. apply wf_prod in Hw. now apply Forall_filter.
  Qed.
  Lemma numericTerm_sp e : wf P e -> sp (numericTerm e) (fun c => wf P c /\ ole (prodVal r (numericPart e)) (eval r c)).
  Proof.
    intros Hw. unfold numericTerm, numericPart.
    destruct e as [| | | | | |l|]; try (apply spec_ret; split; auto with sp;
      rewrite ?prodVal_1, ?prodVal_nil, ?eval_one; apply ole_refl).
    destruct l as [|x l]; [exact I|]. apply spec_ret. apply wf_prod in Hw.
    inversion_clear Hw. destruct (isNumeric x); split; auto with sp;
      rewrite ?prodVal_1, ?prodVal_nil, ?eval_one; apply ole_refl.
  Qed.
  Lemma nonNumericTerm_sp e : wf P e ->
    sp (nonNumericTerm W e) (fun c => wf P c /\ ole (prodVal r (nonNumericPart e)) (eval r c)).
  Proof.
    intros Hw. unfold nonNumericTerm, nonNumericPart.
    destruct e as [| | | | | |l|]; try (apply spec_ret; split; auto with sp;
      rewrite ?prodVal_1, ?prodVal_nil, ?eval_one; apply ole_refl).
    destruct l as [|x l]; [exact I|]. pose proof Hw as Hw'. apply wf_prod in Hw. inversion_clear Hw.
    destruct (isNumeric x); [now apply prod_call|].
    apply spec_ret. split; [assumption|]. rewrite prodVal_1. apply ole_refl.
  Qed.

  Lemma ordered_sum a b : sumVal r (ordered Y a b) = sumVal r [a; b].
  Proof. unfold ordered. destruct (permuted Y a b); [|reflexivity]. rewrite !sumVal_cons, sumVal_nil, !oplus_0_r. apply oplus_comm. Qed.
  Lemma ordered_prod a b : prodVal r (ordered Y a b) = prodVal r [a; b].
  Proof. unfold ordered. destruct (permuted Y a b); [|reflexivity]. rewrite !prodVal_cons, prodVal_nil, !omult_1_r. apply omult_comm. Qed.
  Lemma ordered_wf a b : wf P a -> wf P b -> Forall (wf P) (ordered Y a b).
  Proof. intros. unfold ordered. destruct (permuted Y a b); auto. Qed.

  Lemma isEqual_val a b : isEqual a b = true -> eval r a = eval r b.
  Proof. intros E. apply isEqual_eq in E. now subst. Qed.
End Prelim.

Section SumS.
  Variables (Y : sys) (W : oper).
  Hypothesis HW : soundOps W.
  Variables (st : bool) (r : env) (P : name -> bool -> Prop).
  Hypothesis Hg : wgood st r.
  Notation H := (holds st r).
  Notation sp := (spec H).

  (** ** Merge *)
  Section Merge.
    Variables (pair : expr -> expr -> res (list expr)).

    Lemma merge_sum n p q :
      (forall a b, wf P a -> wf P b ->
         sp (pair a b) (fun l => Forall (wf P) l /\ ole (sumVal r [a; b]) (sumVal r l))) ->
      Forall (wf P) p -> Forall (wf P) q ->
      sp (merge n isZero pair p q) (fun l => Forall (wf P) l /\ ole (oplus (sumVal r p) (sumVal r q)) (sumVal r l)).
    Proof.
      intros Hpair. revert p q. induction n as [|n IH]; intros p q Hp Hq; [exact I|]. cbn [merge].
      destruct p as [|p1 pr].
      { apply spec_ret. split; [assumption|]. rewrite sumVal_nil, oplus_0_l. apply ole_refl. }
      destruct q as [|q1 qr].
      { apply spec_ret. split; [assumption|]. rewrite sumVal_nil, oplus_0_r. apply ole_refl. }
      inversion_clear Hp as [|? ? Hp1 Hpr]. inversion_clear Hq as [|? ? Hq1 Hqr].
      assert (Hsh : oplus (sumVal r (p1 :: pr)) (sumVal r (q1 :: qr)) =
                    oplus (sumVal r [p1; q1]) (oplus (sumVal r pr) (sumVal r qr))).
      { rewrite !sumVal_cons, sumVal_nil, oplus_0_r. rewrite !oplus_assoc. f_equal.
        rewrite <- !oplus_assoc. f_equal. apply oplus_comm. }
      eapply spec_bind; [apply Hpair; assumption|]. intros l (Hl & Hv).
      destruct l as [|x [|x2 l]].
      - eapply spec_weaken; [apply IH; assumption|]. intros k (Hk & Hkv). split; [assumption|].
        rewrite Hsh. eapply ole_trans; [apply ole_oplus; [exact Hv|apply ole_refl]|].
        now rewrite sumVal_nil, oplus_0_l.
      - inversion_clear Hl as [|? ? Hx _]. destruct (isZero x) eqn:E0.
        + apply (isZero_eq P) in E0; [|assumption]. subst x.
          eapply spec_weaken; [apply IH; assumption|]. intros k (Hk & Hkv). split; [assumption|].
          rewrite Hsh. eapply ole_trans; [apply ole_oplus; [exact Hv|apply ole_refl]|].
          now rewrite sumVal_1, eval_zero, oplus_0_l.
        + eapply spec_bind; [apply IH; assumption|]. intros k (Hk & Hkv). apply spec_ret.
          split; [now constructor|]. rewrite Hsh, sumVal_cons. apply ole_oplus; [|assumption].
          now rewrite sumVal_1 in Hv.
      - destruct (areEqual (x :: x2 :: l) [p1; q1]).
        { eapply spec_bind; [apply IH; [|constructor]; assumption|]. intros k (Hk & Hkv). apply spec_ret.
          split; [now constructor|]. rewrite (sumVal_cons r p1 k), (sumVal_cons r p1 pr).
          rewrite oplus_assoc. apply ole_oplus; [apply ole_refl|assumption]. }
        destruct (areEqual (x :: x2 :: l) [q1; p1]).
        { eapply spec_bind; [apply IH; [constructor|]; assumption|]. intros k (Hk & Hkv). apply spec_ret.
          split; [now constructor|]. rewrite (sumVal_cons r q1 k), (sumVal_cons r q1 qr).
          rewrite <- oplus_assoc, (oplus_comm _ (eval r q1)), oplus_assoc. apply ole_oplus; [apply ole_refl|assumption]. }
        eapply spec_bind; [apply spec_rely'|]. intros _ [].
    Qed.

    Lemma merge_prod n p q :
      (forall a b, wf P a -> wf P b ->
         sp (pair a b) (fun l => Forall (wf P) l /\ ole (prodVal r [a; b]) (prodVal r l))) ->
      Forall (wf P) p -> Forall (wf P) q ->
      sp (merge n isOne pair p q) (fun l => Forall (wf P) l /\ ole (omult (prodVal r p) (prodVal r q)) (prodVal r l)).
    Proof.
      intros Hpair. revert p q. induction n as [|n IH]; intros p q Hp Hq; [exact I|]. cbn [merge].
      destruct p as [|p1 pr].
      { apply spec_ret. split; [assumption|]. rewrite prodVal_nil, omult_1_l. apply ole_refl. }
      destruct q as [|q1 qr].
      { apply spec_ret. split; [assumption|]. rewrite prodVal_nil, omult_1_r. apply ole_refl. }
      inversion_clear Hp as [|? ? Hp1 Hpr]. inversion_clear Hq as [|? ? Hq1 Hqr].
      assert (Hsh : omult (prodVal r (p1 :: pr)) (prodVal r (q1 :: qr)) =
                    omult (prodVal r [p1; q1]) (omult (prodVal r pr) (prodVal r qr))).
      { rewrite !prodVal_cons, prodVal_nil, omult_1_r. rewrite !omult_assoc. f_equal.
        rewrite <- !omult_assoc. f_equal. apply omult_comm. }
      eapply spec_bind; [apply Hpair; assumption|]. intros l (Hl & Hv).
      destruct l as [|x [|x2 l]].
      - eapply spec_weaken; [apply IH; assumption|]. intros k (Hk & Hkv). split; [assumption|].
        rewrite Hsh. eapply ole_trans; [apply ole_omult; [exact Hv|apply ole_refl]|].
        now rewrite prodVal_nil, omult_1_l.
      - inversion_clear Hl as [|? ? Hx _]. destruct (isOne x) eqn:E0.
        + apply (isOne_eq P) in E0; [|assumption]. subst x.
          eapply spec_weaken; [apply IH; assumption|]. intros k (Hk & Hkv). split; [assumption|].
          rewrite Hsh. eapply ole_trans; [apply ole_omult; [exact Hv|apply ole_refl]|].
          now rewrite prodVal_1, eval_one, omult_1_l.
        + eapply spec_bind; [apply IH; assumption|]. intros k (Hk & Hkv). apply spec_ret.
          split; [now constructor|]. rewrite Hsh, prodVal_cons. apply ole_omult; [|assumption].
          now rewrite prodVal_1 in Hv.
      - destruct (areEqual (x :: x2 :: l) [p1; q1]).
        { eapply spec_bind; [apply IH; [|constructor]; assumption|]. intros k (Hk & Hkv). apply spec_ret.
          split; [now constructor|]. rewrite (prodVal_cons r p1 k), (prodVal_cons r p1 pr).
          rewrite omult_assoc. apply ole_omult; [apply ole_refl|assumption]. }
        destruct (areEqual (x :: x2 :: l) [q1; p1]).
        { eapply spec_bind; [apply IH; [constructor|]; assumption|]. intros k (Hk & Hkv). apply spec_ret.
          split; [now constructor|]. rewrite (prodVal_cons r q1 k), (prodVal_cons r q1 qr).
          rewrite <- omult_assoc, (omult_comm _ (eval r q1)), omult_assoc. apply ole_omult; [apply ole_refl|assumption]. }
        eapply spec_bind; [apply spec_rely'|]. intros _ [].
    Qed.
  End Merge.

  (** ** Two summands *)
  Notation pairOK a b := (fun l => Forall (wf P) l /\ ole (sumVal r [a; b]) (sumVal r l)).

  Lemma sum2 a b : sumVal r [a; b] = oplus (eval r a) (eval r b).
  Proof. now rewrite sumVal_cons, sumVal_1. Qed.

  Lemma ordered_pair a b : wf P a -> wf P b -> pairOK a b (ordered Y a b).
  Proof. intros. split; [now apply ordered_wf|]. rewrite ordered_sum. apply ole_refl. Qed.

  Lemma haveEqualNonConstTerms_sp a b : wf P a -> wf P b ->
    sp (haveEqualNonConstTerms W a b) (fun t => t = true ->
      exists o, ole (prodVal r (nonConstPart a)) o /\ ole (prodVal r (nonConstPart b)) o).
  Proof.
    intros Ha Hb. unfold haveEqualNonConstTerms.
    eapply spec_bind; [apply nonConstTerm_sp with (P := P); assumption|]. intros c (Hc & Hcv).
    eapply spec_bind; [apply nonConstTerm_sp with (P := P); assumption|]. intros d (Hd & Hdv).
    apply spec_ret. destruct (isOne c || isOne d); [discriminate|]. intros E. apply isEqual_eq in E. subst. eauto.
  Qed.
  Lemma haveEqualNonNumericTerms_sp a b : wf P a -> wf P b ->
    sp (haveEqualNonNumericTerms W a b) (fun t => t = true ->
      exists o, ole (prodVal r (nonNumericPart a)) o /\ ole (prodVal r (nonNumericPart b)) o).
  Proof.
    intros Ha Hb. unfold haveEqualNonNumericTerms.
    eapply spec_bind; [apply nonNumericTerm_sp with (P := P); assumption|]. intros c (Hc & Hcv).
    eapply spec_bind; [apply nonNumericTerm_sp with (P := P); assumption|]. intros d (Hd & Hdv).
    apply spec_ret. intros E. apply isEqual_eq in E. subst. eauto.
  Qed.

  (** c1*t + c2*t *)
  Lemma factor_out c1 t1 c2 t2 o s : ole t1 o -> ole t2 o -> ole (oplus c1 c2) s ->
    ole (oplus (omult c1 t1) (omult c2 t2)) (omult s t1).
  Proof.
    destruct c1, t1, c2, t2; cbn; auto. intros E1 E2 ->. subst o. injection E2 as ->. cbn. f_equal. ring.
  Qed.

  Lemma simplEqualNonConstTerms_sp a b : wf P a -> wf P b ->
    (exists o, ole (prodVal r (nonConstPart a)) o /\ ole (prodVal r (nonConstPart b)) o) ->
    sp (simplEqualNonConstTerms Y W a b) (pairOK a b).
  Proof.
    intros Ha Hb (o & Ho1 & Ho2). unfold simplEqualNonConstTerms.
    eapply spec_bind; [apply constTerm_sp with (P := P); assumption|]. intros c (Hc & Hcv).
    eapply spec_bind; [apply constTerm_sp with (P := P); assumption|]. intros d (Hd & Hdv).
    eapply spec_bind; [apply sum_call with (P := P); auto|]. intros s (Hs & Hsv).
    destruct (negb (isSum s)); [|apply spec_ret, ordered_pair; assumption].
    eapply spec_bind; [apply nonConstTerm_sp with (P := P); assumption|]. intros t (Ht & Htv).
    eapply spec_bind; [apply prod_call with (P := P); auto|]. intros p (Hp & Hpv).
    apply spec_ret. split; [auto|].
    rewrite sum2, (const_split r a), (const_split r b), sumVal_1.
    eapply ole_trans; [eapply factor_out with (o := o) (s := eval r s); try eassumption|].
    - eapply ole_trans; [apply ole_oplus; [exact Hcv|exact Hdv]|]. now rewrite sum2 in Hsv.
    - eapply ole_trans; [|exact Hpv]. rewrite prodVal_cons, prodVal_1. apply ole_omult; [apply ole_refl|assumption].
  Qed.
  Lemma simplEqualNonNumericTerms_sp a b : wf P a -> wf P b ->
    (exists o, ole (prodVal r (nonNumericPart a)) o /\ ole (prodVal r (nonNumericPart b)) o) ->
    sp (simplEqualNonNumericTerms W a b) (pairOK a b).
  Proof.
    intros Ha Hb (o & Ho1 & Ho2). unfold simplEqualNonNumericTerms.
    eapply spec_bind; [apply numericTerm_sp with (P := P); assumption|]. intros c (Hc & Hcv).
    eapply spec_bind; [apply numericTerm_sp with (P := P); assumption|]. intros d (Hd & Hdv).
    eapply spec_bind; [apply sum_call with (P := P); auto|]. intros s (Hs & Hsv).
    eapply spec_bind; [apply nonNumericTerm_sp with (P := P); assumption|]. intros t (Ht & Htv).
    eapply spec_bind; [apply prod_call with (P := P); auto|]. intros p (Hp & Hpv).
    assert (Hfin : ole (sumVal r [a; b]) (eval r p)).
    { rewrite sum2, (numeric_split r a), (numeric_split r b).
      eapply ole_trans; [eapply factor_out with (o := o) (s := eval r s); try eassumption|].
      - eapply ole_trans; [apply ole_oplus; [exact Hcv|exact Hdv]|]. now rewrite sum2 in Hsv.
      - eapply ole_trans; [|exact Hpv]. rewrite prodVal_cons, prodVal_1. apply ole_omult; [apply ole_refl|assumption]. }
    apply spec_ret. destruct (isZero p) eqn:E.
    - apply (isZero_eq P) in E; [|assumption]. subst p. rewrite eval_zero in Hfin. auto.
    - split; [auto|]. now rewrite sumVal_1.
  Qed.

  Lemma sin_name f : nameEq (fctName f) (nm "sin") = true -> f = FSin.
  Proof. destruct f; cbn; intros; congruence. Qed.
  Lemma cos_name f : nameEq (fctName f) (nm "cos") = true -> f = FCos.
  Proof. destruct f; cbn; intros; congruence. Qed.
  Lemma fct1_inv f l : wf P (Fct f l) -> f <> FAtan2 -> exists a, l = [a] /\ wf P a.
  Proof.
    intros Hw Hf. apply wf_ops in Hw as [Hl Hw]. destruct f; try congruence;
    (destruct l as [|a [|b l]]; try discriminate Hl; exists a; split; [reflexivity|now inversion Hw]).
  Qed.
  Lemma fct2_inv l : wf P (Fct FAtan2 l) -> exists a b, l = [a; b] /\ wf P a /\ wf P b.
  Proof.
    intros Hw. apply wf_ops in Hw as [Hl Hw]. destruct l as [|a [|b [|c l]]]; try discriminate Hl.
    exists a, b. inversion_clear Hw as [|? ? ? Hb]. inversion_clear Hb. auto.
  Qed.

  Lemma relyTwo_sp e : wf P e -> isTwo Y e = true ->
    sp (relyTwo e) (fun _ => forall v, eval r e = Some v -> v = 2).
  Proof.
    intros Hw E. destruct e; cbn [relyTwo].
    1:{ apply spec_ret. unfold isTwo in E. cbn in E. apply qeqb_leib in E. subst q. intros v Ev. cbn in Ev.
        injection Ev as <-. apply (Q2R_IZR 2). }
    all: eapply spec_weaken; [apply spec_rely'|]; intros ? Hh v Ev; cbn [holds] in Hh; rewrite (proj2 Hh v Ev); apply (Q2R_IZR 2).
  Qed.

  Definition sinCosFact (a b : expr) : Prop :=
    (exists o, ole (prodVal r (constPart a)) o /\ ole (prodVal r (constPart b)) o) /\
    (forall u v, prodVal r (nonConstPart a) = Some u -> prodVal r (nonConstPart b) = Some v -> u + v = 1).

  Lemma haveContractableSinCos_sp a b : wf P a -> wf P b ->
    sp (haveContractableSinCos Y W a b) (fun t => t = true -> sinCosFact a b).
  Proof.
    intros Ha Hb. unfold haveContractableSinCos.
    eapply spec_bind; [apply nonConstTerm_sp with (P := P); assumption|]. intros c (Hc & Hcv).
    eapply spec_bind; [apply nonConstTerm_sp with (P := P); assumption|]. intros d (Hd & Hdv).
    eapply spec_bind; [apply constTerm_sp with (P := P); assumption|]. intros k (Hk & Hkv).
    eapply spec_bind; [apply constTerm_sp with (P := P); assumption|]. intros k' (Hk' & Hkv').
    destruct (isEqual k k' && areSinAndCosSquare Y c d) eqn:E; [|apply spec_ret; discriminate].
    apply andb_prop in E as [E1 E2]. apply isEqual_eq in E1. subst k'.
    destruct c as [| | | | | | |cb cx]; try discriminate E2. destruct cb as [| | | |f l| | |]; try discriminate E2.
    destruct d as [| | | | | | |db dx]; try discriminate E2. destruct db as [| | | |g m| | |]; try discriminate E2.
    cbn [areSinAndCosSquare] in E2. apply andb_prop in E2 as [E2 E3]. apply andb_prop in E2 as [E2 E4].
    destruct Hc as [Hc Hcx]. destruct Hd as [Hd Hdx].
    assert (Hf : exists x y, l = [x] /\ m = [y] /\ wf P x /\ wf P y).
    { apply Bool.orb_prop in E3 as [E3|E3]; apply andb_prop in E3 as [F G];
        (apply sin_name in F || apply cos_name in F); (apply sin_name in G || apply cos_name in G); subst f g;
        apply fct1_inv in Hc as (x & -> & Hx); try discriminate; apply fct1_inv in Hd as (y & -> & Hy); try discriminate;
        eauto 10. }
    destruct Hf as (x & y & -> & -> & Hx & Hy).
    unfold haveEqualFirstOperands. cbn [base ops].
    eapply spec_bind with (Q1 := fun t => t = true -> exists o, ole (eval r x) o /\ ole (eval r y) o).
    { destruct (isEqual x y) eqn:Exy.
      - apply spec_ret. intros _. apply isEqual_eq in Exy. subst. exists (eval r y). split; apply ole_refl.
      - eapply spec_bind; [apply normal_call with (P := P); assumption|]. intros x' (Hx' & Hxv).
        eapply spec_bind; [apply normal_call with (P := P); assumption|]. intros y' (Hy' & Hyv).
        apply spec_ret. intros E. apply isEqual_eq in E. subst. eauto. }
    intros t Ht. destruct t.
    2:{ eapply spec_bind; [apply spec_true|]. intros ? _. apply spec_ret. discriminate. }
    destruct (Ht eq_refl) as (o & Ho1 & Ho2).
    eapply spec_bind with (Q1 := fun _ => (forall v, eval r cx = Some v -> v = 2) /\ (forall v, eval r dx = Some v -> v = 2)).
    { cbn [expo]. eapply spec_bind; [apply relyTwo_sp; assumption|]. intros ? H1.
      eapply spec_weaken; [apply relyTwo_sp; assumption|]. intros ? H2. auto. }
    intros ? (H2c & H2d). apply spec_ret. intros _. split; [exists (eval r k); auto|].
    intros u v Eu Ev. pose proof (ole_some _ _ _ Hcv Eu) as Cu. pose proof (ole_some _ _ _ Hdv Ev) as Dv.
    rewrite eval_pow in Cu, Dv. apply opow_some in Cu as (c1 & c2 & Ec1 & Ec2 & Ec).
    apply opow_some in Dv as (d1 & d2 & Ed1 & Ed2 & Ed). apply H2c in Ec2. apply H2d in Ed2. subst c2 d2.
    rewrite rpow_r2 in Ec, Ed. apply some_inj in Ec. apply some_inj in Ed. subst u v.
    cbn [eval] in Ec1, Ed1.
    destruct (eval r x) as [vx|]; [|destruct f; discriminate]. destruct (eval r y) as [vy|]; [|destruct g; discriminate].
    cbn in Ho1, Ho2. subst o. injection Ho2 as <-.
    pose proof (sin2_cos2 vx) as SC. unfold Rsqr in SC.
    apply Bool.orb_prop in E3 as [E3|E3]; apply andb_prop in E3 as [F G];
        (apply sin_name in F || apply cos_name in F); (apply sin_name in G || apply cos_name in G); subst f g;
        cbn in Ec1, Ed1; apply some_inj in Ec1; apply some_inj in Ed1; subst c1 d1; lra.
  Qed.

  Lemma simplTwoSummandsWithoutSum_sp a b : wf P a -> wf P b ->
    sp (simplTwoSummandsWithoutSum Y W a b) (pairOK a b).
  Proof.
    intros Ha Hb. unfold simplTwoSummandsWithoutSum.
    destruct (isZero a) eqn:Ea.
    { apply (isZero_eq P) in Ea; [|assumption]. subst. apply spec_ret. split; [auto|].
      rewrite sum2, sumVal_1, eval_zero, oplus_0_l. apply ole_refl. }
    destruct (isZero b) eqn:Eb.
    { apply (isZero_eq P) in Eb; [|assumption]. subst. apply spec_ret. split; [auto|].
      rewrite sum2, sumVal_1, eval_zero, oplus_0_r. apply ole_refl. }
    assert (Hgen : sp (c <- haveEqualNonConstTerms W a b;;
      (if c then simplEqualNonConstTerms Y W a b
       else d <- haveEqualNonNumericTerms W a b;;
        (if d then simplEqualNonNumericTerms W a b
         else e <- haveContractableSinCos Y W a b;;
          (if e then t <- constTerm W a;; ret [t] else ret (ordered Y a b))))) (pairOK a b)).
    { eapply spec_bind; [apply haveEqualNonConstTerms_sp; assumption|]. intros c Hc. destruct c.
      { apply simplEqualNonConstTerms_sp; auto. }
      eapply spec_bind; [apply haveEqualNonNumericTerms_sp; assumption|]. intros d Hd. destruct d.
      { apply simplEqualNonNumericTerms_sp; auto. }
      eapply spec_bind; [apply haveContractableSinCos_sp; assumption|]. intros e He. destruct e.
      2:{ apply spec_ret, ordered_pair; assumption. }
      destruct (He eq_refl) as ((o & Ho1 & Ho2) & Hs).
      eapply spec_bind; [apply constTerm_sp with (P := P); assumption|]. intros t (Ht & Htv).
      apply spec_ret. split; [auto|]. rewrite sum2, sumVal_1, (const_split r a), (const_split r b).
      eapply ole_trans; [|exact Htv].
      destruct (prodVal r (constPart a)) as [c1|], (prodVal r (nonConstPart a)) as [n1|],
        (prodVal r (constPart b)) as [c2|], (prodVal r (nonConstPart b)) as [n2|]; try exact I.
      cbn in *. subst o. injection Ho2 as <-. specialize (Hs n1 n2 eq_refl eq_refl). f_equal.
      replace (c1 * n1 + c1 * n2) with (c1 * (n1 + n2)) by ring. rewrite Hs. ring. }
    destruct a; try exact Hgen. destruct b; try exact Hgen.
    apply spec_ret. rewrite sum2. cbn [eval oplus].
    pose proof (Q2R_qadd q q0) as HR.
    destruct (qeqb (qadd q q0) 0) eqn:E.
    - apply qeqb_leib in E. rewrite E in HR. split; [constructor|]. cbn. f_equal. rewrite <- HR, Q2R_0. reflexivity.
    - split; [constructor; [apply qadd_spec|constructor]|]. rewrite sumVal_1, eval_num, HR. reflexivity.
  Qed.

  Lemma simplTwoSummands_sp n a b : wf P a -> wf P b -> sp (simplTwoSummands Y W n a b) (pairOK a b).
  Proof.
    revert a b. induction n as [|n IH]; intros a b Ha Hb; [exact I|]. cbn [simplTwoSummands].
    destruct (isSum a || isSum b); [|apply simplTwoSummandsWithoutSum_sp; assumption].
    assert (Hop : forall e, wf P e -> Forall (wf P) (match e with Sum l => l | _ => [e] end) /\
                       sumVal r (match e with Sum l => l | _ => [e] end) = eval r e).
    { intros e He. destruct e; try (split; [now constructor|apply sumVal_1]). split; [now apply wf_sum|reflexivity]. }
    destruct (Hop a Ha) as (H1 & E1). destruct (Hop b Hb) as (H2 & E2).
    eapply spec_weaken; [apply merge_sum; eassumption|].
    intros l (Hl & Hv). split; [assumption|]. rewrite E1, E2 in Hv. now rewrite sum2.
  Qed.

  Lemma simplifySum_sp n l : Forall (wf P) l ->
    sp (simplifySum Y W n l) (fun k => Forall (wf P) k /\ ole (sumVal r l) (sumVal r k)).
  Proof.
    induction l as [|a l IH]; intros Hl; [exact I|]. inversion_clear Hl as [|? ? Ha Hr].
    destruct l as [|b [|c l]].
    - exact I.
    - apply simplTwoSummands_sp; [assumption|]. now inversion Hr.
    - change (simplifySum Y W n (a :: b :: c :: l)) with
        (s <- simplifySum Y W n (b :: c :: l) ;;
         merge n isZero (simplTwoSummands Y W n) (match a with Sum l => l | _ => [a] end) s).
      eapply spec_bind; [apply IH; assumption|]. intros s (Hs & Hsv).
      assert (Hop : Forall (wf P) (match a with Sum l => l | _ => [a] end) /\
                     sumVal r (match a with Sum l => l | _ => [a] end) = eval r a).
      { destruct a; try (split; [now constructor|apply sumVal_1]). split; [now apply wf_sum|reflexivity]. }
      destruct Hop as (H1 & E1).
      eapply spec_weaken; [apply merge_sum; try eassumption; intros; now apply simplTwoSummands_sp|].
      intros k (Hk & Hv). split; [assumption|]. rewrite sumVal_cons. eapply ole_trans; [|exact Hv].
      rewrite E1. apply ole_oplus; [apply ole_refl|assumption].
  Qed.

  Lemma undef_sum l : existsb isUndefined l = true -> sumVal r l = None.
  Proof.
    induction l as [|x l IH]; [discriminate|]. cbn [existsb]. intros E. rewrite sumVal_cons.
    apply Bool.orb_prop in E as [E|E].
    - apply isUndefined_eq in E. now subst.
    - rewrite IH by assumption. now destruct (eval r x).
  Qed.

  Lemma sumCreate_sp n l : Forall (wf P) l ->
    sp (sumCreate Y W n l) (fun e => wf P e /\ ole (sumVal r l) (eval r e)).
  Proof.
    intros Hl. unfold sumCreate. destruct (existsb isUndefined l) eqn:E.
    { apply spec_ret. split; [exact I|]. rewrite undef_sum by assumption. exact I. }
    assert (Hgen : sp (k <- simplifySum Y W n l ;; ret (match k with [] => zero | [x] => x | _ => Sum k end))
                     (fun e => wf P e /\ ole (sumVal r l) (eval r e))).
    { eapply spec_bind; [apply simplifySum_sp; assumption|]. intros k (Hk & Hv). apply spec_ret.
      destruct k as [|x [|y k]].
      - split; [auto with sp|]. rewrite eval_zero. exact Hv.
      - split; [now inversion Hk|]. now rewrite sumVal_1 in Hv.
      - split; [now apply wf_sum|]. exact Hv. }
    destruct l as [|x [|y l]]; try exact Hgen.
    apply spec_ret. split; [now inversion Hl|]. rewrite sumVal_1. apply ole_refl.
  Qed.
End SumS.
