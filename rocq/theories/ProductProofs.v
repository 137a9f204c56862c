(** Value preservation of products. *)
From Verif Require Export SumProofs ListFacts.
From Coq Require Import Lra Lia Permutation.
Open Scope R_scope.

Lemma rpow_mult_base' a b x u v :
  rpow a x = Some u -> rpow b x = Some v -> rpow (a * b) x = Some (u * v).
Proof.
  intros Hu Hv. apply rpow_mult_base; try assumption.
  destruct (Rle_lt_dec 0 a) as [Ha|Ha]; [auto|].
  apply rpow_neg_inv in Hu as (z & -> & _); [|assumption]. eauto.
Qed.

Lemma rpow_quot s c a u v : c <> 0 -> rpow s a = Some u -> rpow c (- a) = Some v -> rpow (s / c) a = Some (u * v).
Proof.
  intros Hc Hu Hv. apply rpow_opp in Hv as Hv'; [|assumption]. rewrite Ropp_involutive in Hv'.
  apply rpow_inv_base in Hv'; [|assumption]. unfold Rdiv. rewrite Rinv_inv in Hv'.
  now apply rpow_mult_base'.
Qed.

Lemma prodVal_perm r l k : Permutation l k -> prodVal r l = prodVal r k.
Proof.
  induction 1 as [|x l k _ IH|x y l|l k m _ IH1 _ IH2]; auto.
  - now rewrite !prodVal_cons, IH.
  - rewrite !prodVal_cons, <- !omult_assoc. f_equal. apply omult_comm.
  - congruence.
Qed.
Lemma sumVal_perm r l k : Permutation l k -> sumVal r l = sumVal r k.
Proof.
  induction 1 as [|x l k _ IH|x y l|l k m _ IH1 _ IH2]; auto.
  - now rewrite !sumVal_cons, IH.
  - rewrite !sumVal_cons, <- !oplus_assoc. f_equal. apply oplus_comm.
  - congruence.
Qed.

(** ** Names of temporary symbols *)
Lemma sharps_len k : String.length (sharps k) = k.
Proof. induction k; cbn; auto. Qed.
Lemma tmpNm_len k : String.length (nvalue (tmpNm k)) = (3 + k)%nat.
Proof. cbn. now rewrite sharps_len. Qed.
Lemma tmpNm_inj k j : tmpNm k = tmpNm j -> k = j.
Proof. intros E. pose proof (tmpNm_len k) as Hk. rewrite E, tmpNm_len in Hk. lia. Qed.

Definition short (k : nat) : name -> bool -> Prop := fun n _ => (String.length (nvalue n) < k)%nat.
Definition both (P Q : name -> bool -> Prop) : name -> bool -> Prop := fun n p => P n p /\ Q n p.

Lemma wf_short P e k : wf P e -> (nameLen e < k)%nat -> wf (both P (short k)) e.
Proof.
  revert k. induction e using expr_ind2; cbn [wf nameLen]; intros k Hw Hk; auto.
  - split; [assumption|exact Hk].
  - destruct Hw as [Hl Hw]. split; [assumption|]. change (wf (both P (short k)) (Sum l)).
    change (wf P (Sum l)) in Hw. rewrite wf_sum in *. clear Hl.
    induction Hw as [|x l Hx Hl IH]; constructor; cbn [fold_right] in Hk.
    + apply H; [left; reflexivity|assumption|lia].
    + apply IH; [intros; apply H; [right; assumption|assumption|assumption]|lia].
  - change (wf (both P (short k)) (Sum l)).
    change (wf P (Sum l)) in Hw. rewrite wf_sum in *.
    induction Hw as [|x l Hx Hl IH]; constructor; cbn [fold_right] in Hk.
    + apply H; [left; reflexivity|assumption|lia].
    + apply IH; [intros; apply H; [right; assumption|assumption|assumption]|lia].
  - change (wf (both P (short k)) (Prod l)).
    change (wf P (Prod l)) in Hw. rewrite wf_prod in *.
    induction Hw as [|x l Hx Hl IH]; constructor; cbn [fold_right] in Hk.
    + apply H; [left; reflexivity|assumption|lia].
    + apply IH; [intros; apply H; [right; assumption|assumption|assumption]|lia].
  - destruct Hw. split; [apply IHe1|apply IHe2]; auto; lia.
Qed.

Lemma has_wf P n p e : wf (plus1 P n p) e -> has e (Sym n p) = false -> wf P e.
Proof.
  induction e using expr_ind2; cbn [wf has]; intros Hw Hh; auto.
  - destruct Hw as [Hw|[-> ->]]; [assumption|]. cbn in Hh. rewrite nameEq_refl, Bool.eqb_reflx in Hh. discriminate.
  - destruct Hw as [Hl Hw]. split; [assumption|]. change (wf P (Sum l)). change (wf (plus1 P n p) (Sum l)) in Hw.
    rewrite wf_sum in *. apply Bool.orb_false_elim in Hh as [_ Hh].
    rewrite Forall_forall in *. intros x Hx. apply H; auto.
    destruct (has x (Sym n p)) eqn:E; [|reflexivity].
    rewrite <- Hh. symmetry. apply existsb_exists. eauto.
  - change (wf P (Sum l)). change (wf (plus1 P n p) (Sum l)) in Hw.
    rewrite wf_sum in *. apply Bool.orb_false_elim in Hh as [_ Hh].
    rewrite Forall_forall in *. intros x Hx. apply H; auto.
    destruct (has x (Sym n p)) eqn:E; [|reflexivity].
    rewrite <- Hh. symmetry. apply existsb_exists. eauto.
  - change (wf P (Prod l)). change (wf (plus1 P n p) (Prod l)) in Hw.
    rewrite wf_prod in *. apply Bool.orb_false_elim in Hh as [_ Hh].
    rewrite Forall_forall in *. intros x Hx. apply H; auto.
    destruct (has x (Sym n p)) eqn:E; [|reflexivity].
    rewrite <- Hh. symmetry. apply existsb_exists. eauto.
  - apply Bool.orb_false_elim in Hh as [_ Hh]. apply Bool.orb_false_elim in Hh as [H1 H2].
    destruct Hw. auto.
Qed.

Section Factors.
  Variables (Y : sys) (W : oper).
  Hypothesis HW : soundOps W.
  Variables (st : bool) (r : env) (P : name -> bool -> Prop).
  Hypothesis Hg : wgood st r.
  Notation H := (holds st r).
  Notation sp := (spec H).
  Notation factOK o := (fun l => Forall (wf P) l /\ ole o (prodVal r l)).

  Lemma prod2 a b : prodVal r [a; b] = omult (eval r a) (eval r b).
  Proof. now rewrite prodVal_cons, prodVal_1. Qed.
  Lemma ordered_fact a b : wf P a -> wf P b -> factOK (prodVal r [a; b]) (ordered Y a b).
  Proof. intros. split; [now apply ordered_wf|]. rewrite ordered_prod. apply ole_refl. Qed.

  Lemma runNumPow_sp p : payCanon p ->
    sp (runNumPow Y p) (fun p' => ole (payVal p) (payVal p') /\ payCanon p').
  Proof.
    intros Hp. unfold runNumPow. destruct (numPowerSimpl _ _ p) as [p'| |]; auto with sp.
    eapply spec_bind; [apply spec_rely'|]. intros ? Hh. apply spec_ret. exact Hh.
  Qed.

  Lemma payVal_omult p : payVal p = omult (Some (Q2R (pPre p))) (rpow (Q2R (pBase p)) (Q2R (pExp p))).
  Proof. unfold payVal. now destruct (rpow _ _). Qed.

  Lemma simplNumAndNumPow_sp pre b x : canon pre -> canon b -> canon x ->
    sp (simplNumAndNumPow Y W pre b x) (factOK (omult (Some (Q2R pre)) (rpow (Q2R b) (Q2R x)))).
  Proof.
    intros Hp Hb Hx. unfold simplNumAndNumPow.
    eapply spec_bind; [apply runNumPow_sp; repeat split; assumption|]. intros p' (Hv & Cb & Cx & Cp).
    eapply spec_bind; [apply pow_call with (P := P); assumption|]. intros e (He & Hev).
    apply spec_ret. rewrite !payVal_omult in Hv. cbn [pPre pBase pExp] in Hv. cbn [eval opow] in Hev.
    destruct (qeqb (pPre p') 1) eqn:E1.
    - apply qeqb_leib in E1. split; [auto|]. rewrite prodVal_1. eapply ole_trans; [exact Hv|].
      rewrite E1, Q2R_1, omult_1_l. exact Hev.
    - split; [auto|]. rewrite prod2. eapply ole_trans; [exact Hv|]. cbn [eval]. apply ole_omult; [apply ole_refl|exact Hev].
  Qed.

  Lemma eval_base_expo e : eval r e = opow (eval r (base e)) (eval r (expo e)).
  Proof.
    destruct e; try reflexivity; cbn [base expo]; rewrite eval_one;
      match goal with |- ?x = _ => destruct x as [v|]; [|reflexivity] end; symmetry; apply rpow_r1.
  Qed.
  Lemma wf_base e : wf P e -> wf P (base e).
  Proof. destruct e; auto. now intros [? _]. Qed.
  Lemma wf_expo e : wf P e -> wf P (expo e).
  Proof. destruct e; intros Hw; try apply wf_one. now destruct Hw. Qed.

  Lemma simplTwoEqualBases_sp a b : wf P a -> wf P b -> haveEqualBases a b = true ->
    sp (simplTwoEqualBases Y W a b) (factOK (prodVal r [a; b])).
  Proof.
    intros Ha Hb E. unfold haveEqualBases in E. apply isEqual_eq in E. unfold simplTwoEqualBases.
    eapply spec_bind.
    { apply sum_call with (P := P); [assumption|assumption|]. constructor; [now apply wf_expo|]. constructor; [now apply wf_expo|constructor]. }
    intros s (Hs & Hsv).
    eapply spec_bind; [apply spec_true|]. intros p _.
    eapply spec_bind; [apply spec_true|]. intros g _.
    destruct (negb g && _ && _ && _).
    - apply spec_ret. split; [auto|apply ole_refl].
    - eapply spec_bind; [apply pow_call with (P := P); try assumption; now apply wf_base|]. intros e (He & Hev).
      apply spec_ret. split; [auto|]. rewrite prodVal_1, prod2, (eval_base_expo a), (eval_base_expo b), <- E.
      eapply ole_trans; [|exact Hev]. rewrite sum2 in Hsv.
      eapply ole_trans; [|apply ole_opow; [apply ole_refl|exact Hsv]].
      apply ole_intro. intros v Ev. apply omult_some in Ev as (u1 & u2 & E1 & E2 & ->).
      apply opow_some in E1 as (b1 & x1 & Eb & Ex1 & R1). apply opow_some in E2 as (b2 & x2 & Eb2 & Ex2 & R2).
      rewrite Eb in Eb2. apply some_inj in Eb2. subst b2. rewrite Eb, Ex1, Ex2. cbn [oplus opow].
      now apply rpow_add.
  Qed.

  Lemma simplTwoEqualExp_sp a b : wf P a -> wf P b -> areNumPowersWithEqualExp a b = true ->
    sp (simplTwoEqualExp Y W a b) (factOK (prodVal r [a; b])).
  Proof.
    intros Ha Hb E. destruct a as [| | | | | | |[b1| | | | | | |] [x1| | | | | | |]]; try discriminate E.
    destruct b as [| | | | | | |[b2| | | | | | |] [x2| | | | | | |]]; try discriminate E.
    cbn in E. apply qeqb_leib in E. subst x2. cbn [simplTwoEqualExp].
    destruct Ha as [Hb1 Hx1]. destruct Hb as [Hb2 _].
    eapply spec_weaken; [apply simplNumAndNumPow_sp; [reflexivity|apply qmul_spec|assumption]|].
    intros l (Hl & Hv). split; [assumption|]. rewrite prod2. eapply ole_trans; [|exact Hv].
    rewrite Q2R_1, omult_1_l, Q2R_qmul. cbn [eval]. apply ole_intro. intros v Ev.
    apply omult_some in Ev as (u1 & u2 & E1 & E2 & ->). now apply rpow_mult_base'.
  Qed.

  Lemma toThe_m1 b i : canon b -> toThe (s_fl Y) b (-1 # 1) = PRat i -> Q2R b <> 0 /\ Q2R i = / Q2R b /\ canon i.
  Proof.
    intros Hb. rewrite toThe_minus_one by assumption. pose proof (qinv_spec b) as Hq. destruct (qinv b) eqn:E; [|discriminate].
    intros E'. injection E' as <-. apply Q2R_qinv in E as [? ?]. tauto.
  Qed.

  Lemma areNumPowersWithZeroSumExp_sp a b : wf P a -> wf P b ->
    sp (areNumPowersWithZeroSumExp W a b) (fun t => t = true ->
      exists b1 x1 b2 x2, a = Pow (Num b1) (Num x1) /\ b = Pow (Num b2) (Num x2) /\ Q2R x1 + Q2R x2 = 0).
  Proof.
    intros Ha Hb. unfold areNumPowersWithZeroSumExp.
    destruct a as [| | | | | | |[b1| | | | | | |] [x1| | | | | | |]]; try (apply spec_ret; discriminate).
    destruct b as [| | | | | | |[b2| | | | | | |] [x2| | | | | | |]]; try (apply spec_ret; discriminate).
    destruct Ha as [Hb1 Hx1]. destruct Hb as [Hb2 Hx2].
    eapply spec_bind; [apply sum_call with (P := P); try assumption; auto|]. intros s (Hs & Hsv). apply spec_ret.
    intros E. apply (isZero_eq P) in E; [|assumption]. subst s. exists b1, x1, b2, x2. repeat split.
    rewrite sum2, eval_zero in Hsv. cbn in Hsv. injection Hsv as Hsv. lra.
  Qed.

  Lemma simplTwoZeroSumExp_sp a b b1 x1 b2 x2 : wf P a -> wf P b ->
    a = Pow (Num b1) (Num x1) -> b = Pow (Num b2) (Num x2) -> Q2R x1 + Q2R x2 = 0 ->
    sp (simplTwoZeroSumExp Y W a b) (factOK (prodVal r [a; b])).
  Proof.
    intros Ha Hb -> -> E. destruct Ha as [Hb1 Hx1]. destruct Hb as [Hb2 Hx2]. cbn [simplTwoZeroSumExp].
    destruct (toThe (s_fl Y) b2 (-1 # 1)) as [i| |] eqn:Ei; auto with sp.
    apply toThe_m1 in Ei as (Hn & Hi & Ci); [|assumption].
    eapply spec_bind; [apply pow_call with (P := P); try assumption; apply qmul_spec|]. intros e (He & Hev).
    apply spec_ret. split; [auto|]. rewrite prodVal_1, prod2. eapply ole_trans; [|exact Hev].
    rewrite !eval_num, Q2R_qmul, Hi. cbn [eval opow]. apply ole_intro. intros v Ev.
    apply omult_some in Ev as (u1 & u2 & E1 & E2 & ->).
    replace (Q2R x2) with (- Q2R x1) in E2 by lra. now apply rpow_quot.
  Qed.

  Lemma qinv_parts b i : canon b -> canon i -> 0 < Q2R b -> Q2R i = / Q2R b -> qnum i = qden b /\ qden i = qnum b.
  Proof.
    intros Hb Hi Hp E. apply Q2R_pos_num in Hp as Hn.
    assert (Hc : canon (qden b # Z.to_pos (qnum b))).
    { unfold canon in *. change (Z.gcd (qden b) (Z.pos (Z.to_pos (qnum b))) = 1%Z). rewrite Z2Pos.id by assumption. rewrite Z.gcd_comm. exact Hb. }
    assert (Ei : i = (qden b # Z.to_pos (qnum b))).
    { apply Q2R_inj; try assumption. rewrite E. rewrite !Q2R_frac.
      change (qnum (qden b # Z.to_pos (qnum b))) with (qden b).
      change (qden (qden b # Z.to_pos (qnum b))) with (Z.pos (Z.to_pos (qnum b))).
      rewrite Z2Pos.id by assumption. pose proof (IZR_den b). rewrite Rinv_div. reflexivity. }
    rewrite Ei. split; [reflexivity|]. change (Z.pos (Z.to_pos (qnum b)) = qnum b). now apply Z2Pos.id.
  Qed.

  Lemma evalExpNumerator_R b i e : canon b -> canon i -> 0 < Q2R b -> Q2R i = / Q2R b ->
    IZR (evalExpNumerator i e) <> 0 /\ IZR (evalExpNumerator b e) / IZR (evalExpNumerator i e) = powerRZ (Q2R b) e.
  Proof.
    intros Hb Hi Hp E. destruct (qinv_parts b i Hb Hi Hp E) as [E1 E2].
    apply Q2R_pos_num in Hp as Hn. pose proof (IZR_den b) as Hd. assert (0 < IZR (qnum b)) by now apply IZR_lt.
    unfold evalExpNumerator. rewrite E1, E2. rewrite !IZR_Zpow by lia.
    destruct (0 <? e)%Z eqn:Ee.
    - apply Z.ltb_lt in Ee. rewrite Z.abs_eq by lia. split; [apply powerRZ_neq0; lra|].
      unfold Rdiv. rewrite <- powerRZ_inv', <- powerRZ_mult. now rewrite Q2R_frac.
    - apply Z.ltb_ge in Ee. rewrite Z.abs_neq by lia. split; [apply powerRZ_neq0; lra|].
      unfold Rdiv. rewrite <- powerRZ_inv', <- powerRZ_mult.
      rewrite powerRZ_neg', <- powerRZ_inv'. f_equal.
      rewrite (Q2R_frac b). field. lra.
  Qed.

  Lemma simplTwoEqualExpDenom_sp a b : wf P a -> wf P b -> areNumPowersWithEqualExpDenom a b = true ->
    sp (simplTwoEqualExpDenom Y W a b) (factOK (prodVal r [a; b])).
  Proof.
    intros Ha Hb E. destruct a as [| | | | | | |[b1| | | | | | |] [x1| | | | | | |]]; try discriminate E.
    destruct b as [| | | | | | |[b2| | | | | | |] [x2| | | | | | |]]; try discriminate E.
    cbn [areNumPowersWithEqualExpDenom] in E. apply Z.eqb_eq in E. cbn [simplTwoEqualExpDenom].
    destruct Ha as [Hb1 Hx1]. destruct Hb as [Hb2 Hx2].
    destruct (toThe (s_fl Y) b1 (-1 # 1)) as [i1| |] eqn:E1; auto with sp.
    destruct (toThe (s_fl Y) b2 (-1 # 1)) as [i2| |] eqn:E2; auto with sp.
    apply toThe_m1 in E1 as (Hn1 & Hi1 & Ci1); [|assumption].
    apply toThe_m1 in E2 as (Hn2 & Hi2 & Ci2); [|assumption].
    destruct (mkRat _ _) as [b|] eqn:Em; auto with sp.
    destruct ((s_limit Y <? qnum b)%Z || _).
    { apply spec_ret. split; [repeat constructor; assumption|apply ole_refl]. }
    apply mkRat_R in Em as (Cb & Hd & Eb).
    eapply spec_bind; [apply spec_relyIf'|]. intros ? Hs. cbn [holds] in Hs.
    destruct (qltb b1 0) eqn:L1; [now destruct Hs|]. destruct (qltb b2 0) eqn:L2; [now destruct Hs|]. clear Hs.
    apply Q2R_ge0 in L1, L2. assert (P1 : 0 < Q2R b1) by lra. assert (P2 : 0 < Q2R b2) by lra.
    assert (Cx : canon (1 # Z.to_pos (qden x1))).
    { unfold canon. cbn [Qnum Qden]. apply Z.gcd_1_l. }
    eapply spec_bind; [apply pow_call with (P := P); assumption|].
    intros e (He & Hev). apply spec_ret. split; [auto|]. rewrite prodVal_1, prod2. eapply ole_trans; [|exact Hev].
    destruct (evalExpNumerator_R b1 i1 (qnum x1) Hb1 Ci1 P1 Hi1) as [Z1 R1].
    destruct (evalExpNumerator_R b2 i2 (qnum x2) Hb2 Ci2 P2 Hi2) as [Z2 R2].
    assert (Ebr : Q2R b = powerRZ (Q2R b1) (qnum x1) * powerRZ (Q2R b2) (qnum x2)).
    { rewrite Eb, <- R1, <- R2, !mult_IZR. field. auto. }
    cbn [eval opow]. rewrite !rpow_pos by lra. rewrite rpow_pos.
    2:{ rewrite Ebr. apply Rmult_lt_0_compat; apply powerRZ_lt; assumption. }
    cbn [omult]. apply ole_eq. f_equal. rewrite Ebr. pose proof (IZR_den x1) as Hd1.
    rewrite <- !Rpower_IZR by assumption.
    rewrite <- Rpower_mult_distr by (unfold Rpower; apply exp_pos).
    replace (Q2R (1 # Z.to_pos (qden x1))) with (/ IZR (qden x1)).
    2:{ change (Z.to_pos (qden x1)) with (Qden x1). unfold Q2R, qden. cbn [Qnum Qden]. lra. }
    rewrite !Rpower_mult, (Q2R_frac x1), (Q2R_frac x2), E. reflexivity.
  Qed.

  Lemma simplTwoConst_sp a b : wf P a -> wf P b -> sp (simplTwoConst Y W a b) (factOK (prodVal r [a; b])).
  Proof.
    intros Ha Hb.
    assert (HNC : forall q c, canon q -> wf P c ->
              sp (simplNumAndConst Y W q c) (factOK (prodVal r [Num q; c]))).
    { intros q c Hq Hc. unfold simplNumAndConst.
      assert (Hgen : sp (ret [Num q; c]) (factOK (prodVal r [Num q; c]))).
      { apply spec_ret. split; [auto|apply ole_refl]. }
      destruct c as [| | | | | | |[b1| | | | | | |] [x1| | | | | | |]]; try exact Hgen.
      destruct Hc as [Hb1 Hx1]. eapply spec_weaken; [apply simplNumAndNumPow_sp; assumption|].
      intros l (Hl & Hv). split; [assumption|]. rewrite prod2. exact Hv. }
    assert (Hgen : sp (if haveEqualBases a b then simplTwoEqualBases Y W a b
        else if areNumPowersWithEqualExp a b then simplTwoEqualExp Y W a b
        else z <- areNumPowersWithZeroSumExp W a b ;;
        if (z : bool) then simplTwoZeroSumExp Y W a b
        else if areNumPowersWithEqualExpDenom a b then simplTwoEqualExpDenom Y W a b
        else ret (ordered Y a b)) (factOK (prodVal r [a; b]))).
    { destruct (haveEqualBases a b) eqn:E1; [now apply simplTwoEqualBases_sp|].
      destruct (areNumPowersWithEqualExp a b) eqn:E2; [now apply simplTwoEqualExp_sp|].
      eapply spec_bind; [apply areNumPowersWithZeroSumExp_sp; assumption|]. intros z Hz. destruct z.
      { destruct (Hz eq_refl) as (b1 & x1 & b2 & x2 & Ea & Eb & Es). eapply simplTwoZeroSumExp_sp; eauto. }
      destruct (areNumPowersWithEqualExpDenom a b) eqn:E3; [now apply simplTwoEqualExpDenom_sp|].
      apply spec_ret, ordered_fact; assumption. }
    unfold simplTwoConst. destruct a as [qa| | | | | | |].
    1:{ destruct b as [qb| | | | | | |]; try (apply HNC; assumption).
        apply spec_ret. unfold simplTwoNumerics. pose proof (Q2R_qmul qa qb) as HR.
        rewrite prod2, !eval_num. cbn [omult].
        destruct (qeqb (qmul qa qb) 1) eqn:E.
        - apply qeqb_leib in E. rewrite E, Q2R_1 in HR. split; [constructor|]. rewrite <- HR. reflexivity.
        - split; [constructor; [apply qmul_spec|constructor]|]. rewrite prodVal_1, eval_num, HR. reflexivity. }
    all: destruct b as [qb| | | | | | |]; try exact Hgen.
    all: eapply spec_weaken; [apply HNC; assumption|]; intros k (Hl & Hv); split; [assumption|];
      rewrite prod2, omult_comm; rewrite prod2 in Hv; exact Hv.
  Qed.

  Lemma simplTwoFactorsWithoutProduct_sp a b : wf P a -> wf P b ->
    sp (simplTwoFactorsWithoutProduct Y W a b) (factOK (prodVal r [a; b])).
  Proof.
    intros Ha Hb. unfold simplTwoFactorsWithoutProduct.
    destruct (isOne a) eqn:Ea.
    { apply (isOne_eq P) in Ea; [|assumption]. subst. apply spec_ret. split; [auto|].
      rewrite prod2, prodVal_1, eval_one, omult_1_l. apply ole_refl. }
    destruct (isOne b) eqn:Eb.
    { apply (isOne_eq P) in Eb; [|assumption]. subst. apply spec_ret. split; [auto|].
      rewrite prod2, prodVal_1, eval_one, omult_1_r. apply ole_refl. }
    destruct (isConst a && isConst b); [now apply simplTwoConst_sp|].
    destruct (haveEqualBases a b) eqn:E1; [now apply simplTwoEqualBases_sp|].
    apply spec_ret, ordered_fact; assumption.
  Qed.

  Lemma simplTwoFactors_sp n a b : wf P a -> wf P b -> sp (simplTwoFactors Y W n a b) (factOK (prodVal r [a; b])).
  Proof.
    revert a b. induction n as [|n IH]; intros a b Ha Hb; [exact I|]. cbn [simplTwoFactors].
    destruct (isProduct a || isProduct b); [|apply simplTwoFactorsWithoutProduct_sp; assumption].
    assert (Hop : forall e, wf P e -> Forall (wf P) (match e with Prod l => l | _ => [e] end) /\
                       prodVal r (match e with Prod l => l | _ => [e] end) = eval r e).
    { intros e He. destruct e; try (split; [now constructor|apply prodVal_1]). split; [now apply wf_prod|reflexivity]. }
    destruct (Hop a Ha) as (H1 & E1). destruct (Hop b Hb) as (H2 & E2).
    eapply spec_weaken; [apply merge_prod; eassumption|].
    intros l (Hl & Hv). split; [assumption|]. rewrite E1, E2 in Hv. now rewrite prod2.
  Qed.

  (** ** Contraction loops *)

  Lemma extractProduct_ok e : wf P e -> Forall (wf P) (extractProduct e) /\ prodVal r (extractProduct e) = eval r e.
  Proof.
    induction e as [| | | |f l He|l He|l He|x y He1 He2] using expr_ind2; intros Hw; try (split; [now constructor|apply prodVal_1]).
    cbn [extractProduct]. apply wf_prod in Hw. rewrite eval_prod.
    induction Hw as [|x l Hx Hl IH]; cbn [flat_map]; [split; [constructor|reflexivity]|].
    destruct (He x) as [H1 E1]; [left; reflexivity|assumption|].
    destruct IH as [H2 E2]; [intros; apply He; [right; assumption|assumption]|].
    split; [now apply Forall_app|]. now rewrite prodVal_app, prodVal_cons, E1, E2.
  Qed.
  Lemma extractProducts_ok l : Forall (wf P) l ->
    Forall (wf P) (extractProducts l) /\ prodVal r (extractProducts l) = prodVal r l.
  Proof.
    intros Hl. apply wf_prod in Hl. apply extractProduct_ok in Hl. exact Hl.
  Qed.

  Section Contract.
    Variables (check : expr -> expr -> bool) (simpl : expr -> expr -> res (list expr)).
    Hypothesis Hsimpl : forall a b, wf P a -> wf P b -> check a b = true ->
      sp (simpl a b) (factOK (prodVal r [a; b])).

    Lemma contractInner_sp n i j u found : (i < j)%nat -> Forall (wf P) u ->
      sp (contractInner n check simpl i j u found) (fun x => factOK (prodVal r u) (fst x)).
    Proof.
      revert i j u found. induction n as [|n IH]; intros i j u found Hij Hu; [exact I|]. cbn [contractInner].
      assert (Hend : sp (ret (u, found)) (fun x => factOK (prodVal r u) (fst x))).
      { apply spec_ret. split; [assumption|apply ole_refl]. }
      destruct (nth_error u i) as [a|] eqn:Ei; [|exact Hend].
      destruct (nth_error u j) as [b|] eqn:Ej; [|exact Hend].
      destruct (nth2 u i j a b Hij Ei Ej) as (l1 & l2 & l3 & -> & Hi & Hj). clear Ei Ej Hend.
      assert (Hs : wf P a /\ wf P b /\ Forall (wf P) l1 /\ Forall (wf P) l2 /\ Forall (wf P) l3).
      { apply Forall_app in Hu as [? Hu]. inversion_clear Hu as [|? ? ? Hu']. apply Forall_app in Hu' as [? Hu'].
        inversion_clear Hu'. auto. }
      destruct Hs as (Ha & Hb & H1 & H2 & H3).
      destruct (check a b) eqn:Ec; [|apply IH; [lia|assumption]].
      eapply spec_bind; [apply Hsimpl; assumption|]. intros t (Ht & Htv).
      destruct (areEqual t [a; b]); [apply IH; [lia|assumption]|].
      destruct (Nat.eqb (length t) 0 && Nat.eqb j (S i)); [exact I|].
      subst i j. rewrite firstn_len, skipn_len1.
      replace (length l1 + S (length l2) - S (length l1))%nat with (length l2) by lia. rewrite firstn_len.
      replace (skipn _ (l1 ++ a :: l2 ++ b :: l3)) with l3.
      2:{ replace (S (length l1 + S (length l2))) with (S (length (l1 ++ a :: l2))) by (rewrite app_length; cbn; lia).
          change (l1 ++ a :: l2 ++ b :: l3) with (l1 ++ (a :: l2) ++ b :: l3). rewrite app_assoc. now rewrite skipn_len1. }
      eapply spec_weaken.
      { apply IH; [lia|]. repeat (apply Forall_app; split); assumption. }
      intros (u' & f') (Hu' & Hv). split; [assumption|]. eapply ole_trans; [|exact Hv].
      eapply ole_trans with (b := omult (prodVal r [a; b]) (prodVal r (l1 ++ l2 ++ l3))).
      - apply ole_eq. rewrite <- prodVal_app. apply prodVal_perm. cbn [app].
        rewrite <- Permutation_middle. apply perm_skip. rewrite !(app_assoc l1). rewrite <- Permutation_middle. reflexivity.
      - eapply ole_trans; [apply ole_omult; [exact Htv|apply ole_refl]|]. apply ole_eq.
        rewrite <- prodVal_app. apply prodVal_perm. apply Permutation_app_swap_app.
    Qed.

    Lemma contractOuter_sp n i u c : Forall (wf P) u ->
      sp (contractOuter n check simpl i u c) (fun x => factOK (prodVal r u) (fst x)).
    Proof.
      revert i u c. induction n as [|n IH]; intros i u c Hu; [exact I|].
      change (contractOuter (S n) check simpl i u c) with
        (if Nat.ltb i (length u) then
          '(u', found) <- contractInner (S n) check simpl i (S i) u false ;;
          if (found : bool) then contractOuter n check simpl i u' true
          else contractOuter n check simpl (S i) u' c
        else ret (u, c)).
      destruct (Nat.ltb i (length u)).
      - eapply spec_bind; [apply contractInner_sp; [lia|assumption]|]. intros (u' & f) (Hu' & Hv). cbn [fst] in *.
        destruct f; (eapply spec_weaken; [apply IH; assumption|]); intros (u2 & f2) (Hu2 & Hv2);
          (split; [assumption|]); eapply ole_trans; eassumption.
      - apply spec_ret. split; [assumption|apply ole_refl].
    Qed.

    Lemma contract_sp n u : Forall (wf P) u -> sp (contract n check simpl u) (factOK (prodVal r u)).
    Proof.
      revert u. induction n as [|n IH]; intros u Hu; [exact I|].
      change (contract (S n) check simpl u) with
        ('(u', changed) <- contractOuter (S n) check simpl 0 u false ;;
         if (changed : bool) then contract n check simpl u' else ret u').
      eapply spec_bind; [apply contractOuter_sp; assumption|]. intros (u' & f) (Hu' & Hv). cbn [fst] in *.
      destruct f.
      - eapply spec_weaken; [apply IH; assumption|]. intros u2 (Hu2 & Hv2). split; [assumption|].
        eapply ole_trans; eassumption.
      - apply spec_ret. auto.
    Qed.
  End Contract.

  (** ** Constants *)

  Lemma insertSorted_perm x l : Permutation (x :: l) (insertSorted Y x l).
  Proof.
    induction l as [|y l IH]; cbn [insertSorted]; [reflexivity|]. destruct (permuted Y y x); [|reflexivity].
    rewrite perm_swap. now apply perm_skip.
  Qed.
  Lemma sortFactors_perm l : Permutation l (sortFactors Y l).
  Proof.
    induction l as [|x l IH]; cbn [sortFactors]; [reflexivity|]. rewrite <- insertSorted_perm. now apply perm_skip.
  Qed.

  Lemma contractNumerics_ok u : Forall (wf P) u -> factOK (prodVal r u) (contractNumerics u).
  Proof.
    intros Hu. unfold contractNumerics.
    assert (Hf : forall l a, canon a -> Forall (wf P) l ->
       canon (fold_left (fun a e => match e with Num q => qmul a q | _ => a end) l a) /\
       omult (Some (Q2R a)) (prodVal r l) =
       omult (Some (Q2R (fold_left (fun a e => match e with Num q => qmul a q | _ => a end) l a)))
             (prodVal r (filter (fun e => negb (isNumeric e)) l))).
    { induction l as [|x l IH]; intros a Ca Hl; [auto|]. inversion_clear Hl as [|? ? Hx Hl'].
      rewrite prodVal_cons. destruct x; cbn [fold_left filter isNumeric negb];
        try (destruct (IH a Ca Hl') as [C E]; split; [exact C|]; rewrite prodVal_cons, <- !omult_assoc;
             rewrite (omult_comm (Some (Q2R a))), omult_assoc, E, <- omult_assoc; f_equal; apply omult_comm).
      destruct (IH (qmul a q) (proj1 (qmul_spec a q)) Hl') as [C E]. split; [exact C|]. rewrite <- E, Q2R_qmul, eval_num.
      rewrite <- omult_assoc. reflexivity. }
    destruct (Hf u 1%Q eq_refl Hu) as [C E]. clear Hf. rewrite Q2R_1, omult_1_l in E.
    set (q := fold_left _ u 1%Q) in *. set (k := filter _ u) in *.
    assert (Hk : Forall (wf P) k) by now apply Forall_filter.
    destruct (qeqb q 1) eqn:E1; cbn [negb].
    - apply qeqb_leib in E1. rewrite E1, Q2R_1, omult_1_l in E. destruct k; [|split; [assumption|rewrite E; apply ole_refl]].
      split; [constructor; [assumption|constructor]|]. rewrite E, E1, prodVal_1, eval_num, Q2R_1. apply ole_refl.
    - split; [constructor; assumption|]. rewrite E, prodVal_cons. apply ole_refl.
  Qed.

  Lemma contractConstInner_sp n i j u : Forall (wf P) u ->
    sp (contractConstInner Y W n i j u) (fun x => factOK (prodVal r u) (fst x)).
  Proof.
    revert i j u. induction n as [|n IH]; intros i j u Hu; [exact I|]. cbn [contractConstInner].
    assert (Hend : sp (ret (u, i)) (fun x => factOK (prodVal r u) (fst x))).
    { apply spec_ret. split; [assumption|apply ole_refl]. }
    destruct (nth_error u i) as [a|] eqn:Ei; [|exact Hend].
    destruct (nth_error u j) as [b|] eqn:Ej; [|exact Hend].
    destruct (Nat.eqb_spec i j) as [->|Hij]; [now apply IH|].
    destruct (isContractableConst a && isContractableConst b); [|now apply IH].
    assert (Ha : wf P a) by (rewrite Forall_forall in Hu; eapply Hu, nth_error_In, Ei).
    assert (Hb : wf P b) by (rewrite Forall_forall in Hu; eapply Hu, nth_error_In, Ej).
    eapply spec_bind; [apply simplTwoConst_sp; assumption|]. intros t (Ht & Htv).
    (* positions *)
    assert (Hrep : forall x, exists rest, Permutation u (a :: b :: rest) /\
      Permutation (firstn j (firstn i u ++ x :: skipn (S i) u) ++ skipn (S j) (firstn i u ++ x :: skipn (S i) u)) (x :: rest) /\
      forall y, Permutation (firstn j (firstn i u ++ x :: skipn (S i) u) ++ y :: skipn (S j) (firstn i u ++ x :: skipn (S i) u))
        (x :: y :: rest)).
    { intros x. destruct (Nat.lt_ge_cases i j) as [Hlt|Hge].
      - destruct (nth2 u i j a b Hlt Ei Ej) as (l1 & l2 & l3 & -> & Hi & Hj). exists (l1 ++ l2 ++ l3). subst i j.
        rewrite firstn_len, skipn_len1.
        assert (E1 : firstn (length l1 + S (length l2)) (l1 ++ x :: l2 ++ b :: l3) = l1 ++ x :: l2).
        { replace (length l1 + S (length l2))%nat with (length (l1 ++ x :: l2)) by (rewrite app_length; cbn; lia).
          change (l1 ++ x :: l2 ++ b :: l3) with (l1 ++ (x :: l2) ++ b :: l3). rewrite app_assoc. apply firstn_len. }
        assert (E2 : skipn (S (length l1 + S (length l2))) (l1 ++ x :: l2 ++ b :: l3) = l3).
        { replace (length l1 + S (length l2))%nat with (length (l1 ++ x :: l2)) by (rewrite app_length; cbn; lia).
          change (l1 ++ x :: l2 ++ b :: l3) with (l1 ++ (x :: l2) ++ b :: l3). rewrite app_assoc. apply skipn_len1. }
        rewrite E1, E2. repeat split.
        + rewrite <- Permutation_middle. apply perm_skip. rewrite !(app_assoc l1). now rewrite <- Permutation_middle.
        + rewrite <- app_assoc. cbn [app]. now rewrite <- Permutation_middle.
        + intros y. rewrite <- app_assoc. cbn [app]. rewrite <- Permutation_middle. apply perm_skip.
          rewrite !(app_assoc l1). now rewrite <- Permutation_middle.
      - assert (Hlt : (j < i)%nat) by lia.
        destruct (nth2 u j i b a Hlt Ej Ei) as (l1 & l2 & l3 & -> & Hj & Hi). exists (l1 ++ l2 ++ l3). subst i j.
        assert (E1 : firstn (length l1 + S (length l2)) (l1 ++ b :: l2 ++ a :: l3) = l1 ++ b :: l2).
        { replace (length l1 + S (length l2))%nat with (length (l1 ++ b :: l2)) by (rewrite app_length; cbn; lia).
          change (l1 ++ b :: l2 ++ a :: l3) with (l1 ++ (b :: l2) ++ a :: l3). rewrite app_assoc. apply firstn_len. }
        assert (E2 : skipn (S (length l1 + S (length l2))) (l1 ++ b :: l2 ++ a :: l3) = l3).
        { replace (length l1 + S (length l2))%nat with (length (l1 ++ b :: l2)) by (rewrite app_length; cbn; lia).
          change (l1 ++ b :: l2 ++ a :: l3) with (l1 ++ (b :: l2) ++ a :: l3). rewrite app_assoc. apply skipn_len1. }
        rewrite E1, E2. replace ((l1 ++ b :: l2) ++ x :: l3) with (l1 ++ b :: l2 ++ x :: l3) by now rewrite <- app_assoc.
        rewrite firstn_len, skipn_len1. repeat split.
        + rewrite <- Permutation_middle. rewrite perm_swap. apply perm_skip. rewrite !(app_assoc l1). now rewrite <- Permutation_middle.
        + rewrite !(app_assoc l1). now rewrite <- Permutation_middle.
        + intros y. rewrite <- Permutation_middle. rewrite perm_swap. apply perm_skip. rewrite !(app_assoc l1). now rewrite <- Permutation_middle. }
    assert (Hstep : forall u2 k i' j', Permutation u2 (t ++ k) -> Forall (wf P) k -> Permutation u (a :: b :: k) ->
        sp (contractConstInner Y W n i' j' u2) (fun x => factOK (prodVal r u) (fst x))).
    { intros u2 k i' j' Hp Hk Hpu. eapply spec_weaken.
      - apply IH. eapply Permutation_Forall; [symmetry; exact Hp|]. apply Forall_app. auto.
      - intros (u3 & i3) (H3 & Hv3). split; [assumption|]. eapply ole_trans; [|exact Hv3].
        rewrite (prodVal_perm r _ _ Hp), (prodVal_perm r _ _ Hpu), prodVal_app.
        change (a :: b :: k) with ([a; b] ++ k). rewrite prodVal_app. apply ole_omult; [assumption|apply ole_refl]. }
    destruct t as [|x [|y [|z t]]]; try now apply IH.
    - destruct (Hrep x) as (k & Hp1 & Hp2 & _).
      assert (Hk : Forall (wf P) k).
      { pose proof (Permutation_Forall Hp1 Hu) as Hf. inversion_clear Hf as [|? ? ? Hp']. now inversion Hp'. }
      match goal with |- context [Nat.eqb j ?l] => destruct (Nat.eqb j l) end.
      + eapply spec_bind; [apply spec_true|]. intros ? _. eapply Hstep with (k := k); eauto.
      + eapply Hstep with (k := k); eauto.
    - destruct (Hrep x) as (k & Hp1 & _ & Hp2).
      assert (Hk : Forall (wf P) k).
      { pose proof (Permutation_Forall Hp1 Hu) as Hf. inversion_clear Hf as [|? ? ? Hp']. now inversion Hp'. }
      eapply Hstep with (k := k); eauto. apply Hp2.
  Qed.

  Lemma contractConst_sp n i u : Forall (wf P) u -> sp (contractConst Y W n i u) (factOK (prodVal r u)).
  Proof.
    revert i u. induction n as [|n IH]; intros i u Hu; [exact I|].
    change (contractConst Y W (S n) i u) with
      (if Nat.ltb i (length u) then
          '(u', i') <- contractConstInner Y W (S n) i i u ;; contractConst Y W n (S i') u'
        else ret u).
    destruct (Nat.ltb i (length u)).
    - eapply spec_bind; [apply contractConstInner_sp; assumption|]. intros (u' & i') (Hu' & Hv). cbn [fst] in *.
      eapply spec_weaken; [apply IH; assumption|]. intros u2 (Hu2 & Hv2). split; [assumption|]. eapply ole_trans; eassumption.
    - apply spec_ret. split; [assumption|apply ole_refl].
  Qed.

  Lemma prepareConst_sp n u : Forall (wf P) u -> sp (prepareConst Y W n u) (factOK (prodVal r u)).
  Proof.
    intros Hu. unfold prepareConst.
    assert (Hsu : Forall (wf P) (sortFactors Y u)) by (eapply Permutation_Forall; [apply sortFactors_perm|assumption]).
    destruct (contractNumerics_ok _ Hsu) as [H1 E1].
    rewrite <- (prodVal_perm r _ _ (sortFactors_perm u)) in E1.
    eapply spec_bind; [apply contractConst_sp; exact H1|]. intros u1 (Hu1 & Hv1).
    eapply spec_bind; [apply contract_sp; [intros; now apply simplTwoEqualExp_sp|exact Hu1]|]. intros u2 (Hu2 & Hv2).
    eapply spec_weaken; [apply contract_sp; [intros; now apply simplTwoEqualExpDenom_sp|exact Hu2]|].
    intros u3 (Hu3 & Hv3). split; [assumption|].
    eapply ole_trans; [exact E1|]. eapply ole_trans; [exact Hv1|]. eapply ole_trans; eassumption.
  Qed.
End Factors.
