(** Every expression the library hands out is well formed: trigonometric functions and logarithms. *)
From Verif Require Export ShapePow.
From Verif Require Import ExprProofs NormalProofs TrigModel.
From Coq Require Import Lia.
From Verif Require Import Run.
Open Scope Z_scope.

Section Trigs.
  Variables (Y : sys) (W : oper).
  Hypothesis HW : shapely W.
  Hint Resolve HW : sh.
  Variables (E P : syms).
  Hypothesis HEP : sub E P.
  Hint Resolve HEP : sh.
  Notation S := (shape E P).
  Notation SL := (Forall (shape E P)).
  Definition optSh (o : option expr) : Prop := match o with Some e => S e | None => True end.
  Definition tabSh (t : list (expr * expr)) : Prop := Forall (pairSh E P) t.

  Lemma s_relyLt a b : sh tr (relyLt a b).
  Proof. unfold relyLt. destruct a, b; try exact I. apply sh_relyIf. exact I. Qed.
  Lemma s_relyLe a b : sh tr (relyLe a b).
  Proof. unfold relyLe. destruct a, b; try exact I. apply sh_relyIf. exact I. Qed.
  Lemma s_relyZero a : sh tr (relyZero a).
  Proof. unfold relyZero. destruct a; try exact I. apply sh_relyIf. exact I. Qed.
  Hint Resolve s_relyLt s_relyLe s_relyZero : sh.
  Lemma s_timesPi q : canon q -> sh S (timesPi W q).
  Proof. intros H. apply (h_prod _ HW E P); auto with sh. Qed.
  Hint Extern 2 (sh _ (timesPi _ _)) => apply s_timesPi; reflexivity : sh.
  Lemma s_square e : S e -> sh S (square W e).
  Proof. intros H. apply (h_pow _ HW E P); auto with sh. Qed.
  Hint Resolve s_square : sh.
  Lemma s_minusT l : SL l -> sh S (minus W l). Proof. now apply s_minus. Qed.
  Lemma s_oneOverT e : S e -> sh S (oneOver W e). Proof. now apply s_oneOver. Qed.
  Lemma s_sqrtET e : S e -> sh S (sqrtE W e). Proof. now apply s_sqrtE. Qed.
  Lemma s_sumT l : SL l -> sh S (w_sum W l). Proof. now apply (h_sum _ HW E P). Qed.
  Lemma s_prodT l : SL l -> sh S (w_prod W l). Proof. now apply (h_prod _ HW E P). Qed.
  Lemma s_constT e : S e -> sh S (constTerm W e). Proof. now apply s_constTerm. Qed.
  Lemma s_posT e : S e -> sh tr (w_pos W e). Proof. now apply (h_pos _ HW E P). Qed.
  Lemma s_negT e : S e -> sh tr (w_neg W e). Proof. now apply (h_neg _ HW E P). Qed.
  Hint Resolve s_minusT s_oneOverT s_sqrtET s_sumT s_prodT s_constT s_posT s_negT : sh.
  Lemma pairSh_i a b : S a -> S b -> pairSh E P (a, b). Proof. split; assumption. Qed.
  Hint Resolve pairSh_i : sh.

  Ltac st := eapply sh_bind; [solve [auto 6 with sh]|intros ? ?].
  Lemma s_sineTable : sh tabSh (sineTable W).
  Proof. unfold sineTable. repeat st. cbn [endsWell ret]; unfold tabSh; auto 20 with sh. Qed.
  Lemma s_tanTable : sh tabSh (tanTable W).
  Proof. unfold tanTable. repeat st. cbn [endsWell ret]; unfold tabSh; auto 20 with sh. Qed.

  Ltac st ::= eapply sh_bind; [solve [auto 6 with sh | eapply s_sineTable | eapply s_tanTable]|intros ? ?].
  Lemma s_getValue a t : tabSh t -> sh optSh (getValue Y a t).
  Proof.
    intros H. unfold getValue. unfold tabSh in H. rewrite Forall_forall in H.
    destruct (find _ t) as [kv|] eqn:E1; [apply find_some in E1 as [E1 _]; exact (proj2 (H _ E1))|].
    destruct (numericEval Y a); [|cbn; unfold remainingUB; cbn; tauto].
    destruct (find (fun kv => oEq _ _ _) t) as [kv|] eqn:E2; [|exact I]. apply find_some in E2 as [E2 _]. apply sh_tr_bind; [exact I|intros _]. exact (proj2 (H _ E2)).
  Qed.
  Lemma s_getKey a t : tabSh t -> sh optSh (getKey Y a t).
  Proof.
    intros H. induction H as [|[k v] t [H1 H2] Ht IH]; cbn [getKey]; [exact I|]. destruct (isUndefined v); [exact IH|].
    destruct (isEqual a v); [exact H1|]. destruct (oEq _ _ _); [apply sh_tr_bind; [exact I|intros _]; exact H1|exact IH].
  Qed.
  Lemma s_addUp n a t : S a -> S t -> sh S (addUp W n a t).
  Proof.
    intros Ha Ht. revert a Ha. induction n as [|n IH]; intros a Ha; [exact I|]. cbn [addUp].
    eapply sh_bind; [apply sh_quiet, s_negT, Ha|]. intros g _. destruct g; [st; auto|exact Ha].
  Qed.
  Lemma s_takeDown n a u t : S a -> S t -> sh S (takeDown Y W n a u t).
  Proof.
    intros Ha Ht. revert a Ha. induction n as [|n IH]; intros a Ha; [exact I|]. cbn [takeDown]. destruct (oGe _ _ _); [st; auto|exact Ha].
  Qed.
  Lemma s_bringUp n a u t : S a -> S t -> sh S (bringUp Y W n a u t).
  Proof.
    intros Ha Ht. revert a Ha. induction n as [|n IH]; intros a Ha; [exact I|]. cbn [bringUp]. destruct (oLt _ _ _); [st; auto|exact Ha].
  Qed.
  Hint Resolve s_addUp s_takeDown s_bringUp : sh.
  Lemma s_adjust n a : S a -> sh S (adjustArgRange Y W n a).
  Proof. intros Ha. unfold adjustArgRange. st. st. destruct (oGe _ _ _); [st; auto with sh|auto]. Qed.
  Hint Resolve s_adjust : sh.
  Lemma s_quadrant a : S a -> sh tr (getQuadrant Y W a).
  Proof.
    intros Ha. unfold getQuadrant. pose proof (s_oneOverT pi I) as H1. destruct (oneOver W pi) as [i l| | |s]; try exact I; [|exact H1].
    pose proof (s_prodT [a; i] ltac:(auto)) as H2. destruct (w_prod W [a; i]) as [m l2| | |s]; try exact I; [|exact H2].
    destruct (numericEval Y m); [exact I|]. cbn; unfold remainingUB; cbn; tauto.
  Qed.
  Lemma s_subtract k a m : S a -> S m -> sh S (subtractTimes W k a m).
  Proof. intros Ha Hm. revert a Ha. induction k as [|k IH]; intros a Ha; [exact Ha|]. cbn [subtractTimes]. st. auto. Qed.
  Hint Resolve s_quadrant s_subtract : sh.
  Lemma s_shift q a : S a -> sh S (shiftToFirstQuadrant W q a).
  Proof. intros Ha. unfold shiftToFirstQuadrant. st. st. st. destruct (_ || _); [st; auto with sh|auto]. Qed.
  Lemma s_rts s o : optSh o -> sh optSh (resultTimesSign W s o).
  Proof. intros Ho. unfold resultTimesSign. destruct o; [|exact I]. cbn in Ho. st. exact H. Qed.
  Hint Resolve s_shift s_rts s_sineTable s_tanTable s_getValue s_getKey : sh.
  Lemma s_numSin a : S a -> sh optSh (numSin Y W a).
  Proof. intros Ha. unfold numSin. st. st. st. st. now apply s_rts. Qed.
  Hint Resolve s_numSin : sh.
  Lemma s_numCos n a : S a -> sh optSh (numCos Y W n a).
  Proof. intros Ha. unfold numCos. st. st. st. now apply s_numSin. Qed.
  Hint Resolve s_numCos : sh.
  Lemma s_arg1 a : S a -> sh S (if isNumeric a then w_prod W [zero; pi] else ret a).
  Proof. intros Ha. destruct (isNumeric a); auto with sh. Qed.
  Hint Resolve s_arg1 : sh.
  Lemma s_sincos n c a : S a -> sh optSh (simplSinCos Y W n c a).
  Proof. intros Ha. unfold simplSinCos. destruct (_ && _); [exact I|]. st. st. destruct c; auto with sh. Qed.
  Hint Resolve s_sincos : sh.
  Lemma s_tan n a : S a -> sh optSh (simplTan Y W n a).
  Proof.
    intros Ha. unfold simplTan. destruct (_ && _); [exact I|]. st. st. st. st. eapply sh_bind; [apply s_getValue; eassumption|]. intros [x|] Hx.
    - cbv zeta. apply sh_tr_bind; [apply sh_relyIf; exact I|intros _]. now apply s_rts.
    - eapply sh_bind; [apply s_sincos, Ha|]. intros s Hs. eapply sh_bind; [apply s_sincos, Ha|]. intros [y|] Hy; [|exact I].
      destruct (isZero y); [exact I|]. destruct s as [x|]; [|exact I]. cbn in Hs, Hy. st. st. now apply s_rts.
  Qed.
  Lemma s_inverse f a : S a -> sh optSh (simplInverse Y W f a).
  Proof.
    intros Ha. unfold simplInverse. destruct (numericEval Y a) as [x|]; [|cbn; unfold remainingUB; cbn; tauto]. cbv zeta.
    destruct (match f with FAtan => _ | _ => _ end); [apply sh_tr_bind; [auto with sh|intros _]; exact I|].
    destruct (match f with FAtan => _ | _ => _ end); [apply sh_tr_bind; [auto with sh|intros _]; exact I|].
    eapply sh_bind with (Q := S); [destruct (nlt Y x _); auto with sh|]. intros a' Ha'.
    eapply sh_bind with (Q := tabSh); [destruct f; auto with sh|]. intros t Ht.
    eapply sh_bind; [apply s_getKey, Ht|]. intros k Hk. eapply sh_bind; [apply s_rts, Hk|]. intros v Hv.
    destruct f; try exact Hv. destruct v as [y|]; [|exact I]. cbn in Hv. st. st. st. assumption.
  Qed.
  Lemma s_numTrigo n f a : S a -> sh optSh (numTrigo Y W n f a).
  Proof. intros Ha. unfold numTrigo. destruct f; auto using s_inverse, s_tan, s_sincos. Qed.
  Lemma s_fct1 f a : trigF f = true -> S a -> S (Fct f [a]).
  Proof. intros Hf Ha. apply shape_fct. split; [now destruct f|auto]. Qed.
  Hint Resolve s_fct1 : sh.
  Lemma s_bySym b f a : trigF f = true -> S a -> sh S (bySymmetry W b f a).
  Proof.
    intros Hf Ha. unfold bySymmetry. st. eapply sh_bind with (Q := S); [destruct b; [now apply (h_trig _ HW E P)|now apply s_fct1]|]. intros r Hr.
    destruct f; try discriminate Hf; auto with sh. st. st. auto with sh.
  Qed.
  Lemma s_anp l : SL l -> sh tr (allNegPrefactors W l).
  Proof. intros H. induction H as [|x l Hx Hl IH]; cbn [allNegPrefactors]; [exact I|]. st. st. destruct a0; [exact I|exact IH]. Qed.
  Lemma s_dsa a : S a -> sh tr (doesSymmetryApply W a).
  Proof.
    intros Ha. unfold doesSymmetryApply. apply sh_quiet. destruct a; try exact I; [apply shape_sum in Ha as [_ Ha]; now apply s_anp|].
    eapply sh_bind; [apply (h_expand _ HW E P); auto|]. intros e He. st. auto with sh.
  Qed.
  Lemma s_createNum n f a : trigF f = true -> S a -> sh S (createNumerically Y W n f a).
  Proof.
    intros Hf Ha. unfold createNumerically. eapply sh_bind; [apply s_numTrigo, Ha|]. intros [e|] He; [exact He|].
    eapply sh_bind; [apply sh_quiet, s_negT, Ha|]. intros g _. destruct g; [now apply s_bySym|now apply s_fct1].
  Qed.
  Lemma s_shiftRange n f a : S a -> sh S (shiftArgIntoRange Y W n f a).
  Proof.
    intros Ha. unfold shiftArgIntoRange.
    eapply sh_bind with (Q := S).
    { destruct f; solve [reflexivity | auto with sh]. }
    intros lo Hlo.
    eapply sh_bind with (Q := S); [destruct f; auto with sh|]. intros up Hup. cbv zeta. st. st. st. st.
    eapply sh_bind with (Q := S).
    { assert (Hef : S (match f with FAtan => mOne | _ => one end)) by (destruct f; reflexivity).
      destruct (oGe _ _ _); [st; st; auto with sh|auto with sh]. }
    intros c Hc. do 2 (apply sh_tr_bind; [exact I|intros _]). exact Hc.
  Qed.
  Lemma s_normalFrac a b : S a -> S b -> sh S (normalFrac W a b).
  Proof. intros Ha Hb. unfold normalFrac. st. st. now apply (h_normal _ HW E P). Qed.
  Lemma s_use (b : bool) m : sh S m -> sh S (if b then m else quiet m).
  Proof. intros H. destruct b; [exact H|now apply sh_quiet]. Qed.
  Lemma s_ftni f g l : trigF f = true -> g <> FLog -> S (Fct g l) -> sh S (fromTrigoNoInverse W f g l).
  Proof.
    intros Hf Hg H. assert (Hr : S (Fct f [Fct g l])) by now apply s_fct1. unfold fromTrigoNoInverse. apply shape_fct in H as [Ha H].
    destruct l as [|x l]; [destruct g; discriminate|]. inversion H; subst. cbv zeta.
    assert (Hy : S (last (x :: l) x)) by now apply Forall_last.
    set (y := last (x :: l) x) in *. clearbody y.
    eapply sh_bind; [apply s_use; repeat st; auto with sh|]. intros a1 H1.
    eapply sh_bind; [apply s_use; repeat st; auto with sh|]. intros a2 H2'.
    eapply sh_bind; [apply s_use; repeat st; auto with sh|]. intros a3 H3'.
    destruct f; try exact Hr; destruct g; try exact Hr; try exact H1; apply s_normalFrac; auto with sh.
  Qed.
  Lemma s_fromFunction n f g l : trigF f = true -> S (Fct g l) -> sh S (fromFunction Y W n f g l).
  Proof.
    intros Hf H. assert (Hr : S (Fct f [Fct g l])) by now apply s_fct1. unfold fromFunction. cbv zeta.
    assert (Hd : g = FLog \/ g <> FLog) by (destruct g; (now left) || (right; discriminate)). destruct Hd as [->|Hg]; [exact Hr|].
    pose proof H as H0. apply shape_fct in H0 as [Ha H0].
    destruct l as [|x l]; [destruct g; discriminate|]. inversion H0; subst.
    assert (Hy : S (last (x :: l) x)) by now apply Forall_last.
    assert (G : sh S (if isOtherTheInverse f g then ret x
            else match f, g with
            | FTan, FAtan2 => atan2ArgEval W x (last (x :: l) x)
            | _, _ =>
                if isOtherTheInverse g f && (match numericEval Y (Fct g (x :: l)) with Some _ => true | None => false end)
                then shiftArgIntoRange Y W n f x
                else fromTrigoNoInverse W f g (x :: l)
            end)).
    { destruct (isOtherTheInverse f g); [assumption|].
      assert (G2 : sh S (if isOtherTheInverse g f && (match numericEval Y (Fct g (x :: l)) with Some _ => true | None => false end)
                then shiftArgIntoRange Y W n f x
                else fromTrigoNoInverse W f g (x :: l))).
      { destruct (_ && _); [now apply s_shiftRange|now apply s_ftni]. }
      destruct f; try exact G2; destruct g; try exact G2. unfold atan2ArgEval. st. auto with sh. }
    destruct g; try exact G. congruence.
  Qed.
  Lemma s_trig n f a : trigF f = true -> S a -> sh S (trigCreate Y W n f a).
  Proof.
    intros Hf Ha. unfold trigCreate.
    assert (G : sh S (s <- doesSymmetryApply W a ;;
        if (s : bool) then bySymmetry W true f a
        else match numericEval Y a with Some _ => createNumerically Y W n f a | None => ret (Fct f [a]) end)).
    { eapply sh_bind; [now apply s_dsa|]. intros s _. destruct s; [now apply s_bySym|]. destruct (numericEval Y a); [now apply s_createNum|now apply s_fct1]. }
    destruct a as [| | | |g l| | |]; try exact G; [exact I|]. now apply s_fromFunction.
  Qed.
  Lemma s_sarir n r s : S r -> S s -> sh S (shiftAtanResultIntoRange Y W n r s).
  Proof.
    intros Hr Hs. unfold shiftAtanResultIntoRange. st. apply sh_tr_bind; [apply sh_relyIf; exact I|intros _]. st. st.
    eapply sh_bind with (Q := S); [destruct (oGe _ _ _); [st; auto with sh|auto with sh]|]. intros b Hb.
    do 2 (apply sh_tr_bind; [exact I|intros _]). exact Hb.
  Qed.
  Lemma s_sat2 n y x i b : S y -> S x -> S i -> sh S (simplAtan2 Y W n y x i b).
  Proof.
    intros Hy Hx Hi. unfold simplAtan2. cbv zeta. eapply sh_bind with (Q := S); [unfold atan2ArgEval; st; auto with sh|]. intros a Ha.
    assert (G : sh S (s <- numTrigo Y W n FAtan a ;;
        match s with
        | Some e => shiftAtanResultIntoRange Y W n e i
        | None =>
            g <- quiet (w_neg W a) ;;
            r <- (if (g : bool) then bySymmetry W true FAtan a else ret (Fct FAtan [a])) ;;
            _ <- relyIf (negb b) (CSame (Fct FAtan2 [y; x]) r) ;;
            ret r
        end)).
    { eapply sh_bind; [apply s_numTrigo, Ha|]. intros [e|] He; [now apply s_sarir|].
      eapply sh_bind; [apply sh_quiet, s_negT, Ha|]. intros g _.
      eapply sh_bind with (Q := S); [destruct g; [now apply s_bySym|now apply s_fct1]|]. intros r Hr.
      apply sh_tr_bind; [apply sh_relyIf; exact I|intros _]. exact Hr. }
    destruct a as [| | | |g l| | |]; try exact G. destruct g; try exact G. destruct l as [|z l]; [exact G|].
    apply shape_fct in Ha as [_ Ha]. inversion Ha; subst. apply sh_tr_bind; [exact I|intros _]. assumption.
  Qed.
  Lemma s_atan2 n y x : S y -> S x -> sh S (atan2Create Y W n y x).
  Proof.
    intros Hy Hx. unfold atan2Create. destruct (_ || _); [exact I|].
    assert (G : S (Fct FAtan2 [y; x])) by (apply shape_fct; split; auto).
    destruct (numericEval Y x) as [a|]; [|exact G]. destruct (numericEval Y y) as [b|]; [|exact G].
    destruct (_ && _); [do 2 (apply sh_tr_bind; [auto with sh|intros _]); auto with sh|].
    destruct (_ && _); [do 2 (apply sh_tr_bind; [auto with sh|intros _]); auto with sh|].
    destruct (_ && _); [do 2 (apply sh_tr_bind; [auto with sh|intros _]); exact I|].
    destruct (nlt Y _ a); [apply sh_tr_bind; [auto with sh|intros _]; apply sh_tr_bind; [destruct (nlt Y b _); [exact I|auto with sh]|intros _]; apply s_sat2; auto with sh|].
    apply sh_tr_bind; [auto with sh|intros _]. eapply sh_bind with (Q := S); [destruct (nge Y b _); auto with sh|]. intros i Hi. now apply s_sat2.
  Qed.
  Lemma s_log a : S a -> sh S (logCreate Y W a).
  Proof.
    intros Ha. unfold logCreate. eapply sh_bind with (Q := tr).
    { destruct (_ || _); [exact I|]. destruct (match a with Pow _ _ => _ | _ => _ end); [exact I|]. eapply sh_bind; [now apply s_negT|]. intros g _.
      destruct g; [exact I|]. destruct (numericEval Y a); [|exact I]. destruct (neq Y _ _); [|exact I]. apply sh_tr_bind; [auto with sh|intros; exact I]. }
    intros iv _. destruct iv; [exact I|]. destruct (isOne a); [reflexivity|].
    assert (G : S (Fct FLog [a])) by (apply shape_fct; split; auto).
    destruct a as [| |[]| | | | |b x]; try exact G; [reflexivity|]. destruct Ha as (Hb & Hx & _).
    apply sh_tr_bind; [unfold relyPosBase; destruct b; try exact I; apply sh_relyIf; exact I|intros _].
    eapply sh_bind; [apply (h_log _ HW E P); auto|]. intros l Hl. apply s_prodT. constructor; [now apply shape_up|auto].
  Qed.
End Trigs.
