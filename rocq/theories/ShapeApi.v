(** Every expression the library hands out is well formed: the functions together, and programs. *)
From Verif Require Export ShapeNormal.
From Verif Require Import ExprProofs NormalProofs NumberProofs NumPowerProofs ParserModel.
From Coq Require Import Lia.
From Verif Require Import Run.
Open Scope Z_scope.

Lemma step_shapely Y F W : shapely W -> shapely (step Y F W).
Proof.
  intros HW. constructor; intros; cbn [step w_sum w_prod w_pow w_spow w_trig w_atan2 w_log w_expand w_subst w_pos w_neg w_normal w_normalF w_gcd].
  - now apply s_sum.
  - now apply s_prod.
  - now apply ShapePow.s_pow.
  - now apply (s_spow Y W HW E P).
  - now apply ShapeTrig.s_trig.
  - now apply ShapeTrig.s_atan2.
  - now apply ShapeTrig.s_log.
  - now apply s_expand.
  - now apply s_subst0.
  - now apply s_subst1.
  - now apply s_subst2.
  - now apply (s_pos Y W HW E P).
  - now apply (s_neg Y W HW E P).
  - now apply s_normalTop.
  - now apply s_normalF.
  - now apply s_gcd.
Qed.
Lemma world_shapely Y F k : shapely (world Y F k).
Proof. induction k as [|k IH]; [constructor; intros; exact I|]. cbn [world]. now apply step_shapely. Qed.

Section Api.
  Variables (W : oper).
  Hypothesis HW : shapely W.
  Lemma s_normalLoop P n a b : shape P P a -> shape P P b -> sh (shape P P) (normalLoop W n a b).
  Proof.
    revert a b. induction n as [|n IH]; intros a b Ha Hb; cbn [normalLoop]; (destruct (isEqual b a); [exact Hb|]); [exact I|].
    eapply sh_bind; [apply (h_normal _ HW P P); auto using sub_refl|]. intros c Hc. now apply IH.
  Qed.
  Lemma s_simplifyVar P n e : shape P P e -> sh (shape P P) (simplifyVar W n e).
  Proof.
    intros He. unfold simplifyVar. eapply sh_bind; [apply (h_expand _ HW P P); auto using sub_refl|]. intros x Hx.
    eapply sh_bind; [apply (h_normal _ HW P P); auto using sub_refl|]. intros nx Hnx. destruct (isUndefined nx); [exact Hnx|].
    eapply sh_bind; [apply (s_normalLoop P); assumption|]. intros nl Hnl.
    eapply sh_bind; [apply (h_expand _ HW P P); auto using sub_refl|]. intros en Hen. cbv zeta. cbn [endsWell ret].
    repeat match goal with |- shape _ _ (if ?b then _ else _) => destruct b end; assumption.
  Qed.
  Lemma s_toFraction P n e : shape P P e -> sh (pairSh P P) (toFraction W n e).
  Proof.
    intros He. set (k := Datatypes.S (nameLen e)). set (P0 := both P (short k)).
    assert (He0 : shape P0 P0 e) by (apply shape_short; [exact He|unfold k; lia]).
    eapply sh_weaken with (Q := pairSh P0 P0); [|intros a [H1 H2]; split; (eapply shape_mono2; [apply both_l|apply both_l|eassumption])].
    unfold toFraction. eapply sh_bind.
    { apply (h_normalF _ HW P0 P0); [apply sub_refl| |exact He0]. split; [intros m p [_ H]; exact H|]. intros [|i] m p t Hi; discriminate Hi. }
    intros [[a b] m] (_ & _ & Hm & Ha & Hb).
    eapply sh_bind; [apply (s_replaceBack W HW P0 P0 (sub_refl _)); assumption|]. intros b' Hb'.
    eapply sh_bind; [apply (s_replaceBack W HW P0 P0 (sub_refl _)); assumption|]. intros a' Ha'.
    apply sh_tr_bind; [apply sh_relyIf; exact I|intros _]. split; assumption.
  Qed.
  Section Diff.
    Variable (P : syms).
    Notation S := (shape P P).
    Lemma d_sum l : Forall S l -> sh S (w_sum W l). Proof. apply (h_sum _ HW P P). apply sub_refl. Qed.
    Lemma d_prod l : Forall S l -> sh S (w_prod W l). Proof. apply (h_prod _ HW P P). apply sub_refl. Qed.
    Lemma d_pow b x : S b -> S x -> sh S (w_pow W b x). Proof. apply (h_pow _ HW P P). apply sub_refl. Qed.
    Lemma d_minus l : Forall S l -> sh S (minus W l). Proof. apply (s_minus W HW P P). apply sub_refl. Qed.
    Lemma d_oneOver e : S e -> sh S (oneOver W e). Proof. apply (s_oneOver W HW P P). apply sub_refl. Qed.
    Lemma d_square e : S e -> sh S (square W e). Proof. intros. apply d_pow; auto with sh. Qed.
    Lemma d_trig f e : trigF f = true -> S e -> sh S (w_trig W f e). Proof. apply (h_trig _ HW P P). apply sub_refl. Qed.
    Lemma d_normal e : S e -> sh S (w_normal W e). Proof. apply (h_normal _ HW P P). apply sub_refl. Qed.
    Lemma d_log e : S e -> sh S (w_log W e). Proof. apply (h_log _ HW P P). apply sub_refl. Qed.
    Lemma d_arg y x : S y -> S x -> sh S (atan2ArgEval W y x).
    Proof. intros. unfold atan2ArgEval. eapply sh_bind; [now apply d_oneOver|]. intros. apply d_prod. auto. Qed.
    Hint Resolve d_sum d_prod d_pow d_minus d_oneOver d_square d_trig d_normal d_log d_arg : sh.
    Ltac st := eapply sh_bind; [solve [auto 6 with sh]|intros ? ?].
    Lemma s_innerDiff f l : f <> FLog -> S (Fct f l) -> sh S (innerDiff W f l).
    Proof.
      intros Hf H. apply shape_fct in H as [Ha H]. unfold innerDiff.
      destruct f; try congruence; cbn [arity] in Ha;
        (destruct l as [|a [|b [|c l]]]; try discriminate Ha); (inversion H as [|? ? Hx H2]; subst); try (inversion H2; subst);
        repeat st; auto 6 with sh.
    Qed.
    Lemma s_productRule d l : Forall (fun e => S e /\ sh S (d e)) l -> forall pre, Forall S pre -> sh (Forall S) (productRule W d pre l).
    Proof.
      induction 1 as [|f l [Hf Hd] Hl IH]; intros pre Hp; cbn [productRule]; [constructor|].
      assert (Hl' : Forall S l) by (eapply Forall_impl; [|exact Hl]; intros x Hx; apply Hx).
      eapply sh_bind; [exact Hd|]. intros f' Hf'. eapply sh_bind; [apply d_prod; constructor; [exact Hf'|apply Forall_app; auto]|]. intros p Hp'.
      eapply sh_bind; [apply IH; apply Forall_app; auto|]. intros s Hs. constructor; assumption.
    Qed.
    Lemma s_diffE n x e : S e -> sh S (diffE W n x e).
    Proof.
      revert e. induction n as [|n IH]; intros e He; [exact I|]. cbn [diffE]. destruct e as [q|m p|c| |f l|l|l|b y].
      - reflexivity.
      - cbn [endsWell ret]. destruct (isEqual _ _); reflexivity.
      - reflexivity.
      - exact I.
      - pose proof He as H0. apply shape_fct in H0 as [Ha H].
        destruct (trigF f) eqn:Ef.
        { assert (Hf : f <> FLog) by (intros ->; discriminate Ef).
          destruct l as [|a [|a2 l]]; [destruct f; discriminate|inversion H; subst|destruct f; discriminate].
          assert (G : sh S (o <- diffE W n x a ;; i <- innerDiff W f [a] ;; p <- w_prod W [i; o] ;; w_normal W p)).
          { eapply sh_bind; [now apply IH|]. intros o Ho. eapply sh_bind; [now apply s_innerDiff|]. intros i Hi. st. auto with sh. }
          destruct f; try discriminate Ef; exact G. }
        destruct f; try discriminate Ef.
        + destruct l as [|a [|b [|]]]; try discriminate. inversion H as [|? ? H1 H2]; subst. inversion H2; subst.
          st. eapply sh_bind; [apply IH; assumption|]. intros o Ho. eapply sh_bind; [apply s_innerDiff; [discriminate|exact He]|]. intros i Hi. st. auto with sh.
        + destruct l as [|a [|]]; try discriminate. inversion H; subst. st. eapply sh_bind; [apply IH; assumption|]. intros o Ho. auto with sh.
      - apply shape_sum in He as [_ He]. eapply sh_bind; [apply (sh_mapM S S); [exact He|exact IH]|]. intros s [_ Hs]. auto with sh.
      - apply shape_prod in He as [_ He]. eapply sh_bind.
        { apply s_productRule; [|constructor]. eapply Forall_impl; [|exact He]. intros a Ha. split; auto. }
        intros s Hs. auto with sh.
      - pose proof He as (Hb & Hy & _). st. eapply sh_bind; [apply IH, Hy|]. intros dy Hdy. st. st.
        eapply sh_bind; [apply IH, Hb|]. intros db Hdb. st. st. auto with sh.
    Qed.
    Lemma s_diffTop n e x : S e -> sh S (diffTop W n e x).
    Proof. intros H. unfold diffTop. destruct x; try exact I. now apply s_diffE. Qed.
  End Diff.

  Lemma name_dec (n m : name) (p q : bool) : (n = m /\ p = q) \/ ~ (n = m /\ p = q).
  Proof.
    destruct (nameEq n m) eqn:E1; [|right; intros [-> _]; now rewrite nameEq_refl in E1].
    apply nameEq_eq in E1. subst. destruct (Bool.bool_dec p q) as [->|H]; [now left|right; intros [_ H1]; now apply H].
  Qed.
  Lemma s_build n t : proper t -> sh (shape (mentions t) (mentions t)) (build W n t).
  Proof.
    induction t as [z|a b|m p|c|a IHa b IHb|a IHa b IHb|a IHa b IHb|a IHa b IHb|a IHa|a IHa b IHb|a IHa|a IHa|f a IHa|a IHa b IHb|a IHa m p b IHb|a IHa|a IHa|a IHa];
      intros Ht; cbn [build proper] in *;
      try (destruct Ht as [Ha Hb]; specialize (IHa Ha); specialize (IHb Hb));
      try match goal with |- sh (shape ?P _) _ => set (Q := P) in * end.
    - apply shape_numZ.
    - destruct (mkRat a b) as [q|] eqn:E; [|exact I]. now apply mkRat_spec in E as [E _].
    - split; reflexivity.
    - exact I.
    - eapply sh_bind; [exact IHa|]. intros x Hx. eapply sh_bind; [exact IHb|]. intros y Hy.
      assert (Hx' : shape Q Q x) by (eapply shape_mono2; [| |exact Hx]; intros k q H; now left).
      assert (Hy' : shape Q Q y) by (eapply shape_mono2; [| |exact Hy]; intros k q H; now right). apply (d_sum Q); auto.
    - eapply sh_bind; [exact IHa|]. intros x Hx. eapply sh_bind; [exact IHb|]. intros y Hy.
      assert (Hx' : shape Q Q x) by (eapply shape_mono2; [| |exact Hx]; intros k q H; now left).
      assert (Hy' : shape Q Q y) by (eapply shape_mono2; [| |exact Hy]; intros k q H; now right).
      unfold varSub. eapply sh_bind; [apply (d_minus Q); auto|]. intros. apply (d_sum Q); auto.
    - eapply sh_bind; [exact IHa|]. intros x Hx. eapply sh_bind; [exact IHb|]. intros y Hy.
      assert (Hx' : shape Q Q x) by (eapply shape_mono2; [| |exact Hx]; intros k q H; now left).
      assert (Hy' : shape Q Q y) by (eapply shape_mono2; [| |exact Hy]; intros k q H; now right). apply (d_prod Q); auto.
    - eapply sh_bind; [exact IHa|]. intros x Hx. eapply sh_bind; [exact IHb|]. intros y Hy.
      assert (Hx' : shape Q Q x) by (eapply shape_mono2; [| |exact Hx]; intros k q H; now left).
      assert (Hy' : shape Q Q y) by (eapply shape_mono2; [| |exact Hy]; intros k q H; now right).
      unfold varDiv. eapply sh_bind; [apply (d_oneOver Q); exact Hy'|]. intros. apply (d_prod Q); auto.
    - eapply sh_bind; [now apply IHa|]. intros x Hx. apply (d_minus Q); auto.
    - eapply sh_bind; [exact IHa|]. intros x Hx. eapply sh_bind; [exact IHb|]. intros y Hy.
      assert (Hx' : shape Q Q x) by (eapply shape_mono2; [| |exact Hx]; intros k q H; now left).
      assert (Hy' : shape Q Q y) by (eapply shape_mono2; [| |exact Hy]; intros k q H; now right). apply (d_pow Q); auto.
    - eapply sh_bind; [now apply IHa|]. intros x Hx. apply (s_sqrtE W HW _ _ (sub_refl _)); auto.
    - eapply sh_bind; [now apply IHa|]. intros x Hx. apply (d_log Q); auto.
    - destruct Ht as [Hf Ha]. eapply sh_bind; [now apply IHa|]. intros x Hx. apply (d_trig Q); auto. now destruct f.
    - eapply sh_bind; [exact IHa|]. intros x Hx. eapply sh_bind; [exact IHb|]. intros y Hy.
      assert (Hx' : shape Q Q x) by (eapply shape_mono2; [| |exact Hx]; intros k q H; now left).
      assert (Hy' : shape Q Q y) by (eapply shape_mono2; [| |exact Hy]; intros k q H; now right). apply (h_atan2 _ HW Q Q); auto using sub_refl.
    - eapply sh_bind; [exact IHb|]. intros y Hy. eapply sh_bind; [apply sh_inEnv; exact IHa|]. intros x Hx.
      assert (HQ : sub (mentions a) (plus1 Q m p)).
      { intros k q H. destruct (name_dec k m q p) as [H1|H1]; [now right|left; left; auto]. }
      apply (h_subst2 _ HW Q Q); [apply sub_refl| |].
      + eapply shape_mono2; [exact HQ|exact HQ|exact Hx].
      + eapply shape_mono2; [| |exact Hy]; intros k q H; now right.
    - eapply sh_bind; [now apply IHa|]. intros x Hx. apply (h_expand _ HW Q Q); auto using sub_refl.
    - eapply sh_bind; [now apply IHa|]. intros x Hx. apply (d_normal Q); auto.
    - eapply sh_bind; [now apply IHa|]. intros x Hx. apply (s_simplifyVar Q); auto.
  Qed.
End Api.
