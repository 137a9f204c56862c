(** Printing and parsing of well-formed expressions. *)
From Verif Require Export ShapeApi.
From Verif Require Import ExprProofs NormalProofs ParserModel PrinterModel.
From Coq Require Import Lia.
From Verif Require Import Run.
Open Scope Z_scope.

Section Print.
  Variables (Y : sys) (W : oper) (cs : charset) (fr : bool).
  Hypothesis HW : shapely W.
  Variable (P : syms).
  Notation S := (shape P P).
  Notation SL := (Forall (shape P P)).
  Notation any := (@tr text).
  Lemma s_tight k e : sh tr (tight fr k e). Proof. apply sh_relyIf. exact I. Qed.
  Section Step.
    Variable top : expr -> res text.
    Hypothesis Htop : forall e, S e -> sh any (top e).
    Lemma p_power b x : S b -> S x -> sh any (PrinterModel.power Y W fr top b x).
    Proof.
      intros Hb Hx. unfold PrinterModel.power. destruct (isEqual x half); [apply sh_tr_bind; [auto|intros; exact I]|].
      destruct (_ && _).
      - eapply sh_bind; [apply (d_minus W HW P); auto|]. intros m Hm. eapply sh_bind; [apply (d_pow W HW P); auto|]. intros d Hd.
        apply sh_tr_bind; [destruct (isScalarBase Y b); [apply s_tight|exact I]|intros _]. apply sh_tr_bind; [auto|intros; exact I].
      - apply sh_tr_bind.
        { destruct (isScalarBase Y b); [apply sh_tr_bind; [apply s_tight|intros _]; auto|apply sh_tr_bind; [auto|intros; exact I]]. }
        intros s. destruct (isOne x); [exact I|]. destruct (isScalarExp x); (apply sh_tr_bind; [auto|intros; exact I]).
    Qed.
    Lemma p_summands l : SL l -> sh any (summands W fr top l).
    Proof.
      induction 1 as [|x l Hx Hl IH]; cbn [summands]; [exact I|].
      apply sh_tr_bind; [|intros s; apply sh_tr_bind; [exact IH|intros; exact I]]. destruct (isNegativeProduct x).
      - eapply sh_bind; [apply (d_minus W HW P); auto|]. intros m Hm. apply sh_tr_bind; [apply s_tight|intros _]. apply sh_tr_bind; [auto|intros; exact I].
      - apply sh_tr_bind; [apply s_tight|intros _]. apply sh_tr_bind; [auto|intros; exact I].
    Qed.
    Lemma p_sum l : (2 <= length l)%nat -> SL l -> sh any (PrinterModel.sum W fr top l).
    Proof.
      intros H2 H. unfold PrinterModel.sum. destruct H as [|x l Hx Hl]; [cbn in H2; lia|].
      apply sh_tr_bind; [auto|intros s]. apply sh_tr_bind; [now apply p_summands|intros; exact I].
    Qed.
    Lemma p_splitFrac l : SL l -> sh (fun y => SL (fst y) /\ SL (snd y)) (splitFrac W l).
    Proof.
      induction 1 as [|f l Hf Hl IH]; cbn [splitFrac]; [split; constructor|]. destruct (isNegativeNumeric (expo f)).
      - eapply sh_bind; [apply (d_minus W HW P); constructor; [now apply (shape_expo P P)|constructor]|]. intros m Hm.
        eapply sh_bind; [apply (d_pow W HW P); auto using shape_base|]. intros d Hd. eapply sh_bind; [exact IH|]. intros y [H1 H2]. split; cbn [fst snd]; auto.
      - eapply sh_bind; [exact IH|]. intros y [H1 H2]. split; cbn [fst snd]; auto.
    Qed.
    Lemma p_moveNumber y : SL (fst y) /\ SL (snd y) -> SL (fst (moveNumber y)) /\ SL (snd (moveNumber y)).
    Proof.
      destruct y as [a b]. cbn [fst snd]. intros [Ha Hb]. unfold moveNumber. destruct a as [|[q| | | | | | |] a]; try (split; assumption).
      destruct b as [|x [|y b]]; try (split; assumption). cbn [fst snd]. inversion Ha; subst. split; constructor; auto using shape_numZ.
    Qed.
    Lemma p_factor f : S f -> sh any (factor top f).
    Proof. intros H. unfold factor. apply sh_tr_bind; [auto|intros; exact I]. Qed.
    Lemma p_factors l : SL l -> sh any (factors top l).
    Proof.
      induction 1 as [|f l Hf Hl IH]; cbn [factors]; [exact I|]. destruct l as [|g l]; [now apply p_factor|].
      apply sh_tr_bind; [now apply p_factor|intros s]. apply sh_tr_bind; [exact IH|intros; exact I].
    Qed.
    Lemma p_without l : l <> [] -> SL l -> sh any (withoutFractions W fr top l).
    Proof.
      intros Hn H. unfold withoutFractions. destruct H as [|x l Hx Hl]; [congruence|].
      assert (G : sh any (m <- minus W [x] ;;
          s <- (if isOne m then
                  _ <- relyIf (match l with Num _ :: _ | Prod _ :: _ => true | _ => false end) (CBug "sign after a sign"%string) ;;
                  ret ["-"%char]
                else if isOne x then ret []
                else s <- factor top x ;; ret (s ++ ["*"%char])) ;;
          t <- factors top l ;;
          ret (s ++ t))).
      { apply sh_tr_bind; [eapply sh_weaken; [apply (d_minus W HW P); auto|intros; exact I]|intros m].
        apply sh_tr_bind.
        - destruct (isOne m); [apply sh_tr_bind; [apply sh_relyIf; exact I|intros; exact I]|]. destruct (isOne x); [exact I|].
          apply sh_tr_bind; [now apply p_factor|intros; exact I].
        - intros s. apply sh_tr_bind; [now apply p_factors|intros; exact I]. }
      destruct l; [|exact G]. apply sh_tr_bind; [apply s_tight|intros _]. auto.
    Qed.
    Lemma p_product l : (2 <= length l)%nat -> SL l -> sh any (product W fr top l).
    Proof.
      intros H2 H. unfold product. destruct (Bool.bool_dec fr true) as [Efr|Efr]; [rewrite Efr at 1|apply Bool.not_true_is_false in Efr; rewrite Efr at 1; apply p_without; [intros ->; cbn in H2; lia|exact H]].
      eapply sh_bind; [apply p_splitFrac, H|]. intros y Hy. apply p_moveNumber in Hy. destruct (moveNumber y) as [num den]. cbn [fst snd] in Hy.
      destruct Hy as [Hnum Hden].
      apply sh_tr_bind.
      { destruct num as [|x [|z num]]; [exact I| |apply p_without; [discriminate|exact Hnum]].
        destruct (prec x <? 2)%nat; [inversion Hnum; subst; apply sh_tr_bind; [auto|intros; exact I]|apply p_without; [discriminate|exact Hnum]]. }
      intros s. cbv zeta.
      assert (G : sh any (d <- w_prod W den ;; t <- top d ;; ret (parens t))).
      { eapply sh_bind; [apply (d_prod W HW P), Hden|]. intros d Hd. apply sh_tr_bind; [auto|intros; exact I]. }
      destruct den as [|d [|d2 den]]; [exact I| |apply sh_tr_bind; [exact G|intros; exact I]].
      apply sh_tr_bind; [|intros; exact I]. destruct (2 <? prec d)%nat; [|exact G]. apply Forall_inv in Hden. apply sh_tr_bind; [apply s_tight|intros _]. auto.
    Qed.
    Lemma p_function f l : length l = arity f -> SL l -> sh any (function cs top f l).
    Proof.
      intros Ha H. unfold function. destruct H as [|x l Hx Hl]; [destruct f; discriminate|].
      apply sh_tr_bind; [auto|intros s]. apply sh_tr_bind; [|intros; exact I].
      destruct l as [|y [|z l]]; try exact I. inversion Hl; subst. apply sh_tr_bind; [auto|intros; exact I].
    Qed.
  End Step.
  Lemma p_toplevel n e : S e -> sh any (toplevel Y W cs fr n e).
  Proof.
    revert e. induction n as [|n IH]; intros e He; [exact I|]. cbn [toplevel].
    destruct e as [q|k p|c| |f l|l|l|b x]; try exact I.
    - apply sh_tr_bind; [apply sh_relyIf; exact I|intros; exact I].
    - apply shape_fct in He. destruct He as [Ha Hl]. now apply p_function.
    - apply shape_sum in He. destruct He as [Ha Hl]. now apply p_sum.
    - apply shape_prod in He. destruct He as [Ha Hl]. now apply p_product.
    - apply shape_pow in He. destruct He as (Hb & Hx & _). now apply p_power.
  Qed.
End Print.

(** ** The statements of PropShape.v *)
Lemma wf_shape P e : wellFormed P e -> shape P P e. Proof. apply shape_wellFormed. Qed.
Lemma shape_wf P e : shape P P e -> wellFormed P e. Proof. apply shape_wellFormed. Qed.
Lemma wfs_shape P l : Forall (wellFormed P) l -> Forall (shape P P) l.
Proof. apply Forall_impl. intros a. apply wf_shape. Qed.
Lemma sh_wf P m : sh (shape P P) m -> sh (wellFormed P) m.
Proof. intros H. eapply sh_weaken; [exact H|]. intros a. apply shape_wf. Qed.

Lemma program_wellFormed Y F k n t e facts : proper t -> build (world Y F k) n t = Ok e facts -> wellFormed (mentions t) e.
Proof. intros Ht E. pose proof (s_build _ (world_shapely Y F k) n t Ht) as H. rewrite E in H. now apply shape_wf. Qed.
Lemma program_behaviour Y F k n t s : proper t -> build (world Y F k) n t = UB s -> remainingUB s.
Proof. intros Ht E. pose proof (s_build _ (world_shapely Y F k) n t Ht) as H. now rewrite E in H. Qed.
Lemma program_noNew Y F k n t e facts m p : proper t -> ~ mentions t m p -> build (world Y F k) n t = Ok e facts ->
  wellFormed (fun m' p' => ~ (m' = m /\ p' = p)) e.
Proof.
  intros Ht Hm E. apply program_wellFormed in E; [|exact Ht]. apply wf_shape in E. apply shape_wf.
  assert (G : sub (mentions t) (fun m' p' => ~ (m' = m /\ p' = p))) by (intros m' p' H [-> ->]; auto).
  eapply shape_mono2; eassumption.
Qed.
Lemma functions_endWell Y F k P l a b f : Forall (wellFormed P) l -> wellFormed P a -> wellFormed P b ->
  In f [FSin; FCos; FTan; FAsin; FAcos; FAtan] -> let W := world Y F k in
  endsWell (wellFormed P) (w_sum W l) /\ endsWell (wellFormed P) (w_prod W l) /\ endsWell (wellFormed P) (w_pow W a b) /\
  endsWell (wellFormed P) (w_trig W f a) /\ endsWell (wellFormed P) (w_atan2 W a b) /\ endsWell (wellFormed P) (w_log W a) /\
  endsWell (wellFormed P) (w_expand W a) /\ endsWell (wellFormed P) (w_normal W a).
Proof.
  intros Hl Ha Hb Hf W. apply wfs_shape in Hl. apply wf_shape in Ha, Hb. pose proof (world_shapely Y F k) as HW. fold W in HW.
  pose proof (sub_refl P) as Hs.
  split; [apply sh_wf, (h_sum _ HW); auto|]. split; [apply sh_wf, (h_prod _ HW); auto|]. split; [apply sh_wf, (h_pow _ HW); auto|].
  split; [apply sh_wf, (h_trig _ HW); auto|]. { cbn [In] in Hf. now repeat (destruct Hf as [<-|Hf]; [reflexivity|]). }
  split; [apply sh_wf, (h_atan2 _ HW); auto|]. split; [apply sh_wf, (h_log _ HW); auto|].
  split; [apply sh_wf, (h_expand _ HW); auto|]. apply sh_wf, (h_normal _ HW); auto.
Qed.
Lemma simplify_endsWell Y F k P n e : wellFormed P e -> endsWell (wellFormed P) (simplifyVar (world Y F k) n e).
Proof. intros H. apply sh_wf, s_simplifyVar; [apply world_shapely|now apply wf_shape]. Qed.
Lemma diff_endsWell Y F k P n e x : wellFormed P e -> endsWell (wellFormed P) (diffTop (world Y F k) n e x).
Proof. intros H. apply sh_wf, s_diffTop; [apply world_shapely|now apply wf_shape]. Qed.
Lemma toFraction_endsWell Y F k P n e : wellFormed P e ->
  endsWell (fun nd => wellFormed P (fst nd) /\ wellFormed P (snd nd)) (toFraction (world Y F k) n e).
Proof.
  intros H. eapply sh_weaken; [apply s_toFraction with (P := P); [apply world_shapely|now apply wf_shape]|].
  intros a [H1 H2]. split; now apply shape_wf.
Qed.
Lemma subst_endsWell Y F k (P : name -> bool -> Prop) m q e t : wellFormed (fun n p => (n = m /\ p = q) \/ P n p) e -> wellFormed P t ->
  endsWell (wellFormed P) (w_subst (world Y F k) e (Sym m q) t).
Proof.
  intros He Ht. apply sh_wf. apply (h_subst2 _ (world_shapely Y F k)); [apply sub_refl| |now apply wf_shape].
  apply wf_shape in He. eapply shape_mono2; [| |exact He]; unfold sub, plus1; tauto.
Qed.
Lemma print_endsWell Y F k P cs fr n e : wellFormed P e -> endsWell (fun _ => True) (printTop Y (world Y F k) cs fr n e).
Proof. intros H. apply (p_toplevel Y _ cs fr (world_shapely Y F k) P). now apply wf_shape. Qed.
Lemma toTerm_proper t : forall u, toTerm t = Some u -> proper u.
Proof.
  induction t; cbn [toTerm]; intros u E; try discriminate; try (injection E as <-; exact I);
    repeat match type of E with context [toTerm ?a] => destruct (toTerm a) eqn:?; try discriminate end; injection E as <-;
    try (destruct f); cbn [proper]; auto.
Qed.
Lemma parse_endsWell Y F k n s t u : parseVar s = Some t -> toTerm t = Some u ->
  endsWell (wellFormed (mentions u)) (build (world Y F k) n u).
Proof. intros _ Hu. apply sh_wf, s_build; [apply world_shapely|]. now apply toTerm_proper with t. Qed.
