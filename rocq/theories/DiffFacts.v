(** Derivatives of partial functions. *)
From Verif Require Export DiffSpec RunFacts.
From Coq Require Import Lra Lia.
Open Scope R_scope.

Lemma near_and t P Q : near t P -> near t Q -> near t (fun s => P s /\ Q s).
Proof.
  intros [d1 [H1 K1]] [d2 [H2 K2]]. exists (Rmin d1 d2). split; [apply Rmin_pos; auto|].
  intros s Hs. pose proof (Rmin_l d1 d2). pose proof (Rmin_r d1 d2). split; [apply K1|apply K2]; lra.
Qed.
Lemma near_imp t (P Q : R -> Prop) : near t P -> (forall s, P s -> Q s) -> near t Q.
Proof. intros [d [H K]] I. exists d. split; auto. Qed.
Lemma near_all t (P : R -> Prop) : (forall s, P s) -> near t P.
Proof. exists 1. split; [lra|auto]. Qed.
Lemma near_at t (P : R -> Prop) : near t P -> P t.
Proof. intros [d [H K]]. apply K. rewrite Rminus_diag_eq, Rabs_R0; auto. Qed.

(** A derivative depends on the values near the point only. *)
Lemma deriv_near f g t d : near t (fun s => f s = g s) -> derivable_pt_lim f t d -> derivable_pt_lim g t d.
Proof.
  intros Hn Hd eps He. destruct (Hd eps He) as [del Hdel]. pose proof (near_at _ _ Hn) as Ht. cbn in Ht.
  destruct Hn as [d1 [H1 K1]].
  assert (Hm : 0 < Rmin del d1) by (apply Rmin_pos; [apply cond_pos|auto]).
  exists (mkposreal _ Hm). cbn. intros h Hh Hb. pose proof (Rmin_l del d1). pose proof (Rmin_r del d1).
  rewrite <- Ht, <- (K1 (t + h)); [apply Hdel; auto; lra|]. replace (t + h - t) with h by lra. lra.
Qed.
Lemma deriv_cont f t d : derivable_pt_lim f t d -> forall P, near (f t) P -> near t (fun s => P (f s)).
Proof.
  intros Hd P [e [He K]].
  assert (Hc : continuity_pt f t) by (apply derivable_continuous_pt; exists d; exact Hd).
  destruct (Hc e He) as [a [Ha Hb]]. exists a. split; [exact Ha|]. intros s Hs.
  apply K. destruct (Req_dec s t) as [->|Hn]; [rewrite Rminus_diag_eq, Rabs_R0; auto|].
  apply Hb. split; [split; [exact I|auto]|exact Hs].
Qed.

Lemma hd_ext g g' t d : (forall s, g s = g' s) -> hasDeriv g t d -> hasDeriv g' t d.
Proof. intros E [h [H K]]. exists h. split; [|exact K]. eapply near_imp; [exact H|]. intros s Hs. rewrite <- E. exact Hs. Qed.
Lemma hd_val g t d : hasDeriv g t d -> exists v, g t = Some v.
Proof. intros [h [H _]]. apply near_at in H. eauto. Qed.
Lemma hd_eq g t d d' : hasDeriv g t d -> d = d' -> hasDeriv g t d'.
Proof. intros H <-. exact H. Qed.

Lemma hd_const g t c : (forall s, g s = Some c) -> hasDeriv g t 0.
Proof. intros H. exists (fun _ => c). split; [apply near_all, H|apply derivable_pt_lim_const]. Qed.
Lemma hd_id t : hasDeriv (fun s => Some s) t 1.
Proof. exists (fun s => s). split; [apply near_all; auto|apply derivable_pt_lim_id]. Qed.
Lemma hd_plus f g t a b : hasDeriv f t a -> hasDeriv g t b -> hasDeriv (fun s => oplus (f s) (g s)) t (a + b).
Proof.
  intros [h [H K]] [h' [H' K']]. exists (fun s => h s + h' s). split.
  - eapply near_imp; [apply near_and; [exact H|exact H']|]. intros s [E E']. rewrite E, E'. reflexivity.
  - apply (derivable_pt_lim_plus h h'); assumption.
Qed.
Lemma hd_mult f g t a b v w : hasDeriv f t a -> hasDeriv g t b -> f t = Some v -> g t = Some w ->
  hasDeriv (fun s => omult (f s) (g s)) t (a * w + v * b).
Proof.
  intros [h [H K]] [h' [H' K']] Hv Hw. exists (fun s => h s * h' s). split.
  - eapply near_imp; [apply near_and; [exact H|exact H']|]. intros s [E E']. rewrite E, E'. reflexivity.
  - apply near_at in H. apply near_at in H'. cbn in H, H'.
    replace v with (h t) by congruence. replace w with (h' t) by congruence.
    apply (derivable_pt_lim_mult h h'); assumption.
Qed.
(** The chain rule. *)
Lemma hd_comp (phi : R -> option R) (G : R -> R) g t d w G' :
  hasDeriv g t d -> g t = Some w -> near w (fun y => phi y = Some (G y)) -> derivable_pt_lim G w G' ->
  hasDeriv (fun s => match g s with Some y => phi y | None => None end) t (G' * d).
Proof.
  intros [h [H K]] Hw Hn HG. pose proof (near_at _ _ H) as Ht. cbn in Ht.
  assert (E : h t = w) by congruence. subst w.
  exists (fun s => G (h s)). split.
  - eapply near_imp; [apply near_and; [exact H|apply (deriv_cont h t d K _ Hn)]|].
    intros s [E1 E2]. rewrite E1. exact E2.
  - apply (derivable_pt_lim_comp h G); assumption.
Qed.

(** Elementary functions. *)
Lemma near_lt t a : t < a -> near t (fun s => s < a).
Proof. intros H. exists (a - t). split; [lra|]. intros s Hs. apply Rabs_def2 in Hs. lra. Qed.
Lemma near_gt t a : a < t -> near t (fun s => a < s).
Proof. intros H. exists (t - a). split; [lra|]. intros s Hs. apply Rabs_def2 in Hs. lra. Qed.

Lemma deriv_ln v : 0 < v -> derivable_pt_lim ln v (/ v).
Proof. intros H. apply derivable_pt_lim_ln. exact H. Qed.
Lemma deriv_tan v : cos v <> 0 -> derivable_pt_lim tan v (1 + tan v * tan v).
Proof.
  intros H.
  assert (K : derivable_pt_lim (sin / cos)%F v ((cos v * cos v - - sin v * sin v) / Rsqr (cos v))).
  { apply derivable_pt_lim_div; [apply derivable_pt_lim_sin|apply derivable_pt_lim_cos|exact H]. }
  replace (1 + tan v * tan v) with ((cos v * cos v - - sin v * sin v) / Rsqr (cos v)).
  - exact K.
  - unfold tan, Rsqr. field. exact H.
Qed.
Lemma deriv_asin v : -1 < v < 1 -> derivable_pt_lim asin v (/ sqrt (1 - v * v)).
Proof.
  intros H. pose proof (derive_pt_asin v H) as E. unfold derive_pt in E.
  destruct (derivable_pt_asin v H) as [l Hl]. cbn in E. subst l.
  unfold Rsqr in Hl. unfold Rdiv in Hl. rewrite Rmult_1_l in Hl. exact Hl.
Qed.
Lemma deriv_acos v : -1 < v < 1 -> derivable_pt_lim acos v (- / sqrt (1 - v * v)).
Proof.
  intros H. pose proof (derive_pt_acos v H) as E. unfold derive_pt in E.
  destruct (derivable_pt_acos v H) as [l Hl]. cbn in E.
  replace (- / sqrt (1 - v * v)) with l; [exact Hl|]. rewrite E. unfold Rsqr, Rdiv. ring.
Qed.
Lemma deriv_atan v : derivable_pt_lim atan v (/ (1 + v * v)).
Proof.
  pose proof (derivable_pt_lim_atan v) as H. unfold Rsqr in H. replace (/ (1 + v * v)) with (/ (1 + v ^ 2)); [exact H|].
  f_equal. ring.
Qed.

Definition dfct (f : fct) (v : R) : R :=
  match f with
  | FSin => cos v | FCos => - sin v | FTan => 1 + tan v * tan v
  | FAsin => / sqrt (1 - v * v) | FAcos => - / sqrt (1 - v * v) | FAtan => / (1 + v * v)
  | FLog => / v | FAtan2 => 0
  end.
Definition gfct (f : fct) (v : R) : R :=
  match f with
  | FSin => sin v | FCos => cos v | FTan => tan v | FAsin => asin v | FAcos => acos v | FAtan => atan v
  | FLog => ln v | FAtan2 => 0
  end.
Lemma hd_fct f g t d v : hasDeriv g t d -> g t = Some v -> inside f v ->
  hasDeriv (fun s => match g s with Some y => fct1 f y | None => None end) t (dfct f v * d).
Proof.
  intros Hg Hv Hi. apply hd_comp with (G := gfct f) (w := v); auto; destruct f; cbn [fct1 gfct dfct inside] in *; try contradiction.
  - apply near_all. reflexivity.
  - apply near_all. reflexivity.
  - assert (Hn : near v (fun s => cos s <> 0)).
    { apply (deriv_cont cos v _ (derivable_pt_lim_cos v) (fun y => y <> 0)).
      destruct (Rtotal_order (cos v) 0) as [H|[H|H]]; [|contradiction|].
      - eapply near_imp; [apply (near_lt _ 0 H)|]. cbn. intros; lra.
      - eapply near_imp; [apply (near_gt _ 0 H)|]. cbn. intros; lra. }
    eapply near_imp; [exact Hn|]. cbn. intros s Hs. destruct (Req_EM_T (cos s) 0); [contradiction|reflexivity].
  - eapply near_imp; [apply near_and; [apply (near_gt _ (-1)), Hi|apply (near_lt _ 1), Hi]|]. cbn. intros s [H1 H2].
    destruct (Rle_dec (-1) s); [|lra]. destruct (Rle_dec s 1); [reflexivity|lra].
  - eapply near_imp; [apply near_and; [apply (near_gt _ (-1)), Hi|apply (near_lt _ 1), Hi]|]. cbn. intros s [H1 H2].
    destruct (Rle_dec (-1) s); [|lra]. destruct (Rle_dec s 1); [reflexivity|lra].
  - apply near_all. reflexivity.
  - eapply near_imp; [apply (near_gt _ 0 Hi)|]. cbn. intros s Hs. destruct (Rlt_dec 0 s); [reflexivity|contradiction].
  - apply derivable_pt_lim_sin.
  - apply derivable_pt_lim_cos.
  - apply deriv_tan, Hi.
  - apply deriv_asin, Hi.
  - apply deriv_acos, Hi.
  - apply deriv_atan.
  - apply deriv_ln, Hi.
Qed.

(** Powers. *)
Lemma hd_pow_pos f g t a b v w : hasDeriv f t a -> hasDeriv g t b -> f t = Some v -> g t = Some w -> 0 < v ->
  hasDeriv (fun s => opow (f s) (g s)) t (Rpower v w * (ln v * b + w * / v * a)).
Proof.
  intros [h [H K]] [h' [H' K']] Hv Hw Hp.
  pose proof (near_at _ _ H) as Ht. pose proof (near_at _ _ H') as Ht'. cbn in Ht, Ht'.
  assert (E : h t = v) by congruence. assert (E' : h' t = w) by congruence.
  exists (fun s => exp (h' s * ln (h s))). split.
  - assert (Hn : near t (fun s => 0 < h s)).
    { apply (deriv_cont h t a K (fun y => 0 < y)). apply (near_gt _ 0). rewrite E. exact Hp. }
    eapply near_imp; [apply near_and; [exact Hn|apply near_and; [exact H|exact H']]|].
    cbn. intros s [E0 [E1 E2]]. rewrite E1, E2. cbn [opow]. rewrite rpow_pos by exact E0. reflexivity.
  - assert (Kl : derivable_pt_lim (fun s => ln (h s)) t (/ v * a)).
    { apply (derivable_pt_lim_comp h ln); [exact K|]. rewrite E. apply deriv_ln, Hp. }
    assert (Km : derivable_pt_lim (fun s => h' s * ln (h s)) t (b * ln v + w * (/ v * a))).
    { pose proof (derivable_pt_lim_mult h' (fun s => ln (h s)) t b (/ v * a) K' Kl) as M.
      cbn beta in M. rewrite E, E' in M. exact M. }
    replace (Rpower v w * (ln v * b + w * / v * a)) with (exp (w * ln v) * (b * ln v + w * (/ v * a)))
      by (unfold Rpower; ring).
    apply (derivable_pt_lim_comp (fun s => h' s * ln (h s)) exp); [exact Km|].
    rewrite E, E'. apply derivable_pt_lim_exp.
Qed.

Lemma hd_pow_neg f g t a v w p : hasDeriv f t a -> (forall s, g s = Some w) -> f t = Some v -> v < 0 ->
  rpow v w = Some p -> hasDeriv (fun s => opow (f s) (g s)) t (p * (w * / v * a)).
Proof.
  intros Hf Hg Hv Hn Hp.
  assert (exists z, w = IZR z) as [z ->].
  { unfold rpow in Hp. destruct (total_order_T v 0) as [[?|?]|?]; try lra.
    destruct (isIntR w) as [[z E]|?]; [eauto|discriminate]. }
  rewrite rpow_neg in Hp by exact Hn. injection Hp as Hp.
  pose (c := powerRZ (-1) z).
  assert (Hpow : forall y, y < 0 -> powerRZ y z = c * Rpower (- y) (IZR z)).
  { intros y Hy. rewrite <- powerRZ_Rpower by lra. unfold c. rewrite <- powerRZ_mult by (right; nra).
    f_equal. ring. }
  apply hd_ext with (g := fun s => match f s with Some y => rpow y (IZR z) | None => None end).
  { intros s. rewrite Hg. destruct (f s); reflexivity. }
  assert (HG : derivable_pt_lim (fun y => c * exp (IZR z * ln (- y))) v (p * (IZR z * / v))).
  { assert (K1 : derivable_pt_lim (fun y => - y) v (-1)).
    { apply (derivable_pt_lim_opp id v 1). apply derivable_pt_lim_id. }
    assert (K2 : derivable_pt_lim (fun y => ln (- y)) v (/ (- v) * -1)).
    { apply (derivable_pt_lim_comp (fun y => - y) ln); [exact K1|apply deriv_ln; lra]. }
    assert (K3 : derivable_pt_lim (fun y => IZR z * ln (- y)) v (IZR z * (/ (- v) * -1))).
    { apply (derivable_pt_lim_scal (fun y => ln (- y))). exact K2. }
    assert (K4 : derivable_pt_lim (fun y => exp (IZR z * ln (- y))) v (exp (IZR z * ln (- v)) * (IZR z * (/ (- v) * -1)))).
    { apply (derivable_pt_lim_comp (fun y => IZR z * ln (- y)) exp); [exact K3|apply derivable_pt_lim_exp]. }
    replace (p * (IZR z * / v)) with (c * (exp (IZR z * ln (- v)) * (IZR z * (/ (- v) * -1)))).
    - apply (derivable_pt_lim_scal (fun y => exp (IZR z * ln (- y)))). exact K4.
    - rewrite <- Hp, Hpow by exact Hn. unfold Rpower. field. lra. }
  replace (p * (IZR z * / v * a)) with (p * (IZR z * / v) * a) by ring.
  eapply hd_comp with (G := fun y => c * exp (IZR z * ln (- y))); eauto.
  eapply near_imp; [apply (near_lt _ 0 Hn)|]. cbn. intros y Hy. rewrite rpow_neg by exact Hy. f_equal. rewrite (Hpow y Hy).
  reflexivity.
Qed.

(** Symbols. *)
Lemma upd_id r n p e : wf anySym e -> eval (upd r n p (r n p)) e = eval r e.
Proof.
  intros Hw. apply (eval_agree anySym); [exact Hw|]. intros m q _. unfold upd. destruct (nameEq n m) eqn:E; [|reflexivity].
  apply nameEq_eq in E. subst m. destruct (Bool.eqb p q) eqn:B; [|reflexivity]. apply Bool.eqb_prop in B. subst. reflexivity.
Qed.
