(** The contracts of the library functions for users: from [soundOps] to statements about executions. *)
From Verif Require Export ApiProofs HasProofs WorldProofs WorldExact.
From Coq Require Import Lra Lia Permutation.
From Verif Require Import Run.
Open Scope R_scope.

Lemma posEnv_good st r : posEnv r -> wgood st r.
Proof. intros H n. specialize (H n). destruct st; cbn; lra. Qed.

Lemma spec_ok {A} st r (m : res A) Q a facts : spec (holds st r) m Q -> m = Ok a facts -> Forall (holds st r) facts -> Q a.
Proof. intros H -> Hf. exact (H Hf). Qed.

Lemma ole_some a b v : ole a b -> a = Some v -> b = Some v.
Proof. intros H ->. exact H. Qed.

Section Users.
  Variables (Y : sys) (F k : nat) (r : env).
  Hypothesis Hr : posEnv r.
  Notation W := (world Y F k).

  Lemma use {A} (m : res A) Q a facts : (forall st, wgood st r -> spec (holds st r) m Q) ->
    m = Ok a facts -> rightFacts r facts -> Q a.
  Proof. intros H E [st Hf]. eapply spec_ok; [apply H; now apply posEnv_good|exact E|exact Hf]. Qed.
  Ltac go H := intros; match goal with E : _ = Ok _ ?fs, R : rightFacts r ?fs |- _ =>
    let X := fresh "Hf" in pose proof E as X; eapply use in X; [|intros; eapply H; eauto|exact R] end.

  Lemma sum_value l e facts v : Forall (wf anySym) l -> w_sum W l = Ok e facts -> rightFacts r facts ->
    sumVal r l = Some v -> eval r e = Some v.
  Proof. go (so_sum W (world_sound Y F k)). destruct Hf as [_ Hf]. eapply ole_some; eauto. Qed.
  Lemma prod_value l e facts v : Forall (wf anySym) l -> w_prod W l = Ok e facts -> rightFacts r facts ->
    prodVal r l = Some v -> eval r e = Some v.
  Proof. go (so_prod W (world_sound Y F k)). destruct Hf as [_ Hf]. eapply ole_some; eauto. Qed.
  Lemma pow_value b x e facts v : wf anySym b -> wf anySym x -> w_pow W b x = Ok e facts -> rightFacts r facts ->
    opow (eval r b) (eval r x) = Some v -> eval r e = Some v.
  Proof. intros. go (so_pow W (world_sound Y F k)). destruct Hf as [_ Hf]. eapply ole_some; eauto. Qed.
  Lemma log_value a e facts v : wf anySym a -> w_log W a = Ok e facts -> rightFacts r facts ->
    eval r (Fct FLog [a]) = Some v -> eval r e = Some v.
  Proof. go (so_log W (world_sound Y F k)). destruct Hf as [_ Hf]. eapply ole_some; eauto. Qed.
  Lemma trig_value f a e facts v : trigF f = true -> wf anySym a -> w_trig W f a = Ok e facts -> rightFacts r facts ->
    eval r (Fct f [a]) = Some v -> eval r e = Some v.
  Proof. intros. go (so_trig W (world_sound Y F k)). destruct Hf as [_ Hf]. eapply ole_some; eauto. Qed.
  Lemma atan2_value y x e facts v : wf anySym y -> wf anySym x -> w_atan2 W y x = Ok e facts -> rightFacts r facts ->
    eval r (Fct FAtan2 [y; x]) = Some v -> eval r e = Some v.
  Proof. intros. go (so_atan2 W (world_sound Y F k)). destruct Hf as [_ Hf]. eapply ole_some; eauto. Qed.
  Lemma expand_value e e' facts v : wf anySym e -> w_expand W e = Ok e' facts -> rightFacts r facts ->
    eval r e = Some v -> eval r e' = Some v.
  Proof. go (so_expand W (world_sound Y F k)). destruct Hf as [_ Hf]. eapply ole_some; eauto. Qed.
  Lemma normal_value e e' facts v : wf anySym e -> w_normal W e = Ok e' facts -> rightFacts r facts ->
    eval r e = Some v -> eval r e' = Some v.
  Proof. go (so_normal W (world_sound Y F k)). destruct Hf as [_ Hf]. eapply ole_some; eauto. Qed.
  Lemma simplify_value n e e' facts v : wf anySym e -> simplifyVar W n e = Ok e' facts -> rightFacts r facts ->
    eval r e = Some v -> eval r e' = Some v.
  Proof. intros. go (simplifyVar_sp W (world_sound Y F k) n). now destruct Hf. Qed.
  Lemma subst_value n p t e e' facts u v : wf anySym e -> wf anySym t -> w_subst W e (Sym n p) t = Ok e' facts ->
    rightFacts r facts -> eval r t = Some u -> eval (upd r n p u) e = Some v -> eval r e' = Some v.
  Proof.
    intros He Ht E [st Hf] Eu Ev. pose proof (posEnv_good st r Hr) as Hg.
    assert (He' : wf (plus1 anySym n p) e) by (eapply wf_mono; [|exact He]; intros m q _; now left).
    eapply spec_ok in Hf; [|apply (so_subst W (world_sound Y F k) st r anySym n p t e Hg He' Ht)|exact E].
    destruct Hf as [_ Hf]. eapply ole_some; eauto.
  Qed.
  (** A sign is only claimed for strictly positive values of the positive symbols. *)
  Lemma pos_value e facts v : wf anySym e -> w_pos W e = Ok true facts -> Forall (holds true r) facts ->
    eval r e = Some v -> 0 < v.
  Proof.
    intros Hw E Hf Ev. eapply spec_ok in Hf; [|eapply (so_pos W (world_sound Y F k)); [now apply posEnv_good|exact Hw]|exact E].
    exact (Hf eq_refl v Ev).
  Qed.
  Lemma neg_value e facts v : wf anySym e -> w_neg W e = Ok true facts -> Forall (holds true r) facts ->
    eval r e = Some v -> v < 0.
  Proof.
    intros Hw E Hf Ev. eapply spec_ok in Hf; [|eapply (so_neg W (world_sound Y F k)); [now apply posEnv_good|exact Hw]|exact E].
    specialize (Hf eq_refl v Ev). cbn in Hf. lra.
  Qed.
  Lemma fraction_value n e num den facts v : wf anySym e -> toFraction W n e = Ok (num, den) facts -> rightFacts r facts ->
    eval r e = Some v -> exists a b, eval r num = Some a /\ eval r den = Some b /\ b <> 0 /\ v = a / b.
  Proof.
    intros Hw E [st Hf] Ev. pose proof (posEnv_good st r Hr) as Hg.
    eapply spec_ok in Hf; [|apply (toFraction_sp W (world_sound Y F k) n st r Hg e Hw)|exact E].
    apply Hf. exact Ev.
  Qed.
  Lemma program_value n t e facts v : build W n t = Ok e facts -> rightFacts r facts -> tval r t = Some v -> eval r e = Some v.
  Proof.
    intros E [st Hf] Ev. pose proof (posEnv_good st r Hr) as Hg.
    eapply spec_ok in Hf; [|apply (build_sp W (world_sound Y F k) n t st r Hg v Ev)|exact E]. apply Hf.
  Qed.

  Lemma sumVal_perm l l' : Permutation l l' -> sumVal r l = sumVal r l'.
  Proof.
    induction 1; cbn; try congruence.
    - unfold sumVal in *. cbn. now rewrite IHPermutation.
    - destruct (eval r x), (eval r y), (fold_right _ _ l); cbn; try reflexivity. f_equal. lra.
  Qed.
  Lemma prodVal_perm l l' : Permutation l l' -> prodVal r l = prodVal r l'.
  Proof.
    induction 1; cbn; try congruence.
    - unfold prodVal in *. cbn. now rewrite IHPermutation.
    - destruct (eval r x), (eval r y), (fold_right _ _ l); cbn; try reflexivity. f_equal. lra.
  Qed.
  Lemma Forall_perm {A} (P : A -> Prop) l l' : Permutation l l' -> Forall P l -> Forall P l'.
  Proof. intros H. rewrite !Forall_forall. intros Hl x Hx. apply Hl. eapply Permutation_in; [symmetry; exact H|exact Hx]. Qed.
  Lemma sum_perm_value l l' e e' facts facts' v : Permutation l l' -> Forall (wf anySym) l ->
    w_sum W l = Ok e facts -> w_sum W l' = Ok e' facts' -> rightFacts r facts -> rightFacts r facts' ->
    sumVal r l = Some v -> eval r e = Some v /\ eval r e' = Some v.
  Proof.
    intros Hp Hw H1 H2 F1 F2 Hv. split; [eapply sum_value; eauto|].
    eapply sum_value; [eapply Forall_perm; eauto|exact H2|exact F2|]. now rewrite <- (sumVal_perm l l').
  Qed.
  Lemma prod_perm_value l l' e e' facts facts' v : Permutation l l' -> Forall (wf anySym) l ->
    w_prod W l = Ok e facts -> w_prod W l' = Ok e' facts' -> rightFacts r facts -> rightFacts r facts' ->
    prodVal r l = Some v -> eval r e = Some v /\ eval r e' = Some v.
  Proof.
    intros Hp Hw H1 H2 F1 F2 Hv. split; [eapply prod_value; eauto|].
    eapply prod_value; [eapply Forall_perm; eauto|exact H2|exact F2|]. now rewrite <- (prodVal_perm l l').
  Qed.
End Users.

(** Undefined operands. *)
Lemma undef_sum Y F k l : In Undef l -> w_sum (world Y F (S k)) l = Ok Undef [].
Proof. intros H. cbn [world step w_sum]. now apply sum_undef. Qed.
Lemma undef_prod Y F k l : In Undef l -> w_prod (world Y F (S k)) l = Ok Undef [].
Proof. intros H. cbn [world step w_prod]. now apply prod_undef. Qed.
Lemma undef_pow Y F k b x : b = Undef \/ x = Undef -> w_pow (world Y F (S k)) b x = Ok Undef [].
Proof. intros H. cbn [world step w_pow]. now apply pow_undef. Qed.
Lemma undef_trig Y F k f : w_trig (world Y F (S k)) f Undef = Ok Undef [].
Proof. cbn [world step w_trig]. apply trig_undef. Qed.
Lemma undef_atan2 Y F k y x : y = Undef \/ x = Undef -> w_atan2 (world Y F (S k)) y x = Ok Undef [].
Proof. intros H. cbn [world step w_atan2]. now apply atan2_undef. Qed.
Lemma undef_log Y F k : w_log (world Y F (S k)) Undef = Ok Undef [].
Proof. cbn [world step w_log]. apply log_undef. Qed.
