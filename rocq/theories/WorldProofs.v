(** Every world satisfies the contract. *)
From Verif Require Export NormalProofs2 World.

Lemma noOper_sound : soundOps noOper.
Proof. constructor; intros; exact I. Qed.
Lemma step_sound Y F W : soundOps W -> soundOps (step Y F W).
Proof.
  intros HW. constructor; intros; cbn [step w_sum w_prod w_pow w_spow w_trig w_atan2 w_log w_expand w_subst w_pos w_neg w_normal w_normalF].
  - now apply sumCreate_sp.
  - now apply prodCreate_sp.
  - now apply powCreate_sp.
  - now apply simplifyPower_sp.
  - now apply trigCreate_sp.
  - now apply atan2Create_sp.
  - now apply logCreate_sp.
  - now apply expandExpr_sp.
  - now apply substExpr_sp.
  - now apply (isPositive_sp Y W HW st r P).
  - now apply (isNegative_sp Y W HW st r P).
  - now apply normalTop_sp.
  - now apply normalF_sp.
Qed.
Theorem world_sound Y F k : soundOps (world Y F k).
Proof. induction k; [apply noOper_sound|now apply step_sound]. Qed.
