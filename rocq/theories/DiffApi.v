(** Differentiation for users. *)
From Verif Require Export SimplApi DiffTotal.
From Coq Require Import Lra Lia.
From Verif Require Import Run.
Open Scope R_scope.

Section Users.
  Variables (Y : sys) (F k : nat) (r : env).
  Hypothesis Hr : posEnv r.
  Notation W := (world Y F k).

  Lemma diff_regular n xn xp e d facts : wf anySym e -> diffTop W n e (Sym xn xp) = Ok d facts -> rightFacts r facts ->
    regular r xn xp e ->
    d = Undef \/ exists v, eval r d = Some v /\ hasDeriv (fun t => eval (upd r xn xp t) e) (r xn xp) v.
  Proof.
    intros Hw E Hf Hc. pattern d; eapply (use r Hr); [|exact E|exact Hf]. intros st Hg. unfold diffTop.
    eapply spec_weaken; [apply (diffE_x W (world_sound Y F k) (exact_world Y F k) st r Hg xn xp n e Hw)|].
    cbn. intros a (_ & _ & H). exact (H Hc).
  Qed.
  Lemma diff_smooth_value n xn xp e d facts : wf anySym e -> diffTop W n e (Sym xn xp) = Ok d facts -> rightFacts r facts ->
    smooth (fun b => forall fs, w_log W b <> Ok Undef fs) r xn xp e ->
    exists v, eval r d = Some v /\ hasDeriv (fun t => eval (upd r xn xp t) e) (r xn xp) v.
  Proof.
    intros Hw E Hf Hc. pattern d; eapply (use r Hr); [|exact E|exact Hf]. intros st Hg. unfold diffTop.
    apply (diff_smooth W (world_sound Y F k) (exact_world Y F k) st r Hg xn xp n e Hw Hc).
  Qed.
  Lemma diff_absent n xn xp e d facts : wf anySym e -> diffTop W n e (Sym xn xp) = Ok d facts -> rightFacts r facts ->
    mentions xn xp e = false -> d = zero \/ d = Undef.
  Proof.
    intros Hw E Hf Hm. pattern d; eapply (use r Hr); [|exact E|exact Hf]. intros st Hg. unfold diffTop.
    eapply spec_weaken; [apply (diffE_x W (world_sound Y F k) (exact_world Y F k) st r Hg xn xp n e Hw)|].
    cbn. intros a (_ & H & _). apply H. apply mentions_wf; assumption.
  Qed.
  Lemma diff_absent_smooth n xn xp e d facts : wf anySym e -> diffTop W n e (Sym xn xp) = Ok d facts -> rightFacts r facts ->
    mentions xn xp e = false -> smooth (fun b => forall fs, w_log W b <> Ok Undef fs) r xn xp e -> d = zero.
  Proof.
    intros Hw E Hf Hm Hc. destruct (diff_absent n xn xp e d facts Hw E Hf Hm) as [H|H]; [exact H|].
    destruct (diff_smooth_value n xn xp e d facts Hw E Hf Hc) as (v & Hv & _). subst d. discriminate Hv.
  Qed.
End Users.
