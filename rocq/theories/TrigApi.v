(** Trigonometric functions for users, and executions all of whose facts are checked. *)
From Verif Require Export SimplWitness Certain TrigFacts.
From Coq Require Import Lra Lia String.
From Verif Require Import Run.
Open Scope R_scope.

(** [doubtful facts = []]: exact arithmetic confirms every fact (Certain.v). *)
Lemma checked_right r facts : doubtful facts = [] -> rightFacts r facts.
Proof. intros H. exists true. apply doubtful_ok. rewrite H. constructor. Qed.
Lemma rightFacts_app r a b : rightFacts r (a ++ b) -> rightFacts r a /\ rightFacts r b.
Proof. intros [st H]. apply Forall_app in H as [H1 H2]. split; exists st; assumption. Qed.

(** The value of a trigonometric function. *)
Definition trigVal (f : fct) (x : R) : option R :=
  match f with
  | FSin => Some (sin x)
  | FCos => Some (cos x)
  | FTan => if Req_EM_T (cos x) 0 then None else Some (sin x / cos x)
  | _ => None
  end.

Section Users.
  Variables (Y : sys) (F k : nat) (r : env).
  Hypothesis Hr : posEnv r.
  Notation W := (world Y F k).

  Lemma times_pi q a fa : canon q -> w_prod W [Num q; Cst CPi] = Ok a fa -> rightFacts r fa ->
    wf anySym a /\ eval r a = Some (Q2R q * PI).
  Proof.
    intros Hq E Hf. assert (Hwf : Forall (wf anySym) [Num q; Cst CPi]) by (repeat constructor; assumption).
    assert (X : wf anySym a /\ ole (prodVal r [Num q; Cst CPi]) (eval r a)).
    { eapply (use r Hr _ (fun e => wf anySym e /\ ole (prodVal r [Num q; Cst CPi]) (eval r e))); [|exact E|exact Hf].
      intros st Hg. now apply (so_prod W (world_sound Y F k)). }
    destruct X as [X1 X2]. split; [exact X1|]. cbn in X2. rewrite X2. f_equal. ring.
  Qed.

  Lemma trig_multiple f q a fa e facts v : canon q -> w_prod W [Num q; Cst CPi] = Ok a fa -> w_trig W f a = Ok e facts ->
    rightFacts r (fa ++ facts) -> trigVal f (Q2R q * PI) = Some v -> eval r e = Some v.
  Proof.
    intros Hq Ea Ee Hf Hv. apply rightFacts_app in Hf as [Hf1 Hf2]. destruct (times_pi q a fa Hq Ea Hf1) as [Hw Hx].
    eapply (trig_value Y F k r Hr f); eauto.
    - destruct f; try discriminate; reflexivity.
    - destruct f; try discriminate; cbn [eval]; rewrite Hx; cbn [fct1]; exact Hv.
  Qed.

  Lemma atan2_angle y x e facts v w : wf anySym y -> wf anySym x -> w_atan2 W y x = Ok e facts -> rightFacts r facts ->
    eval r y = Some v -> eval r x = Some w -> (v <> 0 \/ w <> 0) ->
    exists t, eval r e = Some t /\ 0 <= t < 2 * PI /\ exists d, 0 < d /\ w = d * cos t /\ v = d * sin t.
  Proof.
    intros Hy Hx E Hf Ev Ew Hne.
    assert (Ha : exists t, angle v w = Some t).
    { unfold angle. destruct (Req_EM_T w 0) as [->|]; [|eauto]. destruct (Req_EM_T v 0) as [->|]; [|eauto]. lra. }
    destruct Ha as [t Ht]. exists t. pose proof (angle_cos v w t Ht) as (Hp & Hc & Hs & Hb).
    split; [|split; [exact Hb|]].
    - eapply (atan2_value Y F k r Hr y x); eauto. cbn [eval]. now rewrite Ev, Ew.
    - exists (sqrt (w * w + v * v)). pose proof (sqrt_lt_R0 _ Hp) as Hd. split; [assumption|].
      rewrite Hc, Hs. split; field; lra.
  Qed.
End Users.
