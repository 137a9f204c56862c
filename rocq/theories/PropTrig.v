(** Theorems for C35 (exact trigonometric values), C36 (atan2) and C41 for executions whose facts are checked. *)
From Verif Require Import TrigApi.
From Coq Require Import Lra Lia String.
From Verif Require Import Run.
Open Scope R_scope.

(** ** C35 *)

(** Full statement: without the last hypothesis but one.  It fails, because arguments are looked up by
    comparing doubles. *)
Theorem C35_exact_values_refuted : ~ forall Y F k r f q a fa e facts v, posEnv r -> canon q ->
  w_prod (world Y F k) [Num q; Cst CPi] = Ok a fa -> w_trig (world Y F k) f a = Ok e facts ->
  trigVal f (Q2R q * PI) = Some v -> eval r e = Some v.
Proof.
  intros H.
  assert (E : exists facts, w_trig W0 FSin (Prod [Num (1 # 100000000000000000000); Cst CPi]) = Ok (Num 0) facts)
    by (eexists; lazy; reflexivity).
  destruct E as [facts E].
  specialize (H refSys 40%nat 40%nat (allv 1) FSin (1 # 100000000000000000000) _ [] _ facts _ (allv_pos 1 Rlt_0_1)
    eq_refl ltac:(lazy; reflexivity) E eq_refl).
  cbn [eval] in H. injection H as H. assert (0 < sin (Q2R (1 # 100000000000000000000) * PI)).
  { pose proof PI_RGT_0. assert (0 < Q2R (1 # 100000000000000000000) < 1) by (unfold Q2R; cbn [Qnum Qden]; lra).
    apply sin_gt_0; nra. }
  rewrite Q2R_zero in H. lra.
Qed.
Print Assumptions C35_exact_values_refuted.

Theorem C35_exact_values_partial : forall Y F k r f q a fa e facts v, posEnv r -> canon q ->
  w_prod (world Y F k) [Num q; Cst CPi] = Ok a fa -> w_trig (world Y F k) f a = Ok e facts ->
  rightFacts r (fa ++ facts) -> trigVal f (Q2R q * PI) = Some v -> eval r e = Some v.
Proof. intros Y F k r f q a fa e facts v Hr. exact (trig_multiple Y F k r Hr f q a fa e facts v). Qed.
Print Assumptions C35_exact_values_partial.

(** Exact arithmetic that confirms the facts replaces the hypothesis; [doubtful] (Certain.v) can be run. *)
Theorem C35_exact_values_checked : forall Y F k r f q a fa e facts v, posEnv r -> canon q ->
  w_prod (world Y F k) [Num q; Cst CPi] = Ok a fa -> w_trig (world Y F k) f a = Ok e facts ->
  doubtful (fa ++ facts) = [] -> trigVal f (Q2R q * PI) = Some v -> eval r e = Some v.
Proof.
  intros Y F k r f q a fa e facts v Hr Hq Ea Ee Hd. exact (trig_multiple Y F k r Hr f q a fa e facts v Hq Ea Ee (checked_right r _ Hd)).
Qed.
Print Assumptions C35_exact_values_checked.

Definition runs (m : res expr) (e : expr) : Prop := match m with Ok e' facts => e' = e /\ doubtful facts = [] | _ => False end.
(** sin(19/8 pi), cos(-5/4 pi), tan(5/8 pi) *)
Example C35_case :
  runs (w_trig W0 FSin (Prod [Num (19 # 8); Cst CPi]))
    (Prod [Num (1 # 2); Pow (Sum [Num 2; Pow (Num 2) (Num (1 # 2))]) (Num (1 # 2))]) /\
  runs (w_trig W0 FCos (Prod [Num (-5 # 4); Cst CPi])) (Prod [Num (-1); Pow (Num 2) (Num (-1 # 2))]) /\
  runs (w_trig W0 FTan (Prod [Num (5 # 8); Cst CPi]))
    (Prod [Num (-1); Pow (Sum [Num 2; Pow (Num 2) (Num (1 # 2))]) (Num (1 # 2));
           Pow (Sum [Num 2; Prod [Num (-1); Pow (Num 2) (Num (1 # 2))]]) (Num (-1 # 2))]).
Proof. split; [|split]; lazy; split; reflexivity. Qed.

(** ** C36 *)

(** Full statement: without rightFacts. *)
Theorem C36_atan2_refuted : ~ forall Y F k r y x e facts v w, posEnv r -> wf anySym y -> wf anySym x ->
  w_atan2 (world Y F k) y x = Ok e facts -> eval r y = Some v -> eval r x = Some w -> (v <> 0 \/ w <> 0) ->
  exists t, eval r e = Some t /\ 0 <= t < 2 * PI /\ exists d, 0 < d /\ w = d * cos t /\ v = d * sin t.
Proof.
  intros H. destruct atan2_tan1 as [facts E]. pose proof PI2_1 as HP.
  assert (Hc : 0 < cos 1) by (apply cos_gt_0; lra).
  destruct (eval (allv 1) tan1) as [v|] eqn:Ev.
  2:{ cbn in Ev. q2r. revert Ev. rewrite Q2R_one. destruct (Req_EM_T (cos 1) 0); [lra|discriminate]. }
  destruct (H refSys 40%nat 40%nat (allv 1) tan1 (Num (-1)) (Num 1) facts v (-1)) as (t & Et & _ & d & Hd & Hw & _);
    try (now apply allv_pos; lra); try assumption.
  - cbn. repeat split.
  - cbn. reflexivity.
  - cbn. now rewrite Q2R_mone.
  - right. lra.
  - cbn in Et. rewrite Q2R_one in Et. injection Et as <-. assert (0 < d * cos 1) by now apply Rmult_lt_0_compat. lra.
Qed.
Print Assumptions C36_atan2_refuted.

Theorem C36_atan2_partial : forall Y F k r y x e facts v w, posEnv r -> wf anySym y -> wf anySym x ->
  w_atan2 (world Y F k) y x = Ok e facts -> rightFacts r facts -> eval r y = Some v -> eval r x = Some w -> (v <> 0 \/ w <> 0) ->
  exists t, eval r e = Some t /\ 0 <= t < 2 * PI /\ exists d, 0 < d /\ w = d * cos t /\ v = d * sin t.
Proof. intros Y F k r y x e facts v w Hr. exact (atan2_angle Y F k r Hr y x e facts v w). Qed.
Print Assumptions C36_atan2_partial.
Theorem C36_atan2_checked : forall Y F k r y x e facts v w, posEnv r -> wf anySym y -> wf anySym x ->
  w_atan2 (world Y F k) y x = Ok e facts -> doubtful facts = [] -> eval r y = Some v -> eval r x = Some w -> (v <> 0 \/ w <> 0) ->
  exists t, eval r e = Some t /\ 0 <= t < 2 * PI /\ exists d, 0 < d /\ w = d * cos t /\ v = d * sin t.
Proof.
  intros Y F k r y x e facts v w Hr Hy Hx E Hd. exact (atan2_angle Y F k r Hr y x e facts v w Hy Hx E (checked_right r _ Hd)).
Qed.
Print Assumptions C36_atan2_checked.

(** The point (2, -2), the point (-3, 0) and the point (0, -1/2) *)
Example C36_case :
  runs (w_atan2 W0 (Num (-2)) (Num 2)) (Prod [Num (7 # 4); Cst CPi]) /\
  runs (w_atan2 W0 (Num 0) (Num (-3))) (Cst CPi) /\
  runs (w_atan2 W0 (Num (-1 # 2)) (Num 0)) (Prod [Num (3 # 2); Cst CPi]).
Proof. split; [|split]; lazy; split; reflexivity. Qed.

(** ** C41: programs whose facts are confirmed *)
Theorem C41_program_value_checked : forall Y F k n t e facts, build (world Y F k) n t = Ok e facts -> doubtful facts = [] ->
  forall r v, posEnv r -> tval r t = Some v -> eval r e = Some v.
Proof. intros Y F k n t e facts E Hd r v Hr. exact (program_value Y F k r Hr n t e facts v E (checked_right r _ Hd)). Qed.
Print Assumptions C41_program_value_checked.

(** (sqrt(12) + sin(pi/6)) / (x + 1) - 1 *)
Definition exRoot : term :=
  TSub (TDiv (TAdd (TSqrt (TInt 12)) (TTrig FSin (TDiv (TConst CPi) (TInt 6)))) (TAdd tx (TInt 1))) (TInt 1).
Example C41_checked_case :
  runs (build W0 40 exRoot)
    (Sum [Num (-1); Prod [Num (1 # 2); Pow (Sum [Num 1; sx]) (Num (-1))];
          Prod [Num 2; Pow (Num 3) (Num (1 # 2)); Pow (Sum [Num 1; sx]) (Num (-1))]]).
Proof. lazy; split; reflexivity. Qed.
