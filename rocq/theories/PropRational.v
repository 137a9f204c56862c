(** Theorems for C54: programs that compute with numbers, symbols, +, -, *, /, integer powers, expand and subst.

    [rationalProgram t] (RatSpec.v): t is such a program.  [rational e]: e contains no functions, no constants and no
    exponents but integers.  A run records what it took for granted: [noWrongTurn facts] says that no operands were lost and none were taken
    from something else than a sum, [powersRight facts] that the powers of numbers which the run computed kept their
    values, [powersSmall facts] that the numerators and denominators of their bases were less than 324. *)
From Verif Require Import SimplWitness RatFacts NumInt NumPowerProofs SimplApi.
From Coq Require Import Lia Lra.
From Verif Require Import Run RatSpec.
Open Scope R_scope.

(** The results are of the same kind. *)
Theorem C54_result : forall Y F k n t e facts, rationalProgram t -> build (world Y F k) n t = Ok e facts -> rational e.
Proof. intros Y F k n t e facts P E. pose proof (r_build Y F k n t P) as H. rewrite E in H. apply H. Qed.
Print Assumptions C54_result.

(** The result has the value of the program wherever the program has one.  Nothing else than the powers of numbers and the two wrong
    turns needs to be looked at: no signs, no floating point numbers, no cancelled factors. *)
Theorem C54_value_partial : forall Y F k n t e facts r v, rationalProgram t -> build (world Y F k) n t = Ok e facts ->
  noWrongTurn facts -> powersRight facts -> posEnv r -> tval r t = Some v -> eval r e = Some v.
Proof.
  intros Y F k n t e facts r v P E NW PR Hr Ev. eapply program_value; eauto. exists false. apply Forall_forall. intros c Hc.
  pose proof (r_build Y F k n t P) as H. rewrite E in H. destruct H as [H _]. rewrite Forall_forall in H.
  apply (okFact_holds Y); [now apply H | intros s; now apply NW | intros p p' Ep; eapply PR; eauto].
Qed.
Print Assumptions C54_value_partial.

(** Small powers of numbers are right, whatever the exponents are. *)
Theorem C54_small_partial : forall Y F k n t e facts r v, rationalProgram t -> build (world Y F k) n t = Ok e facts ->
  noWrongTurn facts -> powersSmall facts -> posEnv r -> tval r t = Some v -> eval r e = Some v.
Proof.
  intros Y F k n t e facts r v P E NW PS Hr Ev. eapply C54_value_partial; eauto. intros c p p' Hc Ep.
  pose proof (r_build Y F k n t P) as H. rewrite E in H. destruct H as [H _]. rewrite Forall_forall in H. specialize (H c Hc).
  apply okFact_inner in H. destruct (PS c p p' Hc Ep) as [S1 S2]. rewrite Ep in H. destruct H as (b & z & Cb & Nb & Hz & -> & En).
  now apply (numPower_small (s_fl Y) (s_limit Y) b z p').
Qed.
Print Assumptions C54_small_partial.

(** ((x + y)/x - 1)^(-2) + 2^(-3), x replaced by y + 1 *)
Definition exRat : term := TSubst (TAdd (TPow (TSub (TDiv (TAdd tx ty) tx) (TInt 1)) (TInt (-2))) (TPow (TInt 2) (TInt (-3)))) (nm "x"%string) false (TAdd ty (TInt 1)).
Definition exRatRun := Eval vm_compute in build W0 40 exRat.
Example C54_case : rationalProgram exRat /\ exists e facts, build W0 40 exRat = Ok e facts /\ noWrongTurn facts /\ powersSmall facts /\ facts <> [] /\
  exists v, tval (allv 1) exRat = Some v.
Proof.
  split; [cbn; repeat split; eauto|]. assert (E : build W0 40 exRat = exRatRun) by (lazy; reflexivity). unfold exRatRun in E. rewrite E. do 2 eexists. split; [reflexivity|].
  split; [intros c s H; cbn in H; intuition (subst; discriminate)|].
  split; [intros c p p' H Ep; cbn in H; repeat (destruct H as [H|H]; [subst c; cbn in Ep; injection Ep as <- _; cbn; lia|]); destruct H|].
  split; [discriminate|].
  eexists. unfold exRat, tx, ty, allv. cbn [tval omap omap2]. unfold upd. cbn. destruct (Req_EM_T _ 0) as [X|X]; [lra|].
  cbn [omap omap2]. rewrite !rpow_int by lra. reflexivity.
Qed.

(** Wrong powers of numbers give wrong values: C41_program_value_refuted, C47_large_refuted.  So do wrong turns:
    expand((1/(a + b) - 1/a)*(a + b + (y + z)*(y - z) + z^2 - y^2)*(v + w)).  The product of the first two factors is -b/a; its factors
    -1, 1/a and b are taken for the terms of a sum. *)
Definition ta : term := TSym (nm "a"%string) false.
Definition tb : term := TSym (nm "b"%string) false.
Definition tz : term := TSym (nm "z"%string) false.
Definition tvw : term := TAdd (TSym (nm "zv"%string) false) (TSym (nm "zw"%string) false).
Definition wrongTurn : term := TMul (TMul (TSub (TDiv (TInt 1) (TAdd ta tb)) (TDiv (TInt 1) ta))
  (TAdd (TAdd ta tb) (TAdd (TMul (TAdd ty tz) (TSub ty tz)) (TSub (TMul tz tz) (TMul ty ty))))) tvw.
Definition wrongTurnRun := Eval vm_compute in build W0 40 (TExpand wrongTurn).

Theorem C54_value_refuted : ~ forall Y F k n t e facts r v, rationalProgram t -> build (world Y F k) n t = Ok e facts ->
  powersSmall facts -> posEnv r -> tval r t = Some v -> eval r e = Some v.
Proof.
  intros H. assert (E : build W0 40 (TExpand wrongTurn) = wrongTurnRun) by (lazy; reflexivity). unfold wrongTurnRun in E.
  specialize (fun P1 P2 P3 P4 => H refSys 40%nat 40%nat 40%nat _ _ _ (allv 1) (-2) P1 E P2 P3 P4).
  assert (X : Some 2 = Some (-2)); [|injection X as X; lra]. rewrite <- H.
  - cbn. unfold allv, Q2R. cbn. replace (-1 * / 1) with (IZR (-1)) by lra. rewrite !rpow_int by lra. cbn. f_equal. rewrite pow1. field.
  - cbn. repeat split.
  - intros c p p' [<-|[]] Ep. discriminate Ep.
  - apply allv_pos. lra.
  - cbn. unfold allv. destruct (Req_EM_T (1 + 1) 0) as [X|X]; [lra|]. destruct (Req_EM_T 1 0) as [X'|X']; [lra|]. cbn. f_equal. field.
Qed.
Print Assumptions C54_value_refuted.
