(** Theorems for C14, C15 (differentiation) and C19 (complexity, simplify). *)
From Verif Require Import SimplWitness DiffApi.
From Coq Require Import Lra Lia.
From Verif Require Import Run.
Open Scope R_scope.

(** ** C14: differentiation *)

(** [hasDeriv g t v]: g has values near t and the derivative v at t (DiffSpec.v). *)
Theorem C14_derivative_partial : forall Y F k r n xn xp e d facts, posEnv r -> wf anySym e ->
  diffTop (world Y F k) n e (Sym xn xp) = Ok d facts -> rightFacts r facts -> regular r xn xp e ->
  d = Undef \/ exists v, eval r d = Some v /\ hasDeriv (fun t => eval (upd r xn xp t) e) (r xn xp) v.
Proof. intros Y F k r n xn xp e d facts Hr. exact (diff_regular Y F k r Hr n xn xp e d facts). Qed.
Print Assumptions C14_derivative_partial.

(** Not Undefined where bases are positive or have a logarithm. *)
Theorem C14_derivative_defined_partial : forall Y F k r n xn xp e d facts, posEnv r -> wf anySym e ->
  diffTop (world Y F k) n e (Sym xn xp) = Ok d facts -> rightFacts r facts ->
  smooth (fun b => forall fs, w_log (world Y F k) b <> Ok Undef fs) r xn xp e ->
  exists v, eval r d = Some v /\ hasDeriv (fun t => eval (upd r xn xp t) e) (r xn xp) v.
Proof. intros Y F k r n xn xp e d facts Hr. exact (diff_smooth_value Y F k r Hr n xn xp e d facts). Qed.
Print Assumptions C14_derivative_defined_partial.

(** x^2*sin(x*y) *)
Definition exDiff : expr := Prod [Pow sx (Num 2); Fct FSin [Prod [sx; sy]]].
Definition exDiff' : expr :=
  Sum [Prod [Num 2; Fct FSin [Prod [sx; sy]]; sx]; Prod [Fct FCos [Prod [sx; sy]]; Pow sx (Num 2); sy]].
Example C14_case : diffTop W0 40 exDiff sx = Ok exDiff' [] /\ wf anySym exDiff /\ regular (oth (-3)) (nm "x"%string) false exDiff /\
  smooth (fun b => forall fs, w_log W0 b <> Ok Undef fs) (oth (-3)) (nm "x"%string) false exDiff.
Proof.
  split; [lazy; reflexivity|]. split; [cbn; repeat split|].
  assert (E : eval (oth (-3)) (Pow sx (Num 2)) <> None) by (cbn; q2r; rewrite rpow_sq; discriminate).
  assert (L : forall fs, w_log W0 sx <> Ok Undef fs) by (intros fs; lazy; discriminate).
  assert (S : smooth (fun b => forall fs, w_log W0 b <> Ok Undef fs) (oth (-3)) (nm "x"%string) false exDiff).
  { split; [split; [exact I|split; [exact I|]]|split; [split; [split; [exact I|split; [exact I|exact I]]|]|exact I]].
    - exists (-3). split; [reflexivity|]. right. split; [lra|]. split; [reflexivity|]. split; [exact E|exact L].
    - eexists. split; [reflexivity|exact I]. }
  split; [|exact S]. exact (smooth_regular W0 (oth (-3)) _ _ _ S).
Qed.

(** Full statement: wherever e has values near the point and a derivative there.  diff((-2)^y, x) is
    Undefined, although (-2)^y is constant in x. *)
Theorem C14_derivative_refuted : ~ forall Y F k r n xn xp e d facts v, posEnv r -> wf anySym e ->
  diffTop (world Y F k) n e (Sym xn xp) = Ok d facts ->
  hasDeriv (fun t => eval (upd r xn xp t) e) (r xn xp) v -> eval r d = Some v.
Proof.
  intros H. destruct SimplWitness.diff_absent as [facts E].
  specialize (H refSys 40%nat 40%nat (oth 2) 40%nat (nm "x"%string) false (Pow (Num (-2)) sy) Undef facts 0 (oth_pos 2)).
  assert (X : eval (oth 2) Undef = Some 0); [|discriminate X]. apply H; [cbn; repeat split|exact E|].
  exists (fun _ => 4). split; [|apply derivable_pt_lim_const]. exists 1. split; [lra|]. intros s _. cbn.
  replace (Q2R (-2)) with (-2) by (unfold Q2R; cbn; lra). rewrite rpow_sq. f_equal. lra.
Qed.
Print Assumptions C14_derivative_refuted.

(** ** C15: derivative with respect to an absent symbol *)
Theorem C15_absent_symbol_partial : forall Y F k r n xn xp e d facts, posEnv r -> wf anySym e ->
  diffTop (world Y F k) n e (Sym xn xp) = Ok d facts -> rightFacts r facts -> mentions xn xp e = false ->
  d = Num 0 \/ d = Undef.
Proof. intros Y F k r n xn xp e d facts Hr. exact (diff_absent Y F k r Hr n xn xp e d facts). Qed.
Print Assumptions C15_absent_symbol_partial.
Theorem C15_absent_symbol_zero_partial : forall Y F k r n xn xp e d facts, posEnv r -> wf anySym e ->
  diffTop (world Y F k) n e (Sym xn xp) = Ok d facts -> rightFacts r facts -> mentions xn xp e = false ->
  smooth (fun b => forall fs, w_log (world Y F k) b <> Ok Undef fs) r xn xp e -> d = Num 0.
Proof. intros Y F k r n xn xp e d facts Hr. exact (diff_absent_smooth Y F k r Hr n xn xp e d facts). Qed.
Print Assumptions C15_absent_symbol_zero_partial.
Example C15_case : diffTop W0 40 (Pow sp sy) sx = Ok (Num 0) [] /\ wf anySym (Pow sp sy) /\ mentions (nm "x"%string) false (Pow sp sy) = false /\
  smooth (fun b => forall fs, w_log W0 b <> Ok Undef fs) (allv 3) (nm "x"%string) false (Pow sp sy).
Proof.
  split; [lazy; reflexivity|]. split; [exact (conj I I)|]. split; [reflexivity|].
  refine (conj I (conj I _)). exists 3. split; [reflexivity|]. left. lra.
Qed.
Theorem C15_absent_symbol_refuted : ~ forall Y F k n xn xp e d facts, wf anySym e ->
  diffTop (world Y F k) n e (Sym xn xp) = Ok d facts -> mentions xn xp e = false -> d = Num 0.
Proof.
  intros H. destruct SimplWitness.diff_absent as [facts E].
  specialize (H refSys 40%nat 40%nat 40%nat (nm "x"%string) false (Pow (Num (-2)) sy) Undef facts).
  assert (X : Undef = Num 0); [|discriminate X]. apply H; [cbn; repeat split|exact E|reflexivity].
Qed.
Print Assumptions C15_absent_symbol_refuted.

(** ** C19: complexity *)
Theorem C19_complexity_structural : forall e e', isEqual e e' = true -> complexity e = complexity e'.
Proof.
  intros e e' H. destruct (ExprWitness.equality_decides e e') as [X _]; [|now rewrite (X H)].
  apply ExprWitness.equality_reflexive. apply (ExprWitness.equality_transitive e e' e); [exact H|]. rewrite ExprProofs.isEqual_sym. exact H.
Qed.
Print Assumptions C19_complexity_structural.
Theorem C19_simplify_complexity_refuted : ~ forall Y F k n e e' facts, wf anySym e ->
  simplifyVar (world Y F k) n e = Ok e' facts -> (complexity e' <= complexity e)%Z.
Proof.
  intros H. destruct simplify_twoSums as [facts E]. destruct twoSums_complexity as [C1 C2].
  specialize (H refSys 40%nat 40%nat 40%nat twoSums twoSums' facts). rewrite C1, C2 in H.
  assert (X : (118 <= 63)%Z); [|lia]. apply H; [cbn; repeat split|exact E].
Qed.
Print Assumptions C19_simplify_complexity_refuted.
