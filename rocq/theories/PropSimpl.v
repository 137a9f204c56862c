(** Theorems for C08 - C13, C16 - C18, C23, C37, C40 (simplification) and C41, C42 (programs).

    [world Y F k] is the library: Y the floating point unit and the prime resolution limit, F and k bounds
    for loops and nested calls.  An execution that ends returns [Ok e facts]; the facts are what the code
    took for granted on the way (Run.v) and [rightFacts r facts] says that they are true for the
    assignment r.  The theorems ending in _refuted show that the facts can be wrong. *)
From Coq Require Import Permutation.
From Verif Require Import SimplWitness.
From Coq Require Import Lra.
From Verif Require Import Run.
Open Scope R_scope.

(** ** C08: order of the operands *)

(** Full statement: equal expressions.  It fails for atan2. *)
Theorem C08_operand_order_refuted : ~ forall Y F k l l' e e' facts facts', Permutation l l' ->
  w_sum (world Y F k) l = Ok e facts -> w_sum (world Y F k) l' = Ok e' facts' -> isEqual e e' = true.
Proof.
  intros H. destruct atan2_order as [H1 H2].
  specialize (H refSys 40%nat 40%nat [at1; at2] [at2; at1] _ _ _ _ (perm_swap _ _ _) H1 H2). discriminate H.
Qed.
Print Assumptions C08_operand_order_refuted.

(** The values agree. *)
Theorem C08_sum_order_partial : forall Y F k r l l' e e' facts facts' v, posEnv r -> Permutation l l' ->
  Forall (wf anySym) l -> w_sum (world Y F k) l = Ok e facts -> w_sum (world Y F k) l' = Ok e' facts' ->
  rightFacts r facts -> rightFacts r facts' -> sumVal r l = Some v -> eval r e = Some v /\ eval r e' = Some v.
Proof. intros. eapply sum_perm_value; eauto. Qed.
Print Assumptions C08_sum_order_partial.
Theorem C08_product_order_partial : forall Y F k r l l' e e' facts facts' v, posEnv r -> Permutation l l' ->
  Forall (wf anySym) l -> w_prod (world Y F k) l = Ok e facts -> w_prod (world Y F k) l' = Ok e' facts' ->
  rightFacts r facts -> rightFacts r facts' -> prodVal r l = Some v -> eval r e = Some v /\ eval r e' = Some v.
Proof. intros. eapply prod_perm_value; eauto. Qed.
Print Assumptions C08_product_order_partial.
Example C08_case : w_sum W0 exSum = Ok (Sum [Num (1 # 2); Prod [Num 5; sx]]) [] /\
  w_sum W0 (rev exSum) = Ok (Sum [Num (1 # 2); Prod [Num 5; sx]]) [].
Proof. split; lazy; reflexivity. Qed.

(** ** C09: sums *)
Theorem C09_sum_value_partial : forall Y F k r l e facts v, posEnv r -> Forall (wf anySym) l ->
  w_sum (world Y F k) l = Ok e facts -> rightFacts r facts -> sumVal r l = Some v -> eval r e = Some v.
Proof. intros; eapply sum_value; eauto. Qed.
Print Assumptions C09_sum_value_partial.
Example C09_case : posEnv (allv 3) /\ Forall (wf anySym) exSum /\
  w_sum W0 exSum = Ok (Sum [Num (1 # 2); Prod [Num 5; sx]]) [] /\ rightFacts (allv 3) [] /\
  sumVal (allv 3) exSum = Some (31 / 2).
Proof. auto 10 using allv_pos, exSum_wf, exSum_run, right_nil, exSum_value with real. Qed.

(** ** C10: products *)
Theorem C10_product_value_partial : forall Y F k r l e facts v, posEnv r -> Forall (wf anySym) l ->
  w_prod (world Y F k) l = Ok e facts -> rightFacts r facts -> prodVal r l = Some v -> eval r e = Some v.
Proof. intros; eapply prod_value; eauto. Qed.
Print Assumptions C10_product_value_partial.
Example C10_case : posEnv (allv 4) /\ Forall (wf anySym) exProd /\ w_prod W0 exProd = Ok (Prod [Num 2; sp]) [] /\
  rightFacts (allv 4) [] /\ prodVal (allv 4) exProd = Some 8.
Proof. split; [apply allv_pos; lra|]. auto using exProd_wf, exProd_run, right_nil, exProd_value. Qed.
(** Without the facts the statement is false: tan(a)^(1/2) * cos(a)^(-1/2). *)
Theorem C10_product_value_refuted : ~ forall Y F k r l e facts v, posEnv r -> Forall (wf anySym) l ->
  w_prod (world Y F k) l = Ok e facts -> prodVal r l = Some v -> eval r e = Some v.
Proof.
  intros H. destruct prod_lostCos as [facts E]. destruct lostCos_value as (v & Ev & Hv).
  specialize (H refSys 40%nat 40%nat (allv (PI / 4)) lostCos (Pow (Fct FTan [sa]) (Num (1 # 2))) facts v).
  rewrite tan_half_value in H. assert (X : Some 1 = Some v).
  { apply H; [apply allv_pos; pose proof PI_RGT_0; lra| |exact E|exact Ev].
    constructor; [|constructor; [|constructor]]; cbn; repeat split. }
  injection X as X. auto.
Qed.
Print Assumptions C10_product_value_refuted.

(** ** C11: powers *)
Theorem C11_power_value_partial : forall Y F k r b x e facts v, posEnv r -> wf anySym b -> wf anySym x ->
  w_pow (world Y F k) b x = Ok e facts -> rightFacts r facts -> opow (eval r b) (eval r x) = Some v -> eval r e = Some v.
Proof. intros Y F k r b x e facts v Hr. exact (pow_value Y F k r Hr b x e facts v). Qed.
Print Assumptions C11_power_value_partial.
Example C11_case : posEnv (allv 3) /\
  (exists facts, w_pow W0 exPow (Num (1 # 2)) = Ok (Prod [Num 2; sp]) facts /\ rightFacts (allv 3) facts) /\
  opow (eval (allv 3) exPow) (eval (allv 3) (Num (1 # 2))) = Some 6.
Proof. split; [apply allv_pos; lra|]. auto using exPow_run, exPow_value. Qed.
(** Without the facts: 324^2 becomes 1296, and the root of -x^2 becomes Undefined. *)
Theorem C11_power_value_refuted : ~ forall Y F k r b x e facts v, posEnv r -> wf anySym b -> wf anySym x ->
  w_pow (world Y F k) b x = Ok e facts -> opow (eval r b) (eval r x) = Some v -> eval r e = Some v.
Proof.
  intros H. destruct pow_324 as [facts E]. destruct (pow_324_value (allv 1)) as [V1 V2].
  specialize (H refSys 40%nat 40%nat (allv 1) (Num 324) (Num 2) _ facts 104976 (allv_pos 1 Rlt_0_1) eq_refl eq_refl E V1).
  rewrite V2 in H. injection H as H. lra.
Qed.
Print Assumptions C11_power_value_refuted.
Theorem C11_root_of_zero_refuted : ~ forall Y F k r b x e facts v, posEnv r -> wf anySym b -> wf anySym x ->
  w_pow (world Y F k) b x = Ok e facts -> opow (eval r b) (eval r x) = Some v -> e <> Undef.
Proof.
  intros H. destruct sqrt_neg_square as [facts E].
  refine (H refSys 40%nat 40%nat (oth 0) _ _ Undef facts 0 (oth_pos 0) _ _ E sqrt_neg_square_value eq_refl); cbn; repeat split.
Qed.
Print Assumptions C11_root_of_zero_refuted.

(** ** C12: Undefined is contagious *)
Theorem C12_undefined_sum : forall Y F k l, In Undef l -> w_sum (world Y F (S k)) l = Ok Undef [].
Proof. exact undef_sum. Qed.
Print Assumptions C12_undefined_sum.
Theorem C12_undefined_product : forall Y F k l, In Undef l -> w_prod (world Y F (S k)) l = Ok Undef [].
Proof. exact undef_prod. Qed.
Print Assumptions C12_undefined_product.
Theorem C12_undefined_power : forall Y F k b x, b = Undef \/ x = Undef -> w_pow (world Y F (S k)) b x = Ok Undef [].
Proof. exact undef_pow. Qed.
Print Assumptions C12_undefined_power.
Theorem C12_undefined_function : forall Y F k f, w_trig (world Y F (S k)) f Undef = Ok Undef [] /\
  w_log (world Y F (S k)) Undef = Ok Undef [] /\
  forall y x, y = Undef \/ x = Undef -> w_atan2 (world Y F (S k)) y x = Ok Undef [].
Proof. auto using undef_trig, undef_log, undef_atan2. Qed.
Print Assumptions C12_undefined_function.
Example C12_case : w_sum W0 [sx; Undef; Num 2] = Ok Undef [] /\ w_prod W0 [Num 0; Undef] = Ok Undef [] /\ w_pow W0 sx Undef = Ok Undef [].
Proof. repeat split; lazy; reflexivity. Qed.

(** ** C13: expansion *)
Theorem C13_expand_value_partial : forall Y F k r e e' facts v, posEnv r -> wf anySym e ->
  w_expand (world Y F k) e = Ok e' facts -> rightFacts r facts -> eval r e = Some v -> eval r e' = Some v.
Proof. intros; eapply expand_value; eauto. Qed.
Print Assumptions C13_expand_value_partial.
Example C13_case : wf anySym exExp /\ w_expand W0 exExp = Ok (Sum [sx; Pow sx (Num 2); sy; Prod [sx; sy]]) [].
Proof. split; [cbn; repeat split|exact exExp_run]. Qed.
Theorem C13_expand_value_refuted : ~ forall Y F k r e e' facts v, posEnv r -> wf anySym e ->
  w_expand (world Y F k) e = Ok e' facts -> eval r e = Some v -> eval r e' = Some v.
Proof.
  intros H. destruct expand_lostSums as [facts E]. destruct lostSums_value as [V1 V2].
  specialize (H refSys 40%nat 40%nat (allv 1) lostSums lostSums' facts 2 (allv_pos 1 Rlt_0_1)).
  rewrite V2 in H. assert (X : Some 4 = Some 2) by (apply H; auto; cbn; repeat split). injection X as X. lra.
Qed.
Print Assumptions C13_expand_value_refuted.

(** ** C16: substitution *)
Theorem C16_subst_value_partial : forall Y F k r n p t e e' facts u v, posEnv r -> wf anySym e -> wf anySym t ->
  w_subst (world Y F k) e (Sym n p) t = Ok e' facts -> rightFacts r facts ->
  eval r t = Some u -> eval (upd r n p u) e = Some v -> eval r e' = Some v.
Proof. intros Y F k r n p t e e' facts u v Hr. exact (subst_value Y F k r Hr n p t e e' facts u v). Qed.
Print Assumptions C16_subst_value_partial.
Example C16_case : wf anySym exExp /\ w_subst W0 exExp sx (Num 2) = Ok (Sum [Num 6; Prod [Num 3; sy]]) [].
Proof. split; [cbn; repeat split|exact exExp_subst]. Qed.
Theorem C16_subst_value_refuted : ~ forall Y F k r n p t e e' facts u v, posEnv r -> wf anySym e -> wf anySym t ->
  w_subst (world Y F k) e (Sym n p) t = Ok e' facts ->
  eval r t = Some u -> eval (upd r n p u) e = Some v -> eval r e' = Some v.
Proof.
  intros H. destruct subst_lostCos as [facts E]. destruct lostCos_value as (v & Ev & Hv).
  specialize (H refSys 40%nat 40%nat (allv (PI / 4)) (nm "y"%string) false (Pow (Fct FTan [sa]) (Num (1 # 2))) lostCosS (Pow (Fct FTan [sa]) (Num (1 # 2))) facts 1 v).
  assert (X : eval (allv (PI / 4)) (Pow (Fct FTan [sa]) (Num (1 # 2))) = Some v).
  { apply H; [apply allv_pos; pose proof PI_RGT_0; lra|cbn; repeat split|cbn; repeat split|exact E|apply tan_half_value|].
    unfold lostCos, prodVal in Ev. cbn [fold_right] in Ev. rewrite tan_half_value in Ev.
    unfold lostCosS. cbn in Ev |- *. unfold allv in Ev. unfold upd, allv. cbn.
    destruct (rpow (cos (PI / 4)) (Q2R (-1 # 2))) as [c|]; [|discriminate Ev].
    cbn in Ev |- *. rewrite <- Ev. f_equal. lra. }
  rewrite tan_half_value in X. injection X as X. auto.
Qed.
Print Assumptions C16_subst_value_refuted.

(** ** C17: has and collectSymbols *)
Theorem C17_has_exact : forall x e, defined x -> (has e x = true <-> occurs x e).
Proof. intros x e H. apply has_occurs, H. Qed.
Print Assumptions C17_has_exact.
Theorem C17_absent_symbol : forall e n p r v, has e (Sym n p) = false -> eval (upd r n p v) e = eval r e.
Proof. intros e n p r v H. apply has_absent_value, H. Qed.
Print Assumptions C17_absent_symbol.
Theorem C17_collected_symbols : forall e, NoDup (collectSymbols e) /\
  forall s, In s (collectSymbols e) <-> (exists n p, s = Sym n p) /\ occurs s e.
Proof. exact collectSymbols_spec. Qed.
Print Assumptions C17_collected_symbols.
Example C17_case : collectSymbols exExp = [sx; sy] /\ has exExp sx = true /\ has exExp sp = false /\ has exExp (Sum [sx; sy]) = true.
Proof. repeat split; lazy; reflexivity. Qed.

(** ** C18: signs *)
Theorem C18_positive_partial : forall Y F k r e facts v, posEnv r -> wf anySym e ->
  w_pos (world Y F k) e = Ok true facts -> Forall (holds true r) facts -> eval r e = Some v -> 0 < v.
Proof. intros; eapply pos_value; eauto. Qed.
Print Assumptions C18_positive_partial.
Theorem C18_negative_partial : forall Y F k r e facts v, posEnv r -> wf anySym e ->
  w_neg (world Y F k) e = Ok true facts -> Forall (holds true r) facts -> eval r e = Some v -> v < 0.
Proof. intros; eapply neg_value; eauto. Qed.
Print Assumptions C18_negative_partial.
Example C18_case : forall r, exists facts, w_pos W0 exPos = Ok true facts /\ Forall (holds true r) facts.
Proof. exact exPos_run. Qed.
Theorem C18_positive_refuted : ~ forall Y F k r e facts v, posEnv r -> wf anySym e ->
  w_pos (world Y F k) e = Ok true facts -> eval r e = Some v -> 0 < v.
Proof.
  intros H. destruct square_positive as [facts E].
  specialize (H refSys 40%nat 40%nat (oth 0) (Pow sx (Num 2)) facts 0 (oth_pos 0) (conj I eq_refl) E square_value). lra.
Qed.
Print Assumptions C18_positive_refuted.

(** ** C23: normalisation *)
Theorem C23_normal_value_partial : forall Y F k r e e' facts v, posEnv r -> wf anySym e ->
  w_normal (world Y F k) e = Ok e' facts -> rightFacts r facts -> eval r e = Some v -> eval r e' = Some v.
Proof. intros; eapply normal_value; eauto. Qed.
Print Assumptions C23_normal_value_partial.
Theorem C23_simplify_value_partial : forall Y F k r n e e' facts v, posEnv r -> wf anySym e ->
  simplifyVar (world Y F k) n e = Ok e' facts -> rightFacts r facts -> eval r e = Some v -> eval r e' = Some v.
Proof. intros; eapply simplify_value; eauto. Qed.
Print Assumptions C23_simplify_value_partial.
Example C23_case : wf anySym exNorm /\ eval (allv 2) exNorm = Some 1 /\
  w_normal W0 exNorm = Ok (Prod [Pow sx (Num (-1)); Pow sy (Num (-1)); Sum [sx; sy]]) [].
Proof. split; [cbn; repeat split|]. auto using exNorm_run, exNorm_value. Qed.
Theorem C23_normal_value_refuted : ~ forall Y F k r e e' facts v, posEnv r -> wf anySym e ->
  w_normal (world Y F k) e = Ok e' facts -> eval r e = Some v -> eval r e' = Some v.
Proof.
  intros H. destruct normal_rootQuot as [facts E]. destruct rootQuot_value as [V1 V2].
  specialize (H refSys 40%nat 40%nat (oth 2) rootQuot rootQuot' facts 1 (oth_pos 2)).
  rewrite V2 in H. assert (X : None = Some 1) by (apply H; auto; cbn; repeat split). discriminate X.
Qed.
Print Assumptions C23_normal_value_refuted.

(** ** C37: logarithms *)
Theorem C37_log_value_partial : forall Y F k r a e facts v, posEnv r -> wf anySym a ->
  w_log (world Y F k) a = Ok e facts -> rightFacts r facts -> eval r (Fct FLog [a]) = Some v -> eval r e = Some v.
Proof. intros; eapply log_value; eauto. Qed.
Print Assumptions C37_log_value_partial.
Example C37_case : exists facts, w_log W0 (Pow sp (Num 2)) = Ok (Prod [Num 2; Fct FLog [sp]]) facts /\ rightFacts (allv 3) facts.
Proof. exact exLog_run. Qed.
Theorem C37_log_value_refuted : ~ forall Y F k r a e facts v, posEnv r -> wf anySym a ->
  w_log (world Y F k) a = Ok e facts -> eval r (Fct FLog [a]) = Some v -> eval r e = Some v.
Proof.
  intros H. destruct log_square as [facts E]. destruct log_square_value as [V1 V2].
  specialize (H refSys 40%nat 40%nat (oth (-1)) (Pow sx (Num 2)) _ facts 0 (oth_pos (-1)) (conj I eq_refl) E V1). rewrite V2 in H. discriminate H.
Qed.
Print Assumptions C37_log_value_refuted.

(** ** C40: defined behaviour *)
Theorem C40_defined_behaviour_refuted : ~ forall Y F k l s, Forall (wf anySym) l -> w_prod (world Y F k) l <> UB s.
Proof.
  intros H. eapply (H refSys 40%nat 40%nat); [|exact tan_over_tan].
  constructor; [|constructor; [|constructor]]; cbn; repeat split.
Qed.
Print Assumptions C40_defined_behaviour_refuted.

(** ** C41: programs compute the value they stand for *)
Theorem C41_program_value_partial : forall Y F k r n t e facts v, posEnv r ->
  build (world Y F k) n t = Ok e facts -> rightFacts r facts -> tval r t = Some v -> eval r e = Some v.
Proof. intros; eapply program_value; eauto. Qed.
Print Assumptions C41_program_value_partial.
Example C41_case : build W0 40 exProg = Ok (Sum [Num (-2); Pow sx (Num (-1))]) [] /\ tval (allv 2) exProg = Some (-3 / 2).
Proof. auto using exProg_run, exProg_value. Qed.
(** Without the facts: the program 324^2 computes 1296. *)
Theorem C41_program_value_refuted : ~ forall Y F k r n t e facts v, posEnv r ->
  build (world Y F k) n t = Ok e facts -> tval r t = Some v -> eval r e = Some v.
Proof.
  intros H. destruct prog_324 as [facts E]. destruct (pow_324_value (allv 1)) as [_ V].
  specialize (H refSys 40%nat 40%nat (allv 1) 40%nat prog324 _ facts 104976 (allv_pos 1 Rlt_0_1) E (prog_324_value (allv 1))).
  rewrite V in H. injection H as H. lra.
Qed.
Print Assumptions C41_program_value_refuted.

(** ** C42: numerator and denominator *)
Theorem C42_fraction_value_partial : forall Y F k r n e num den facts v, posEnv r -> wf anySym e ->
  toFraction (world Y F k) n e = Ok (num, den) facts -> rightFacts r facts -> eval r e = Some v ->
  exists a b, eval r num = Some a /\ eval r den = Some b /\ b <> 0 /\ v = a / b.
Proof. intros; eapply fraction_value; eauto. Qed.
Print Assumptions C42_fraction_value_partial.
Example C42_case : toFraction W0 40 exNorm = Ok (Sum [sx; sy], Prod [sx; sy]) [] /\ eval (allv 2) exNorm = Some 1.
Proof. auto using exNorm_fraction, exNorm_value. Qed.
