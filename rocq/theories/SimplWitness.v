(** Concrete executions: cases that meet the hypotheses of the theorems and counterexamples. *)
From Verif Require Export RefFloat SimplApi.
From Coq Require Import String Lra Lia.
From Verif Require Import Run.
Open Scope R_scope.

Definition sx : expr := Sym (nm "x"%string) false.
Definition sy : expr := Sym (nm "y"%string) false.
Definition sz : expr := Sym (nm "z"%string) false.
Definition sw : expr := Sym (nm "w"%string) false.
Definition sa : expr := Sym (nm "a"%string) false.
Definition sb : expr := Sym (nm "b"%string) false.
Definition sp : expr := Sym (nm "p"%string) true.
Definition tx : term := TSym (nm "x"%string) false.
Definition ty : term := TSym (nm "y"%string) false.
Definition tp : term := TSym (nm "p"%string) true.

(** All symbols have the value v. *)
Definition allv (v : R) : env := fun _ _ => v.
Lemma allv_pos v : 0 < v -> posEnv (allv v).
Proof. intros H n. exact H. Qed.
(** Positive symbols are 1, the others v. *)
Definition oth (v : R) : env := fun _ p => if p then 1 else v.
Lemma oth_pos v : posEnv (oth v).
Proof. intros n. cbn. lra. Qed.

Lemma Q2R_half : Q2R (1 # 2) = / 2. Proof. unfold Q2R. cbn. lra. Qed.
Lemma Q2R_mhalf : Q2R (-1 # 2) = - / 2. Proof. unfold Q2R. cbn. lra. Qed.
Lemma Q2R_mone : Q2R (-1 # 1) = -1. Proof. unfold Q2R. cbn. lra. Qed.
Lemma Q2R_one : Q2R 1 = 1. Proof. unfold Q2R. cbn. lra. Qed.
Lemma Q2R_two : Q2R 2 = 2. Proof. unfold Q2R. cbn. lra. Qed.
Lemma Q2R_zero : Q2R 0 = 0. Proof. unfold Q2R. cbn. lra. Qed.
Ltac q2r := rewrite ?Q2R_half, ?Q2R_mhalf, ?Q2R_mone, ?Q2R_one, ?Q2R_two, ?Q2R_zero.

Lemma rpow_1 e : rpow 1 e = Some 1.
Proof. rewrite rpow_pos by lra. unfold Rpower. now rewrite ln_1, Rmult_0_r, exp_0. Qed.
Lemma rpow_sq v : rpow v 2 = Some (v * v).
Proof.
  destruct (Req_dec v 0) as [->|H]; [rewrite rpow_0_pos by lra; f_equal; lra|].
  rewrite (rpow_int v 2) by exact H. f_equal. change (powerRZ v 2) with (v * (v * 1)). ring.
Qed.

(** ** Counterexamples *)

(** 324^2 becomes 1296. *)
Lemma pow_324 : exists facts, w_pow W0 (Num 324) (Num 2) = Ok (Num 1296) facts.
Proof. eexists. lazy. reflexivity. Qed.
Lemma pow_324_value r : opow (eval r (Num 324)) (eval r (Num 2)) = Some 104976 /\ eval r (Num 1296) = Some 1296.
Proof.
  cbn [opow eval]. q2r. rewrite rpow_sq. split; f_equal; unfold Q2R; cbn; lra.
Qed.

(** sqrt(-x^2) becomes Undefined, although it has a value at x = 0. *)
Lemma sqrt_neg_square : exists facts, w_pow W0 (Prod [Num (-1); Pow sx (Num 2)]) (Num (1 # 2)) = Ok Undef facts.
Proof. eexists. lazy. reflexivity. Qed.
Lemma sqrt_neg_square_value : opow (eval (oth 0) (Prod [Num (-1); Pow sx (Num 2)])) (eval (oth 0) (Num (1 # 2))) = Some 0.
Proof.
  cbn. q2r. rewrite rpow_sq. cbn. replace (-1 * (0 * 0 * 1)) with 0 by lra. apply rpow_0_pos. lra.
Qed.

(** tan(a)^(1/2) * cos(a)^(-1/2) becomes tan(a)^(1/2). *)
Definition lostCos : list expr := [Pow (Fct FTan [sa]) (Num (1 # 2)); Pow (Fct FCos [sa]) (Num (-1 # 2))].
Lemma prod_lostCos : exists facts, w_prod W0 lostCos = Ok (Pow (Fct FTan [sa]) (Num (1 # 2))) facts.
Proof. eexists. lazy. reflexivity. Qed.
Lemma tan_half_value : eval (allv (PI / 4)) (Pow (Fct FTan [sa]) (Num (1 # 2))) = Some 1.
Proof.
  cbn. unfold allv. destruct (Req_EM_T (cos (PI / 4)) 0) as [H|_].
  - rewrite cos_PI4 in H. exfalso. pose proof (Rlt_sqrt2_0). assert (0 < / sqrt 2) by now apply Rinv_0_lt_compat. lra.
  - rewrite tan_PI4. apply rpow_1.
Qed.
Lemma lostCos_value : exists v, prodVal (allv (PI / 4)) lostCos = Some v /\ v <> 1.
Proof.
  unfold lostCos, prodVal. cbn [fold_right]. rewrite tan_half_value. cbn. unfold allv. rewrite cos_PI4. q2r.
  pose proof Rlt_sqrt2_0 as H2. pose proof sqrt2_neq_0.
  assert (H1 : 1 < sqrt 2) by (rewrite <- sqrt_1 at 1; apply sqrt_lt_1; lra).
  assert (Hi : 0 < 1 / sqrt 2) by (apply Rdiv_lt_0_compat; lra).
  rewrite rpow_pos by exact Hi. cbn. eexists. split; [reflexivity|].
  unfold Rpower. rewrite Rmult_1_l, Rmult_1_r. intros E. set (u := 1 / sqrt 2) in *. rewrite <- exp_0 in E. apply exp_inv in E.
  assert (L : ln u < 0).
  { rewrite <- ln_1. apply ln_increasing; [exact Hi|]. apply Rmult_lt_reg_r with (sqrt 2); [exact H2|].
    unfold u, Rdiv. rewrite Rmult_assoc, Rinv_l by assumption. lra. }
  lra.
Qed.

(** expand((x + sqrt(2)*x)*(sqrt(2)*y - y)*(z + w)) becomes w*x + w*y + x*z + y*z. *)
Definition rt2 : expr := Pow (Num 2) (Num (1 # 2)).
Definition lostSums : expr :=
  Prod [Sum [sx; Prod [rt2; sx]]; Sum [Prod [Num (-1); sy]; Prod [rt2; sy]]; Sum [sw; sz]].
Definition lostSums' : expr := Sum [Prod [sw; sx]; Prod [sw; sy]; Prod [sx; sz]; Prod [sy; sz]].
Lemma expand_lostSums : exists facts, w_expand W0 lostSums = Ok lostSums' facts.
Proof. eexists. lazy. reflexivity. Qed.
Lemma rt2_value r : eval r rt2 = Some (sqrt 2).
Proof. cbn. q2r. rewrite rpow_pos by lra. rewrite Rpower_sqrt by lra. reflexivity. Qed.
Lemma lostSums_value : eval (allv 1) lostSums = Some 2 /\ eval (allv 1) lostSums' = Some 4.
Proof.
  split; [|cbn; unfold allv; f_equal; lra].
  unfold lostSums. cbn [eval fold_right]. rewrite rt2_value. cbn. unfold allv. q2r. f_equal.
  pose proof (sqrt_sqrt 2 ltac:(lra)). lra.
Qed.

(** log(x^2) becomes 2*log(x). *)
Lemma log_square : exists facts, w_log W0 (Pow sx (Num 2)) = Ok (Prod [Num 2; Fct FLog [sx]]) facts.
Proof. eexists. lazy. reflexivity. Qed.
Lemma log_square_value : eval (oth (-1)) (Fct FLog [Pow sx (Num 2)]) = Some 0 /\
  eval (oth (-1)) (Prod [Num 2; Fct FLog [sx]]) = None.
Proof.
  cbn. q2r. rewrite rpow_sq. destruct (Rlt_dec 0 (-1 * -1)) as [_|]; [|lra].
  destruct (Rlt_dec 0 (-1)); [lra|]. split; [|reflexivity]. f_equal. rewrite <- ln_1. f_equal. lra.
Qed.

(** x^2 counts as positive. *)
Lemma square_positive : exists facts, w_pos W0 (Pow sx (Num 2)) = Ok true facts.
Proof. eexists. lazy. reflexivity. Qed.
Lemma square_value : eval (oth 0) (Pow sx (Num 2)) = Some 0.
Proof. cbn. q2r. rewrite rpow_sq. f_equal. lra. Qed.

(** subst(y*cos(a)^(-1/2), y, tan(a)^(1/2)) *)
Definition lostCosS : expr := Prod [Pow (Fct FCos [sa]) (Num (-1 # 2)); sy].
Lemma subst_lostCos : exists facts,
  w_subst W0 lostCosS sy (Pow (Fct FTan [sa]) (Num (1 # 2))) = Ok (Pow (Fct FTan [sa]) (Num (1 # 2))) facts.
Proof. eexists. lazy. reflexivity. Qed.

(** normal(((1-a)/(1-b))^(1/2)) splits the root of a quotient of two negative numbers. *)
Definition om (s : expr) : expr := Sum [Num 1; Prod [Num (-1); s]].
Definition rootQuot : expr := Pow (Prod [om sa; Pow (om sb) (Num (-1))]) (Num (1 # 2)).
Definition rootQuot' : expr := Prod [Pow (om sa) (Num (1 # 2)); Pow (om sb) (Num (-1 # 2))].
Lemma normal_rootQuot : exists facts, w_normal W0 rootQuot = Ok rootQuot' facts.
Proof. eexists. lazy. reflexivity. Qed.
Lemma not_int_half z : / 2 <> IZR z.
Proof.
  intros E. assert (H : IZR (2 * z) = 1) by (rewrite mult_IZR, <- E; lra).
  apply (eq_IZR (2 * z) 1) in H. lia.
Qed.
Lemma rootQuot_value : eval (oth 2) rootQuot = Some 1 /\ eval (oth 2) rootQuot' = None.
Proof.
  unfold rootQuot, rootQuot', om. cbn. q2r. replace (1 + (-1 * (2 * 1) + 0)) with (-1) by lra. split.
  - rewrite rpow_rm1 by lra. cbn. replace (-1 * (/ -1 * 1)) with 1 by field. apply rpow_1.
  - rewrite rpow_neg_none; [reflexivity|lra|]. intros z. apply not_int_half.
Qed.

(** atan2(-tan(1), -1) becomes 1, an angle in the first quadrant. *)
Definition tan1 : expr := Prod [Num (-1); Fct FTan [Num 1]].
Lemma atan2_tan1 : exists facts, w_atan2 W0 tan1 (Num (-1)) = Ok (Num 1) facts.
Proof. eexists. lazy. reflexivity. Qed.

(** The derivative of (-2)^y with respect to x is Undefined. *)
Lemma diff_absent : exists facts, diffTop W0 40 (Pow (Num (-2)) sy) sx = Ok Undef facts.
Proof. eexists. lazy. reflexivity. Qed.

(** tan(x)/tan(x) reads the front of an empty list. *)
Lemma tan_over_tan : w_prod W0 [Fct FTan [sx]; Pow (Fct FTan [sx]) (Num (-1))] = UB "front of empty list of factors".
Proof. lazy. reflexivity. Qed.

(** simplify((1/a + 1/b)*(1/x + 1/y)) is more complex than its argument. *)
Definition twoSums : expr :=
  Prod [Sum [Pow sa (Num (-1)); Pow sb (Num (-1))]; Sum [Pow sx (Num (-1)); Pow sy (Num (-1))]].
Definition twoSums' : expr :=
  Prod [Pow sa (Num (-1)); Pow sb (Num (-1)); Pow sx (Num (-1)); Pow sy (Num (-1));
        Sum [Prod [sa; sx]; Prod [sb; sx]; Prod [sa; sy]; Prod [sb; sy]]].
Lemma simplify_twoSums : exists facts, simplifyVar W0 40 twoSums = Ok twoSums' facts.
Proof. eexists. lazy. reflexivity. Qed.
Lemma twoSums_complexity : complexity twoSums = 63%Z /\ complexity twoSums' = 118%Z.
Proof. now lazy. Qed.

Lemma tan1_value r : exists v, eval r (Fct FAtan2 [tan1; Num (-1)]) = Some v /\ v <> 1.
Proof.
  pose proof PI2_1 as HP.
  assert (Hc : 0 < cos 1) by (apply cos_gt_0; lra).
  assert (Ht : 0 < tan 1) by (apply tan_gt_0; lra).
  cbn. q2r. destruct (Req_EM_T (cos 1) 0) as [|_]; [lra|]. cbn. unfold angle.
  destruct (Req_EM_T (-1) 0) as [|_]; [lra|]. eexists. split; [reflexivity|].
  destruct (Rle_dec 0 (-1 * (tan 1 * 1))) as [|_]; [lra|].
  match goal with |- 2 * PI - acos ?u <> 1 => pose proof (acos_bound u) end. lra.
Qed.

(** atan2(x,y) + atan2(x,z): the order of the summands is seen in the result. *)
Definition at1 : expr := Fct FAtan2 [sx; sy].
Definition at2 : expr := Fct FAtan2 [sx; sz].
Lemma atan2_order : w_sum W0 [at1; at2] = Ok (Sum [at1; at2]) [] /\ w_sum W0 [at2; at1] = Ok (Sum [at2; at1]) [].
Proof. split; lazy; reflexivity. Qed.

(** ** Executions that rely on true facts *)
Lemma right_nil r : rightFacts r [].
Proof. exists true. constructor. Qed.

(** 2*x + 1/2 + 3*x *)
Definition exSum : list expr := [Prod [Num 2; sx]; Num (1 # 2); Prod [Num 3; sx]].
Lemma exSum_run : w_sum W0 exSum = Ok (Sum [Num (1 # 2); Prod [Num 5; sx]]) [].
Proof. lazy. reflexivity. Qed.
Lemma exSum_wf : Forall (wf anySym) exSum.
Proof. constructor; [|constructor; [|constructor; [|constructor]]]; cbn; repeat split. Qed.
Lemma exSum_value : sumVal (allv 3) exSum = Some (31 / 2).
Proof. unfold sumVal. cbn. unfold allv. f_equal. unfold Q2R. cbn. lra. Qed.

(** p^(1/2) * 2 * p^(1/2), p positive *)
Definition exProd : list expr := [Pow sp (Num (1 # 2)); Num 2; Pow sp (Num (1 # 2))].
Lemma exProd_run : w_prod W0 exProd = Ok (Prod [Num 2; sp]) [].
Proof. lazy. reflexivity. Qed.
Lemma exProd_wf : Forall (wf anySym) exProd.
Proof. constructor; [|constructor; [|constructor; [|constructor]]]; cbn; repeat split. Qed.
Lemma exProd_value : prodVal (allv 4) exProd = Some 8.
Proof.
  unfold prodVal. cbn. unfold allv. q2r. rewrite rpow_pos by lra. rewrite Rpower_sqrt by lra.
  replace 4 with (2 * 2) by lra. rewrite sqrt_square by lra. cbn. f_equal. lra.
Qed.

(** (4*p^2)^(1/2) *)
Definition exPow : expr := Prod [Num 4; Pow sp (Num 2)].
Lemma exPow_run : exists facts, w_pow W0 exPow (Num (1 # 2)) = Ok (Prod [Num 2; sp]) facts /\ rightFacts (allv 3) facts.
Proof.
  eexists. split; [lazy; reflexivity|]. exists false. constructor; [|constructor; [|constructor; [|constructor]]].
  - cbn. intros _ [= E]. unfold Q2R in E. cbn in E. lra.
  - cbn [holds]. split; [|repeat split].
    unfold payVal. cbn [pBase pExp pPre]. replace (Q2R 4) with 4 by (unfold Q2R; cbn; lra). q2r.
    rewrite !rpow_pos by lra. rewrite Rpower_sqrt by lra. replace 4 with (2 * 2) by lra. rewrite sqrt_square by lra.
    rewrite Rpower_1 by lra. cbn. f_equal.
  - cbn. intros _. unfold allv. q2r. rewrite rpow_sq. intros [= E]. lra.
Qed.
Lemma exPow_value : opow (eval (allv 3) exPow) (eval (allv 3) (Num (1 # 2))) = Some 6.
Proof.
  cbn. unfold allv. q2r. rewrite rpow_sq. cbn. replace (Q2R 4 * (3 * 3 * 1)) with (6 * 6) by (unfold Q2R; cbn; lra).
  rewrite rpow_pos by lra. rewrite Rpower_sqrt by lra. now rewrite sqrt_square by lra.
Qed.

(** (1 + x)*(x + y) *)
Definition exExp : expr := Prod [Sum [Num 1; sx]; Sum [sx; sy]].
Lemma exExp_run : w_expand W0 exExp = Ok (Sum [sx; Pow sx (Num 2); sy; Prod [sx; sy]]) [].
Proof. lazy. reflexivity. Qed.
Lemma exExp_subst : w_subst W0 exExp sx (Num 2) = Ok (Sum [Num 6; Prod [Num 3; sy]]) [].
Proof. lazy. reflexivity. Qed.

(** 2^(1/2) - 1 is positive. *)
Definition exPos : expr := Sum [rt2; Num (-1)].
Lemma exPos_run r : exists facts, w_pos W0 exPos = Ok true facts /\ Forall (holds true r) facts.
Proof.
  eexists. split; [lazy; reflexivity|]. constructor; [|constructor]. cbn [holds]. intros v w Hv Hw.
  cbn [eval] in Hv. injection Hv as <-. change (Pow (Num 2) (Num (1 # 2))) with rt2 in Hw.
  unfold exPos in Hw. cbn [eval fold_right] in Hw. rewrite rt2_value in Hw. cbn in Hw. injection Hw as <-. q2r.
  assert (1 < sqrt 2) by (rewrite <- sqrt_1 at 1; apply sqrt_lt_1; lra). lra.
Qed.

(** log(p^2), p positive *)
Lemma exLog_run : exists facts, w_log W0 (Pow sp (Num 2)) = Ok (Prod [Num 2; Fct FLog [sp]]) facts /\ rightFacts (allv 3) facts.
Proof.
  eexists. split; [lazy; reflexivity|]. exists false. constructor; [|constructor]. cbn. unfold allv. intros v w [= <-] [= <-].
  q2r. lra.
Qed.

(** 1/x + 1/y *)
Definition exNorm : expr := Sum [Pow sx (Num (-1)); Pow sy (Num (-1))].
Lemma exNorm_run : w_normal W0 exNorm = Ok (Prod [Pow sx (Num (-1)); Pow sy (Num (-1)); Sum [sx; sy]]) [].
Proof. lazy. reflexivity. Qed.
Lemma exNorm_fraction : toFraction W0 40 exNorm = Ok (Sum [sx; sy], Prod [sx; sy]) [].
Proof. lazy. reflexivity. Qed.
Lemma exNorm_value : eval (allv 2) exNorm = Some 1.
Proof.
  cbn. unfold allv. q2r. rewrite rpow_rm1 by lra. cbn. f_equal. lra.
Qed.

(** (x + 1)/(x*x + x) - 2 as a program *)
Definition exProg : term :=
  TSub (TSimplify (TDiv (TAdd tx (TInt 1)) (TAdd (TMul tx tx) tx))) (TInt 2).
Lemma exProg_run : build W0 40 exProg = Ok (Sum [Num (-2); Pow sx (Num (-1))]) [].
Proof. lazy. reflexivity. Qed.
Lemma exProg_value : tval (allv 2) exProg = Some (-3 / 2).
Proof.
  unfold exProg. cbn. unfold allv. destruct (Req_EM_T (2 * 2 + 2) 0); [lra|]. cbn. f_equal. lra.
Qed.
Definition prog324 : term := TPow (TInt 324) (TInt 2).
Lemma prog_324 : exists facts, build W0 40 prog324 = Ok (Num 1296) facts.
Proof. eexists. lazy. reflexivity. Qed.
Lemma prog_324_value r : tval r prog324 = Some 104976.
Proof. unfold prog324. cbn [tval omap2]. rewrite rpow_sq. f_equal. lra. Qed.

(** Pseudo-division counts one step too few when the remainder vanishes. *)
Lemma pseudo_short : exists facts, pseudoDivide refSys W0 true 40 (Pow sx (Num 2)) (Prod [Num 2; sx]) sx = Ok (Prod [Num 4; sx], Num 0) facts /\
  rightFacts (oth 1) facts.
Proof.
  eexists. split; [lazy; reflexivity|]. exists true. constructor; [|constructor]. cbn [holds]. split; [|repeat split].
  unfold payVal. cbn [pBase pExp pPre]. q2r. rewrite rpow_sq. rewrite (rpow_intnn 2 0) by lia. cbn. f_equal. unfold Q2R. cbn. lra.
Qed.
