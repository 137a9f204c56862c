(** Examples for the conversions. *)
From Verif Require Import DoubleModel DoubleExact MixedModel MixedSpec DoubleOps FractionProofs MixedProofs MixedBounds NumberProofs NumberSpec ExprProofs EvalConst EvalSpec EvalProofs EvalAmple.
Require Import Flocq.Core.Core Flocq.IEEE754.BinarySingleNaN.
From Coq Require Import List Lia Lra Reals Qreals.
Import ListNotations.
Open Scope R_scope.

(** pi/10^20. *)
Definition smallPi : expr := Prod [Num (1 # 100000000000000000000); Cst CPi].
Lemma smallPi_run lib limit : numericEval (doubleSys lib limit) smallPi = Some (NQ 0%Q).
Proof. vm_compute. reflexivity. Qed.
Lemma smallPi_value r : exists v, eval r smallPi = Some v /\ 0 < v < 1.
Proof.
  exists (Q2R (1 # 100000000000000000000) * (PI * 1)). split; [reflexivity|]. unfold Q2R. cbn [Qnum Qden]. pose proof PI_RGT_0. pose proof PI_4. lra.
Qed.
Lemma smallPi_const : constExpr smallPi /\ (bits smallPi <= 400)%Z.
Proof. split; [cbn; repeat split|vm_compute; discriminate]. Qed.
Lemma smallPi_int lib limit : varToInt (doubleSys lib limit) smallPi = Gives 0%Z.
Proof. unfold varToInt. rewrite smallPi_run. reflexivity. Qed.
Lemma smallPi_double lib limit : exists x, varToDouble lib limit smallPi = Gives x /\ isDouble x /\ doubleValue x = 0.
Proof.
  exists (dRat 0%Q). unfold varToDouble. rewrite smallPi_run. split; [reflexivity|]. split; [split; vm_compute; reflexivity|]. reflexivity.
Qed.
(** 1 + sqrt(2) - 3*pi*sin(1/2)*e. *)
Definition sample : expr := Sum [Num 1; Pow (Num (2 # 1)) (Num (1 # 2)); Prod [Num (-3 # 1); Cst CPi; Fct FSin [Num (1 # 2)]; Cst CE]].
Lemma sample_ok : constExpr sample /\ (bits sample <= 400)%Z.
Proof. split; [cbn; repeat split; try lia; try (now left)|vm_compute; discriminate]. Qed.
(** (2/3)^(-2) + 5*(1/4 - 1/2). *)
Definition rational_sample : expr := Sum [Pow (Num (2 # 3)) (Num (-2 # 1)); Prod [Num (5 # 1); Sum [Num (1 # 4); Num (-1 # 2)]]].
Lemma rational_sample_ok : ratExpr rational_sample /\ forall Y, varToInt Y rational_sample = Gives 1%Z.
Proof. split; [cbn; repeat split; discriminate|]. intros Y. vm_compute. reflexivity. Qed.
