(** Theorems for C53: computations end.  The model has bounds F, k, n for recursion and loops; Fuel says that a
    bound was reached.  A result for some bounds is the result for all larger ones (C46), so Fuel for all bounds
    means that the code never returns.  What ends: C47 (programs made of numbers, symbols, +, -, *, ^n), C50
    (division), C51 (normal, simplify, numerator, denominator of expanded polynomials). *)
From Verif Require Import SimplWitness NormHang NormSpec LaurentSpec DivSpec DivUser RingSpec RingTerm PropExpand PropRing PropDivide NumberProofs NumberSpec PolyModel NormalModel ApiModel ApiSpec.
From Coq Require Import Lia Lra.
From Verif Require Import Run LaurentSpec.
Open Scope Z_scope.

(** If the inverse of a number is computed wrongly, dividing a polynomial in one symbol by this number never ends. *)
Theorem C53_division_hangs : forall Y B t u c i F0 k0 facts, exactUpTo B (s_nlt Y) -> B < intMax -> ordinary u -> totalDegree u <= B ->
  (forall s, hasSymbol s u <-> s = t) ->
  canon c -> Q2R c <> 0%R -> w_pow (world Y F0 k0) (Num c) (Num (-1)) = Ok (Num i) facts -> (Q2R i * Q2R c <> 1)%R ->
  forall F k n, polyDivide Y (world Y F k) n (polyE u) (Num c) = Fuel.
Proof. exact user_hangs. Qed.
Print Assumptions C53_division_hangs.
(** 648 + 324*x divided by 324: the inverse is 1/36. *)
Example C53_case : ordinary hPoly /\ polyE hPoly = Sum [Num 648; Prod [Num 324; sx]] /\ totalDegree hPoly = 1 /\ (forall s, hasSymbol s hPoly <-> s = exX) /\
  (exists facts, w_pow W0 (Num 324) (Num (-1)) = Ok (Num (1 # 36)) facts) /\ (Q2R (1 # 36) * Q2R 324 <> 1)%R.
Proof.
  split; [exact hPoly_ordinary|]. split; [reflexivity|]. split; [reflexivity|]. split; [|split].
  - intros s. unfold hasSymbol. split.
    + intros (m & f & [<-|[<-|[]]] & Hf & <-); cbn in Hf; [destruct Hf | destruct Hf as [<-|[]]; reflexivity].
    + intros ->. exists (ofZ 324, [(exX, 1)]), (exX, 1). cbn. auto.
  - eexists. lazy. reflexivity.
  - unfold Q2R; cbn. lra.
Qed.

(** Full statement: if a program returns a result, its normal form, simplification, numerator and denominator
    are found.  False: 324/(648 + 324*x), which is 1/3 for x = 1. *)
Theorem C53_normal_refuted : ~ forall Y t e, returns Y t e -> exists e', returns Y (TNormal t) e'.
Proof.
  intros H. destruct (H refSys hTerm hExpr) as (e' & F & k & n & facts & E).
  - exists 40%nat, 40%nat, 40%nat, []. lazy. reflexivity.
  - rewrite program_hangs in E. discriminate.
Qed.
Print Assumptions C53_normal_refuted.
Theorem C53_simplify_refuted : ~ forall Y t e, returns Y t e -> exists e', returns Y (TSimplify t) e'.
Proof.
  intros H. destruct (H refSys hTerm hExpr) as (e' & F & k & n & facts & E).
  - exists 40%nat, 40%nat, 40%nat, []. lazy. reflexivity.
  - rewrite simplify_hangs in E. discriminate.
Qed.
Print Assumptions C53_simplify_refuted.
Theorem C53_fraction_refuted : ~ forall Y t e, returns Y t e -> exists F k n x facts, toFraction (world Y F k) n e = Ok x facts.
Proof.
  intros H. destruct (H refSys hTerm hExpr) as (F & k & n & x & facts & E).
  - exists 40%nat, 40%nat, 40%nat, []. lazy. reflexivity.
  - rewrite toFraction_hangs in E. discriminate.
Qed.
Print Assumptions C53_fraction_refuted.
(** The program has a value, and no execution of its normal form returns. *)
Example C53_program : tval (allv 1) hTerm = Some (1 / 3)%R /\ forall F k n, build (world refSys F k) n (TNormal hTerm) = Fuel.
Proof. split; [exact hTerm_value | exact program_hangs]. Qed.
