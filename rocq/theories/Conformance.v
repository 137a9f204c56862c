(** The unit tests of the code, run in the model.  Generated by conformance/gen.py from unit-tests/*.cpp:
    do not edit.  These are tests of the model (not proofs of properties): they show that the definitions
    compute what the code computes, as far as its own tests tell.  The runs happen when this file is
    compiled ([Eval vm_compute]); the examples check that no test failed. *)
From Verif Require Import RefFloat DiffModel.
From Coq Require Import QArith ZArith List String.
Import ListNotations.
Open Scope Z_scope.
Open Scope list_scope.

Definition passes (r : res (list bool)) : bool := match r with Ok l _ => forallb id l | _ => false end.
Definition sameE (a b : expr) : bool := isEqual a b.
Fixpoint sameL (a b : list expr) : bool :=
  match a, b with [], [] => true | x :: a', y :: b' => sameE x y && sameL a' b' | _, _ => false end.
Definition sameN (a : option (FloatEval.num (sD refSys))) (b : FloatEval.num (sD refSys)) : bool :=
  match a with Some x => FloatEval.neq refSys x b | None => false end.
Definition isSumE := ExprModel.isSum.
Definition isProductE := ExprModel.isProduct.
Definition isPowerE := ExprModel.isPower.
Definition isNumericE := ExprModel.isNumeric.
Definition isSymbolE := ExprModel.isSymbol.
Definition isConstantE := ExprModel.isConstant.
Definition isFunctionE := ExprModel.isFunction.
Definition baseOf := base.
Definition expOf := expo.
Definition opsOf := ops.
Definition isEvaluable (e : expr) : bool := match numericEval refSys e with Some _ => true | None => false end.
Definition frq (p q : Z) : Q := match qinv (ofZ q) with Some i => qmul (ofZ p) i | None => 0%Q end.
Definition sameU (a b : expr) : bool := if isUndefined a then isUndefined b else isEqual a b.
Definition freshBase (l : list expr) : nat := List.fold_right (fun e n => Nat.max (nameLen e) n) O l.

Definition t_coeff_equalSymbolsExpOne : res (list bool) :=
  v1 <- coeff W0 (Sym (nm "a"%string) false) (Sym (nm "a"%string) false) (1) ;;
  ret [(sameE (numZ 1) v1)].
Definition t_coeff_equalSymbolsExpZero : res (list bool) :=
  v1 <- coeff W0 (Sym (nm "a"%string) false) (Sym (nm "a"%string) false) (0) ;;
  ret [(sameE (numZ 0) v1)].
Definition t_coeff_differentSymbolsExpOne : res (list bool) :=
  v1 <- coeff W0 (Sym (nm "a"%string) false) (Sym (nm "b"%string) false) (1) ;;
  ret [(sameE (numZ 0) v1)].
Definition t_coeff_differentSymbolExpZero : res (list bool) :=
  v1 <- coeff W0 (Sym (nm "a"%string) false) (Sym (nm "b"%string) false) (0) ;;
  ret [(sameE (Sym (nm "a"%string) false) v1)].
Definition t_coeff_symbolAndProductExpZero : res (list bool) :=
  v1 <- w_prod W0 [(Sym (nm "a"%string) false); (Sym (nm "b"%string) false); (Sym (nm "c"%string) false)] ;;
  v2 <- coeff W0 (Sym (nm "a"%string) false) v1 (0) ;;
  ret [(sameE (Sym (nm "a"%string) false) v2)].
Definition t_coeff_numericEqualArgExpZero : res (list bool) :=
  v1 <- coeff W0 (numZ 2) (numZ 2) (0) ;;
  ret [(sameE (numZ 2) v1)].
Definition t_coeff_numericEqualArgExpNotOne : res (list bool) :=
  v1 <- w_sum W0 [(Sym (nm "a"%string) false); (Sym (nm "b"%string) false)] ;;
  v2 <- coeff W0 (numZ 2) (numZ 2) (12) ;;
  ret [(sameE (numZ 0) v2)].
Definition t_coeff_numericDifferentArgExpZero : res (list bool) :=
  v1 <- w_pow W0 (Sym (nm "a"%string) false) (Sym (nm "b"%string) false) ;;
  v2 <- coeff W0 (numZ 2) v1 (0) ;;
  ret [(sameE (numZ 2) v2)].
Definition t_coeff_numericDifferentArgExpNotOne : res (list bool) :=
  v1 <- w_sum W0 [(Sym (nm "a"%string) false); (Sym (nm "b"%string) false)] ;;
  v2 <- coeff W0 (numZ 2) v1 ((- 3)) ;;
  ret [(sameE (numZ 0) v2)].
Definition t_coeff_powerEqualArgExpOne : res (list bool) :=
  v1 <- w_trig W0 FSin (Sym (nm "a"%string) false) ;;
  v2 <- w_pow W0 (Sym (nm "b"%string) false) v1 ;;
  v3 <- coeff W0 v2 v2 (1) ;;
  ret [(sameE (numZ 1) v3)].
Definition t_coeff_powerEqualArgExpZero : res (list bool) :=
  v1 <- w_pow W0 (Sym (nm "a"%string) false) (numZ 3) ;;
  v2 <- coeff W0 v1 v1 (0) ;;
  ret [(sameE (numZ 0) v2)].
Definition t_coeff_powerDifferentArgExpNonZero : res (list bool) :=
  v1 <- w_pow W0 (Sym (nm "a"%string) false) (Sym (nm "b"%string) false) ;;
  v2 <- w_pow W0 (Sym (nm "c"%string) false) (Sym (nm "d"%string) false) ;;
  v3 <- coeff W0 v1 v2 (3) ;;
  ret [(sameE (numZ 0) v3)].
Definition t_coeff_powerDifferentArgExpZero : res (list bool) :=
  v1 <- w_sum W0 [(Sym (nm "b"%string) false); (Sym (nm "c"%string) false)] ;;
  v2 <- w_pow W0 (Sym (nm "a"%string) false) v1 ;;
  v3 <- w_prod W0 [(Sym (nm "e"%string) false); (Sym (nm "f"%string) false)] ;;
  v4 <- w_pow W0 (Sym (nm "d"%string) false) v3 ;;
  v5 <- coeff W0 v2 v4 (0) ;;
  ret [(sameE v2 v5)].
Definition t_coeff_powerArgsToPowerMatches : res (list bool) :=
  v1 <- w_sum W0 [(Sym (nm "a"%string) false); (numZ 10)] ;;
  v2 <- w_pow W0 v1 (numZ ((- 2))) ;;
  v3 <- coeff W0 v2 v1 ((- 2)) ;;
  ret [(sameE (numZ 1) v3)].
Definition t_coeff_productEqualArgExpZero : res (list bool) :=
  v1 <- w_prod W0 [(Sym (nm "a"%string) false); (Sym (nm "b"%string) false); (Sym (nm "c"%string) false)] ;;
  v2 <- coeff W0 v1 v1 (0) ;;
  ret [(sameE (numZ 0) v2)].
Definition t_coeff_productEqualArgExpOne : res (list bool) :=
  v1 <- w_prod W0 [(numZ 2); (Sym (nm "a"%string) false)] ;;
  v2 <- coeff W0 v1 v1 (1) ;;
  ret [(sameE (numZ 1) v2)].
Definition t_coeff_productDifferentArgExpZero : res (list bool) :=
  v1 <- w_prod W0 [(Sym (nm "a"%string) false); (Sym (nm "b"%string) false)] ;;
  v2 <- w_prod W0 [(Sym (nm "c"%string) false); (Sym (nm "d"%string) false)] ;;
  v3 <- coeff W0 v1 v2 (0) ;;
  ret [(sameE v1 v3)].
Definition t_coeff_productDifferentArgExpNonZero : res (list bool) :=
  v1 <- w_sum W0 [(Sym (nm "b"%string) false); (Sym (nm "c"%string) false)] ;;
  v2 <- w_prod W0 [(Sym (nm "a"%string) false); v1] ;;
  v3 <- w_pow W0 (Sym (nm "c"%string) false) (Sym (nm "d"%string) false) ;;
  v4 <- coeff W0 v2 v3 (3) ;;
  ret [(sameE (numZ 0) v4)].
Definition t_coeff_productFactorMatchesExpOne : res (list bool) :=
  v1 <- w_sum W0 [(Sym (nm "a"%string) false); (Sym (nm "b"%string) false)] ;;
  v2 <- w_prod W0 [(numZ 4); (Sym (nm "c"%string) false)] ;;
  v3 <- w_prod W0 [v1; v2] ;;
  v4 <- coeff W0 v3 v1 (1) ;;
  ret [(sameE v2 v4)].
Definition t_coeff_productFactorMatchesArgsToPower : res (list bool) :=
  v1 <- w_trig W0 FAsin (Sym (nm "a"%string) false) ;;
  v2 <- w_prod W0 [v1; (Sym (nm "b"%string) false)] ;;
  v3 <- w_pow W0 (Sym (nm "c"%string) false) (numZ ((- 3))) ;;
  v4 <- w_prod W0 [v3; v2] ;;
  v5 <- coeff W0 v4 (Sym (nm "c"%string) false) ((- 3)) ;;
  ret [(sameE v2 v5)].
Definition t_coeff_productFactorIsSubexpressionExpOne : res (list bool) :=
  v1 <- w_prod W0 [(Sym (nm "b"%string) false); (Sym (nm "c"%string) false)] ;;
  v2 <- w_prod W0 [(Sym (nm "a"%string) false); v1; (Sym (nm "d"%string) false)] ;;
  v3 <- coeff W0 v2 v1 (1) ;;
  ret [(sameE (numZ 0) v3)].
Definition t_coeff_productFactorArgsToSubexpression : res (list bool) :=
  v1 <- w_pow W0 (Sym (nm "b"%string) false) (numZ 4) ;;
  v2 <- w_pow W0 (Sym (nm "c"%string) false) (numZ 4) ;;
  v3 <- w_prod W0 [v1; v2] ;;
  v4 <- w_prod W0 [(Sym (nm "a"%string) false); v3; (Sym (nm "d"%string) false)] ;;
  v5 <- w_prod W0 [(Sym (nm "b"%string) false); (Sym (nm "c"%string) false)] ;;
  v6 <- coeff W0 v4 v5 (4) ;;
  ret [(sameE (numZ 0) v6)].
Definition t_coeff_sumEqualArgExpZero : res (list bool) :=
  v1 <- w_prod W0 [(numZ 2); (Sym (nm "a"%string) false)] ;;
  v2 <- coeff W0 v1 v1 (1) ;;
  ret [(sameE (numZ 1) v2)].
Definition t_coeff_sumDifferentArgExpZero : res (list bool) :=
  v1 <- w_prod W0 [(Sym (nm "a"%string) false); (Sym (nm "b"%string) false)] ;;
  v2 <- w_prod W0 [(Sym (nm "c"%string) false); (Sym (nm "d"%string) false)] ;;
  v3 <- coeff W0 v1 v2 (0) ;;
  ret [(sameE v1 v3)].
Definition t_coeff_sumDifferentArgExpNonZero : res (list bool) :=
  v1 <- w_prod W0 [(Sym (nm "b"%string) false); (Sym (nm "c"%string) false)] ;;
  v2 <- w_sum W0 [(Sym (nm "a"%string) false); v1] ;;
  v3 <- w_pow W0 (Sym (nm "c"%string) false) (Sym (nm "d"%string) false) ;;
  v4 <- coeff W0 v2 v3 (3) ;;
  ret [(sameE (numZ 0) v4)].
Definition t_coeff_summandMatchesExpOne : res (list bool) :=
  v1 <- w_prod W0 [(Sym (nm "a"%string) false); (Sym (nm "b"%string) false)] ;;
  v2 <- w_sum W0 [v1; (numZ 4); (Sym (nm "c"%string) false)] ;;
  v3 <- coeff W0 v2 v1 (1) ;;
  ret [(sameE (numZ 1) v3)].
Definition t_coeff_sumBaseHasVariable : res (list bool) :=
  v1 <- w_sum W0 [(Sym (nm "a"%string) false); (Sym (nm "b"%string) false)] ;;
  v2 <- w_pow W0 v1 (numZ 2) ;;
  v3 <- coeff W0 v2 (Sym (nm "a"%string) false) (0) ;;
  v4 <- w_pow W0 (Sym (nm "b"%string) false) (numZ 2) ;;
  v5 <- w_expand W0 v2 ;;
  v6 <- coeff W0 v5 (Sym (nm "a"%string) false) (0) ;;
  ret [(sameE v2 v3); (sameE v4 v6)].
Definition t_coeff_simpleMonomial : res (list bool) :=
  v1 <- minus W0 [(Sym (nm "a"%string) false); (Sym (nm "a"%string) false); (Sym (nm "b"%string) false)] ;;
  v2 <- coeff W0 v1 (Sym (nm "a"%string) false) (0) ;;
  ret [(sameE (numZ 0) v2)].
Definition t_coeff_simplePolynomial : res (list bool) :=
  v1 <- w_pow W0 (Sym (nm "b"%string) false) (numZ 3) ;;
  v2 <- minus W0 [(Sym (nm "a"%string) false); (Sym (nm "a"%string) false); (Sym (nm "b"%string) false)] ;;
  v3 <- w_sum W0 [v2; v1] ;;
  v4 <- coeff W0 v3 (Sym (nm "a"%string) false) (0) ;;
  ret [(sameE v1 v4)].
Definition t_coeff_summandMatchesArgsToPower : res (list bool) :=
  v1 <- w_trig W0 FAsin (Sym (nm "a"%string) false) ;;
  v2 <- w_pow W0 (Sym (nm "c"%string) false) (numZ ((- 3))) ;;
  v3 <- w_prod W0 [v1; v2] ;;
  v4 <- w_prod W0 [(Sym (nm "b"%string) false); (Sym (nm "d"%string) false); v2] ;;
  v5 <- w_sum W0 [(numZ 10); v3; v4; (Sym (nm "e"%string) false)] ;;
  v6 <- w_prod W0 [(Sym (nm "b"%string) false); (Sym (nm "d"%string) false)] ;;
  v7 <- w_sum W0 [v1; v6] ;;
  v8 <- coeff W0 v5 (Sym (nm "c"%string) false) ((- 3)) ;;
  ret [(sameE v7 v8)].
Definition t_coeff_summandIsSubexpressionExpOne : res (list bool) :=
  v1 <- w_prod W0 [(Sym (nm "b"%string) false); (Sym (nm "c"%string) false)] ;;
  v2 <- w_prod W0 [v1; (Sym (nm "d"%string) false)] ;;
  v3 <- w_sum W0 [(Sym (nm "a"%string) false); v2] ;;
  v4 <- coeff W0 v3 v1 (1) ;;
  ret [(sameE (numZ 0) v4)].
Definition t_coeff_summandArgsToSubexpression : res (list bool) :=
  v1 <- w_sum W0 [(Sym (nm "d"%string) false); (Sym (nm "e"%string) false)] ;;
  v2 <- w_prod W0 [(Sym (nm "b"%string) false); v1] ;;
  v3 <- w_pow W0 (Sym (nm "a"%string) false) (numZ 3) ;;
  v4 <- w_pow W0 (Sym (nm "a"%string) false) (numZ 2) ;;
  v5 <- w_prod W0 [v4; v2] ;;
  v6 <- w_sum W0 [(Sym (nm "a"%string) false); v3; v5] ;;
  v7 <- coeff W0 v6 (Sym (nm "a"%string) false) (2) ;;
  ret [(sameE v2 v7)].
Definition t_coeff_sumIncludingFunctionTermsAndPowers : res (list bool) :=
  v1 <- w_trig W0 FSin (Sym (nm "a"%string) false) ;;
  v2 <- w_prod W0 [(numZ 3); v1] ;;
  v3 <- w_trig W0 FCos (Sym (nm "a"%string) false) ;;
  v4 <- w_prod W0 [(numZ 2); v3] ;;
  v5 <- w_pow W0 (Sym (nm "a"%string) false) (numZ 2) ;;
  v6 <- w_prod W0 [v2; v5] ;;
  v7 <- w_prod W0 [v4; (Sym (nm "a"%string) false)] ;;
  v8 <- w_sum W0 [v6; v7; (numZ 4)] ;;
  v9 <- coeff W0 v8 (Sym (nm "a"%string) false) (2) ;;
  ret [(sameE v2 v9)].
Definition t_comparison_equalSymbols : res (list bool) :=
  ret [(isEqual (Sym (nm "a"%string) false) (Sym (nm "a"%string) false))].
Definition t_comparison_symbolsEqualNameOnePositive : res (list bool) :=
  ret [(negb (isEqual (Sym (nm "a"%string) false) (Sym (nm "a"%string) true)))].
Definition t_comparison_equalConstants : res (list bool) :=
  ret [(isEqual (Cst CPi) (Cst CPi))].
Definition t_comparison_differentSymbols : res (list bool) :=
  ret [(negb (isEqual (Sym (nm "a"%string) false) (Sym (nm "b"%string) false)))].
Definition t_comparison_equalNumerics : res (list bool) :=
  ret [(isEqual (numZ 2) (numZ 2))].
Definition t_comparison_differentNumerics : res (list bool) :=
  ret [(negb (isEqual (numZ 2) (Num (Qred (1 # 2)))))].
Definition t_comparison_twoUndefined : res (list bool) :=
  ret [(negb (isEqual Undef Undef))].
Definition t_comparison_equalPowers : res (list bool) :=
  v1 <- w_pow W0 (Sym (nm "a"%string) false) (numZ 2) ;;
  v2 <- w_pow W0 (Sym (nm "a"%string) false) (numZ 2) ;;
  ret [(isEqual v1 v2)].
Definition t_comparison_differentExpPowers : res (list bool) :=
  v1 <- w_pow W0 (Sym (nm "a"%string) false) (numZ 2) ;;
  v2 <- w_pow W0 (Sym (nm "a"%string) false) half ;;
  ret [(negb (isEqual v1 v2))].
Definition t_comparison_diffBasePowers : res (list bool) :=
  v1 <- w_pow W0 (Sym (nm "a"%string) false) half ;;
  v2 <- w_pow W0 (Sym (nm "b"%string) false) half ;;
  ret [(negb (isEqual v1 v2))].
Definition t_comparison_equalProduct : res (list bool) :=
  v1 <- w_prod W0 [(numZ 2); (Sym (nm "a"%string) false)] ;;
  v2 <- w_prod W0 [(numZ 2); (Sym (nm "a"%string) false)] ;;
  ret [(isEqual v1 v2)].
Definition t_comparison_differentProduct : res (list bool) :=
  v1 <- w_prod W0 [(numZ 2); (Sym (nm "a"%string) false)] ;;
  v2 <- w_prod W0 [(numZ 2); (Sym (nm "b"%string) false)] ;;
  ret [(negb (isEqual v1 v2))].
Definition t_comparison_differentProductByNumberOfFactors : res (list bool) :=
  v1 <- w_prod W0 [(Sym (nm "a"%string) false); (Sym (nm "b"%string) false)] ;;
  v2 <- w_prod W0 [(Sym (nm "a"%string) false); (Sym (nm "b"%string) false); (Sym (nm "c"%string) false)] ;;
  ret [(negb (isEqual v1 v2))].
Definition t_comparison_equalSum : res (list bool) :=
  v1 <- w_sum W0 [(Sym (nm "a"%string) false); (Sym (nm "b"%string) false)] ;;
  v2 <- w_sum W0 [(Sym (nm "a"%string) false); (Sym (nm "b"%string) false)] ;;
  ret [(isEqual v1 v2)].
Definition t_comparison_differentSum : res (list bool) :=
  v1 <- w_sum W0 [(numZ 2); (Sym (nm "a"%string) false)] ;;
  v2 <- w_sum W0 [(numZ 2); (Sym (nm "b"%string) false)] ;;
  ret [(negb (isEqual v1 v2))].
Definition t_comparison_equalProductOfSymbolAndPower : res (list bool) :=
  v1 <- w_pow W0 (Sym (nm "b"%string) false) (numZ 2) ;;
  v2 <- w_prod W0 [(Sym (nm "a"%string) false); v1] ;;
  v3 <- w_prod W0 [v2; v2] ;;
  ret [(isEqual v3 v3)].
Definition t_comparison_equalFunctions : res (list bool) :=
  v1 <- w_prod W0 [(Sym (nm "a"%string) false); (Sym (nm "b"%string) false)] ;;
  v2 <- w_trig W0 FSin v1 ;;
  ret [(isEqual v2 v2)].
Definition t_comparison_functionsDifferentArg : res (list bool) :=
  v1 <- w_trig W0 FSin (Sym (nm "a"%string) false) ;;
  v2 <- w_trig W0 FSin (Sym (nm "b"%string) false) ;;
  ret [(negb (isEqual v1 v2))].
Definition t_comparison_functionsDifferentTrigonometric : res (list bool) :=
  v1 <- w_sum W0 [(Sym (nm "a"%string) false); (Sym (nm "b"%string) false)] ;;
  v2 <- w_trig W0 FSin v1 ;;
  v3 <- w_sum W0 [(Sym (nm "a"%string) false); (Sym (nm "b"%string) false)] ;;
  v4 <- w_trig W0 FCos v3 ;;
  ret [(negb (isEqual v2 v4))].
Definition t_complexity_trivialUndefined : res (list bool) :=
  ret [(0 =? (complexity Undef))].
Definition t_complexity_integer : res (list bool) :=
  ret [(1 =? (complexity (numZ 3)))].
Definition t_complexity_fraction : res (list bool) :=
  ret [(2 =? (complexity (Num (frq (2) (3)))))].
Definition t_complexity_constant : res (list bool) :=
  ret [(4 =? (complexity (Cst CPi)))].
Definition t_complexity_symbol : res (list bool) :=
  ret [(5 =? (complexity (Sym (nm "a"%string) false)))].
Definition t_complexity_sum : res (list bool) :=
  v1 <- w_sum W0 [(numZ 3); (Sym (nm "a"%string) false)] ;;
  ret [(((5 + 1) + 5) =? (complexity v1))].
Definition t_complexity_product : res (list bool) :=
  v1 <- w_prod W0 [(numZ 3); (Sym (nm "a"%string) false); (Cst CPi)] ;;
  ret [((((5 + 1) + 5) + 4) =? (complexity v1))].
Definition t_complexity_power : res (list bool) :=
  v1 <- w_pow W0 (numZ 3) (Sym (nm "a"%string) false) ;;
  ret [(((5 + 1) + (2 * 5)) =? (complexity v1))].
Definition t_complexity_sinA : res (list bool) :=
  v1 <- w_trig W0 FSin (Sym (nm "a"%string) false) ;;
  ret [((6 + 5) =? (complexity v1))].
Definition t_complexity_logarithmOfSymbol : res (list bool) :=
  v1 <- w_log W0 (Sym (nm "a"%string) false) ;;
  ret [((6 + 5) =? (complexity v1))].
Definition t_constant_constRequest : res (list bool) :=
  ret [(negb (isConst (Cst CPi))); (negb (isConst (Cst CE)))].
Definition t_constant_typeRequest : res (list bool) :=
  ret [(isConstantE (Cst CPi)); (isConstantE (Cst CE))].
Definition t_constant_trivialEquality : res (list bool) :=
  ret [(isEqual (Cst CPi) (Cst CPi)); (isEqual (Cst CE) (Cst CE))].
Definition t_constant_numericTerm : res (list bool) :=
  v1 <- numericTerm (Cst CPi) ;;
  v2 <- numericTerm (Cst CE) ;;
  ret [(sameE (numZ 1) v1); (sameE (numZ 1) v2)].
Definition t_constant_nonNumericTerm : res (list bool) :=
  v1 <- nonNumericTerm W0 (Cst CPi) ;;
  v2 <- nonNumericTerm W0 (Cst CE) ;;
  ret [(sameE (Cst CPi) v1); (sameE (Cst CE) v2)].
Definition t_constant_constTerm : res (list bool) :=
  v1 <- constTerm W0 (Cst CPi) ;;
  v2 <- constTerm W0 (Cst CE) ;;
  ret [(sameE (numZ 1) v1); (sameE (numZ 1) v2)].
Definition t_constant_nonConstTerm : res (list bool) :=
  v1 <- nonConstTerm W0 (Cst CPi) ;;
  v2 <- nonConstTerm W0 (Cst CE) ;;
  ret [(sameE (Cst CPi) v1); (sameE (Cst CE) v2)].
Definition t_degree_equalSymbol : res (list bool) :=
  ret [(1 =? (degree refSys (Sym (nm "a"%string) false) (Sym (nm "a"%string) false)))].
Definition t_degree_equalFunction : res (list bool) :=
  v3 <- w_trig W0 FSin (Sym (nm "a"%string) false) ;;
  ret [(1 =? (degree refSys v3 v3))].
Definition t_degree_equalConstant : res (list bool) :=
  ret [(1 =? (degree refSys (Cst CPi) (Cst CPi)))].
Definition t_degree_equalSum : res (list bool) :=
  v3 <- w_sum W0 [(numZ 10); (Sym (nm "a"%string) false)] ;;
  ret [(1 =? (degree refSys v3 v3))].
Definition t_degree_equalProduct : res (list bool) :=
  v2 <- w_prod W0 [(Sym (nm "a"%string) false); (Sym (nm "b"%string) false)] ;;
  ret [(1 =? (degree refSys v2 v2))].
Definition t_degree_equalPower : res (list bool) :=
  v3 <- w_pow W0 (Sym (nm "a"%string) false) (Sym (nm "b"%string) false) ;;
  ret [(1 =? (degree refSys v3 v3))].
Definition t_degree_equalNumeric : res (list bool) :=
  ret [(0 =? (degree refSys (numZ 4) (numZ 4)))].
Definition t_degree_equalUndefined : res (list bool) :=
  ret [(0 =? (degree refSys Undef Undef))].
Definition t_degree_differentSymbols : res (list bool) :=
  ret [(0 =? (degree refSys (Sym (nm "a"%string) false) (Sym (nm "b"%string) false)))].
Definition t_degree_symbolDifferentType : res (list bool) :=
  v1 <- w_sum W0 [(Sym (nm "a"%string) false); (Sym (nm "b"%string) false)] ;;
  ret [(0 =? (degree refSys (Sym (nm "a"%string) false) v1))].
Definition t_degree_differentNumerics : res (list bool) :=
  ret [(0 =? (degree refSys (numZ 4) (numZ 5)))].
Definition t_degree_numericSymbol : res (list bool) :=
  ret [(0 =? (degree refSys (numZ 4) (Sym (nm "a"%string) false)))].
Definition t_degree_constantSymbol : res (list bool) :=
  ret [(0 =? (degree refSys (Cst CPi) (Sym (nm "a"%string) false)))].
Definition t_degree_functionSum : res (list bool) :=
  v3 <- w_trig W0 FSin (Sym (nm "a"%string) false) ;;
  v4 <- w_sum W0 [(numZ 1); (Sym (nm "b"%string) false)] ;;
  ret [(0 =? (degree refSys v3 v4))].
Definition t_degree_undefinedSymbol : res (list bool) :=
  ret [(0 =? (degree refSys Undef (Sym (nm "a"%string) false)))].
Definition t_degree_differentPowers : res (list bool) :=
  v3 <- w_pow W0 (Sym (nm "a"%string) false) (Sym (nm "b"%string) false) ;;
  v4 <- w_pow W0 (Sym (nm "c"%string) false) (numZ 3) ;;
  ret [(0 =? (degree refSys v3 v4))].
Definition t_degree_sumProductNoSubExpression : res (list bool) :=
  v3 <- w_sum W0 [(numZ 2); (Sym (nm "a"%string) false)] ;;
  v4 <- w_prod W0 [(Sym (nm "b"%string) false); (Sym (nm "c"%string) false)] ;;
  ret [(0 =? (degree refSys v3 v4))].
Definition t_degree_productPowerNoSubExpression : res (list bool) :=
  v2 <- w_prod W0 [(Sym (nm "a"%string) false); (Sym (nm "b"%string) false)] ;;
  v3 <- w_pow W0 (Sym (nm "c"%string) false) (numZ 2) ;;
  ret [(0 =? (degree refSys v2 v3))].
Definition t_degree_simpleSum : res (list bool) :=
  v1 <- w_sum W0 [(Sym (nm "a"%string) false); (Sym (nm "b"%string) false)] ;;
  ret [(1 =? (degree refSys v1 (Sym (nm "a"%string) false))); (1 =? (degree refSys v1 (Sym (nm "b"%string) false)))].
Definition t_degree_sumWithProduct : res (list bool) :=
  v3 <- w_prod W0 [(Sym (nm "c"%string) false); (Sym (nm "d"%string) false)] ;;
  v4 <- w_sum W0 [(numZ 2); (Sym (nm "a"%string) false); v3] ;;
  ret [(1 =? (degree refSys v4 (Sym (nm "d"%string) false)))].
Definition t_degree_sumWithMultipleExponents : res (list bool) :=
  v2 <- w_prod W0 [(Sym (nm "a"%string) false); (Sym (nm "b"%string) false)] ;;
  v3 <- w_pow W0 (Sym (nm "a"%string) false) (numZ 3) ;;
  v4 <- w_pow W0 (Sym (nm "a"%string) false) (numZ 5) ;;
  v5 <- w_prod W0 [(Sym (nm "b"%string) false); (Sym (nm "c"%string) false); v4] ;;
  v6 <- w_sum W0 [(numZ 10); (Sym (nm "a"%string) false); v2; v3; v5] ;;
  ret [(5 =? (degree refSys v6 (Sym (nm "a"%string) false)))].
Definition t_degree_sumWithNegativeAndZeroDegree : res (list bool) :=
  v3 <- w_pow W0 (Sym (nm "a"%string) false) (numZ ((- 4))) ;;
  v4 <- w_pow W0 (Sym (nm "b"%string) false) (numZ ((- 3))) ;;
  v5 <- w_sum W0 [v3; v4] ;;
  ret [(0 =? (degree refSys v5 (Sym (nm "a"%string) false)))].
Definition t_degree_sumWithOnlyNegativeDegrees : res (list bool) :=
  v3 <- w_pow W0 (Sym (nm "a"%string) false) (numZ ((- 7))) ;;
  v4 <- w_pow W0 (Sym (nm "a"%string) false) (numZ ((- 3))) ;;
  v5 <- w_trig W0 FSin (Sym (nm "a"%string) false) ;;
  v6 <- w_prod W0 [v4; (Sym (nm "b"%string) false); v5] ;;
  v7 <- w_sum W0 [v3; v6] ;;
  ret [((- 3) =? (degree refSys v7 (Sym (nm "a"%string) false)))].
Definition t_degree_simpleProduct : res (list bool) :=
  v2 <- w_prod W0 [(Sym (nm "a"%string) false); (Sym (nm "b"%string) false)] ;;
  ret [(1 =? (degree refSys v2 (Sym (nm "a"%string) false))); (1 =? (degree refSys v2 (Sym (nm "b"%string) false)))].
Definition t_degree_unexpandedProduct : res (list bool) :=
  v2 <- w_prod W0 [(Sym (nm "a"%string) false); (Sym (nm "b"%string) false)] ;;
  v3 <- w_sum W0 [(Sym (nm "a"%string) false); (Sym (nm "c"%string) false)] ;;
  v4 <- w_prod W0 [v2; v3] ;;
  v5 <- w_sum W0 [(Sym (nm "a"%string) false); v4] ;;
  v6 <- w_prod W0 [(Sym (nm "a"%string) false); v5] ;;
  ret [(3 =? (degree refSys v6 (Sym (nm "a"%string) false)))].
Definition t_degree_productWithNegativeExp : res (list bool) :=
  v3 <- w_pow W0 (Sym (nm "a"%string) false) (numZ ((- 4))) ;;
  v4 <- w_sum W0 [v3; (Sym (nm "b"%string) false)] ;;
  v5 <- w_prod W0 [(Sym (nm "a"%string) false); v4] ;;
  ret [(1 =? (degree refSys v5 (Sym (nm "a"%string) false)))].
Definition t_degree_simplePower : res (list bool) :=
  v3 <- w_pow W0 (Sym (nm "a"%string) false) (numZ 10) ;;
  ret [(10 =? (degree refSys v3 (Sym (nm "a"%string) false)))].
Definition t_degree_simplePowerSumBase : res (list bool) :=
  v1 <- w_sum W0 [(Sym (nm "a"%string) false); (Sym (nm "b"%string) false)] ;;
  v3 <- w_pow W0 v1 (numZ 3) ;;
  ret [(3 =? (degree refSys v3 (Sym (nm "a"%string) false)))].
Definition t_degree_powerSumBase : res (list bool) :=
  v3 <- w_pow W0 (Sym (nm "a"%string) false) (numZ ((- 5))) ;;
  v4 <- w_sum W0 [(Sym (nm "a"%string) false); v3] ;;
  v5 <- w_pow W0 v4 (numZ ((- 2))) ;;
  ret [((- 2) =? (degree refSys v5 (Sym (nm "a"%string) false)))].
Definition t_degree_powerWithNegIntExp : res (list bool) :=
  v3 <- w_pow W0 (Sym (nm "a"%string) false) (numZ ((- 2))) ;;
  ret [((- 2) =? (degree refSys v3 (Sym (nm "a"%string) false)))].
Definition t_diff_numeric : res (list bool) :=
  v1 <- diffTop W0 40 (Num (frq (11) (17))) (Sym (nm "a"%string) false) ;;
  ret [(isZero v1)].
Definition t_diff_constant : res (list bool) :=
  v1 <- diffTop W0 40 (Cst CPi) (Sym (nm "a"%string) false) ;;
  ret [(isZero v1)].
Definition t_diff_undefinedWrtSymbol : res (list bool) :=
  v1 <- diffTop W0 40 Undef (Sym (nm "a"%string) false) ;;
  ret [(isUndefined v1)].
Definition t_diff_symbolWrtItself : res (list bool) :=
  v1 <- diffTop W0 40 (Sym (nm "a"%string) false) (Sym (nm "a"%string) false) ;;
  ret [(sameE (numZ 1) v1)].
Definition t_diff_symbolWrtOtherSymbol : res (list bool) :=
  v1 <- diffTop W0 40 (Sym (nm "a"%string) false) (Sym (nm "b"%string) false) ;;
  ret [(isZero v1)].
Definition t_diff_wrongArguments : res (list bool) :=
  v1 <- w_prod W0 [(numZ 7); (Sym (nm "b"%string) false)] ;;
  v2 <- w_sum W0 [(Sym (nm "a"%string) false); (Sym (nm "b"%string) false)] ;;
  v3 <- w_pow W0 (Sym (nm "a"%string) false) half ;;
  v4 <- diffTop W0 40 v2 v2 ;;
  v5 <- diffTop W0 40 (Sym (nm "a"%string) false) (Cst CPi) ;;
  v6 <- diffTop W0 40 (numZ 4) v1 ;;
  v7 <- diffTop W0 40 v1 v3 ;;
  ret [(isUndefined v4); (isUndefined v5); (isUndefined v6); (isUndefined v7)].
Definition t_diff_powerWithPosIntExp : res (list bool) :=
  v1 <- w_pow W0 (Sym (nm "a"%string) false) (numZ 4) ;;
  v2 <- w_prod W0 [(numZ 5); v1] ;;
  v3 <- w_pow W0 (Sym (nm "a"%string) false) (numZ 5) ;;
  v4 <- diffTop W0 40 v3 (Sym (nm "a"%string) false) ;;
  ret [(sameE v2 v4)].
Definition t_diff_powerWithNegIntExp : res (list bool) :=
  v1 <- w_pow W0 (Sym (nm "a"%string) false) (numZ ((- 1235))) ;;
  v2 <- w_prod W0 [(numZ ((- 1234))); v1] ;;
  v3 <- w_pow W0 (Sym (nm "a"%string) false) (numZ ((- 1234))) ;;
  v4 <- diffTop W0 40 v3 (Sym (nm "a"%string) false) ;;
  ret [(sameE v2 v4)].
Definition t_diff_powerWithPosRationalExp : res (list bool) :=
  v1 <- w_pow W0 (Sym (nm "a"%string) false) (Num (frq ((- 4)) (7))) ;;
  v2 <- w_prod W0 [(Num (frq (3) (7))); v1] ;;
  v3 <- w_pow W0 (Sym (nm "a"%string) false) (Num (frq (3) (7))) ;;
  v4 <- diffTop W0 40 v3 (Sym (nm "a"%string) false) ;;
  ret [(sameE v2 v4)].
Definition t_diff_powerOfEuler : res (list bool) :=
  v1 <- w_pow W0 (Cst CE) (Sym (nm "a"%string) false) ;;
  v2 <- diffTop W0 40 v1 (Sym (nm "a"%string) false) ;;
  ret [(sameE v1 v2)].
Definition t_diff_symbolPower : res (list bool) :=
  v1 <- w_pow W0 (Sym (nm "a"%string) false) (Sym (nm "b"%string) false) ;;
  v2 <- oneOver W0 (Sym (nm "a"%string) false) ;;
  v3 <- w_prod W0 [v1; (Sym (nm "b"%string) false); v2] ;;
  v4 <- diffTop W0 40 v1 (Sym (nm "a"%string) false) ;;
  ret [(sameE v3 v4)].
Definition t_diff_logOfSymbol : res (list bool) :=
  v1 <- oneOver W0 (Sym (nm "a"%string) false) ;;
  v2 <- w_log W0 (Sym (nm "a"%string) false) ;;
  v3 <- diffTop W0 40 v2 (Sym (nm "a"%string) false) ;;
  ret [(sameE v1 v3)].
Definition t_diff_logOfSymbolWrtToDifferentSymbol : res (list bool) :=
  v1 <- w_log W0 (Sym (nm "a"%string) false) ;;
  v2 <- diffTop W0 40 v1 (Sym (nm "b"%string) false) ;;
  ret [(isZero v2)].
Definition t_diff_sinOfSum : res (list bool) :=
  v1 <- w_prod W0 [(Num (Qred (1 # 2))); (Sym (nm "a"%string) false); (Sym (nm "a"%string) false)] ;;
  v2 <- w_prod W0 [(numZ 2); (Sym (nm "c"%string) false)] ;;
  v3 <- w_sum W0 [v1; (Sym (nm "b"%string) false); v2] ;;
  v4 <- w_trig W0 FCos v3 ;;
  v5 <- w_prod W0 [(Sym (nm "a"%string) false); v4] ;;
  v6 <- w_trig W0 FSin v3 ;;
  v7 <- diffTop W0 40 v6 (Sym (nm "a"%string) false) ;;
  ret [(sameE v5 v7)].
Definition t_diff_cosOfLogarithmOfProduct : res (list bool) :=
  v1 <- w_prod W0 [(numZ 4); (Sym (nm "a"%string) false); (Sym (nm "b"%string) false); (Sym (nm "c"%string) false)] ;;
  v2 <- w_log W0 v1 ;;
  v3 <- w_trig W0 FSin v2 ;;
  v4 <- oneOver W0 (Sym (nm "a"%string) false) ;;
  v5 <- minus W0 [v3; v4] ;;
  v6 <- w_trig W0 FCos v2 ;;
  v7 <- diffTop W0 40 v6 (Sym (nm "a"%string) false) ;;
  ret [(sameE v5 v7)].
Definition t_diff_tanOfSinOfSymbol : res (list bool) :=
  v1 <- w_trig W0 FSin (Sym (nm "a"%string) false) ;;
  v2 <- w_trig W0 FTan v1 ;;
  v3 <- w_trig W0 FCos (Sym (nm "a"%string) false) ;;
  v4 <- w_pow W0 v2 (numZ 2) ;;
  v5 <- w_sum W0 [(numZ 1); v4] ;;
  v6 <- w_prod W0 [v3; v5] ;;
  v7 <- diffTop W0 40 v2 (Sym (nm "a"%string) false) ;;
  ret [(sameE v6 v7)].
Definition t_diff_asinOfCosOfPower : res (list bool) :=
  v1 <- w_pow W0 (Sym (nm "a"%string) false) (numZ 2) ;;
  v2 <- w_trig W0 FCos v1 ;;
  v3 <- w_trig W0 FAsin v2 ;;
  v4 <- diffTop W0 40 v3 (Sym (nm "a"%string) false) ;;
  v5 <- w_trig W0 FSin v1 ;;
  v6 <- minus W0 [v2; v2] ;;
  v7 <- w_sum W0 [(numZ 1); v6] ;;
  v8 <- w_pow W0 v7 (Num (frq ((- 1)) (2))) ;;
  v9 <- minus W0 [(numZ 2); (Sym (nm "a"%string) false); v5; v8] ;;
  ret [(sameE v9 v4)].
Definition t_diff_acosOfSum : res (list bool) :=
  v1 <- w_prod W0 [(numZ 2); (Sym (nm "a"%string) false); (Sym (nm "a"%string) false)] ;;
  v2 <- w_sum W0 [(Sym (nm "a"%string) false); v1; (Sym (nm "c"%string) false)] ;;
  v3 <- w_trig W0 FAcos v2 ;;
  v4 <- diffTop W0 40 v3 (Sym (nm "a"%string) false) ;;
  v5 <- minus W0 [(numZ 4); (Sym (nm "a"%string) false)] ;;
  v6 <- w_sum W0 [(numZ (-1)); v5] ;;
  v7 <- w_pow W0 v2 (numZ 2) ;;
  v8 <- minus W0 [v7] ;;
  v9 <- w_sum W0 [(numZ 1); v8] ;;
  v10 <- w_pow W0 v9 (Num (frq ((- 1)) (2))) ;;
  v11 <- w_prod W0 [v6; v10] ;;
  ret [(sameE v11 v4)].
Definition t_diff_atanOfPower : res (list bool) :=
  v1 <- w_pow W0 (Sym (nm "a"%string) false) (numZ 10) ;;
  v2 <- w_trig W0 FAtan v1 ;;
  v3 <- diffTop W0 40 v2 (Sym (nm "a"%string) false) ;;
  v4 <- w_pow W0 (Sym (nm "a"%string) false) (numZ 9) ;;
  v5 <- w_pow W0 (Sym (nm "a"%string) false) (numZ (20)) ;;
  v6 <- w_sum W0 [(numZ 1); v5] ;;
  v7 <- oneOver W0 v6 ;;
  v8 <- w_prod W0 [(numZ 10); v4; v7] ;;
  ret [(sameE v8 v3)].
Definition t_diff_atan2OfSymbols : res (list bool) :=
  v1 <- w_atan2 W0 (Sym (nm "b"%string) false) (Sym (nm "a"%string) false) ;;
  v2 <- diffTop W0 40 v1 (Sym (nm "a"%string) false) ;;
  v3 <- w_pow W0 (Sym (nm "a"%string) false) (numZ 2) ;;
  v4 <- w_pow W0 (Sym (nm "b"%string) false) (numZ 2) ;;
  v5 <- w_sum W0 [v3; v4] ;;
  v6 <- oneOver W0 v5 ;;
  v7 <- minus W0 [(Sym (nm "b"%string) false); v6] ;;
  ret [(sameE v7 v2)].
Definition t_diff_mixedTerm01 : res (list bool) :=
  v1 <- w_log W0 (Sym (nm "a"%string) false) ;;
  v2 <- w_sum W0 [(numZ 1); v1] ;;
  v3 <- w_pow W0 (Sym (nm "a"%string) false) (Num (frq ((- 6)) (5))) ;;
  v4 <- w_prod W0 [(Num (frq (12) (65))); v3] ;;
  v5 <- w_pow W0 (Sym (nm "a"%string) false) (numZ 4) ;;
  v6 <- w_prod W0 [(numZ (85)); (Sym (nm "b"%string) false); v5] ;;
  v7 <- w_log W0 (numZ 4) ;;
  v8 <- w_prod W0 [(numZ 2); (Sym (nm "b"%string) false); v7] ;;
  v9 <- w_sum W0 [v2; v4; v6; v8] ;;
  v10 <- w_log W0 (numZ 4) ;;
  v11 <- w_prod W0 [(numZ 2); (Sym (nm "a"%string) false); (Sym (nm "b"%string) false); v10] ;;
  v12 <- w_pow W0 (Sym (nm "a"%string) false) (numZ 5) ;;
  v13 <- w_prod W0 [(numZ (17)); v12; (Sym (nm "b"%string) false)] ;;
  v14 <- w_pow W0 (Sym (nm "a"%string) false) (Num (frq ((- 1)) (5))) ;;
  v15 <- w_prod W0 [(Num (frq ((- 12)) (13))); v14] ;;
  v16 <- w_log W0 (Sym (nm "a"%string) false) ;;
  v17 <- w_prod W0 [(Sym (nm "a"%string) false); v16] ;;
  v18 <- w_sum W0 [v11; v13; v15; v17] ;;
  v19 <- diffTop W0 40 v18 (Sym (nm "a"%string) false) ;;
  ret [(sameE v9 v19)].
Definition t_diff_mixedTerm02 : res (list bool) :=
  v1 <- w_trig W0 FSin (numZ 2) ;;
  v2 <- w_pow W0 (numZ 2) half ;;
  v3 <- w_pow W0 (Sym (nm "a"%string) false) (numZ 4) ;;
  v4 <- w_prod W0 [(Sym (nm "a"%string) false); (Sym (nm "b"%string) false); (Sym (nm "c"%string) false)] ;;
  v5 <- w_prod W0 [v2; v3; (Sym (nm "b"%string) false)] ;;
  v6 <- w_prod W0 [v1; (Sym (nm "a"%string) false)] ;;
  v7 <- w_log W0 v6 ;;
  v8 <- w_sum W0 [v5; v7] ;;
  v9 <- w_trig W0 FSin v8 ;;
  v10 <- w_log W0 v9 ;;
  v11 <- w_prod W0 [v4; v10] ;;
  v12 <- w_trig W0 FCos v8 ;;
  v13 <- w_prod W0 [(Sym (nm "b"%string) false); v12] ;;
  v14 <- w_trig W0 FCos v8 ;;
  v15 <- w_prod W0 [(numZ 4); v2; v3; v13] ;;
  v16 <- w_sum W0 [v14; v15] ;;
  v17 <- w_prod W0 [(Sym (nm "b"%string) false); (Sym (nm "c"%string) false); v16] ;;
  v18 <- w_trig W0 FSin v8 ;;
  v19 <- oneOver W0 v18 ;;
  v20 <- w_prod W0 [v17; v19] ;;
  v21 <- w_log W0 v9 ;;
  v22 <- w_prod W0 [(Sym (nm "b"%string) false); (Sym (nm "c"%string) false); v21] ;;
  v23 <- w_sum W0 [v20; v22] ;;
  v24 <- diffTop W0 40 v11 (Sym (nm "a"%string) false) ;;
  ret [(sameE v23 v24)].
Definition t_expansion_trivialNumeric : res (list bool) :=
  v4 <- w_expand W0 (Num (frq (2) (7))) ;;
  ret [(sameE (Num (frq (2) (7))) v4)].
Definition t_expansion_trivialSum : res (list bool) :=
  v1 <- w_sum W0 [(Sym (nm "a"%string) false); (Sym (nm "b"%string) false)] ;;
  v4 <- w_sum W0 [v1; (Sym (nm "c"%string) false)] ;;
  v5 <- w_expand W0 v4 ;;
  ret [(sameE v4 v5)].
Definition t_expansion_trivialUndefined : res (list bool) :=
  v4 <- w_expand W0 Undef ;;
  ret [(isUndefined v4)].
Definition t_expansion_trivialConstant : res (list bool) :=
  v4 <- w_expand W0 (Cst CPi) ;;
  ret [(sameE (Cst CPi) v4)].
Definition t_expansion_trivialSymbol : res (list bool) :=
  v4 <- w_expand W0 (Sym (nm "a"%string) false) ;;
  ret [(sameE (Sym (nm "a"%string) false) v4)].
Definition t_expansion_powerOfSumPosIntExp : res (list bool) :=
  v1 <- w_sum W0 [(Sym (nm "a"%string) false); (Sym (nm "b"%string) false)] ;;
  v3 <- w_prod W0 [(Sym (nm "a"%string) false); (Sym (nm "b"%string) false)] ;;
  v4 <- w_pow W0 (Sym (nm "a"%string) false) (numZ 2) ;;
  v5 <- w_pow W0 (Sym (nm "b"%string) false) (numZ 2) ;;
  v6 <- w_prod W0 [(numZ 2); v3] ;;
  v7 <- w_sum W0 [v4; v5; v6] ;;
  v8 <- w_pow W0 v1 (numZ 2) ;;
  v9 <- w_expand W0 v8 ;;
  ret [(sameE v7 v9)].
Definition t_expansion_powerOfSumNegIntExp : res (list bool) :=
  v1 <- w_sum W0 [(Sym (nm "a"%string) false); (Sym (nm "b"%string) false)] ;;
  v3 <- w_prod W0 [(Sym (nm "a"%string) false); (Sym (nm "b"%string) false)] ;;
  v4 <- w_pow W0 v1 (numZ ((- 2))) ;;
  v5 <- w_pow W0 (Sym (nm "a"%string) false) (numZ 2) ;;
  v6 <- w_pow W0 (Sym (nm "b"%string) false) (numZ 2) ;;
  v7 <- w_prod W0 [(numZ 2); v3] ;;
  v8 <- w_sum W0 [v5; v6; v7] ;;
  v9 <- oneOver W0 v8 ;;
  v10 <- w_expand W0 v4 ;;
  ret [(sameE v9 v10)].
Definition t_expansion_powerOfSumPosFracExp : res (list bool) :=
  v1 <- w_sum W0 [(Sym (nm "a"%string) false); (Sym (nm "b"%string) false)] ;;
  v4 <- w_pow W0 v1 (Num (frq (2) (3))) ;;
  v5 <- w_expand W0 v4 ;;
  ret [(sameE v4 v5)].
Definition t_expansion_powerOfSumNegFracExp : res (list bool) :=
  v1 <- w_sum W0 [(Sym (nm "a"%string) false); (Sym (nm "b"%string) false)] ;;
  v4 <- w_pow W0 v1 (Num (frq ((- 4)) (5))) ;;
  v5 <- w_expand W0 v4 ;;
  ret [(sameE v4 v5)].
Definition t_expansion_powerOfSymbolicSumExp : res (list bool) :=
  v4 <- w_sum W0 [(Sym (nm "b"%string) false); (Sym (nm "c"%string) false)] ;;
  v5 <- w_pow W0 (Sym (nm "a"%string) false) v4 ;;
  v6 <- w_expand W0 v5 ;;
  ret [(sameE v5 v6)].
Definition t_expansion_numericPower : res (list bool) :=
  v4 <- w_pow W0 (numZ 2) (Num (frq (1) (5))) ;;
  v5 <- w_expand W0 v4 ;;
  ret [(sameE v4 v5)].
Definition t_expansion_symbolTimesSum : res (list bool) :=
  v3 <- w_prod W0 [(Sym (nm "a"%string) false); (Sym (nm "b"%string) false)] ;;
  v4 <- w_prod W0 [(Sym (nm "a"%string) false); (Sym (nm "c"%string) false)] ;;
  v5 <- w_sum W0 [v3; v4] ;;
  v6 <- w_sum W0 [(Sym (nm "b"%string) false); (Sym (nm "c"%string) false)] ;;
  v7 <- w_prod W0 [(Sym (nm "a"%string) false); v6] ;;
  v8 <- w_expand W0 v7 ;;
  ret [(sameE v5 v8)].
Definition t_expansion_symbolSumTimesSum : res (list bool) :=
  v1 <- w_sum W0 [(Sym (nm "a"%string) false); (Sym (nm "b"%string) false)] ;;
  v2 <- w_sum W0 [(Sym (nm "c"%string) false); (Sym (nm "d"%string) false)] ;;
  v4 <- w_prod W0 [v1; v2] ;;
  v5 <- w_prod W0 [(Sym (nm "a"%string) false); (Sym (nm "c"%string) false)] ;;
  v6 <- w_prod W0 [(Sym (nm "b"%string) false); (Sym (nm "c"%string) false)] ;;
  v7 <- w_prod W0 [(Sym (nm "a"%string) false); (Sym (nm "d"%string) false)] ;;
  v8 <- w_prod W0 [(Sym (nm "b"%string) false); (Sym (nm "d"%string) false)] ;;
  v9 <- w_sum W0 [v5; v6; v7; v8] ;;
  v10 <- w_expand W0 v4 ;;
  ret [(sameE v9 v10)].
Definition t_expansion_noExpansionOfFunctionArg : res (list bool) :=
  v4 <- w_sum W0 [(Sym (nm "b"%string) false); (Sym (nm "c"%string) false)] ;;
  v5 <- w_prod W0 [(Sym (nm "a"%string) false); v4] ;;
  v6 <- w_trig W0 FSin v5 ;;
  v7 <- w_expand W0 v6 ;;
  ret [(sameE v6 v7)].
Definition t_expansion_symbolSumProduct : res (list bool) :=
  v1 <- w_sum W0 [(Sym (nm "a"%string) false); (Sym (nm "b"%string) false)] ;;
  v4 <- w_sum W0 [(Sym (nm "c"%string) false); (Sym (nm "d"%string) false)] ;;
  v5 <- w_sum W0 [(Sym (nm "e"%string) false); (Sym (nm "f"%string) false); (Sym (nm "g"%string) false)] ;;
  v6 <- w_sum W0 [(Sym (nm "h"%string) false); (Sym (nm "i"%string) false)] ;;
  v7 <- w_prod W0 [v1; v4; v5; v6] ;;
  v8 <- w_prod W0 [(Sym (nm "b"%string) false); (Sym (nm "d"%string) false); (Sym (nm "g"%string) false); (Sym (nm "i"%string) false)] ;;
  v9 <- w_prod W0 [(Sym (nm "a"%string) false); (Sym (nm "d"%string) false); (Sym (nm "g"%string) false); (Sym (nm "i"%string) false)] ;;
  v10 <- w_prod W0 [(Sym (nm "b"%string) false); (Sym (nm "c"%string) false); (Sym (nm "g"%string) false); (Sym (nm "i"%string) false)] ;;
  v11 <- w_prod W0 [(Sym (nm "a"%string) false); (Sym (nm "c"%string) false); (Sym (nm "g"%string) false); (Sym (nm "i"%string) false)] ;;
  v12 <- w_prod W0 [(Sym (nm "b"%string) false); (Sym (nm "d"%string) false); (Sym (nm "f"%string) false); (Sym (nm "i"%string) false)] ;;
  v13 <- w_prod W0 [(Sym (nm "a"%string) false); (Sym (nm "d"%string) false); (Sym (nm "f"%string) false); (Sym (nm "i"%string) false)] ;;
  v14 <- w_prod W0 [(Sym (nm "b"%string) false); (Sym (nm "c"%string) false); (Sym (nm "f"%string) false); (Sym (nm "i"%string) false)] ;;
  v15 <- w_prod W0 [(Sym (nm "a"%string) false); (Sym (nm "c"%string) false); (Sym (nm "f"%string) false); (Sym (nm "i"%string) false)] ;;
  v16 <- w_prod W0 [(Sym (nm "b"%string) false); (Sym (nm "d"%string) false); (Sym (nm "e"%string) false); (Sym (nm "i"%string) false)] ;;
  v17 <- w_prod W0 [(Sym (nm "a"%string) false); (Sym (nm "d"%string) false); (Sym (nm "e"%string) false); (Sym (nm "i"%string) false)] ;;
  v18 <- w_prod W0 [(Sym (nm "b"%string) false); (Sym (nm "c"%string) false); (Sym (nm "e"%string) false); (Sym (nm "i"%string) false)] ;;
  v19 <- w_prod W0 [(Sym (nm "a"%string) false); (Sym (nm "c"%string) false); (Sym (nm "e"%string) false); (Sym (nm "i"%string) false)] ;;
  v20 <- w_prod W0 [(Sym (nm "b"%string) false); (Sym (nm "d"%string) false); (Sym (nm "g"%string) false); (Sym (nm "h"%string) false)] ;;
  v21 <- w_prod W0 [(Sym (nm "a"%string) false); (Sym (nm "d"%string) false); (Sym (nm "g"%string) false); (Sym (nm "h"%string) false)] ;;
  v22 <- w_prod W0 [(Sym (nm "b"%string) false); (Sym (nm "c"%string) false); (Sym (nm "g"%string) false); (Sym (nm "h"%string) false)] ;;
  v23 <- w_prod W0 [(Sym (nm "a"%string) false); (Sym (nm "c"%string) false); (Sym (nm "g"%string) false); (Sym (nm "h"%string) false)] ;;
  v24 <- w_prod W0 [(Sym (nm "b"%string) false); (Sym (nm "d"%string) false); (Sym (nm "f"%string) false); (Sym (nm "h"%string) false)] ;;
  v25 <- w_prod W0 [(Sym (nm "a"%string) false); (Sym (nm "d"%string) false); (Sym (nm "f"%string) false); (Sym (nm "h"%string) false)] ;;
  v26 <- w_prod W0 [(Sym (nm "b"%string) false); (Sym (nm "c"%string) false); (Sym (nm "f"%string) false); (Sym (nm "h"%string) false)] ;;
  v27 <- w_prod W0 [(Sym (nm "a"%string) false); (Sym (nm "c"%string) false); (Sym (nm "f"%string) false); (Sym (nm "h"%string) false)] ;;
  v28 <- w_prod W0 [(Sym (nm "b"%string) false); (Sym (nm "d"%string) false); (Sym (nm "e"%string) false); (Sym (nm "h"%string) false)] ;;
  v29 <- w_prod W0 [(Sym (nm "a"%string) false); (Sym (nm "d"%string) false); (Sym (nm "e"%string) false); (Sym (nm "h"%string) false)] ;;
  v30 <- w_prod W0 [(Sym (nm "b"%string) false); (Sym (nm "c"%string) false); (Sym (nm "e"%string) false); (Sym (nm "h"%string) false)] ;;
  v31 <- w_prod W0 [(Sym (nm "a"%string) false); (Sym (nm "c"%string) false); (Sym (nm "e"%string) false); (Sym (nm "h"%string) false)] ;;
  v32 <- w_sum W0 (((((((((((((((((((((((([] ++ [v8]) ++ [v9]) ++ [v10]) ++ [v11]) ++ [v12]) ++ [v13]) ++ [v14]) ++ [v15]) ++ [v16]) ++ [v17]) ++ [v18]) ++ [v19]) ++ [v20]) ++ [v21]) ++ [v22]) ++ [v23]) ++ [v24]) ++ [v25]) ++ [v26]) ++ [v27]) ++ [v28]) ++ [v29]) ++ [v30]) ++ [v31]) ;;
  v33 <- w_expand W0 v7 ;;
  ret [(sameE v32 v33)].
Definition t_expansion_mixedSumTimesSum : res (list bool) :=
  v3 <- w_prod W0 [(Sym (nm "a"%string) false); (Sym (nm "b"%string) false)] ;;
  v4 <- w_sum W0 [(Sym (nm "a"%string) false); (numZ 1)] ;;
  v5 <- w_sum W0 [(Sym (nm "b"%string) false); (Sym (nm "c"%string) false)] ;;
  v6 <- w_prod W0 [v4; v5] ;;
  v7 <- w_prod W0 [(Sym (nm "a"%string) false); (Sym (nm "c"%string) false)] ;;
  v8 <- w_sum W0 [(Sym (nm "b"%string) false); (Sym (nm "c"%string) false); v3; v7] ;;
  v9 <- w_expand W0 v6 ;;
  ret [(sameE v8 v9)].
Definition t_expansion_polynomial : res (list bool) :=
  v1 <- w_sum W0 [(Sym (nm "a"%string) false); (Sym (nm "b"%string) false)] ;;
  v2 <- w_sum W0 [(Sym (nm "c"%string) false); (Sym (nm "d"%string) false)] ;;
  v4 <- oneOver W0 v2 ;;
  v5 <- w_prod W0 [v1; v4] ;;
  v6 <- w_prod W0 [(Sym (nm "a"%string) false); v4] ;;
  v7 <- w_prod W0 [(Sym (nm "b"%string) false); v4] ;;
  v8 <- w_sum W0 [v6; v7] ;;
  v9 <- w_expand W0 v5 ;;
  ret [(sameE v8 v9)].
Definition t_expansion_sumWithTermsToExpand : res (list bool) :=
  v3 <- w_prod W0 [(Sym (nm "a"%string) false); (Sym (nm "b"%string) false)] ;;
  v4 <- w_prod W0 [(Sym (nm "a"%string) false); (Sym (nm "c"%string) false)] ;;
  v5 <- w_sum W0 [(numZ 2); v3; v4] ;;
  v6 <- w_sum W0 [(Sym (nm "b"%string) false); (Sym (nm "c"%string) false)] ;;
  v7 <- w_prod W0 [(Sym (nm "a"%string) false); v6] ;;
  v8 <- w_sum W0 [(numZ 2); v7] ;;
  v9 <- w_expand W0 v8 ;;
  ret [(sameE v5 v9)].
Definition t_expansion_expansionLeadsToZero : res (list bool) :=
  v4 <- w_prod W0 [(Sym (nm "a"%string) false); (Sym (nm "b"%string) false)] ;;
  v5 <- minus W0 [(Sym (nm "b"%string) false); (Sym (nm "c"%string) false)] ;;
  v6 <- minus W0 [(Sym (nm "a"%string) false)] ;;
  v7 <- w_sum W0 [(Sym (nm "c"%string) false); v6] ;;
  v8 <- w_prod W0 [(Sym (nm "b"%string) false); v7] ;;
  v9 <- w_sum W0 [v4; v5; v8] ;;
  v10 <- w_expand W0 v9 ;;
  ret [(negb (isZero v9)); (isZero v10)].
Definition t_expansion_sumPowerOfThree : res (list bool) :=
  v4 <- w_sum W0 [(Sym (nm "a"%string) false); (Sym (nm "b"%string) false); (Sym (nm "c"%string) false)] ;;
  v5 <- w_pow W0 v4 (numZ 3) ;;
  v6 <- w_pow W0 (Sym (nm "a"%string) false) (numZ 3) ;;
  v7 <- w_pow W0 (Sym (nm "b"%string) false) (numZ 3) ;;
  v8 <- w_pow W0 (Sym (nm "c"%string) false) (numZ 3) ;;
  v9 <- w_prod W0 [(numZ 3); (Sym (nm "a"%string) false); (Sym (nm "b"%string) false); (Sym (nm "b"%string) false)] ;;
  v10 <- w_prod W0 [(numZ 3); (Sym (nm "a"%string) false); (Sym (nm "c"%string) false); (Sym (nm "c"%string) false)] ;;
  v11 <- w_prod W0 [(numZ 3); (Sym (nm "b"%string) false); (Sym (nm "c"%string) false); (Sym (nm "c"%string) false)] ;;
  v12 <- w_prod W0 [(numZ 3); (Sym (nm "a"%string) false); (Sym (nm "a"%string) false); (Sym (nm "b"%string) false)] ;;
  v13 <- w_prod W0 [(numZ 3); (Sym (nm "b"%string) false); (Sym (nm "b"%string) false); (Sym (nm "c"%string) false)] ;;
  v14 <- w_prod W0 [(numZ 3); (Sym (nm "a"%string) false); (Sym (nm "a"%string) false); (Sym (nm "c"%string) false)] ;;
  v15 <- w_prod W0 [(numZ 6); (Sym (nm "a"%string) false); (Sym (nm "b"%string) false); (Sym (nm "c"%string) false)] ;;
  v16 <- w_sum W0 (((((((((([] ++ [v6]) ++ [v7]) ++ [v8]) ++ [v9]) ++ [v10]) ++ [v11]) ++ [v12]) ++ [v13]) ++ [v14]) ++ [v15]) ;;
  v17 <- w_expand W0 v5 ;;
  ret [(sameE v16 v17)].
Definition t_expansion_productOfPowersWithIntExp : res (list bool) :=
  v4 <- w_pow W0 (Sym (nm "a"%string) false) (numZ 2) ;;
  v5 <- w_sum W0 [(Sym (nm "b"%string) false); (Sym (nm "c"%string) false)] ;;
  v6 <- w_pow W0 v5 (numZ 2) ;;
  v7 <- w_prod W0 [v4; v6] ;;
  v8 <- w_pow W0 (Sym (nm "b"%string) false) (numZ 2) ;;
  v9 <- w_prod W0 [v4; v8] ;;
  v10 <- w_prod W0 [(numZ 2); v4; (Sym (nm "b"%string) false); (Sym (nm "c"%string) false)] ;;
  v11 <- w_pow W0 (Sym (nm "c"%string) false) (numZ 2) ;;
  v12 <- w_prod W0 [v4; v11] ;;
  v13 <- w_sum W0 [v9; v10; v12] ;;
  v14 <- w_expand W0 v7 ;;
  ret [(sameE v13 v14)].
Definition t_expansion_fractionsWithSumInDenominator : res (list bool) :=
  v4 <- w_sum W0 [(Sym (nm "b"%string) false); (Sym (nm "c"%string) false)] ;;
  v5 <- w_prod W0 [(Sym (nm "a"%string) false); v4] ;;
  v6 <- oneOver W0 v5 ;;
  v7 <- w_expand W0 v6 ;;
  ret [(sameE v6 v7)].
Definition t_expansion_sumsOfPowersWithIntExp : res (list bool) :=
  v4 <- w_prod W0 [(Sym (nm "b"%string) false); (Sym (nm "b"%string) false); (Sym (nm "c"%string) false)] ;;
  v5 <- oneOver W0 (Sym (nm "a"%string) false) ;;
  v6 <- minus W0 [(Sym (nm "b"%string) false); (Sym (nm "c"%string) false); v5] ;;
  v7 <- w_sum W0 [(Sym (nm "d"%string) false); v6] ;;
  v8 <- w_prod W0 [(Sym (nm "a"%string) false); (Sym (nm "a"%string) false); v7] ;;
  v9 <- oneOver W0 v8 ;;
  v10 <- w_prod W0 [v4; v9] ;;
  v11 <- w_expand W0 v10 ;;
  ret [(sameE v10 v11)].
Definition t_expansion_partialSumExpansionIsScalar : res (list bool) :=
  v4 <- w_pow W0 (numZ 2) half ;;
  v5 <- w_prod W0 [(numZ 9); v4] ;;
  v6 <- oneOver W0 v5 ;;
  v7 <- w_prod W0 [(Num (frq (4) (243))); v4] ;;
  v8 <- w_sum W0 [v6; v7] ;;
  v9 <- w_pow W0 v8 (numZ ((- 2))) ;;
  v10 <- w_expand W0 v9 ;;
  ret [(sameE (Num (frq (118098) (1225))) v10)].
Definition t_fraction_constructWithoutDenom : res (list bool) :=
  ret [(sameE (Sym (nm "a"%string) false) (fst ((Sym (nm "a"%string) false), one))); (sameE (numZ 1) (snd ((Sym (nm "a"%string) false), one)))].
Definition t_fraction_constructWithNumAndDenom : res (list bool) :=
  ret [(sameE (Sym (nm "a"%string) false) (fst ((Sym (nm "a"%string) false), (Sym (nm "b"%string) false)))); (sameE (Sym (nm "b"%string) false) (snd ((Sym (nm "a"%string) false), (Sym (nm "b"%string) false))))].
Definition t_fraction_cancelZeroNumerator : res (list bool) :=
  v1 <- cancel refSys W0 40 (fst ((numZ 0), (Sym (nm "b"%string) false))) (snd ((numZ 0), (Sym (nm "b"%string) false))) ;;
  ret [(sameE (numZ 0) (fst v1)); (sameE (numZ 1) (snd v1))].
Definition t_fraction_cancelZeroDenominator : res (list bool) :=
  v1 <- cancel refSys W0 40 (fst ((Sym (nm "a"%string) false), (numZ 0))) (snd ((Sym (nm "a"%string) false), (numZ 0))) ;;
  ret [(isUndefined (fst v1)); (sameE (numZ 1) (snd v1))].
Definition t_functions_squareRoot : res (list bool) :=
  v1 <- w_pow W0 (Sym (nm "a"%string) false) half ;;
  v2 <- w_pow W0 (Sym (nm "a"%string) false) (Num (frq (1) (2))) ;;
  ret [(sameE v2 v1)].
Definition t_functions_resolvableSquareRoot : res (list bool) :=
  v1 <- w_pow W0 (numZ (4)) half ;;
  ret [(sameE v1 (numZ 2))].
Definition t_functions_nonResolvableNumericSquareRoot : res (list bool) :=
  v1 <- w_pow W0 (numZ (5)) half ;;
  v2 <- w_pow W0 (numZ (5)) (Num (frq (1) (2))) ;;
  ret [(sameE v2 v1)].
Definition t_functions_powerEulerBaseLogExp : res (list bool) :=
  v1 <- w_prod W0 [(numZ (2)); (Sym (nm "a"%string) false)] ;;
  v2 <- w_prod W0 [v1; (Sym (nm "b"%string) false)] ;;
  v3 <- w_prod W0 [v2; (Sym (nm "b"%string) false)] ;;
  v4 <- w_prod W0 [v3; (Cst CPi)] ;;
  v5 <- w_log W0 v4 ;;
  v6 <- w_pow W0 (Cst CE) v5 ;;
  ret [(sameE v4 v6)].
Definition t_functions_logOfE : res (list bool) :=
  v1 <- w_log W0 (Cst CE) ;;
  ret [(sameE v1 (numZ 1))].
Definition t_functions_logOfPowerWithBaseE : res (list bool) :=
  v1 <- w_sum W0 [(Sym (nm "a"%string) false); (Sym (nm "b"%string) false)] ;;
  v2 <- w_pow W0 (numZ (2)) half ;;
  v3 <- w_sum W0 [v1; v2] ;;
  v4 <- w_pow W0 (Cst CE) v3 ;;
  v5 <- w_log W0 v4 ;;
  ret [(sameE v3 v5)].
Definition t_functions_logOfPower : res (list bool) :=
  v1 <- w_pow W0 (numZ (5)) half ;;
  v2 <- w_prod W0 [v1; (Sym (nm "a"%string) false)] ;;
  v3 <- oneOver W0 (Sym (nm "b"%string) false) ;;
  v4 <- w_prod W0 [(numZ (1)); v3] ;;
  v5 <- w_sum W0 [v2; v4] ;;
  v6 <- w_pow W0 (Sym (nm "a"%string) false) v5 ;;
  v7 <- w_log W0 v6 ;;
  v8 <- w_log W0 (Sym (nm "a"%string) false) ;;
  v9 <- w_prod W0 [v5; v8] ;;
  ret [(sameE v9 v7)].
Definition t_functions_sinePiOverSix : res (list bool) :=
  v1 <- oneOver W0 (numZ (6)) ;;
  v2 <- w_prod W0 [(Cst CPi); v1] ;;
  v3 <- w_trig W0 FSin v2 ;;
  ret [(sameE (Num (frq (1) (2))) v3)].
Definition t_functions_sinePiOverThree : res (list bool) :=
  v1 <- oneOver W0 (numZ (3)) ;;
  v2 <- w_prod W0 [(Cst CPi); v1] ;;
  v3 <- w_trig W0 FSin v2 ;;
  v4 <- w_pow W0 (numZ (3)) half ;;
  v5 <- oneOver W0 (numZ (2)) ;;
  v6 <- w_prod W0 [v4; v5] ;;
  ret [(sameE v6 v3)].
Definition t_functions_sineSevenPiOverFour : res (list bool) :=
  v1 <- w_prod W0 [(numZ (7)); (Cst CPi)] ;;
  v2 <- oneOver W0 (numZ (4)) ;;
  v3 <- w_prod W0 [v1; v2] ;;
  v4 <- w_trig W0 FSin v3 ;;
  v5 <- w_pow W0 (numZ (2)) half ;;
  v6 <- oneOver W0 v5 ;;
  v7 <- w_prod W0 [(numZ ((- 1))); v6] ;;
  ret [(sameE v7 v4)].
Definition t_functions_cosFivePiOverFour : res (list bool) :=
  v1 <- w_prod W0 [(numZ (5)); (Cst CPi)] ;;
  v2 <- oneOver W0 (numZ (4)) ;;
  v3 <- w_prod W0 [v1; v2] ;;
  v4 <- w_trig W0 FCos v3 ;;
  v5 <- w_pow W0 (numZ (2)) half ;;
  v6 <- oneOver W0 v5 ;;
  v7 <- w_prod W0 [(numZ ((- 1))); v6] ;;
  ret [(sameE v7 v4)].
Definition t_functions_tanTwoThirdPi : res (list bool) :=
  v1 <- w_prod W0 [(numZ (2)); (Cst CPi)] ;;
  v2 <- oneOver W0 (numZ (3)) ;;
  v3 <- w_prod W0 [v1; v2] ;;
  v4 <- w_trig W0 FTan v3 ;;
  v5 <- w_pow W0 (numZ (3)) half ;;
  v6 <- minus W0 [v5] ;;
  ret [(sameE v6 v4)].
Definition t_functions_asinHalf : res (list bool) :=
  v1 <- w_trig W0 FAsin (Num (frq (1) (2))) ;;
  v2 <- oneOver W0 (numZ (6)) ;;
  v3 <- w_prod W0 [(Cst CPi); v2] ;;
  ret [(sameE v3 v1)].
Definition t_functions_acosMinusOneOverSqrtTwo : res (list bool) :=
  v1 <- w_pow W0 (numZ (2)) half ;;
  v2 <- oneOver W0 v1 ;;
  v3 <- w_prod W0 [(numZ ((- 1))); v2] ;;
  v4 <- w_trig W0 FAcos v3 ;;
  v5 <- w_prod W0 [(numZ (3)); (Cst CPi)] ;;
  v6 <- oneOver W0 (numZ (4)) ;;
  v7 <- w_prod W0 [v5; v6] ;;
  ret [(sameE v7 v4)].
Definition t_functions_atanMinusOneOverSqrtThree : res (list bool) :=
  v1 <- w_pow W0 (numZ (3)) half ;;
  v2 <- oneOver W0 v1 ;;
  v3 <- w_prod W0 [(numZ ((- 1))); v2] ;;
  v4 <- w_trig W0 FAtan v3 ;;
  v5 <- minus W0 [(Cst CPi)] ;;
  v6 <- oneOver W0 (numZ (6)) ;;
  v7 <- w_prod W0 [v5; v6] ;;
  ret [(sameE v7 v4)].
Definition t_gcd_twoIntegerNumerics : res (list bool) :=
  v7 <- gcdCompute refSys W0 false (numZ 3) (numZ 9) ;;
  v8 <- gcdCompute refSys W0 true (numZ 3) (numZ 9) ;;
  ret [(sameU (numZ 3) v7); (sameU (numZ 3) v8)].
Definition t_gcd_twoRationalNumerics : res (list bool) :=
  v7 <- gcdCompute refSys W0 false (Num (Qred (1 # 3))) (Num (frq (1) (15))) ;;
  v8 <- gcdCompute refSys W0 true (Num (Qred (1 # 3))) (Num (frq (1) (15))) ;;
  ret [(sameU (numZ 1) v7); (sameU (numZ 1) v8)].
Definition t_gcd_twoIntegerNumericsWithGcdOne : res (list bool) :=
  v7 <- gcdCompute refSys W0 false (numZ 3) (numZ 7) ;;
  v8 <- gcdCompute refSys W0 true (numZ 3) (numZ 7) ;;
  ret [(sameU (numZ 1) v7); (sameU (numZ 1) v8)].
Definition t_gcd_equalSums : res (list bool) :=
  v7 <- w_sum W0 [(Sym (nm "a"%string) false); (Sym (nm "b"%string) false)] ;;
  v8 <- gcdCompute refSys W0 false v7 v7 ;;
  v9 <- gcdCompute refSys W0 true v7 v7 ;;
  ret [(sameU v7 v8); (sameU v7 v9)].
Definition t_gcd_bothZero : res (list bool) :=
  v7 <- gcdCompute refSys W0 false (numZ 0) (numZ 0) ;;
  v8 <- gcdCompute refSys W0 true (numZ 0) (numZ 0) ;;
  ret [(sameU Undef v7); (sameU Undef v8)].
Definition t_gcd_bothZeroAfterExpansion : res (list bool) :=
  v1 <- w_prod W0 [(Sym (nm "a"%string) false); (Sym (nm "b"%string) false)] ;;
  v2 <- minus W0 [(Sym (nm "b"%string) false); (Sym (nm "c"%string) false)] ;;
  v3 <- minus W0 [(Sym (nm "a"%string) false)] ;;
  v4 <- w_sum W0 [(Sym (nm "c"%string) false); v3] ;;
  v5 <- w_prod W0 [(Sym (nm "b"%string) false); v4] ;;
  v6 <- w_sum W0 [v1; v2; v5] ;;
  v7 <- gcdCompute refSys W0 false v6 v6 ;;
  v8 <- gcdCompute refSys W0 true v6 v6 ;;
  ret [(sameU Undef v7); (sameU Undef v8)].
Definition t_gcd_firstArgZeroAfterExpansion : res (list bool) :=
  v1 <- w_prod W0 [(Sym (nm "a"%string) false); (Sym (nm "b"%string) false)] ;;
  v2 <- minus W0 [(Sym (nm "b"%string) false); (Sym (nm "c"%string) false)] ;;
  v3 <- minus W0 [(Sym (nm "a"%string) false)] ;;
  v4 <- w_sum W0 [(Sym (nm "c"%string) false); v3] ;;
  v5 <- w_prod W0 [(Sym (nm "b"%string) false); v4] ;;
  v6 <- w_sum W0 [v1; v2; v5] ;;
  v7 <- gcdCompute refSys W0 false v6 (Sym (nm "a"%string) false) ;;
  v8 <- gcdCompute refSys W0 true v6 (Sym (nm "a"%string) false) ;;
  ret [(sameU (Sym (nm "a"%string) false) v7); (sameU (Sym (nm "a"%string) false) v8)].
Definition t_gcd_secondArgZeroAfterExpansion : res (list bool) :=
  v1 <- w_prod W0 [(Sym (nm "a"%string) false); (Sym (nm "b"%string) false)] ;;
  v2 <- minus W0 [(Sym (nm "b"%string) false); (Sym (nm "c"%string) false)] ;;
  v3 <- minus W0 [(Sym (nm "a"%string) false)] ;;
  v4 <- w_sum W0 [(Sym (nm "c"%string) false); v3] ;;
  v5 <- w_prod W0 [(Sym (nm "b"%string) false); v4] ;;
  v6 <- w_sum W0 [v1; v2; v5] ;;
  v7 <- gcdCompute refSys W0 false v6 (Sym (nm "a"%string) false) ;;
  v8 <- gcdCompute refSys W0 true v6 (Sym (nm "a"%string) false) ;;
  ret [(sameU (Sym (nm "a"%string) false) v7); (sameU (Sym (nm "a"%string) false) v8)].
Definition t_gcd_firstArgOneAfterExpansion : res (list bool) :=
  v1 <- w_prod W0 [(Sym (nm "a"%string) false); (Sym (nm "b"%string) false)] ;;
  v2 <- minus W0 [(Sym (nm "b"%string) false); (Sym (nm "c"%string) false)] ;;
  v3 <- minus W0 [(Sym (nm "a"%string) false)] ;;
  v4 <- w_sum W0 [(Sym (nm "c"%string) false); v3] ;;
  v5 <- w_prod W0 [(Sym (nm "b"%string) false); v4] ;;
  v6 <- w_sum W0 [v1; v2; v5] ;;
  v7 <- w_sum W0 [(numZ 1); v6] ;;
  v8 <- w_sum W0 [(Sym (nm "a"%string) false); (Sym (nm "b"%string) false)] ;;
  v9 <- gcdCompute refSys W0 false v7 v8 ;;
  v10 <- gcdCompute refSys W0 true v7 v8 ;;
  ret [(sameU (numZ 1) v9); (sameU (numZ 1) v10)].
Definition t_gcd_secondArgOneAfterExpansion : res (list bool) :=
  v1 <- w_prod W0 [(Sym (nm "a"%string) false); (Sym (nm "b"%string) false)] ;;
  v2 <- minus W0 [(Sym (nm "b"%string) false); (Sym (nm "c"%string) false)] ;;
  v3 <- minus W0 [(Sym (nm "a"%string) false)] ;;
  v4 <- w_sum W0 [(Sym (nm "c"%string) false); v3] ;;
  v5 <- w_prod W0 [(Sym (nm "b"%string) false); v4] ;;
  v6 <- w_sum W0 [v1; v2; v5] ;;
  v7 <- w_sum W0 [(numZ 1); v6] ;;
  v8 <- w_sum W0 [(numZ 2); (Sym (nm "b"%string) false)] ;;
  v9 <- gcdCompute refSys W0 false v8 v7 ;;
  v10 <- gcdCompute refSys W0 true v8 v7 ;;
  ret [(sameU (numZ 1) v9); (sameU (numZ 1) v10)].
Definition t_gcd_noCommonSymbol : res (list bool) :=
  v7 <- w_pow W0 (Sym (nm "b"%string) false) (numZ 2) ;;
  v8 <- w_sum W0 [(Sym (nm "a"%string) false); v7] ;;
  v9 <- w_prod W0 [(Sym (nm "c"%string) false); (Sym (nm "d"%string) false)] ;;
  v10 <- w_prod W0 [(numZ 4); (Sym (nm "e"%string) false)] ;;
  v11 <- w_sum W0 [v9; v10] ;;
  v12 <- gcdCompute refSys W0 false v8 v11 ;;
  v13 <- gcdCompute refSys W0 true v8 v11 ;;
  ret [(sameU (numZ 1) v12); (sameU (numZ 1) v13)].
Definition t_gcd_numericsAfterExpansion : res (list bool) :=
  v7 <- w_sum W0 [(Sym (nm "b"%string) false); (numZ 2)] ;;
  v8 <- w_prod W0 [(Sym (nm "a"%string) false); v7] ;;
  v9 <- minus W0 [(Sym (nm "a"%string) false); (Sym (nm "b"%string) false)] ;;
  v10 <- minus W0 [(numZ 2); (Sym (nm "a"%string) false)] ;;
  v11 <- w_sum W0 [(numZ 4); v8; v9; v10] ;;
  v12 <- gcdCompute refSys W0 false v11 (numZ (16)) ;;
  v13 <- gcdCompute refSys W0 true v11 (numZ (16)) ;;
  v14 <- gcdCompute refSys W0 false (numZ (16)) v11 ;;
  v15 <- gcdCompute refSys W0 true (numZ (16)) v11 ;;
  ret [(sameU (numZ 4) v12); (sameU (numZ 4) v13); (sameU (numZ 4) v14); (sameU (numZ 4) v15)].
Definition t_gcd_equalAfterExpansion : res (list bool) :=
  v7 <- w_sum W0 [(Sym (nm "b"%string) false); (Sym (nm "c"%string) false)] ;;
  v8 <- w_prod W0 [(Sym (nm "a"%string) false); v7] ;;
  v9 <- w_prod W0 [(Sym (nm "a"%string) false); (Sym (nm "b"%string) false)] ;;
  v10 <- w_prod W0 [(Sym (nm "a"%string) false); (Sym (nm "c"%string) false)] ;;
  v11 <- w_sum W0 [v9; v10] ;;
  v12 <- gcdCompute refSys W0 false v8 v11 ;;
  v13 <- gcdCompute refSys W0 true v8 v11 ;;
  v14 <- gcdCompute refSys W0 false v11 v8 ;;
  v15 <- gcdCompute refSys W0 true v11 v8 ;;
  ret [(sameU v11 v12); (sameU v11 v13); (sameU v11 v14); (sameU v11 v15)].
Definition t_gcd_negAndPosSymbol : res (list bool) :=
  v7 <- minus W0 [(Sym (nm "a"%string) false)] ;;
  v8 <- gcdCompute refSys W0 false v7 (Sym (nm "a"%string) false) ;;
  v9 <- gcdCompute refSys W0 true v7 (Sym (nm "a"%string) false) ;;
  ret [(sameU (Sym (nm "a"%string) false) v8); (sameU (Sym (nm "a"%string) false) v9)].
Definition t_gcd_posPowerAndNegNumFactor : res (list bool) :=
  v7 <- w_pow W0 (Sym (nm "a"%string) false) (numZ 2) ;;
  v8 <- minus W0 [(numZ 2); (Sym (nm "a"%string) false)] ;;
  v9 <- gcdCompute refSys W0 false v7 v8 ;;
  v10 <- gcdCompute refSys W0 true v7 v8 ;;
  ret [(sameU (Sym (nm "a"%string) false) v9); (sameU (Sym (nm "a"%string) false) v10)].
Definition t_gcd_negNumFactorAndPosPower : res (list bool) :=
  v7 <- minus W0 [(numZ 2); (Sym (nm "a"%string) false)] ;;
  v8 <- w_pow W0 (Sym (nm "a"%string) false) (numZ 2) ;;
  v9 <- gcdCompute refSys W0 false v7 v8 ;;
  v10 <- gcdCompute refSys W0 true v7 v8 ;;
  ret [(sameU (Sym (nm "a"%string) false) v9); (sameU (Sym (nm "a"%string) false) v10)].
Definition t_gcd_negSymbolAndSimplePower : res (list bool) :=
  v7 <- minus W0 [(Sym (nm "a"%string) false)] ;;
  v8 <- w_pow W0 (Sym (nm "a"%string) false) (numZ 3) ;;
  v9 <- gcdCompute refSys W0 false v7 v8 ;;
  v10 <- gcdCompute refSys W0 true v7 v8 ;;
  ret [(sameU (Sym (nm "a"%string) false) v9); (sameU (Sym (nm "a"%string) false) v10)].
Definition t_gcd_simpleUnivarMonomial : res (list bool) :=
  v7 <- w_pow W0 (Sym (nm "b"%string) false) (numZ 2) ;;
  v8 <- minus W0 [(numZ 2); (Sym (nm "b"%string) false)] ;;
  v9 <- gcdCompute refSys W0 false v7 v8 ;;
  v10 <- gcdCompute refSys W0 true v7 v8 ;;
  ret [(sameU (Sym (nm "b"%string) false) v9); (sameU (Sym (nm "b"%string) false) v10)].
Definition t_gcd_numericAndSimpleMonomial : res (list bool) :=
  v7 <- w_prod W0 [(numZ 2); (Sym (nm "a"%string) false)] ;;
  v8 <- gcdCompute refSys W0 false (numZ 2) v7 ;;
  v9 <- gcdCompute refSys W0 true (numZ 2) v7 ;;
  ret [(sameU (numZ 2) v8); (sameU (numZ 2) v9)].
Definition t_gcd_simpleMultivarPoly : res (list bool) :=
  v7 <- w_pow W0 (Sym (nm "a"%string) false) (numZ 2) ;;
  v8 <- minus W0 [(Sym (nm "b"%string) false); v7] ;;
  v9 <- w_pow W0 (Sym (nm "b"%string) false) (numZ 3) ;;
  v10 <- w_sum W0 [v8; v9] ;;
  v11 <- w_prod W0 [(Sym (nm "b"%string) false); v7] ;;
  v12 <- w_pow W0 (Sym (nm "b"%string) false) (numZ 2) ;;
  v13 <- w_prod W0 [(numZ 2); v12; (Sym (nm "a"%string) false)] ;;
  v14 <- w_sum W0 [v11; v13] ;;
  v15 <- gcdCompute refSys W0 false v10 v14 ;;
  v16 <- gcdCompute refSys W0 true v10 v14 ;;
  ret [(sameU (Sym (nm "b"%string) false) v15); (sameU (Sym (nm "b"%string) false) v16)].
Definition t_gcd_simpleMultivarPolyCohenExample : res (list bool) :=
  v7 <- w_pow W0 (Sym (nm "a"%string) false) (numZ 2) ;;
  v8 <- w_pow W0 (Sym (nm "b"%string) false) (numZ 2) ;;
  v9 <- w_pow W0 (Sym (nm "b"%string) false) (numZ 3) ;;
  v10 <- w_prod W0 [(Sym (nm "a"%string) false); (Sym (nm "b"%string) false)] ;;
  v11 <- w_sum W0 [v10; v8] ;;
  v12 <- minus W0 [(Sym (nm "b"%string) false); v7] ;;
  v13 <- w_pow W0 (Sym (nm "b"%string) false) (numZ 3) ;;
  v14 <- w_sum W0 [v12; v13] ;;
  v15 <- w_prod W0 [(Sym (nm "b"%string) false); v7] ;;
  v16 <- w_pow W0 (Sym (nm "b"%string) false) (numZ 2) ;;
  v17 <- w_prod W0 [(numZ 2); v16; (Sym (nm "a"%string) false)] ;;
  v18 <- w_sum W0 [v15; v17; v9] ;;
  v19 <- gcdCompute refSys W0 false v14 v18 ;;
  v20 <- gcdCompute refSys W0 true v14 v18 ;;
  ret [(sameU v11 v19); (sameU v11 v20)].
Definition t_gcd_rationalCoefficients : res (list bool) :=
  v7 <- w_prod W0 [(Sym (nm "a"%string) false); (Num (Qred (1 # 3)))] ;;
  v8 <- gcdCompute refSys W0 false v7 (Sym (nm "a"%string) false) ;;
  v9 <- gcdCompute refSys W0 true v7 (Sym (nm "a"%string) false) ;;
  ret [(sameU (Sym (nm "a"%string) false) v8); (sameU (Sym (nm "a"%string) false) v9)].
Definition t_gcd_simpleFractionCoefficients : res (list bool) :=
  v7 <- w_prod W0 [(Sym (nm "a"%string) false); (Sym (nm "d"%string) false)] ;;
  v8 <- w_pow W0 (Sym (nm "a"%string) false) (numZ 2) ;;
  v9 <- w_prod W0 [(Num (Qred (1 # 2))); v8; (Sym (nm "b"%string) false); (Sym (nm "d"%string) false)] ;;
  v10 <- w_prod W0 [(Num (frq ((- 1)) (3))); (Sym (nm "a"%string) false); (Sym (nm "c"%string) false); (Sym (nm "d"%string) false)] ;;
  v11 <- w_pow W0 (Sym (nm "a"%string) false) (numZ 3) ;;
  v12 <- w_pow W0 (Sym (nm "d"%string) false) (numZ 2) ;;
  v13 <- w_prod W0 [(Num (Qred (1 # 2))); v11; v12] ;;
  v14 <- w_sum W0 [v9; v10; v13] ;;
  v15 <- w_prod W0 [(Sym (nm "a"%string) false); (Sym (nm "c"%string) false); (Sym (nm "d"%string) false)] ;;
  v16 <- w_pow W0 (Sym (nm "a"%string) false) (numZ 3) ;;
  v17 <- w_pow W0 (Sym (nm "d"%string) false) (numZ 2) ;;
  v18 <- minus W0 [(numZ 2); v16; v17] ;;
  v19 <- w_pow W0 (Sym (nm "b"%string) false) (numZ 7) ;;
  v20 <- w_prod W0 [(numZ 2); (Sym (nm "a"%string) false); v19; (Sym (nm "d"%string) false)] ;;
  v21 <- w_sum W0 [v15; v18; v20] ;;
  v22 <- gcdCompute refSys W0 false v14 v21 ;;
  v23 <- gcdCompute refSys W0 true v14 v21 ;;
  ret [(sameU v7 v22); (sameU v7 v23)].
Definition t_gcd_simpleIntegerCoefficientsAllExpOne : res (list bool) :=
  v7 <- w_prod W0 [(numZ (168)); (Sym (nm "a"%string) false); (Sym (nm "b"%string) false)] ;;
  v8 <- w_prod W0 [(numZ (322)); (Sym (nm "c"%string) false); (Sym (nm "b"%string) false)] ;;
  v9 <- w_prod W0 [(numZ (14)); (Sym (nm "b"%string) false)] ;;
  v10 <- gcdCompute refSys W0 false v7 v8 ;;
  v11 <- gcdCompute refSys W0 true v7 v8 ;;
  ret [(sameU v9 v10); (sameU v9 v11)].
Definition t_gcd_simpleIntegerCoefficientsExpGreaterOne : res (list bool) :=
  v7 <- w_pow W0 (Sym (nm "a"%string) false) (numZ 3) ;;
  v8 <- w_prod W0 [(numZ 3); v7; (Sym (nm "b"%string) false)] ;;
  v9 <- w_pow W0 (Sym (nm "a"%string) false) (numZ 2) ;;
  v10 <- w_pow W0 (Sym (nm "c"%string) false) (numZ 5) ;;
  v11 <- w_prod W0 [(numZ 3); v9; (Sym (nm "b"%string) false); v10] ;;
  v12 <- w_sum W0 [v8; v11] ;;
  v13 <- w_prod W0 [(numZ (14)); (Sym (nm "a"%string) false); (Sym (nm "a"%string) false)] ;;
  v14 <- w_pow W0 (Sym (nm "c"%string) false) (numZ 5) ;;
  v15 <- w_prod W0 [(numZ (14)); (Sym (nm "a"%string) false); v14] ;;
  v16 <- w_sum W0 [v13; v15] ;;
  v17 <- w_pow W0 (Sym (nm "a"%string) false) (numZ 2) ;;
  v18 <- w_pow W0 (Sym (nm "c"%string) false) (numZ 5) ;;
  v19 <- w_prod W0 [(Sym (nm "a"%string) false); v18] ;;
  v20 <- w_sum W0 [v17; v19] ;;
  v21 <- gcdCompute refSys W0 false v12 v16 ;;
  v22 <- gcdCompute refSys W0 true v12 v16 ;;
  ret [(sameU v20 v21); (sameU v20 v22)].
Definition t_gcd_integerCoefficientsLargerIntExp : res (list bool) :=
  v7 <- w_pow W0 (Sym (nm "c"%string) false) (numZ 5) ;;
  v8 <- w_prod W0 [(numZ (56)); v7; (Sym (nm "e"%string) false)] ;;
  v9 <- w_pow W0 (Sym (nm "c"%string) false) (numZ 6) ;;
  v10 <- w_prod W0 [v9; (Sym (nm "e"%string) false)] ;;
  v11 <- w_prod W0 [(numZ (12)); (Sym (nm "a"%string) false); (Sym (nm "b"%string) false); v10] ;;
  v12 <- w_sum W0 [v8; v11] ;;
  v13 <- w_prod W0 [(numZ 3); (Sym (nm "a"%string) false); (Sym (nm "b"%string) false); (Sym (nm "c"%string) false)] ;;
  v14 <- w_sum W0 [(numZ (14)); v13] ;;
  v15 <- gcdCompute refSys W0 false v12 v14 ;;
  v16 <- gcdCompute refSys W0 true v12 v14 ;;
  ret [(sameU v14 v15); (sameU v14 v16)].
Definition t_gcd_simpleIntegerCoefficients : res (list bool) :=
  v7 <- w_pow W0 (Sym (nm "b"%string) false) (numZ 4) ;;
  v8 <- w_prod W0 [(numZ 3); (Sym (nm "a"%string) false); v7] ;;
  v9 <- w_pow W0 (Sym (nm "b"%string) false) (numZ 4) ;;
  v10 <- w_pow W0 (Sym (nm "c"%string) false) (numZ 5) ;;
  v11 <- w_prod W0 [(numZ 3); (Sym (nm "a"%string) false); v9; v10] ;;
  v12 <- w_pow W0 (Sym (nm "b"%string) false) (numZ 4) ;;
  v13 <- w_prod W0 [(numZ 3); (Sym (nm "a"%string) false); v12] ;;
  v14 <- gcdCompute refSys W0 false v8 v11 ;;
  v15 <- gcdCompute refSys W0 true v8 v11 ;;
  ret [(sameU v13 v14); (sameU v13 v15)].
Definition t_gcd_integerCoefficients : res (list bool) :=
  v7 <- w_prod W0 [(Sym (nm "c"%string) false); (Sym (nm "e"%string) false); (Sym (nm "f"%string) false); (Sym (nm "g"%string) false)] ;;
  v8 <- w_prod W0 [(numZ ((- 464))); (Sym (nm "a"%string) false); (Sym (nm "b"%string) false); (Sym (nm "e"%string) false)] ;;
  v9 <- w_pow W0 (Sym (nm "b"%string) false) (numZ 2) ;;
  v10 <- w_prod W0 [(numZ ((- 1972))); (Sym (nm "a"%string) false); v9; v7] ;;
  v11 <- w_prod W0 [(numZ (3364)); (Sym (nm "d"%string) false); (Sym (nm "e"%string) false); (Sym (nm "h"%string) false)] ;;
  v12 <- w_prod W0 [(numZ ((- 3364))); (Sym (nm "d"%string) false); (Sym (nm "e"%string) false)] ;;
  v13 <- w_pow W0 (Sym (nm "a"%string) false) (numZ 2) ;;
  v14 <- w_prod W0 [(numZ (13456)); v13; (Sym (nm "b"%string) false); v7] ;;
  v15 <- w_sum W0 [v8; v10; v11] ;;
  v16 <- w_sum W0 [v12; v14] ;;
  v17 <- w_prod W0 [(numZ (116)); (Sym (nm "e"%string) false)] ;;
  v18 <- gcdCompute refSys W0 false v15 v16 ;;
  v19 <- gcdCompute refSys W0 true v15 v16 ;;
  ret [(sameU v17 v18); (sameU v17 v19)].
Definition t_gcd_largeMultivarPolyCohenExample : res (list bool) :=
  v7 <- w_pow W0 (Sym (nm "a"%string) false) (numZ 3) ;;
  v8 <- w_pow W0 (Sym (nm "a"%string) false) (numZ 2) ;;
  v9 <- w_pow W0 (Sym (nm "b"%string) false) (numZ 2) ;;
  v10 <- w_sum W0 [(numZ 2); (Sym (nm "a"%string) false)] ;;
  v11 <- w_prod W0 [v7; v9] ;;
  v12 <- w_pow W0 (Sym (nm "a"%string) false) (numZ 4) ;;
  v13 <- w_prod W0 [(numZ 6); v12; (Sym (nm "b"%string) false)] ;;
  v14 <- w_pow W0 (Sym (nm "a"%string) false) (numZ 5) ;;
  v15 <- w_prod W0 [(numZ 9); v14] ;;
  v16 <- w_prod W0 [(numZ 4); v8; v9] ;;
  v17 <- w_prod W0 [(numZ (24)); v7; (Sym (nm "b"%string) false)] ;;
  v18 <- w_pow W0 (Sym (nm "a"%string) false) (numZ 4) ;;
  v19 <- w_prod W0 [(numZ (36)); v18] ;;
  v20 <- w_prod W0 [(numZ 5); (Sym (nm "a"%string) false); v9] ;;
  v21 <- w_prod W0 [(numZ (30)); (Sym (nm "b"%string) false); v8] ;;
  v22 <- w_prod W0 [(numZ (45)); v7] ;;
  v23 <- w_prod W0 [(numZ 2); v9] ;;
  v24 <- w_prod W0 [(numZ (12)); (Sym (nm "a"%string) false); (Sym (nm "b"%string) false)] ;;
  v25 <- w_prod W0 [(numZ (18)); v8] ;;
  v26 <- w_sum W0 (((((((((((([] ++ [v11]) ++ [v13]) ++ [v15]) ++ [v16]) ++ [v17]) ++ [v19]) ++ [v20]) ++ [v21]) ++ [v22]) ++ [v23]) ++ [v24]) ++ [v25]) ;;
  v27 <- w_pow W0 (Sym (nm "a"%string) false) (numZ 5) ;;
  v28 <- w_prod W0 [v27; v9] ;;
  v29 <- w_pow W0 (Sym (nm "a"%string) false) (numZ 4) ;;
  v30 <- w_prod W0 [(numZ 8); v29; (Sym (nm "b"%string) false)] ;;
  v31 <- w_prod W0 [(numZ (16)); v7] ;;
  v32 <- w_pow W0 (Sym (nm "a"%string) false) (numZ 4) ;;
  v33 <- w_prod W0 [(numZ (12)); v32; v9] ;;
  v34 <- w_prod W0 [(numZ (96)); v7; (Sym (nm "b"%string) false)] ;;
  v35 <- w_prod W0 [(numZ (192)); v8] ;;
  v36 <- w_prod W0 [(numZ (45)); v7; v9] ;;
  v37 <- w_prod W0 [(numZ (360)); (Sym (nm "b"%string) false); v8] ;;
  v38 <- w_prod W0 [(numZ (720)); (Sym (nm "a"%string) false)] ;;
  v39 <- w_prod W0 [(numZ (50)); v8; v9] ;;
  v40 <- w_prod W0 [(numZ (400)); (Sym (nm "a"%string) false); (Sym (nm "b"%string) false)] ;;
  v41 <- w_sum W0 (((((((((((([] ++ [v28]) ++ [v30]) ++ [v31]) ++ [v33]) ++ [v34]) ++ [v35]) ++ [v36]) ++ [v37]) ++ [v38]) ++ [v39]) ++ [v40]) ++ [(numZ (800))]) ;;
  v42 <- gcdCompute refSys W0 false v26 v41 ;;
  v43 <- gcdCompute refSys W0 true v26 v41 ;;
  ret [(sameU v10 v42); (sameU v10 v43)].
Definition t_has_equalSymbols : res (list bool) :=
  ret [(has (Sym (nm "a"%string) false) (Sym (nm "a"%string) false))].
Definition t_has_differentSymbols : res (list bool) :=
  ret [(negb (has (Sym (nm "a"%string) false) (Sym (nm "b"%string) false)))].
Definition t_has_equalNumerics : res (list bool) :=
  ret [(has (numZ 2) (numZ 2))].
Definition t_has_differentNumerics : res (list bool) :=
  ret [(negb (has (numZ 2) (numZ 3)))].
Definition t_has_equalConstant : res (list bool) :=
  ret [(has (Cst CPi) (Cst CPi))].
Definition t_has_equalUndefined : res (list bool) :=
  ret [(negb (has Undef Undef))].
Definition t_has_differentScalarTypes : res (list bool) :=
  ret [(negb (has (Sym (nm "a"%string) false) (numZ 2))); (negb (has (Sym (nm "a"%string) false) (Cst CPi))); (negb (has (Sym (nm "a"%string) false) Undef)); (negb (has (numZ 10) (Sym (nm "b"%string) false))); (negb (has (numZ 10) (Cst CPi))); (negb (has (numZ 10) Undef)); (negb (has (Cst CPi) (Sym (nm "a"%string) false))); (negb (has (Cst CPi) (numZ 1))); (negb (has (Cst CPi) Undef)); (negb (has Undef (Sym (nm "a"%string) false))); (negb (has Undef (numZ 10))); (negb (has Undef (Cst CPi)))].
Definition t_has_equalProducts : res (list bool) :=
  v1 <- w_prod W0 [(numZ 2); (Sym (nm "a"%string) false); (Sym (nm "b"%string) false); (Cst CPi)] ;;
  ret [(has v1 v1)].
Definition t_has_differentProducts : res (list bool) :=
  v1 <- w_prod W0 [(numZ 2); (Sym (nm "a"%string) false); (Sym (nm "b"%string) false); (Cst CPi)] ;;
  v6 <- w_prod W0 [(Sym (nm "d"%string) false); (Sym (nm "e"%string) false)] ;;
  ret [(negb (has v1 v6))].
Definition t_has_subProductsMultipleFactors : res (list bool) :=
  v1 <- w_prod W0 [(numZ 2); (Sym (nm "a"%string) false); (Sym (nm "b"%string) false); (Cst CPi)] ;;
  v6 <- w_prod W0 [(Sym (nm "a"%string) false); (Sym (nm "b"%string) false)] ;;
  ret [(negb (has v1 v6))].
Definition t_has_subProductsOneFactor : res (list bool) :=
  v6 <- w_sum W0 [(Sym (nm "a"%string) false); (Sym (nm "b"%string) false)] ;;
  v7 <- w_prod W0 [(Cst CPi); v6] ;;
  ret [(has v7 v6)].
Definition t_has_differentSums : res (list bool) :=
  v2 <- w_prod W0 [(Sym (nm "a"%string) false); (Sym (nm "b"%string) false)] ;;
  v3 <- w_sum W0 [(numZ 1); v2] ;;
  v6 <- w_sum W0 [(Sym (nm "c"%string) false); (Sym (nm "d"%string) false)] ;;
  ret [(negb (has v3 v6))].
Definition t_has_subSumMultipleSummands : res (list bool) :=
  v6 <- w_sum W0 [(Sym (nm "a"%string) false); (Sym (nm "b"%string) false)] ;;
  v7 <- w_sum W0 [(Sym (nm "c"%string) false); v6] ;;
  ret [(negb (has v7 v6))].
Definition t_has_subSumOneSummand : res (list bool) :=
  v2 <- w_prod W0 [(Sym (nm "a"%string) false); (Sym (nm "b"%string) false)] ;;
  v3 <- w_sum W0 [(numZ 1); v2] ;;
  v6 <- w_prod W0 [(Sym (nm "a"%string) false); (Sym (nm "b"%string) false)] ;;
  ret [(has v3 v6)].
Definition t_has_equalPowers : res (list bool) :=
  v4 <- w_sum W0 [(Sym (nm "a"%string) false); (Sym (nm "b"%string) false)] ;;
  v5 <- w_pow W0 v4 (numZ 2) ;;
  ret [(has v5 v5)].
Definition t_has_differentPowers : res (list bool) :=
  v4 <- w_sum W0 [(Sym (nm "a"%string) false); (Sym (nm "b"%string) false)] ;;
  v5 <- w_pow W0 v4 (numZ 2) ;;
  v6 <- w_prod W0 [(Sym (nm "a"%string) false); (Sym (nm "b"%string) false)] ;;
  v7 <- w_pow W0 (Cst CPi) v6 ;;
  ret [(negb (has v5 v7))].
Definition t_has_baseOfPower : res (list bool) :=
  v4 <- w_sum W0 [(Sym (nm "a"%string) false); (Sym (nm "b"%string) false)] ;;
  v5 <- w_pow W0 v4 (numZ 2) ;;
  v6 <- w_sum W0 [(Sym (nm "a"%string) false); (Sym (nm "b"%string) false)] ;;
  ret [(has v5 v6)].
Definition t_has_exponentOfPower : res (list bool) :=
  v4 <- w_sum W0 [(Sym (nm "a"%string) false); (Sym (nm "b"%string) false)] ;;
  v5 <- w_pow W0 v4 (numZ 2) ;;
  ret [(has v5 (numZ 2))].
Definition t_has_equalFunctions : res (list bool) :=
  v6 <- w_trig W0 FSin (Sym (nm "a"%string) false) ;;
  ret [(has v6 v6)].
Definition t_has_differentFunctions : res (list bool) :=
  v6 <- w_trig W0 FSin (Sym (nm "a"%string) false) ;;
  v7 <- w_trig W0 FCos (Sym (nm "b"%string) false) ;;
  ret [(negb (has v6 v7))].
Definition t_has_argOfFunction : res (list bool) :=
  v6 <- w_sum W0 [(Sym (nm "a"%string) false); (numZ 2); (Cst CPi)] ;;
  v7 <- w_trig W0 FAsin v6 ;;
  ret [(has v7 (numZ 2)); (has v7 (Cst CPi)); (has v7 (Sym (nm "a"%string) false)); (has v7 v6)].
Definition t_int_equality : res (list bool) :=
  ret [(1 =? 1); (1 =? 1)].
Definition t_int_powerWithZeroExp : res (list bool) :=
  v1 <- w_pow W0 (numZ (12345)) (numZ (0)) ;;
  ret [(sameE v1 (numZ 1))].
Definition t_int_power : res (list bool) :=
  v1 <- w_pow W0 (numZ (12345)) (numZ (9)) ;;
  ret [(sameE v1 (numZ 6659166111488656281486807152009765625))].
Definition t_int_unaryPlusOperator : res (list bool) :=
  ret [(5 =? 5)].
Definition t_int_multiplication : res (list bool) :=
  ret [((123 * 654) =? (123 * 654))].
Definition t_logarithm_logOfZero : res (list bool) :=
  v1 <- w_log W0 (numZ 0) ;;
  ret [(isUndefined v1)].
Definition t_logarithm_logOfOne : res (list bool) :=
  v1 <- w_log W0 (numZ 1) ;;
  ret [(isZero v1)].
Definition t_logarithm_logOfUndefinedArg : res (list bool) :=
  v1 <- w_log W0 Undef ;;
  ret [(isUndefined v1)].
Definition t_logarithm_logOfE : res (list bool) :=
  v1 <- w_log W0 (Cst CE) ;;
  ret [(isOne v1)].
Definition t_logarithm_logOfPi : res (list bool) :=
  v1 <- w_log W0 (Cst CPi) ;;
  ret [(isFunctionE v1); (sameE (Cst CPi) (hd Undef (opsOf v1)))].
Definition t_logarithm_logOfRationalNumericArg : res (list bool) :=
  v1 <- w_log W0 (Num (frq (5) (7))) ;;
  ret [(isFunctionE v1); (sameE (Num (frq (5) (7))) (hd Undef (opsOf v1)))].
Definition t_logarithm_logOfValidNumericallyEvaluable : res (list bool) :=
  v1 <- w_pow W0 (numZ 2) half ;;
  v2 <- w_prod W0 [(numZ 2); v1] ;;
  v3 <- w_log W0 v2 ;;
  ret [(isFunctionE v3); (sameE v2 (hd Undef (opsOf v3)))].
Definition t_logarithm_logOfNegativeArgument : res (list bool) :=
  v1 <- minus W0 [(Sym (nm "a"%string) true)] ;;
  v2 <- w_log W0 v1 ;;
  ret [(isUndefined v2)].
Definition t_logarithm_logOfInvalidNumericallyEvaluableLessThanZero : res (list bool) :=
  v1 <- minus W0 [(Cst CPi)] ;;
  v2 <- w_sum W0 [v1; (numZ 2)] ;;
  v3 <- w_log W0 v2 ;;
  ret [(isUndefined v3)].
Definition t_logarithm_logOfSymbolicSum : res (list bool) :=
  v1 <- w_sum W0 [(Sym (nm "a"%string) false); (Sym (nm "b"%string) false)] ;;
  v2 <- w_log W0 v1 ;;
  ret [(isFunctionE v2); (sameE v1 (hd Undef (opsOf v2)))].
Definition t_logarithm_logOfPowerWithNegEulerBasePosNumericExp : res (list bool) :=
  v1 <- w_pow W0 (Cst CE) (numZ ((- 123))) ;;
  v2 <- minus W0 [v1] ;;
  v3 <- w_log W0 v2 ;;
  ret [(isUndefined v3)].
Definition t_logarithm_logOfPowerWithEulerBaseNegNumericExp : res (list bool) :=
  v1 <- w_pow W0 (Cst CE) (numZ ((- 123))) ;;
  v2 <- w_log W0 v1 ;;
  ret [(sameE (numZ ((- 123))) v2)].
Definition t_logarithm_logOfPowerWithEulerBasePosNumericExp : res (list bool) :=
  v1 <- w_pow W0 (Cst CE) (Num (frq (3) (10))) ;;
  v2 <- w_log W0 v1 ;;
  ret [(sameE (Num (frq (3) (10))) v2)].
Definition t_logarithm_logOfPowerWithEulerBaseArbitraryExp : res (list bool) :=
  v1 <- w_prod W0 [(numZ 7); (Sym (nm "c"%string) false); (Sym (nm "d"%string) false)] ;;
  v2 <- w_sum W0 [(Sym (nm "a"%string) false); (Sym (nm "b"%string) false); v1] ;;
  v3 <- w_pow W0 (Cst CE) v2 ;;
  v4 <- w_log W0 v3 ;;
  ret [(sameE v2 v4)].
Definition t_logarithm_logOfPower : res (list bool) :=
  v1 <- w_log W0 (Sym (nm "a"%string) false) ;;
  v2 <- w_prod W0 [(numZ 2); v1] ;;
  v3 <- w_pow W0 (Sym (nm "a"%string) false) (numZ 2) ;;
  v4 <- w_log W0 v3 ;;
  ret [(sameE v2 v4)].
Definition t_logarithm_logOfSymbolicPower : res (list bool) :=
  v1 <- w_log W0 (Sym (nm "a"%string) false) ;;
  v2 <- w_prod W0 [(numZ 2); (Sym (nm "b"%string) false); v1] ;;
  v3 <- w_prod W0 [(numZ 2); (Sym (nm "b"%string) false)] ;;
  v4 <- w_pow W0 (Sym (nm "a"%string) false) v3 ;;
  v5 <- w_log W0 v4 ;;
  ret [(sameE v2 v5)].
Definition t_normal_numericInteger : res (list bool) :=
  v6 <- w_normal W0 (numZ 2) ;;
  ret [(sameE (numZ 2) v6)].
Definition t_normal_numericFraction : res (list bool) :=
  v6 <- w_normal W0 (Num (Qred (1 # 3))) ;;
  ret [(sameE (Num (Qred (1 # 3))) v6)].
Definition t_normal_symbol : res (list bool) :=
  v6 <- w_normal W0 (Sym (nm "a"%string) false) ;;
  ret [(sameE (Sym (nm "a"%string) false) v6)].
Definition t_normal_constantPi : res (list bool) :=
  v6 <- w_normal W0 (Cst CPi) ;;
  ret [(sameE (Cst CPi) v6)].
Definition t_normal_constantE : res (list bool) :=
  v6 <- w_normal W0 (Cst CE) ;;
  ret [(sameE (Cst CE) v6)].
Definition t_normal_undefinedToUndefined : res (list bool) :=
  v6 <- w_normal W0 Undef ;;
  ret [(isUndefined v6)].
Definition t_normal_powerWithPosIntExp : res (list bool) :=
  v6 <- w_pow W0 (Sym (nm "a"%string) false) (numZ 2) ;;
  v7 <- w_normal W0 v6 ;;
  ret [(sameE v6 v7)].
Definition t_normal_powerWithPosNegExp : res (list bool) :=
  v6 <- w_pow W0 (Sym (nm "a"%string) false) (numZ ((- 2))) ;;
  v7 <- w_normal W0 v6 ;;
  ret [(sameE v6 v7)].
Definition t_normal_powerWithSymbolExp : res (list bool) :=
  v6 <- w_sum W0 [(Sym (nm "a"%string) false); (Sym (nm "b"%string) false)] ;;
  v7 <- w_pow W0 v6 (Sym (nm "c"%string) false) ;;
  v8 <- w_normal W0 v7 ;;
  ret [(sameE v7 v8)].
Definition t_normal_powerWithMinusSymbolExp : res (list bool) :=
  v6 <- w_sum W0 [(Sym (nm "a"%string) false); (Sym (nm "b"%string) false)] ;;
  v7 <- minus W0 [(Sym (nm "c"%string) false)] ;;
  v8 <- w_pow W0 v6 v7 ;;
  v9 <- w_normal W0 v8 ;;
  ret [(sameE v8 v9)].
Definition t_normal_powerWithPiExp : res (list bool) :=
  v6 <- w_pow W0 (Sym (nm "a"%string) false) (Cst CPi) ;;
  v7 <- w_normal W0 v6 ;;
  ret [(sameE v6 v7)].
Definition t_normal_powerWithNegNumEvalExp : res (list bool) :=
  v6 <- w_pow W0 (numZ 2) half ;;
  v7 <- w_prod W0 [(numZ 3); (Cst CPi); v6] ;;
  v8 <- minus W0 [v7] ;;
  v9 <- w_pow W0 (Sym (nm "a"%string) false) v8 ;;
  v10 <- w_normal W0 v9 ;;
  ret [(sameE v9 v10)].
Definition t_normal_simpleSum : res (list bool) :=
  v6 <- oneOver W0 (Sym (nm "b"%string) false) ;;
  v7 <- w_sum W0 [(numZ 2); (Sym (nm "a"%string) false)] ;;
  v8 <- w_prod W0 [v7; v6] ;;
  v9 <- w_prod W0 [(Sym (nm "a"%string) false); v6] ;;
  v10 <- w_prod W0 [(numZ 2); v6] ;;
  v11 <- w_sum W0 [v9; v10] ;;
  v12 <- w_normal W0 v11 ;;
  ret [(sameE v8 v12)].
Definition t_normal_simpleSumToZero : res (list bool) :=
  v1 <- w_sum W0 [(Sym (nm "b"%string) false); (Sym (nm "c"%string) false)] ;;
  v2 <- oneOver W0 v1 ;;
  v3 <- w_prod W0 [(numZ (-1)); (Sym (nm "a"%string) false); (Sym (nm "b"%string) false); v2] ;;
  v4 <- w_prod W0 [(numZ (-1)); (Sym (nm "a"%string) false); (Sym (nm "c"%string) false); v2] ;;
  v5 <- w_sum W0 [(Sym (nm "a"%string) false); v3; v4] ;;
  v6 <- w_normal W0 v5 ;;
  ret [(isZero v6)].
Definition t_normal_simpleSumWithFractionCoeff : res (list bool) :=
  v6 <- oneOver W0 (Sym (nm "b"%string) false) ;;
  v7 <- w_prod W0 [(numZ 5); (Sym (nm "a"%string) false)] ;;
  v8 <- w_sum W0 [(numZ 1); v7] ;;
  v9 <- w_prod W0 [(Num (frq (1) (5))); v6; v8] ;;
  v10 <- w_prod W0 [(Sym (nm "a"%string) false); v6] ;;
  v11 <- w_prod W0 [(Num (frq (1) (5))); v6] ;;
  v12 <- w_sum W0 [v10; v11] ;;
  v13 <- w_normal W0 v12 ;;
  ret [(sameE v9 v13)].
Definition t_normal_sum : res (list bool) :=
  v6 <- w_pow W0 (numZ 2) half ;;
  v7 <- oneOver W0 (Sym (nm "b"%string) false) ;;
  v8 <- w_trig W0 FSin (Sym (nm "a"%string) false) ;;
  v9 <- w_prod W0 [v6; (Sym (nm "a"%string) false); v7] ;;
  v10 <- oneOver W0 v6 ;;
  v11 <- oneOver W0 (Sym (nm "d"%string) false) ;;
  v12 <- w_prod W0 [(Sym (nm "c"%string) false); v10; v11] ;;
  v13 <- minus W0 [v8; v7] ;;
  v14 <- w_sum W0 [v9; v12; v13] ;;
  v15 <- w_prod W0 [v6; (Sym (nm "b"%string) false); (Sym (nm "d"%string) false)] ;;
  v16 <- oneOver W0 v15 ;;
  v17 <- w_prod W0 [(numZ 2); (Sym (nm "a"%string) false); (Sym (nm "d"%string) false)] ;;
  v18 <- w_prod W0 [(Sym (nm "b"%string) false); (Sym (nm "c"%string) false)] ;;
  v19 <- minus W0 [v6; (Sym (nm "d"%string) false); v8] ;;
  v20 <- w_sum W0 [v17; v18; v19] ;;
  v21 <- w_prod W0 [v16; v20] ;;
  v22 <- w_normal W0 v14 ;;
  ret [(sameE v21 v22)].
Definition t_normal_longSimpleSum : res (list bool) :=
  v6 <- oneOver W0 (Sym (nm "a"%string) false) ;;
  v7 <- minus W0 [(Sym (nm "b"%string) false); (Sym (nm "c"%string) false); v6] ;;
  v8 <- w_sum W0 [(Sym (nm "d"%string) false); v7] ;;
  v9 <- w_sum W0 [(Sym (nm "a"%string) false); (Sym (nm "b"%string) false)] ;;
  v10 <- minus W0 [(Sym (nm "c"%string) false); v6; v9] ;;
  v11 <- w_sum W0 [(Sym (nm "c"%string) false); v10; (Sym (nm "d"%string) false)] ;;
  v12 <- oneOver W0 v8 ;;
  v13 <- minus W0 [(Sym (nm "b"%string) false); v11; v12] ;;
  v14 <- w_sum W0 [(Sym (nm "a"%string) false); (Sym (nm "b"%string) false); v13] ;;
  v15 <- w_prod W0 [v6; v14] ;;
  v16 <- w_normal W0 v15 ;;
  ret [(sameE (numZ 1) v16)].
Definition t_normal_fractionsOfNumPowersAndFunctions01 : res (list bool) :=
  v6 <- w_pow W0 (numZ 2) half ;;
  v7 <- w_pow W0 (numZ 3) half ;;
  v8 <- w_trig W0 FSin v7 ;;
  v9 <- w_trig W0 FCos (Sym (nm "b"%string) false) ;;
  v10 <- w_trig W0 FAsin (Sym (nm "a"%string) false) ;;
  v11 <- oneOver W0 v8 ;;
  v12 <- w_prod W0 [v6; v11] ;;
  v13 <- oneOver W0 v9 ;;
  v14 <- w_prod W0 [v10; v13] ;;
  v15 <- w_sum W0 [v12; v14] ;;
  v16 <- w_prod W0 [v6; v9] ;;
  v17 <- w_prod W0 [v8; v10] ;;
  v18 <- w_sum W0 [v16; v17] ;;
  v19 <- w_prod W0 [v8; v9] ;;
  v20 <- oneOver W0 v19 ;;
  v21 <- w_prod W0 [v18; v20] ;;
  v22 <- w_normal W0 v15 ;;
  ret [(sameE v21 v22)].
Definition t_normal_fractionsOfNumPowersAndFunctions02 : res (list bool) :=
  v6 <- w_trig W0 FSin (Sym (nm "a"%string) false) ;;
  v7 <- w_pow W0 (numZ 2) half ;;
  v8 <- w_pow W0 (numZ 3) half ;;
  v9 <- w_pow W0 (numZ 6) half ;;
  v10 <- w_pow W0 (Sym (nm "a"%string) false) (numZ 2) ;;
  v11 <- w_prod W0 [(numZ 3); v7] ;;
  v12 <- oneOver W0 v11 ;;
  v13 <- oneOver W0 v8 ;;
  v14 <- w_prod W0 [v6; v13] ;;
  v15 <- oneOver W0 v10 ;;
  v16 <- w_prod W0 [v9; v15] ;;
  v17 <- w_sum W0 [v12; v14; v16] ;;
  v18 <- w_prod W0 [v8; v10] ;;
  v19 <- w_prod W0 [(numZ 3); v7; v6; v10] ;;
  v20 <- w_sum W0 [v18; v19; (numZ (18))] ;;
  v21 <- w_prod W0 [(numZ 3); v9; v10] ;;
  v22 <- oneOver W0 v21 ;;
  v23 <- w_prod W0 [v20; v22] ;;
  v24 <- w_normal W0 v17 ;;
  ret [(sameE v23 v24)].
Definition t_normal_fractionSumWithPiExp : res (list bool) :=
  v6 <- oneOver W0 (Sym (nm "b"%string) false) ;;
  v7 <- w_prod W0 [(Sym (nm "a"%string) false); v6] ;;
  v8 <- minus W0 [(Cst CPi)] ;;
  v9 <- w_pow W0 v7 v8 ;;
  v10 <- w_pow W0 (Sym (nm "a"%string) false) (Cst CPi) ;;
  v11 <- oneOver W0 v10 ;;
  v12 <- w_sum W0 [v9; v11] ;;
  v13 <- w_pow W0 (Sym (nm "b"%string) false) (Cst CPi) ;;
  v14 <- w_sum W0 [(numZ 1); v13] ;;
  v15 <- w_pow W0 (Sym (nm "a"%string) false) (Cst CPi) ;;
  v16 <- oneOver W0 v15 ;;
  v17 <- w_prod W0 [v14; v16] ;;
  v18 <- w_normal W0 v12 ;;
  ret [(sameE v17 v18)].
Definition t_normal_sumWithNumPowerOfFractions : res (list bool) :=
  v6 <- w_pow W0 (Num (frq (3) (4))) (Num (frq ((- 1)) (5))) ;;
  v7 <- w_pow W0 (numZ 3) (Num (frq (1) (5))) ;;
  v8 <- w_sum W0 [v6; v7] ;;
  v9 <- w_pow W0 (numZ 2) (Num (frq (2) (5))) ;;
  v10 <- w_pow W0 (numZ 3) (Num (frq ((- 1)) (5))) ;;
  v11 <- w_prod W0 [v9; v10] ;;
  v12 <- w_pow W0 (numZ 3) (Num (frq (1) (5))) ;;
  v13 <- w_sum W0 [v11; v12] ;;
  v14 <- w_normal W0 v8 ;;
  ret [(sameE v13 v14)].
Definition t_normal_trigonometricFunctionArgToZero : res (list bool) :=
  v1 <- w_sum W0 [(Sym (nm "b"%string) false); (Sym (nm "c"%string) false)] ;;
  v2 <- oneOver W0 v1 ;;
  v3 <- w_prod W0 [(numZ (-1)); (Sym (nm "a"%string) false); (Sym (nm "b"%string) false); v2] ;;
  v4 <- w_prod W0 [(numZ (-1)); (Sym (nm "a"%string) false); (Sym (nm "c"%string) false); v2] ;;
  v5 <- w_sum W0 [(Sym (nm "a"%string) false); v3; v4] ;;
  v6 <- w_trig W0 FSin v5 ;;
  v7 <- w_normal W0 v6 ;;
  ret [(isZero v7)].
Definition t_normal_logarithmicFunctionArgToZero : res (list bool) :=
  v1 <- w_sum W0 [(Sym (nm "b"%string) false); (Sym (nm "c"%string) false)] ;;
  v2 <- oneOver W0 v1 ;;
  v3 <- w_prod W0 [(numZ (-1)); (Sym (nm "a"%string) false); (Sym (nm "b"%string) false); v2] ;;
  v4 <- w_prod W0 [(numZ (-1)); (Sym (nm "a"%string) false); (Sym (nm "c"%string) false); v2] ;;
  v5 <- w_sum W0 [(Sym (nm "a"%string) false); v3; v4] ;;
  v6 <- w_log W0 v5 ;;
  v7 <- w_normal W0 v6 ;;
  ret [(isUndefined v7)].
Definition t_normal_logarithmicFunction : res (list bool) :=
  v6 <- w_prod W0 [(numZ 2); (Sym (nm "a"%string) false)] ;;
  v7 <- w_log W0 v6 ;;
  v8 <- w_normal W0 v7 ;;
  ret [(sameE v7 v8)].
Definition t_normal_trigoPowerSumComposite : res (list bool) :=
  v6 <- w_pow W0 (Sym (nm "a"%string) false) (numZ 2) ;;
  v7 <- w_trig W0 FCos v6 ;;
  v8 <- w_trig W0 FSin v6 ;;
  v9 <- minus W0 [v7; v7] ;;
  v10 <- w_sum W0 [(numZ 1); v9] ;;
  v11 <- w_pow W0 v10 (Num (frq ((- 1)) (2))) ;;
  v12 <- minus W0 [(numZ 2); (Sym (nm "a"%string) false); v8; v11] ;;
  v13 <- w_normal W0 v12 ;;
  ret [(sameE v12 v13)].
Definition t_normal_tanToSinOverCos : res (list bool) :=
  v6 <- w_trig W0 FCos (Sym (nm "a"%string) false) ;;
  v7 <- oneOver W0 v6 ;;
  v8 <- w_trig W0 FTan (Sym (nm "a"%string) false) ;;
  v9 <- w_sum W0 [v7; v8] ;;
  v10 <- w_normal W0 v9 ;;
  v11 <- w_trig W0 FSin (Sym (nm "a"%string) false) ;;
  v12 <- w_sum W0 [(numZ 1); v11] ;;
  v13 <- oneOver W0 v6 ;;
  v14 <- w_prod W0 [v12; v13] ;;
  ret [(sameE v14 v10)].
Definition t_normal_tanInDenominator : res (list bool) :=
  v6 <- w_prod W0 [(numZ (12)); (Sym (nm "b"%string) false)] ;;
  v7 <- w_trig W0 FSin (Sym (nm "a"%string) false) ;;
  v8 <- w_trig W0 FCos (Sym (nm "a"%string) false) ;;
  v9 <- w_trig W0 FTan (Sym (nm "a"%string) false) ;;
  v10 <- oneOver W0 v6 ;;
  v11 <- w_prod W0 [v8; v10] ;;
  v12 <- oneOver W0 v9 ;;
  v13 <- w_prod W0 [(Sym (nm "a"%string) false); (Sym (nm "b"%string) false); v12] ;;
  v14 <- w_sum W0 [v11; v13] ;;
  v15 <- w_prod W0 [v6; (Sym (nm "a"%string) false); (Sym (nm "b"%string) false)] ;;
  v16 <- w_sum W0 [v7; v15] ;;
  v17 <- w_prod W0 [v6; v9] ;;
  v18 <- oneOver W0 v17 ;;
  v19 <- w_prod W0 [v16; v18] ;;
  v20 <- w_normal W0 v14 ;;
  ret [(sameE v19 v20)].
Definition t_number_one : res (list bool) :=
  ret [(qeqb (ofZ 1) (ofZ (1))); (qeqb (ofZ 1) (ofZ (1)))].
Definition t_number_unaryPlus : res (list bool) :=
  ret [(qeqb (ofZ (2)) (ofZ (2)))].
Definition t_numeric_creationByNumber : res (list bool) :=
  ret [(isNumericE (Num (frq (1) (2)))); (sameN (numericEval refSys (Num (frq (1) (2)))) (NQ (frq (1) (2))))].
Definition t_numeric_creationByIntegerClass : res (list bool) :=
  ret [(sameE (numZ 2) (Num (frq (400) (200))))].
Definition t_numeric_creationWithZeroDenominator : res (list bool) :=
  ret [(isUndefined Undef)].
Definition t_numeric_creationByInt : res (list bool) :=
  ret [(isNumericE (numZ 1)); (sameN (numericEval refSys (numZ 1)) (NQ (ofZ 1)))].
Definition t_numeric_creationByFraction : res (list bool) :=
  ret [(isNumericE (Num (Qred (1 # 4)))); (sameN (numericEval refSys (Num (Qred (1 # 4)))) (NQ (frq (1) (4))))].
Definition t_numeric_numericEvaluation : res (list bool) :=
  ret [(sameN (numericEval refSys (Num (frq (2) (3)))) (NQ (frq (2) (3))))].
Definition t_numtrigosimpl_triviallyZero : res (list bool) :=
  v4 <- numTrigo refSys W0 40 FSin (numZ 0) ;;
  v5 <- numTrigo refSys W0 40 FCos (numZ 0) ;;
  v6 <- numTrigo refSys W0 40 FTan (numZ 0) ;;
  ret [(match v4 with Some y => sameU (numZ 0) y | None => false end); (match v5 with Some y => sameU (numZ 1) y | None => false end); (match v6 with Some y => sameU (numZ 0) y | None => false end)].
Definition t_numtrigosimpl_eightPi : res (list bool) :=
  v4 <- w_prod W0 [(numZ 8); (Cst CPi)] ;;
  v5 <- numTrigo refSys W0 40 FSin v4 ;;
  v6 <- numTrigo refSys W0 40 FCos v4 ;;
  v7 <- numTrigo refSys W0 40 FTan v4 ;;
  ret [(match v5 with Some y => sameU (numZ 0) y | None => false end); (match v6 with Some y => sameU (numZ 1) y | None => false end); (match v7 with Some y => sameU (numZ 0) y | None => false end)].
Definition t_numtrigosimpl_minusTwoPi : res (list bool) :=
  v4 <- w_prod W0 [(numZ ((- 2))); (Cst CPi)] ;;
  v5 <- numTrigo refSys W0 40 FSin v4 ;;
  v6 <- numTrigo refSys W0 40 FCos v4 ;;
  v7 <- numTrigo refSys W0 40 FTan v4 ;;
  ret [(match v5 with Some y => sameU (numZ 0) y | None => false end); (match v6 with Some y => sameU (numZ 1) y | None => false end); (match v7 with Some y => sameU (numZ 0) y | None => false end)].
Definition t_numtrigosimpl_minusPi : res (list bool) :=
  v4 <- minus W0 [(Cst CPi)] ;;
  v5 <- numTrigo refSys W0 40 FSin v4 ;;
  v6 <- numTrigo refSys W0 40 FCos v4 ;;
  v7 <- numTrigo refSys W0 40 FTan v4 ;;
  ret [(match v5 with Some y => sameU (numZ 0) y | None => false end); (match v6 with Some y => sameU (numZ (-1)) y | None => false end); (match v7 with Some y => sameU (numZ 0) y | None => false end)].
Definition t_numtrigosimpl_piFourth : res (list bool) :=
  v4 <- w_pow W0 (numZ 2) (Num (frq ((- 1)) (2))) ;;
  v5 <- w_prod W0 [(Cst CPi); (Num (Qred (1 # 4)))] ;;
  v6 <- numTrigo refSys W0 40 FSin v5 ;;
  v7 <- numTrigo refSys W0 40 FCos v5 ;;
  v8 <- numTrigo refSys W0 40 FTan v5 ;;
  ret [(match v6 with Some y => sameU v4 y | None => false end); (match v7 with Some y => sameU v4 y | None => false end); (match v8 with Some y => sameU (numZ 1) y | None => false end)].
Definition t_numtrigosimpl_threeFourthPi : res (list bool) :=
  v1 <- w_pow W0 (numZ 2) half ;;
  v4 <- oneOver W0 v1 ;;
  v5 <- minus W0 [v4] ;;
  v6 <- w_prod W0 [(Num (frq (3) (4))); (Cst CPi)] ;;
  v7 <- numTrigo refSys W0 40 FSin v6 ;;
  v8 <- numTrigo refSys W0 40 FCos v6 ;;
  v9 <- numTrigo refSys W0 40 FTan v6 ;;
  ret [(match v7 with Some y => sameU v4 y | None => false end); (match v8 with Some y => sameU v5 y | None => false end); (match v9 with Some y => sameU (numZ (-1)) y | None => false end)].
Definition t_numtrigosimpl_fiveFourthPi : res (list bool) :=
  v1 <- w_pow W0 (numZ 2) half ;;
  v4 <- oneOver W0 v1 ;;
  v5 <- minus W0 [v4] ;;
  v6 <- w_prod W0 [(Num (frq (5) (4))); (Cst CPi)] ;;
  v7 <- numTrigo refSys W0 40 FSin v6 ;;
  v8 <- numTrigo refSys W0 40 FCos v6 ;;
  v9 <- numTrigo refSys W0 40 FTan v6 ;;
  ret [(match v7 with Some y => sameU v5 y | None => false end); (match v8 with Some y => sameU v5 y | None => false end); (match v9 with Some y => sameU (numZ 1) y | None => false end)].
Definition t_numtrigosimpl_sevenFourthPi : res (list bool) :=
  v1 <- w_pow W0 (numZ 2) half ;;
  v4 <- oneOver W0 v1 ;;
  v5 <- minus W0 [v4] ;;
  v6 <- w_prod W0 [(Num (frq (7) (4))); (Cst CPi)] ;;
  v7 <- numTrigo refSys W0 40 FSin v6 ;;
  v8 <- numTrigo refSys W0 40 FCos v6 ;;
  v9 <- numTrigo refSys W0 40 FTan v6 ;;
  ret [(match v7 with Some y => sameU v5 y | None => false end); (match v8 with Some y => sameU v4 y | None => false end); (match v9 with Some y => sameU (numZ (-1)) y | None => false end)].
Definition t_numtrigosimpl_threePiOverEight : res (list bool) :=
  v1 <- w_pow W0 (numZ 2) half ;;
  v4 <- w_sum W0 [(numZ 2); v1] ;;
  v5 <- w_pow W0 v4 half ;;
  v6 <- w_prod W0 [(Num (Qred (1 # 2))); v5] ;;
  v7 <- minus W0 [v1] ;;
  v8 <- w_sum W0 [(numZ 2); v7] ;;
  v9 <- w_pow W0 v8 half ;;
  v10 <- w_prod W0 [(Num (Qred (1 # 2))); v9] ;;
  v11 <- w_sum W0 [(numZ 1); v1] ;;
  v12 <- w_prod W0 [(Num (frq (3) (8))); (Cst CPi)] ;;
  v13 <- numTrigo refSys W0 40 FSin v12 ;;
  v14 <- numTrigo refSys W0 40 FCos v12 ;;
  v15 <- numTrigo refSys W0 40 FTan v12 ;;
  ret [(match v13 with Some y => sameU v6 y | None => false end); (match v14 with Some y => sameU v10 y | None => false end); (match v15 with Some y => sameU v11 y | None => false end)].
Definition t_numtrigosimpl_cosLeadsToNewAdjustment : res (list bool) :=
  v2 <- w_pow W0 (numZ 3) half ;;
  v4 <- w_prod W0 [(Num (frq ((- 1)) (2))); v2] ;;
  v5 <- minus W0 [v2] ;;
  v6 <- w_prod W0 [(Num (frq (5) (3))); (Cst CPi)] ;;
  v7 <- numTrigo refSys W0 40 FSin v6 ;;
  v8 <- numTrigo refSys W0 40 FCos v6 ;;
  v9 <- numTrigo refSys W0 40 FTan v6 ;;
  ret [(match v7 with Some y => sameU v4 y | None => false end); (match v8 with Some y => sameU (Num (Qred (1 # 2))) y | None => false end); (match v9 with Some y => sameU v5 y | None => false end)].
Definition t_numtrigosimpl_unresolvableNumeric : res (list bool) :=
  v4 <- numTrigo refSys W0 40 FSin (Num (Qred (1 # 4))) ;;
  v5 <- numTrigo refSys W0 40 FCos (Num (Qred (1 # 4))) ;;
  v6 <- numTrigo refSys W0 40 FTan (Num (Qred (1 # 4))) ;;
  ret [(match v4 with None => true | _ => false end); (match v5 with None => true | _ => false end); (match v6 with None => true | _ => false end)].
Definition t_numtrigosimpl_unresolvableNumericPower : res (list bool) :=
  v1 <- w_pow W0 (numZ 2) half ;;
  v4 <- numTrigo refSys W0 40 FSin v1 ;;
  v5 <- numTrigo refSys W0 40 FCos v1 ;;
  v6 <- numTrigo refSys W0 40 FTan v1 ;;
  ret [(match v4 with None => true | _ => false end); (match v5 with None => true | _ => false end); (match v6 with None => true | _ => false end)].
Definition t_numtrigosimpl_undefinedTan : res (list bool) :=
  v4 <- w_prod W0 [(Num (Qred (1 # 2))); (Cst CPi)] ;;
  v5 <- numTrigo refSys W0 40 FSin v4 ;;
  v6 <- numTrigo refSys W0 40 FCos v4 ;;
  v7 <- numTrigo refSys W0 40 FTan v4 ;;
  ret [(match v5 with Some y => sameU (numZ 1) y | None => false end); (match v6 with Some y => sameU (numZ 0) y | None => false end); (match v7 with Some y => sameU Undef y | None => false end)].
Definition t_numtrigosimpl_inverseZero : res (list bool) :=
  v4 <- numTrigo refSys W0 40 FAsin (numZ 0) ;;
  v5 <- w_prod W0 [(Num (Qred (1 # 2))); (Cst CPi)] ;;
  v6 <- numTrigo refSys W0 40 FAcos (numZ 0) ;;
  v7 <- numTrigo refSys W0 40 FAtan (numZ 0) ;;
  ret [(match v4 with Some y => sameU (numZ 0) y | None => false end); (match v6 with Some y => sameU v5 y | None => false end); (match v7 with Some y => sameU (numZ 0) y | None => false end)].
Definition t_numtrigosimpl_inverseOneOverSqrtTwo : res (list bool) :=
  v1 <- w_pow W0 (numZ 2) half ;;
  v4 <- w_prod W0 [(Cst CPi); (Num (Qred (1 # 4)))] ;;
  v5 <- oneOver W0 v1 ;;
  v6 <- numTrigo refSys W0 40 FAsin v5 ;;
  v7 <- numTrigo refSys W0 40 FAcos v5 ;;
  v8 <- numTrigo refSys W0 40 FAtan v5 ;;
  ret [(match v6 with Some y => sameU v4 y | None => false end); (match v7 with Some y => sameU v4 y | None => false end); (match v8 with None => true | _ => false end)].
Definition t_numtrigosimpl_inverseNegativeArg : res (list bool) :=
  v1 <- w_pow W0 (numZ 2) half ;;
  v4 <- w_prod W0 [(Num (frq ((- 1)) (4))); (Cst CPi)] ;;
  v5 <- w_prod W0 [(Num (frq (3) (4))); (Cst CPi)] ;;
  v6 <- oneOver W0 v1 ;;
  v7 <- minus W0 [v6] ;;
  v8 <- numTrigo refSys W0 40 FAsin v7 ;;
  v9 <- numTrigo refSys W0 40 FAcos v7 ;;
  v10 <- numTrigo refSys W0 40 FAtan v7 ;;
  ret [(match v8 with Some y => sameU v4 y | None => false end); (match v9 with Some y => sameU v5 y | None => false end); (match v10 with None => true | _ => false end)].
Definition t_numtrigosimpl_inverseFromSum : res (list bool) :=
  v1 <- w_pow W0 (numZ 2) half ;;
  v3 <- w_pow W0 (numZ 6) half ;;
  v4 <- w_prod W0 [(Num (frq (1) (12))); (Cst CPi)] ;;
  v5 <- w_prod W0 [(Num (frq (5) (12))); (Cst CPi)] ;;
  v6 <- minus W0 [v1] ;;
  v7 <- w_sum W0 [v3; v6] ;;
  v8 <- w_prod W0 [(Num (Qred (1 # 4))); v7] ;;
  v9 <- numTrigo refSys W0 40 FAsin v8 ;;
  v10 <- numTrigo refSys W0 40 FAcos v8 ;;
  v11 <- numTrigo refSys W0 40 FAtan v8 ;;
  ret [(match v9 with Some y => sameU v4 y | None => false end); (match v10 with Some y => sameU v5 y | None => false end); (match v11 with None => true | _ => false end)].
Definition t_numtrigosimpl_inverseNegativeSum : res (list bool) :=
  v1 <- w_pow W0 (numZ 2) half ;;
  v3 <- w_pow W0 (numZ 6) half ;;
  v4 <- w_prod W0 [(Num (frq ((- 5)) (12))); (Cst CPi)] ;;
  v5 <- w_prod W0 [(Num (frq (11) (12))); (Cst CPi)] ;;
  v6 <- w_sum W0 [v3; v1] ;;
  v7 <- w_prod W0 [(Num (frq ((- 1)) (4))); v6] ;;
  v8 <- numTrigo refSys W0 40 FAsin v7 ;;
  v9 <- numTrigo refSys W0 40 FAcos v7 ;;
  v10 <- numTrigo refSys W0 40 FAtan v7 ;;
  ret [(match v8 with Some y => sameU v4 y | None => false end); (match v9 with Some y => sameU v5 y | None => false end); (match v10 with None => true | _ => false end)].
Definition t_numtrigosimpl_atanNegativeArg : res (list bool) :=
  v2 <- w_pow W0 (numZ 3) half ;;
  v4 <- w_prod W0 [(Num (frq ((- 1)) (3))); (Cst CPi)] ;;
  v5 <- minus W0 [v2] ;;
  v6 <- numTrigo refSys W0 40 FAtan v5 ;;
  ret [(match v6 with Some y => sameU v4 y | None => false end)].
Definition t_numtrigosimpl_atanNegativeSum : res (list bool) :=
  v1 <- w_pow W0 (numZ 2) half ;;
  v4 <- w_prod W0 [(Num (frq ((- 3)) (8))); (Cst CPi)] ;;
  v5 <- w_sum W0 [v1; (numZ 1)] ;;
  v6 <- minus W0 [v5] ;;
  v7 <- numTrigo refSys W0 40 FAtan v6 ;;
  ret [(match v7 with Some y => sameU v4 y | None => false end)].
Definition t_numtrigosimpl_inverseFromSumAtan : res (list bool) :=
  v1 <- w_pow W0 (numZ 2) half ;;
  v4 <- w_prod W0 [(Num (frq (3) (8))); (Cst CPi)] ;;
  v5 <- w_sum W0 [v1; (numZ 1)] ;;
  v6 <- numTrigo refSys W0 40 FAsin v5 ;;
  v7 <- numTrigo refSys W0 40 FAcos v5 ;;
  v8 <- numTrigo refSys W0 40 FAtan v5 ;;
  ret [(match v6 with Some y => sameU Undef y | None => false end); (match v7 with Some y => sameU Undef y | None => false end); (match v8 with Some y => sameU v4 y | None => false end)].
Definition t_numtrigosimpl_noSimplification : res (list bool) :=
  v1 <- w_pow W0 (numZ 2) half ;;
  v4 <- w_prod W0 [v1; (Cst CPi)] ;;
  v5 <- numTrigo refSys W0 40 FSin v4 ;;
  v6 <- numTrigo refSys W0 40 FCos v4 ;;
  v7 <- numTrigo refSys W0 40 FTan v4 ;;
  ret [(match v5 with None => true | _ => false end); (match v6 with None => true | _ => false end); (match v7 with None => true | _ => false end)].
Definition t_numtrigosimpl_noSimplificationInverse : res (list bool) :=
  v1 <- w_pow W0 (numZ 2) half ;;
  v4 <- w_prod W0 [v1; (Num (frq (1) (10))); (Cst CPi)] ;;
  v5 <- numTrigo refSys W0 40 FAsin v4 ;;
  v6 <- numTrigo refSys W0 40 FAcos v4 ;;
  v7 <- numTrigo refSys W0 40 FAtan v4 ;;
  ret [(match v5 with None => true | _ => false end); (match v6 with None => true | _ => false end); (match v7 with None => true | _ => false end)].
Definition t_numtrigosimpl_noSimplificationLargeInput : res (list bool) :=
  v2 <- w_pow W0 (numZ 3) half ;;
  v4 <- w_pow W0 (numZ 4) (Num (frq ((- 1)) (5))) ;;
  v5 <- w_pow W0 (numZ 6) (Num (frq ((- 1)) (10))) ;;
  v6 <- w_prod W0 [(Num (frq (1) (20))); (Cst CPi); v2; v4; v5] ;;
  v7 <- numTrigo refSys W0 40 FSin v6 ;;
  v8 <- numTrigo refSys W0 40 FCos v6 ;;
  v9 <- numTrigo refSys W0 40 FTan v6 ;;
  v10 <- numTrigo refSys W0 40 FAsin v6 ;;
  v11 <- numTrigo refSys W0 40 FAcos v6 ;;
  v12 <- numTrigo refSys W0 40 FAtan v6 ;;
  ret [(match v7 with None => true | _ => false end); (match v8 with None => true | _ => false end); (match v9 with None => true | _ => false end); (match v10 with None => true | _ => false end); (match v11 with None => true | _ => false end); (match v12 with None => true | _ => false end)].
Definition t_numtrigosimpl_greaterThanRange : res (list bool) :=
  v1 <- w_pow W0 (numZ 2) half ;;
  v4 <- w_prod W0 [(numZ ((- 17))); v1] ;;
  v5 <- numTrigo refSys W0 40 FAsin v4 ;;
  v6 <- numTrigo refSys W0 40 FAcos v4 ;;
  v7 <- numTrigo refSys W0 40 FAtan v4 ;;
  ret [(match v5 with Some y => sameU Undef y | None => false end); (match v6 with Some y => sameU Undef y | None => false end); (match v7 with None => true | _ => false end)].
Definition t_numtrigosimpl_inverseUnresolvableNumeric : res (list bool) :=
  v4 <- numTrigo refSys W0 40 FAsin (Num (frq ((- 1)) (10))) ;;
  v5 <- numTrigo refSys W0 40 FAcos (Num (frq ((- 1)) (10))) ;;
  v6 <- numTrigo refSys W0 40 FAtan (Num (frq ((- 1)) (10))) ;;
  ret [(match v4 with None => true | _ => false end); (match v5 with None => true | _ => false end); (match v6 with None => true | _ => false end)].
Definition t_order_twoUndefined : res (list bool) :=
  ret [(negb (permuted refSys Undef Undef))].
Definition t_order_oneUndefined : res (list bool) :=
  ret [(negb (permuted refSys Undef (Sym (nm "a"%string) false))); (negb (permuted refSys (Sym (nm "a"%string) false) Undef))].
Definition t_order_twoConstants : res (list bool) :=
  ret [(negb (permuted refSys (Cst CPi) (Cst CPi))); (permuted refSys (Cst CPi) (Cst CE))].
Definition t_order_twoSymbolsAlphanumericNames : res (list bool) :=
  ret [(negb (permuted refSys (Sym (nm "x1"%string) false) (Sym (nm "x2"%string) false))); (permuted refSys (Sym (nm "x2"%string) false) (Sym (nm "x1"%string) false))].
Definition t_order_twoEqualSymbols : res (list bool) :=
  ret [(negb (permuted refSys (Sym (nm "a"%string) false) (Sym (nm "a"%string) false)))].
Definition t_order_twoSymbolsOnePositive : res (list bool) :=
  ret [(negb (permuted refSys (Sym (nm "a"%string) true) (Sym (nm "a"%string) false))); (permuted refSys (Sym (nm "a"%string) false) (Sym (nm "a"%string) true))].
Definition t_order_twoSymbolsCapitalSmall : res (list bool) :=
  ret [(permuted refSys (Sym (nm "a"%string) false) (Sym (nm "A"%string) false))].
Definition t_order_twoSymbolsNumericNames : res (list bool) :=
  ret [(permuted refSys (Sym (nm "11"%string) false) (numZ 10))].
Definition t_order_twoSymbolsNumericNameAndLetter : res (list bool) :=
  ret [(permuted refSys (Sym (nm "a"%string) false) (numZ 10))].
Definition t_order_twoNumericsFrac : res (list bool) :=
  ret [(permuted refSys (Num (frq (2) (3))) (Num (Qred (1 # 2))))].
Definition t_order_twoNumericsInteger : res (list bool) :=
  ret [(permuted refSys (numZ 4) (numZ 3))].
Definition t_order_twoPowersDifferentBase : res (list bool) :=
  v3 <- w_pow W0 (Sym (nm "a"%string) false) half ;;
  v4 <- w_pow W0 (Sym (nm "b"%string) false) half ;;
  ret [(permuted refSys v4 v3)].
Definition t_order_twoPowersDifferentExp : res (list bool) :=
  v3 <- w_pow W0 (Sym (nm "a"%string) false) half ;;
  v4 <- w_pow W0 (Sym (nm "a"%string) false) (numZ 5) ;;
  ret [(permuted refSys v4 v3)].
Definition t_order_twoPowersDifferentBaseAndExp : res (list bool) :=
  v3 <- w_pow W0 (Sym (nm "a"%string) false) (numZ 5) ;;
  v4 <- w_pow W0 (Sym (nm "b"%string) false) half ;;
  ret [(permuted refSys v4 v3)].
Definition t_order_sumsWithTwoSummands : res (list bool) :=
  v3 <- w_sum W0 [(Sym (nm "a"%string) false); (Sym (nm "b"%string) false)] ;;
  v4 <- w_sum W0 [(Sym (nm "a"%string) false); (Sym (nm "c"%string) false)] ;;
  ret [(permuted refSys v4 v3)].
Definition t_order_sumsWithThreeSummands : res (list bool) :=
  v3 <- w_sum W0 [(Sym (nm "a"%string) false); (Sym (nm "c"%string) false); (Sym (nm "d"%string) false)] ;;
  v4 <- w_sum W0 [(Sym (nm "b"%string) false); (Sym (nm "c"%string) false); (Sym (nm "d"%string) false)] ;;
  ret [(permuted refSys v4 v3)].
Definition t_order_sumsWithTwoAndThreeSummands : res (list bool) :=
  v3 <- w_sum W0 [(Sym (nm "c"%string) false); (Sym (nm "d"%string) false)] ;;
  v4 <- w_sum W0 [(Sym (nm "b"%string) false); (Sym (nm "c"%string) false); (Sym (nm "d"%string) false)] ;;
  ret [(permuted refSys v4 v3); (negb (permuted refSys v3 v4))].
Definition t_order_equalSumsWithFourSummands : res (list bool) :=
  v3 <- w_sum W0 [(Sym (nm "a"%string) false); (Sym (nm "b"%string) false); (Sym (nm "c"%string) false); (Sym (nm "d"%string) false)] ;;
  ret [(negb (permuted refSys v3 v3))].
Definition t_order_productsWithTwoFactors : res (list bool) :=
  v3 <- w_prod W0 [(Sym (nm "a"%string) false); (Sym (nm "b"%string) false)] ;;
  v4 <- w_prod W0 [(Sym (nm "a"%string) false); (Sym (nm "c"%string) false)] ;;
  ret [(permuted refSys v4 v3)].
Definition t_order_productAndPower : res (list bool) :=
  v3 <- w_pow W0 (Sym (nm "b"%string) false) (numZ 2) ;;
  v4 <- w_pow W0 (Sym (nm "b"%string) false) (numZ 3) ;;
  v5 <- w_prod W0 [(Sym (nm "a"%string) false); v3] ;;
  ret [(negb (permuted refSys v5 v4)); (permuted refSys v4 v5)].
Definition t_order_productAndSymbol : res (list bool) :=
  v3 <- w_prod W0 [(Sym (nm "a"%string) false); (Sym (nm "b"%string) false)] ;;
  ret [(permuted refSys v3 (Sym (nm "b"%string) false)); (negb (permuted refSys (Sym (nm "b"%string) false) v3))].
Definition t_order_powerAndNumber : res (list bool) :=
  v3 <- w_pow W0 (Sym (nm "a"%string) false) half ;;
  ret [(negb (permuted refSys (numZ 5) v3)); (permuted refSys v3 (numZ 5))].
Definition t_order_sumAndSymbol : res (list bool) :=
  v3 <- w_sum W0 [(Sym (nm "a"%string) false); (Sym (nm "c"%string) false)] ;;
  ret [(negb (permuted refSys (Sym (nm "b"%string) false) v3)); (negb (permuted refSys (Sym (nm "c"%string) false) v3)); (permuted refSys (Sym (nm "d"%string) false) v3)].
Definition t_order_powerAndSum : res (list bool) :=
  v3 <- w_sum W0 [(Num (Qred (1 # 2))); (Sym (nm "a"%string) false)] ;;
  v4 <- w_sum W0 [(Num (Qred (1 # 2))); (Sym (nm "b"%string) false)] ;;
  v5 <- w_pow W0 v3 (numZ 2) ;;
  ret [(permuted refSys v4 v5); (negb (permuted refSys v5 v4))].
Definition t_order_powerAndSumSameBase : res (list bool) :=
  v3 <- w_sum W0 [(Sym (nm "a"%string) false); (Sym (nm "d"%string) false)] ;;
  v4 <- w_pow W0 v3 half ;;
  ret [(negb (permuted refSys v4 v3)); (permuted refSys v3 v4)].
Definition t_order_powerAndSymbol : res (list bool) :=
  v3 <- w_pow W0 (Sym (nm "a"%string) false) half ;;
  ret [(permuted refSys (Sym (nm "b"%string) false) v3)].
Definition t_order_numericAndConstPower : res (list bool) :=
  v1 <- w_pow W0 (numZ 2) half ;;
  ret [(permuted refSys v1 (numZ 2))].
Definition t_order_constSumAndNumeric : res (list bool) :=
  v1 <- w_pow W0 (numZ 2) half ;;
  v3 <- w_sum W0 [(numZ 3); v1] ;;
  ret [(permuted refSys v3 (numZ 2))].
Definition t_order_constSumAndConstPower : res (list bool) :=
  v1 <- w_pow W0 (numZ 2) half ;;
  v2 <- w_pow W0 (numZ 3) half ;;
  v3 <- w_sum W0 [(numZ 1); v1] ;;
  ret [(permuted refSys v3 v2); (negb (permuted refSys v2 v3))].
Definition t_order_constantAndSmallerNumeric : res (list bool) :=
  ret [(permuted refSys (Cst CPi) (Num (Qred (1 # 2))))].
Definition t_order_constantAndGreaterNumeric : res (list bool) :=
  ret [(permuted refSys (Cst CPi) (numZ (100)))].
Definition t_order_constantAndSymbol : res (list bool) :=
  ret [(negb (permuted refSys (Cst CPi) (Sym (nm "a"%string) false)))].
Definition t_order_constantAndPower : res (list bool) :=
  v1 <- w_pow W0 (numZ 2) half ;;
  ret [(negb (permuted refSys (Cst CPi) v1))].
Definition t_order_constantAndSum : res (list bool) :=
  v3 <- w_sum W0 [(Sym (nm "a"%string) false); (numZ 2)] ;;
  ret [(negb (permuted refSys (Cst CE) v3))].
Definition t_order_constantAndProduct : res (list bool) :=
  v1 <- w_pow W0 (numZ 2) half ;;
  v3 <- w_prod W0 [v1; (Sym (nm "a"%string) false)] ;;
  ret [(permuted refSys v3 (Cst CPi))].
Definition t_order_twoDifferentFunctionsSameArgument : res (list bool) :=
  v3 <- w_trig W0 FSin (Sym (nm "a"%string) false) ;;
  v4 <- w_trig W0 FCos (Sym (nm "a"%string) false) ;;
  ret [(permuted refSys v3 v4)].
Definition t_order_twoDifferentFunctionsDifferentArguments : res (list bool) :=
  v3 <- w_trig W0 FTan (Sym (nm "a"%string) false) ;;
  v4 <- w_trig W0 FSin (Sym (nm "b"%string) false) ;;
  ret [(permuted refSys v3 v4)].
Definition t_order_sameFunctionDifferentSymbolArguments : res (list bool) :=
  v3 <- w_trig W0 FAsin (Sym (nm "a"%string) false) ;;
  v4 <- w_trig W0 FAsin (Sym (nm "b"%string) false) ;;
  ret [(permuted refSys v4 v3)].
Definition t_order_sameFunctionDifferentNumericArguments : res (list bool) :=
  v3 <- w_trig W0 FSin (numZ 1) ;;
  v4 <- w_trig W0 FSin (numZ 2) ;;
  ret [(permuted refSys v4 v3)].
Definition t_order_sameFunctionDifferentProductArgument : res (list bool) :=
  v3 <- w_prod W0 [(Sym (nm "a"%string) false); (Sym (nm "b"%string) false)] ;;
  v4 <- w_prod W0 [(Sym (nm "a"%string) false); (Sym (nm "d"%string) false)] ;;
  v5 <- w_trig W0 FSin v3 ;;
  v6 <- w_trig W0 FSin v4 ;;
  ret [(permuted refSys v6 v5)].
Definition t_order_functionAndSymbolSameName : res (list bool) :=
  v3 <- w_trig W0 FSin (Sym (nm "a"%string) false) ;;
  ret [(permuted refSys (Sym (nm "sin"%string) false) v3)].
Definition t_order_functionAndSymbolDifferentNames : res (list bool) :=
  v3 <- w_trig W0 FCos (Sym (nm "a"%string) false) ;;
  ret [(permuted refSys v3 (Sym (nm "a"%string) false)); (negb (permuted refSys (Sym (nm "a"%string) false) v3))].
Definition t_order_functionAndProduct : res (list bool) :=
  v3 <- w_trig W0 FSin (Sym (nm "a"%string) false) ;;
  v4 <- w_prod W0 [(Sym (nm "a"%string) false); (Sym (nm "b"%string) false)] ;;
  ret [(permuted refSys v3 v4)].
Definition t_order_functionAndProductEqualLastFactor : res (list bool) :=
  v3 <- w_trig W0 FSin (Sym (nm "d"%string) false) ;;
  v4 <- w_prod W0 [(Sym (nm "a"%string) false); (Sym (nm "b"%string) false); (Sym (nm "c"%string) false); v3] ;;
  ret [(permuted refSys v4 v3); (negb (permuted refSys v3 v4))].
Definition t_order_functionAndPower : res (list bool) :=
  v3 <- w_pow W0 (Sym (nm "a"%string) false) (numZ 2) ;;
  v4 <- w_trig W0 FSin (Sym (nm "a"%string) false) ;;
  ret [(permuted refSys v4 v3); (negb (permuted refSys v3 v4))].
Definition t_order_functionAndSum : res (list bool) :=
  v3 <- w_trig W0 FSin (Sym (nm "c"%string) false) ;;
  v4 <- w_trig W0 FSin (Sym (nm "a"%string) false) ;;
  v5 <- w_sum W0 [(Sym (nm "b"%string) false); v4] ;;
  ret [(permuted refSys v3 v5); (negb (permuted refSys v5 v3))].
Definition t_order_numericFraction : res (list bool) :=
  ret [(negb (permuted refSys (Num (Qred (1 # 3))) (Num (Qred (1 # 3)))))].
Definition t_order_numericPower : res (list bool) :=
  v3 <- w_pow W0 (numZ 2) (Num (Qred (1 # 3))) ;;
  ret [(negb (permuted refSys v3 v3))].
Definition t_order_equalTrigonometricFunction : res (list bool) :=
  v3 <- w_pow W0 (numZ 7) (Num (frq (2) (3))) ;;
  v4 <- w_trig W0 FCos v3 ;;
  ret [(negb (permuted refSys v4 v4))].
Definition t_polycontentunit_unitOfZero : res (list bool) :=
  v1 <- unit refSys W0 40 (numZ 0) (Sym (nm "a"%string) false) ;;
  v2 <- unit refSys W0 40 (numZ 0) (numZ 0) ;;
  ret [(1 =? v1); (1 =? v2)].
Definition t_polycontentunit_illegalUndefinedInput : res (list bool) :=
  v1 <- unit refSys W0 40 Undef (Sym (nm "a"%string) false) ;;
  ret [(1 =? v1)].
Definition t_polycontentunit_illegalNumPowerInput : res (list bool) :=
  v1 <- w_pow W0 (numZ 5) (Num (Qred (1 # 3))) ;;
  v2 <- w_sum W0 [v1; (Sym (nm "b"%string) false)] ;;
  v3 <- w_prod W0 [(numZ 2); v2] ;;
  v4 <- w_sum W0 [(Sym (nm "a"%string) false); v3] ;;
  v5 <- unit refSys W0 40 v4 (Sym (nm "b"%string) false) ;;
  ret [(1 =? v5)].
Definition t_polycontentunit_posSymbol : res (list bool) :=
  v1 <- unit refSys W0 40 (Sym (nm "a"%string) false) (Sym (nm "a"%string) false) ;;
  ret [(1 =? v1)].
Definition t_polycontentunit_negSymbol : res (list bool) :=
  v1 <- minus W0 [(Sym (nm "a"%string) false)] ;;
  v2 <- unit refSys W0 40 v1 (Sym (nm "a"%string) false) ;;
  ret [((- 1) =? v2)].
Definition t_polycontentunit_negMonomial : res (list bool) :=
  v1 <- w_pow W0 (Sym (nm "c"%string) false) (numZ 2) ;;
  v2 <- minus W0 [(Sym (nm "a"%string) false); (Sym (nm "b"%string) false); v1] ;;
  v3 <- unit refSys W0 40 v2 (Sym (nm "c"%string) false) ;;
  ret [((- 1) =? v3)].
Definition t_polycontentunit_posMonomial : res (list bool) :=
  v1 <- w_pow W0 (Sym (nm "c"%string) false) (numZ 3) ;;
  v2 <- w_prod W0 [(Sym (nm "a"%string) false); (Sym (nm "b"%string) false); v1] ;;
  v3 <- unit refSys W0 40 v2 (Sym (nm "b"%string) false) ;;
  ret [(1 =? v3)].
Definition t_polycontentunit_longNegativeMonomial : res (list bool) :=
  v1 <- w_pow W0 (Sym (nm "a"%string) false) (numZ 10) ;;
  v2 <- w_pow W0 (Sym (nm "c"%string) false) (numZ 5) ;;
  v3 <- w_pow W0 (Sym (nm "d"%string) false) (numZ (112)) ;;
  v4 <- w_pow W0 (Sym (nm "e"%string) false) (numZ 2) ;;
  v5 <- w_prod W0 ((((((([] ++ [(numZ (-1))]) ++ [v1]) ++ [(Sym (nm "b"%string) false)]) ++ [v2]) ++ [v3]) ++ [v4]) ++ [(Sym (nm "f"%string) false)]) ;;
  v6 <- unit refSys W0 40 v5 (Sym (nm "a"%string) false) ;;
  v7 <- unit refSys W0 40 v5 (Sym (nm "b"%string) false) ;;
  v8 <- unit refSys W0 40 v5 (Sym (nm "c"%string) false) ;;
  v9 <- unit refSys W0 40 v5 (Sym (nm "d"%string) false) ;;
  v10 <- unit refSys W0 40 v5 (Sym (nm "e"%string) false) ;;
  v11 <- unit refSys W0 40 v5 (Sym (nm "g"%string) false) ;;
  ret [((- 1) =? v6); ((- 1) =? v7); ((- 1) =? v8); ((- 1) =? v9); ((- 1) =? v10); ((- 1) =? v11)].
Definition t_polycontentunit_mixedSignPolynomial : res (list bool) :=
  v1 <- w_prod W0 [(Sym (nm "a"%string) false); (Sym (nm "b"%string) false); (Sym (nm "b"%string) false)] ;;
  v2 <- w_pow W0 (Sym (nm "c"%string) false) (numZ 3) ;;
  v3 <- minus W0 [(Sym (nm "a"%string) false); v2] ;;
  v4 <- w_sum W0 [v1; v3] ;;
  v5 <- unit refSys W0 40 v4 (Sym (nm "a"%string) false) ;;
  ret [(1 =? v5)].
Definition t_polycontentunit_mixedInverseSignPolynomial : res (list bool) :=
  v1 <- minus W0 [(Sym (nm "a"%string) false); (Sym (nm "b"%string) false); (Sym (nm "b"%string) false)] ;;
  v2 <- w_prod W0 [(Sym (nm "a"%string) false); (Sym (nm "c"%string) false); (Sym (nm "c"%string) false); (Sym (nm "c"%string) false)] ;;
  v3 <- w_sum W0 [v1; v2] ;;
  v4 <- unit refSys W0 40 v3 (Sym (nm "a"%string) false) ;;
  ret [((- 1) =? v4)].
Definition t_polycontentunit_positiveSignPolynomial : res (list bool) :=
  v1 <- w_prod W0 [(Num (Qred (1 # 2))); (Sym (nm "a"%string) false); (Sym (nm "b"%string) false); (Sym (nm "b"%string) false)] ;;
  v2 <- w_pow W0 (Sym (nm "b"%string) false) (numZ 3) ;;
  v3 <- w_prod W0 [(Sym (nm "a"%string) false); (Sym (nm "a"%string) false); v2] ;;
  v4 <- w_pow W0 (Sym (nm "a"%string) false) (numZ 3) ;;
  v5 <- w_pow W0 (Sym (nm "b"%string) false) (numZ 5) ;;
  v6 <- w_prod W0 [v4; v5] ;;
  v7 <- w_sum W0 [v1; v3; v6] ;;
  v8 <- unit refSys W0 40 v7 (Sym (nm "a"%string) false) ;;
  ret [(1 =? v8)].
Definition t_polycontentunit_negativeSignPolynomial : res (list bool) :=
  v1 <- w_prod W0 [(Num (frq ((- 1)) (5))); (Sym (nm "a"%string) false); (Sym (nm "b"%string) false)] ;;
  v2 <- w_prod W0 [(Num (frq ((- 2)) (7))); (Sym (nm "c"%string) false); (Sym (nm "d"%string) false)] ;;
  v3 <- w_sum W0 [v1; v2] ;;
  v4 <- unit refSys W0 40 v3 (Sym (nm "d"%string) false) ;;
  ret [((- 1) =? v4)].
Definition t_polycontentunit_contentOfZero : res (list bool) :=
  v1 <- content refSys W0 true (numZ 0) (Sym (nm "a"%string) false) ;;
  ret [(sameE (numZ 0) v1)].
Definition t_polycontentunit_posSymbol' : res (list bool) :=
  v1 <- content refSys W0 true (Sym (nm "a"%string) false) (Sym (nm "a"%string) false) ;;
  ret [(sameE (numZ 1) v1)].
Definition t_polycontentunit_negSymbol' : res (list bool) :=
  v1 <- minus W0 [(Sym (nm "a"%string) false)] ;;
  v2 <- content refSys W0 true v1 (Sym (nm "a"%string) false) ;;
  ret [(sameE (numZ 1) v2)].
Definition t_polycontentunit_positiveNumeric : res (list bool) :=
  v1 <- content refSys W0 true (numZ 5) (Sym (nm "a"%string) false) ;;
  ret [(sameE (numZ 5) v1)].
Definition t_polycontentunit_negativeNumeric : res (list bool) :=
  v1 <- content refSys W0 true (Num (frq ((- 1)) (10))) (Sym (nm "a"%string) false) ;;
  ret [(sameE (Num (frq (1) (10))) v1)].
Definition t_polycontentunit_simpleMultiVarPolyWithIntCoeff : res (list bool) :=
  v1 <- minus W0 [(numZ 2); (Sym (nm "a"%string) false); (Sym (nm "b"%string) false)] ;;
  v2 <- minus W0 [(Sym (nm "b"%string) false); (Sym (nm "b"%string) false)] ;;
  v3 <- w_sum W0 [v1; v2] ;;
  v4 <- content refSys W0 true v3 (Sym (nm "a"%string) false) ;;
  ret [(sameE (Sym (nm "b"%string) false) v4)].
Definition t_polycontentunit_simpleMultivarPoly : res (list bool) :=
  v1 <- minus W0 [(Sym (nm "a"%string) false); (Sym (nm "a"%string) false); (Sym (nm "b"%string) false)] ;;
  v2 <- w_pow W0 (Sym (nm "b"%string) false) (numZ 3) ;;
  v3 <- w_sum W0 [v1; v2] ;;
  v4 <- content refSys W0 true v3 (Sym (nm "a"%string) false) ;;
  ret [(sameE (Sym (nm "b"%string) false) v4)].
Definition t_polycontentunit_multivarPoly : res (list bool) :=
  v1 <- w_prod W0 [(numZ (14)); (Sym (nm "a"%string) false); (Sym (nm "a"%string) false)] ;;
  v2 <- w_pow W0 (Sym (nm "c"%string) false) (numZ 5) ;;
  v3 <- w_prod W0 [(numZ (14)); (Sym (nm "a"%string) false); v2] ;;
  v4 <- w_sum W0 [v1; v3] ;;
  v5 <- content refSys W0 true v4 (Sym (nm "a"%string) false) ;;
  ret [(sameE (numZ (14)) v5)].
Definition t_polydivide_zeroDividend : res (list bool) :=
  v1 <- divide refSys W0 40 [(Sym (nm "a"%string) false); (Sym (nm "b"%string) false)] (numZ 0) (numZ 2) ;;
  ret [(sameE (numZ 0) (fst v1)); (sameE (numZ 0) (snd v1))].
Definition t_polydivide_emptyContainer : res (list bool) :=
  v1 <- w_sum W0 [(Sym (nm "a"%string) false); (Sym (nm "b"%string) false)] ;;
  v2 <- w_sum W0 [(Sym (nm "d"%string) false); (Sym (nm "e"%string) false)] ;;
  v3 <- w_prod W0 [(Sym (nm "c"%string) false); v2] ;;
  v4 <- divide refSys W0 40 [] v1 v3 ;;
  ret [(sameE (numZ 0) (fst v4)); (sameE v1 (snd v4))].
Definition t_polydivide_wrongSymbolsInContainer : res (list bool) :=
  v1 <- w_sum W0 [(Sym (nm "a"%string) false); (Sym (nm "b"%string) false)] ;;
  v2 <- w_pow W0 v1 (numZ 2) ;;
  v3 <- w_prod W0 [(numZ 2); (Sym (nm "c"%string) false)] ;;
  v4 <- w_pow W0 (Sym (nm "d"%string) false) (numZ 3) ;;
  v5 <- w_sum W0 [v3; v4] ;;
  v6 <- divide refSys W0 40 [(Sym (nm "e"%string) false); (Sym (nm "f"%string) false)] v2 v5 ;;
  ret [(sameE (numZ 0) (fst v6)); (sameE v2 (snd v6))].
Definition t_polydivide_twoFractionsEmptyContainer : res (list bool) :=
  v1 <- divide refSys W0 40 [] (Num (Qred (1 # 3))) (Num (frq (4) (5))) ;;
  ret [(sameE (Num (frq (5) (12))) (fst v1)); (isZero (snd v1))].
Definition t_polydivide_fractionCoeff : res (list bool) :=
  v1 <- w_pow W0 (Sym (nm "a"%string) false) (numZ 2) ;;
  v2 <- w_prod W0 [(Num (frq ((- 14)) (9))); v1] ;;
  v3 <- w_pow W0 (Sym (nm "a"%string) false) (numZ 3) ;;
  v4 <- w_prod W0 [(Num (frq (2) (3))); v3; (Sym (nm "b"%string) false)] ;;
  v5 <- w_prod W0 [(Num (frq ((- 3)) (7))); (Sym (nm "a"%string) false); (Sym (nm "b"%string) false)] ;;
  v6 <- divide refSys W0 40 [(Sym (nm "a"%string) false); (Sym (nm "b"%string) false)] v4 v5 ;;
  ret [(sameE v2 (fst v6)); (sameE (numZ 0) (snd v6))].
Definition t_polydivide_invalidInputBothZero : res (list bool) :=
  v1 <- polyDivide refSys W0 40 (numZ 0) (numZ 0) ;;
  ret [(isUndefined (fst v1)); (isUndefined (snd v1))].
Definition t_polydivide_invalidInputWithFunction : res (list bool) :=
  v1 <- w_trig W0 FAcos (Sym (nm "a"%string) false) ;;
  v2 <- w_sum W0 [(numZ 2); (Sym (nm "a"%string) false)] ;;
  v3 <- divide refSys W0 40 [(Sym (nm "a"%string) false)] v1 v2 ;;
  ret [(isUndefined (fst v3)); (isUndefined (snd v3))].
Definition t_polydivide_intRemainder : res (list bool) :=
  v1 <- w_prod W0 [(numZ 3); (Sym (nm "a"%string) false)] ;;
  v2 <- w_sum W0 [v1; (numZ 1)] ;;
  v3 <- w_pow W0 (Sym (nm "a"%string) false) (numZ 3) ;;
  v4 <- w_prod W0 [(numZ 3); v3] ;;
  v5 <- w_pow W0 (Sym (nm "a"%string) false) (numZ 2) ;;
  v6 <- w_prod W0 [(numZ ((- 5))); v5] ;;
  v7 <- w_prod W0 [(numZ 10); (Sym (nm "a"%string) false)] ;;
  v8 <- w_sum W0 [v4; v6; v7; (numZ ((- 3)))] ;;
  v9 <- polyDivide refSys W0 40 v8 v2 ;;
  v10 <- w_pow W0 (Sym (nm "a"%string) false) (numZ 2) ;;
  v11 <- minus W0 [(numZ 2); (Sym (nm "a"%string) false)] ;;
  v12 <- w_sum W0 [v10; v11; (numZ 4)] ;;
  ret [(sameE v12 (fst v9)); (sameE (numZ ((- 7))) (snd v9))].
Definition t_polydivide_noQuotient : res (list bool) :=
  v1 <- w_prod W0 [(Sym (nm "a"%string) false); (Sym (nm "b"%string) false)] ;;
  v2 <- w_sum W0 [v1; (numZ ((- 1)))] ;;
  v3 <- w_pow W0 (Sym (nm "a"%string) false) (numZ 2) ;;
  v4 <- w_prod W0 [(Sym (nm "a"%string) false); (numZ ((- 2)))] ;;
  v5 <- w_prod W0 [(numZ ((- 1))); (Sym (nm "b"%string) false)] ;;
  v6 <- w_sum W0 [v4; v5] ;;
  v7 <- w_sum W0 [v3; v6] ;;
  v8 <- divide refSys W0 40 [(Sym (nm "a"%string) false); (Sym (nm "b"%string) false)] v7 v2 ;;
  ret [(isZero (fst v8)); (sameE v7 (snd v8))].
Definition t_polydivide_quotientWithRationalCoeff : res (list bool) :=
  v1 <- minus W0 [(Sym (nm "a"%string) false); (Sym (nm "a"%string) false); (Sym (nm "b"%string) false)] ;;
  v2 <- w_pow W0 (Sym (nm "b"%string) false) (numZ 3) ;;
  v3 <- w_sum W0 [v1; v2] ;;
  v4 <- minus W0 [(numZ 2); (Sym (nm "b"%string) false)] ;;
  v5 <- w_prod W0 [(Num (Qred (1 # 2))); (Sym (nm "a"%string) false); (Sym (nm "a"%string) false)] ;;
  v6 <- minus W0 [(Num (Qred (1 # 2))); (Sym (nm "b"%string) false); (Sym (nm "b"%string) false)] ;;
  v7 <- w_sum W0 [v5; v6] ;;
  v8 <- divide refSys W0 40 [(Sym (nm "a"%string) false); (Sym (nm "b"%string) false)] v3 v4 ;;
  ret [(sameE v7 (fst v8)); (isZero (snd v8))].
Definition t_polydivide_multipleVarsNoRemainder : res (list bool) :=
  v1 <- w_pow W0 (Sym (nm "b"%string) false) (numZ 2) ;;
  v2 <- w_prod W0 [(Sym (nm "a"%string) false); v1] ;;
  v3 <- w_prod W0 [(Sym (nm "a"%string) false); (Sym (nm "c"%string) false)] ;;
  v4 <- w_sum W0 [v2; v3] ;;
  v5 <- w_pow W0 (Sym (nm "d"%string) false) (numZ 3) ;;
  v6 <- w_prod W0 [(numZ 2); (Sym (nm "e"%string) false)] ;;
  v7 <- w_sum W0 [v5; v6] ;;
  v8 <- w_prod W0 [v4; v7] ;;
  v9 <- w_expand W0 v8 ;;
  v10 <- divide refSys W0 40 [(Sym (nm "a"%string) false); (Sym (nm "b"%string) false); (Sym (nm "c"%string) false); (Sym (nm "d"%string) false); (Sym (nm "e"%string) false)] v9 v7 ;;
  ret [(sameE v4 (fst v10)); (isZero (snd v10))].
Definition t_polydivide_hugeExpandedPolynomials : res (list bool) :=
  v1 <- w_prod W0 [(numZ 2); (Sym (nm "a"%string) false)] ;;
  v2 <- w_prod W0 [(Sym (nm "b"%string) false); (Sym (nm "c"%string) false)] ;;
  v3 <- w_sum W0 [v1; v2] ;;
  v4 <- w_pow W0 (Sym (nm "d"%string) false) (numZ 5) ;;
  v5 <- w_pow W0 (Sym (nm "e"%string) false) (numZ 4) ;;
  v6 <- w_sum W0 [v4; v5] ;;
  v7 <- w_pow W0 (Sym (nm "b"%string) false) (numZ 2) ;;
  v8 <- w_prod W0 [(numZ (17)); v7] ;;
  v9 <- w_prod W0 [(numZ (-1)); (numZ 5); (Sym (nm "b"%string) false); (Sym (nm "a"%string) false)] ;;
  v10 <- w_sum W0 [v8; v9] ;;
  v11 <- w_pow W0 (Sym (nm "c"%string) false) (numZ 3) ;;
  v12 <- w_prod W0 [(Sym (nm "d"%string) false); (Sym (nm "e"%string) false)] ;;
  v13 <- w_prod W0 [v11; (Sym (nm "a"%string) false); (Sym (nm "b"%string) false); v12] ;;
  v14 <- w_pow W0 (Sym (nm "e"%string) false) (numZ 2) ;;
  v15 <- w_pow W0 (Sym (nm "d"%string) false) (numZ 5) ;;
  v16 <- minus W0 [v15] ;;
  v17 <- w_sum W0 [v13; v14; v16] ;;
  v18 <- w_prod W0 [v3; v6] ;;
  v19 <- w_expand W0 v18 ;;
  v20 <- w_prod W0 [v10; v17] ;;
  v21 <- w_expand W0 v20 ;;
  v22 <- w_prod W0 [v19; v21] ;;
  v23 <- w_expand W0 v22 ;;
  v24 <- divide refSys W0 40 [(Sym (nm "a"%string) false); (Sym (nm "b"%string) false); (Sym (nm "c"%string) false); (Sym (nm "d"%string) false); (Sym (nm "e"%string) false)] v23 v19 ;;
  v25 <- divide refSys W0 40 [(Sym (nm "a"%string) false); (Sym (nm "b"%string) false); (Sym (nm "c"%string) false); (Sym (nm "d"%string) false); (Sym (nm "e"%string) false)] v23 v21 ;;
  ret [(sameE v21 (fst v24)); (sameE (numZ 0) (snd v24)); (sameE v19 (fst v25)); (sameE (numZ 0) (snd v25))].
Definition t_polydivide_cohenExample01 : res (list bool) :=
  v1 <- w_prod W0 [(Sym (nm "a"%string) false); (Sym (nm "b"%string) false)] ;;
  v2 <- w_sum W0 [v1; (Sym (nm "b"%string) false)] ;;
  v3 <- pseudoDivide refSys W0 true 40 (Sym (nm "a"%string) false) v2 (Sym (nm "a"%string) false) ;;
  v4 <- minus W0 [(Sym (nm "b"%string) false)] ;;
  ret [(sameE (numZ 1) (fst v3)); (sameE v4 (snd v3))].
Definition t_polydivide_cohenExample02 : res (list bool) :=
  v1 <- w_pow W0 (Sym (nm "b"%string) false) (numZ 4) ;;
  v2 <- w_prod W0 [(numZ 10); (Sym (nm "a"%string) false); v1] ;;
  v3 <- w_pow W0 (Sym (nm "b"%string) false) (numZ 4) ;;
  v4 <- w_prod W0 [(numZ ((- 20))); (Sym (nm "a"%string) false); (Sym (nm "a"%string) false); v3] ;;
  v5 <- w_pow W0 (Sym (nm "b"%string) false) (numZ 4) ;;
  v6 <- w_prod W0 [(numZ ((- 30))); (Sym (nm "a"%string) false); v5] ;;
  v7 <- w_pow W0 (Sym (nm "b"%string) false) (numZ 3) ;;
  v8 <- w_prod W0 [(numZ (12)); (Sym (nm "a"%string) false); v7] ;;
  v9 <- w_prod W0 [(numZ 8); (Sym (nm "b"%string) false); (Sym (nm "b"%string) false)] ;;
  v10 <- w_sum W0 [v4; v6; v8; v9] ;;
  v11 <- w_pow W0 (Sym (nm "a"%string) false) (numZ 4) ;;
  v12 <- w_pow W0 (Sym (nm "b"%string) false) (numZ 3) ;;
  v13 <- w_prod W0 [(numZ 5); v11; v12] ;;
  v14 <- w_prod W0 [(numZ 3); (Sym (nm "a"%string) false); (Sym (nm "b"%string) false)] ;;
  v15 <- w_sum W0 [v13; v14; (numZ 2)] ;;
  v16 <- w_pow W0 (Sym (nm "a"%string) false) (numZ 3) ;;
  v17 <- w_prod W0 [(numZ 2); v16; (Sym (nm "b"%string) false)] ;;
  v18 <- w_prod W0 [(numZ 2); (Sym (nm "a"%string) false)] ;;
  v19 <- w_sum W0 [v17; v18; (numZ 3)] ;;
  v20 <- pseudoDivide refSys W0 true 40 v15 v19 (Sym (nm "a"%string) false) ;;
  ret [(sameE v2 (fst v20)); (sameE v10 (snd v20))].
Definition t_polyinfo_bothZero : res (list bool) :=
  ret [(negb (isInputValid refSys (numZ 0) (numZ 0)))].
Definition t_polyinfo_invalidInputFirstArgUndefined : res (list bool) :=
  ret [(negb (isInputValid refSys Undef (Sym (nm "a"%string) false)))].
Definition t_polyinfo_invalidInputSecondArgUndefined : res (list bool) :=
  ret [(negb (isInputValid refSys (Sym (nm "a"%string) false) Undef))].
Definition t_polyinfo_validInputFraction : res (list bool) :=
  ret [(isInputValid refSys (Sym (nm "a"%string) false) (Num (frq (1) (7))))].
Definition t_polyinfo_invalidInputSumWithNumericPower : res (list bool) :=
  v2 <- w_pow W0 (numZ 3) (Num (frq (1) (17))) ;;
  v3 <- w_sum W0 [(Sym (nm "a"%string) false); v2] ;;
  ret [(negb (isInputValid refSys v3 (Sym (nm "b"%string) false)))].
Definition t_polyinfo_invalidInputPowerWithSymbolExp : res (list bool) :=
  v2 <- w_pow W0 (Sym (nm "b"%string) false) (Sym (nm "c"%string) false) ;;
  ret [(negb (isInputValid refSys (Sym (nm "a"%string) false) v2))].
Definition t_polyinfo_invalidInputPowerWithValidSumExp : res (list bool) :=
  v2 <- w_sum W0 [(numZ 2); (Sym (nm "a"%string) false)] ;;
  v3 <- w_pow W0 (Sym (nm "b"%string) false) v2 ;;
  ret [(negb (isInputValid refSys (Sym (nm "a"%string) false) v3))].
Definition t_polyinfo_validInputTwoInteger : res (list bool) :=
  ret [(isInputValid refSys (numZ 2) (numZ 8))].
Definition t_polyinfo_validInputSumAndProduct : res (list bool) :=
  v2 <- w_sum W0 [(numZ 2); (Sym (nm "a"%string) false)] ;;
  v3 <- w_prod W0 [(Sym (nm "b"%string) false); (Sym (nm "c"%string) false)] ;;
  ret [(isInputValid refSys v2 v3)].
Definition t_polyinfo_emptySymbolList : res (list bool) :=
  ret [(match (listOfSymbols refSys (numZ 3) (numZ 4)) with [] => true | _ => false end)].
Definition t_polyinfo_symbolListForOneSymbol : res (list bool) :=
  ret [(sameL [(Sym (nm "a"%string) false)] (listOfSymbols refSys (Sym (nm "a"%string) false) (Sym (nm "a"%string) false)))].
Definition t_polyinfo_symbolListTwoSymbols : res (list bool) :=
  ret [(sameL [(Sym (nm "a"%string) false); (Sym (nm "b"%string) false)] (listOfSymbols refSys (Sym (nm "a"%string) false) (Sym (nm "b"%string) false)))].
Definition t_polymindegree_minDegreeMatchingSymbol : res (list bool) :=
  v1 <- minDegree refSys (Sym (nm "a"%string) false) (Sym (nm "a"%string) false) ;;
  ret [(1 =? v1)].
Definition t_polymindegree_minDegreeDifferentSymbol : res (list bool) :=
  v1 <- minDegree refSys (Sym (nm "a"%string) false) (Sym (nm "b"%string) false) ;;
  ret [(0 =? v1)].
Definition t_polymindegree_minDegreeInteger : res (list bool) :=
  v1 <- minDegree refSys (numZ 2) (Sym (nm "a"%string) false) ;;
  v2 <- minDegree refSys (numZ 2) (numZ 2) ;;
  ret [(0 =? v1); (0 =? v2)].
Definition t_polymindegree_minDegreePowerOneSymbolInBase : res (list bool) :=
  v1 <- w_prod W0 [(numZ 2); (Sym (nm "a"%string) false)] ;;
  v2 <- w_pow W0 (Sym (nm "a"%string) false) (numZ 2) ;;
  v3 <- w_sum W0 [v1; v2] ;;
  v4 <- w_pow W0 v3 (numZ 4) ;;
  v5 <- minDegree refSys v4 (Sym (nm "a"%string) false) ;;
  ret [(4 =? v5)].
Definition t_polymindegree_minDegreeNestedPower : res (list bool) :=
  v1 <- w_pow W0 (Sym (nm "a"%string) false) (numZ 2) ;;
  v2 <- w_pow W0 (Sym (nm "a"%string) false) (numZ 3) ;;
  v3 <- w_sum W0 [v1; v2] ;;
  v4 <- w_pow W0 v3 (numZ 4) ;;
  v5 <- minDegree refSys v4 (Sym (nm "a"%string) false) ;;
  ret [(8 =? v5)].
Definition t_polymindegree_minDegreePowerOtherSymbolInBase : res (list bool) :=
  v1 <- w_prod W0 [(numZ 2); (Sym (nm "a"%string) false)] ;;
  v2 <- w_sum W0 [v1; (Sym (nm "b"%string) false)] ;;
  v3 <- w_pow W0 v2 (numZ 4) ;;
  v4 <- minDegree refSys v3 (Sym (nm "a"%string) false) ;;
  ret [(0 =? v4)].
Definition t_polymindegree_minDegreeSum : res (list bool) :=
  v1 <- w_pow W0 (Sym (nm "a"%string) false) (numZ 2) ;;
  v2 <- w_pow W0 (Sym (nm "a"%string) false) (numZ 5) ;;
  v3 <- w_sum W0 [(Sym (nm "a"%string) false); v1; v2] ;;
  v4 <- minDegree refSys v3 (Sym (nm "a"%string) false) ;;
  ret [(1 =? v4)].
Definition t_polymindegree_minDegreeSumOneIntegerSummand : res (list bool) :=
  v1 <- w_sum W0 [(Sym (nm "a"%string) false); (numZ 2)] ;;
  v2 <- minDegree refSys v1 (Sym (nm "a"%string) false) ;;
  ret [(0 =? v2)].
Definition t_polymindegree_minDegreeSumOneSummandIndependent : res (list bool) :=
  v1 <- w_pow W0 (Sym (nm "a"%string) false) (numZ 2) ;;
  v2 <- w_sum W0 [v1; (Sym (nm "b"%string) false)] ;;
  v3 <- minDegree refSys v2 (Sym (nm "a"%string) false) ;;
  ret [(0 =? v3)].
Definition t_polymindegree_minDegreeProduct : res (list bool) :=
  v1 <- w_sum W0 [(Sym (nm "a"%string) false); (numZ 2)] ;;
  v2 <- w_prod W0 [(Sym (nm "a"%string) false); (Sym (nm "b"%string) false); v1] ;;
  v3 <- minDegree refSys v2 (Sym (nm "a"%string) false) ;;
  ret [(1 =? v3)].
Definition t_polymindegree_minDegreeProductNoMatchingSymbol : res (list bool) :=
  v1 <- w_prod W0 [(Sym (nm "a"%string) false); (Sym (nm "b"%string) false); (Sym (nm "c"%string) false)] ;;
  v2 <- minDegree refSys v1 (Sym (nm "d"%string) false) ;;
  ret [(0 =? v2)].
Definition t_polymindegree_minDegreeInvalidInput : res (list bool) :=
  v1 <- w_trig W0 FSin (Sym (nm "a"%string) false) ;;
  v2 <- minDegree refSys v1 (Sym (nm "a"%string) false) ;;
  ret [(0 =? v2)].
Definition t_power_undefinedExponent : res (list bool) :=
  v2 <- w_pow W0 (Sym (nm "a"%string) false) Undef ;;
  ret [(isUndefined v2)].
Definition t_power_illegalNumberExponent : res (list bool) :=
  v2 <- w_pow W0 (Sym (nm "a"%string) false) Undef ;;
  ret [(isUndefined v2)].
Definition t_power_undefinedBase : res (list bool) :=
  v2 <- w_pow W0 Undef (numZ 2) ;;
  ret [(isUndefined v2)].
Definition t_power_integerOnly : res (list bool) :=
  v2 <- w_pow W0 (numZ 3) (numZ 4) ;;
  ret [(isNumericE v2); (sameN (numericEval refSys v2) (NQ (ofZ 81)))].
Definition t_power_exponentFraction : res (list bool) :=
  v2 <- w_pow W0 (numZ 2) (Num (frq (2) (3))) ;;
  ret [(isPowerE v2); (sameE (numZ 2) (baseOf v2)); (sameE (Num (frq (2) (3))) (expOf v2))].
Definition t_power_expFracGreaterThanOne : res (list bool) :=
  v2 <- w_pow W0 (numZ 2) (Num (Qred (1 # 3))) ;;
  v3 <- w_pow W0 (numZ 2) (Num (frq (10) (3))) ;;
  ret [(isProductE v3); (2 =? (Z.of_nat (List.length (opsOf v3)))); (sameE (numZ 8) (hd Undef (opsOf v3))); (sameE v2 (last (opsOf v3) Undef))].
Definition t_power_baseFracWithExpFracGreaterThanOne : res (list bool) :=
  v2 <- w_pow W0 (Num (frq (2) (3))) half ;;
  v3 <- w_pow W0 (Num (frq (2) (3))) (Num (frq (3) (2))) ;;
  ret [(isProductE v3); (2 =? (Z.of_nat (List.length (opsOf v3)))); (sameE (Num (frq (2) (3))) (hd Undef (opsOf v3))); (sameE v2 (last (opsOf v3) Undef))].
Definition t_power_expFracLessThanMinusOne : res (list bool) :=
  v2 <- w_pow W0 (Num (frq (13) (5))) (Num (frq (5) (7))) ;;
  v3 <- w_pow W0 (Num (frq (5) (13))) (Num (frq ((- 19)) (7))) ;;
  ret [(isProductE v3); (2 =? (Z.of_nat (List.length (opsOf v3)))); (sameE (Num (frq (169) (25))) (hd Undef (opsOf v3))); (sameE v2 (last (opsOf v3) Undef))].
Definition t_power_simpleFracBaseToIntWithNegExp : res (list bool) :=
  v2 <- w_pow W0 (Num (Qred (1 # 2))) half ;;
  ret [(isPowerE v2); (sameE (numZ 2) (baseOf v2)); (sameE (Num (frq ((- 1)) (2))) (expOf v2))].
Definition t_power_illegalPower : res (list bool) :=
  v2 <- w_pow W0 (numZ ((- 2))) half ;;
  ret [(isUndefined v2)].
Definition t_power_fracBaseToIntWithNegExp : res (list bool) :=
  v2 <- w_pow W0 (Num (frq (1) (12345))) (Num (frq (1) (5))) ;;
  ret [(isPowerE v2); (sameN (numericEval refSys (baseOf v2)) (NQ (ofZ 12345))); (sameE (Num (frq ((- 1)) (5))) (expOf v2))].
Definition t_power_evalLargeNumericExponent : res (list bool) :=
  v2 <- w_pow W0 (numZ 5) (Num (frq (125) (3))) ;;
  v3 <- w_pow W0 (numZ 5) (Num (frq (2) (3))) ;;
  v4 <- w_prod W0 [(numZ (45474735088646411895751953125)); v3] ;;
  ret [(sameE v4 v2)].
Definition t_power_fracBaseNegFracExp : res (list bool) :=
  v2 <- w_pow W0 (Num (frq (2) (3))) (Num (frq ((- 1)) (2))) ;;
  ret [(isPowerE v2); (sameE (Num (frq (3) (2))) (baseOf v2)); (sameE (Num (Qred (1 # 2))) (expOf v2))].
Definition t_power_fracBaseNoChange : res (list bool) :=
  v2 <- w_pow W0 (Num (frq (2) (3))) half ;;
  ret [(isPowerE v2); (sameE (Num (frq (2) (3))) (baseOf v2)); (sameE (Num (Qred (1 # 2))) (expOf v2))].
Definition t_power_resolvableExpFracBaseInt : res (list bool) :=
  v2 <- w_pow W0 (numZ 8) (Num (Qred (1 # 3))) ;;
  ret [(isNumericE v2); (sameN (numericEval refSys v2) (NQ (ofZ 2)))].
Definition t_power_simpleSplittableExpFracBaseInt : res (list bool) :=
  v1 <- w_pow W0 (numZ 2) half ;;
  v2 <- w_pow W0 (numZ 8) half ;;
  ret [(isProductE v2); (2 =? (Z.of_nat (List.length (opsOf v2)))); (sameE (numZ 2) (hd Undef (opsOf v2))); (sameE v1 (last (opsOf v2) Undef))].
Definition t_power_splittableExpFracBaseInt : res (list bool) :=
  v2 <- w_pow W0 (numZ (32)) half ;;
  v3 <- w_pow W0 (numZ 2) half ;;
  ret [(isProductE v2); (2 =? (Z.of_nat (List.length (opsOf v2)))); (sameN (numericEval refSys (hd Undef (opsOf v2))) (NQ (ofZ 4))); (sameE v3 (last (opsOf v2) Undef))].
Definition t_power_splittableExpSqrtBaseInt : res (list bool) :=
  v2 <- w_pow W0 (numZ (833)) half ;;
  v3 <- w_pow W0 (numZ (17)) half ;;
  ret [(isProductE v2); (2 =? (Z.of_nat (List.length (opsOf v2)))); (sameN (numericEval refSys (hd Undef (opsOf v2))) (NQ (ofZ 7))); (sameE v3 (last (opsOf v2) Undef))].
Definition t_power_splittableExpFracBaseOneEigth : res (list bool) :=
  v2 <- w_pow W0 (Num (frq (1) (8))) half ;;
  v3 <- w_pow W0 (numZ 2) (Num (frq ((- 1)) (2))) ;;
  ret [(isProductE v2); (2 =? (Z.of_nat (List.length (opsOf v2)))); (sameE (Num (Qred (1 # 2))) (hd Undef (opsOf v2))); (sameE v3 (last (opsOf v2) Undef))].
Definition t_power_splittableNegExpFracBaseOneThirtyHalf : res (list bool) :=
  v2 <- w_pow W0 (Num (frq (1) (32))) half ;;
  v3 <- w_pow W0 (numZ 2) (Num (frq ((- 1)) (2))) ;;
  ret [(isProductE v2); (2 =? (Z.of_nat (List.length (opsOf v2)))); (sameE (Num (Qred (1 # 4))) (hd Undef (opsOf v2))); (sameE v3 (last (opsOf v2) Undef))].
Definition t_power_splittableExpFracBaseThreeEigth : res (list bool) :=
  v2 <- w_pow W0 (Num (frq (3) (8))) half ;;
  v3 <- w_pow W0 (Num (frq (3) (2))) half ;;
  ret [(isProductE v2); (2 =? (Z.of_nat (List.length (opsOf v2)))); (sameE (Num (Qred (1 # 2))) (hd Undef (opsOf v2))); (sameE v3 (last (opsOf v2) Undef))].
Definition t_power_splittableNegExpFracBaseFrac : res (list bool) :=
  v2 <- w_pow W0 (numZ 3) (Num (Qred (1 # 3))) ;;
  v3 <- w_pow W0 (Num (frq (8) (81))) (Num (frq ((- 4)) (3))) ;;
  ret [(isProductE v3); (2 =? (Z.of_nat (List.length (opsOf v3)))); (sameE (Num (frq (243) (16))) (hd Undef (opsOf v3))); (sameE v2 (last (opsOf v3) Undef))].
Definition t_power_negFractionBaseWithNegFractionExp : res (list bool) :=
  v2 <- w_pow W0 (Num (frq ((- 1)) (2))) (Num (Qred (1 # 2))) ;;
  ret [(isUndefined v2)].
Definition t_power_negFractionBaseWithPosFractionExp : res (list bool) :=
  v2 <- w_pow W0 (Num (frq ((- 1)) (2))) (Num (frq ((- 1)) (2))) ;;
  ret [(isUndefined v2)].
Definition t_power_unclearBaseExponentContractionBothFractionsOddDenom : res (list bool) :=
  v2 <- w_pow W0 (Sym (nm "a"%string) false) (Num (frq (8) (15))) ;;
  v3 <- w_pow W0 (Sym (nm "a"%string) false) (Num (frq (2) (3))) ;;
  v4 <- w_pow W0 v3 (Num (frq (4) (5))) ;;
  ret [(sameE v2 v4)].
Definition t_power_unclearBaseExponentContractionBothFractionsEvenDenom : res (list bool) :=
  v2 <- w_pow W0 (Sym (nm "a"%string) false) (Num (frq (3) (80))) ;;
  v3 <- w_pow W0 (Sym (nm "a"%string) false) (Num (frq (1) (8))) ;;
  v4 <- w_pow W0 v3 (Num (frq (3) (10))) ;;
  ret [(sameE v2 v4)].
Definition t_power_unclearBaseExponentContractionBothFractions : res (list bool) :=
  v2 <- w_pow W0 (Sym (nm "a"%string) false) (Num (frq (1) (6))) ;;
  v3 <- w_pow W0 (Sym (nm "a"%string) false) (Num (Qred (1 # 2))) ;;
  v4 <- w_pow W0 v3 (Num (Qred (1 # 3))) ;;
  ret [(sameE v2 v4)].
Definition t_power_unclearBaseExponentContractionWithInteger : res (list bool) :=
  v2 <- w_pow W0 (Sym (nm "a"%string) false) (Num (frq (1) (6))) ;;
  v3 <- w_pow W0 v2 (numZ 3) ;;
  v4 <- w_pow W0 (Sym (nm "a"%string) false) half ;;
  ret [(sameE v4 v3)].
Definition t_power_unclearBaseExpContraction : res (list bool) :=
  v2 <- w_pow W0 (Sym (nm "a"%string) false) (numZ 7) ;;
  v3 <- w_pow W0 v2 (Num (Qred (1 # 4))) ;;
  v4 <- w_pow W0 (Sym (nm "a"%string) false) (Num (frq (7) (4))) ;;
  ret [(sameE v4 v3)].
Definition t_power_negBaseSymbolicExp : res (list bool) :=
  v2 <- minus W0 [(Sym (nm "a"%string) true)] ;;
  v3 <- minus W0 [(Sym (nm "b"%string) true)] ;;
  v4 <- w_sum W0 [v2; v3] ;;
  v5 <- w_pow W0 v4 (Sym (nm "c"%string) false) ;;
  v6 <- w_pow W0 v5 (numZ 2) ;;
  ret [(isPowerE v6); (sameE (numZ 2) (expOf v6)); (isPowerE (baseOf v6)); (sameE (Sym (nm "c"%string) false) (expOf (baseOf v6))); (sameE v4 (baseOf (baseOf v6)))].
Definition t_power_unclearProductBaseFractionExp : res (list bool) :=
  v2 <- w_prod W0 [(Sym (nm "a"%string) false); (Sym (nm "b"%string) false)] ;;
  v3 <- w_pow W0 v2 (Num (frq (2) (3))) ;;
  v4 <- w_prod W0 [(Sym (nm "a"%string) false); (Sym (nm "b"%string) false)] ;;
  ret [(isPowerE v3); (sameE v4 (baseOf v3)); (sameE (Num (frq (2) (3))) (expOf v3))].
Definition t_power_negProductBaseFractionExp : res (list bool) :=
  v2 <- w_prod W0 [(numZ (-1)); (Sym (nm "a"%string) true); (Sym (nm "b"%string) true)] ;;
  v3 <- w_pow W0 v2 (Num (frq (2) (3))) ;;
  ret [(isUndefined v3)].
Definition t_power_zeroExponent : res (list bool) :=
  v2 <- w_pow W0 (Sym (nm "a"%string) false) (numZ 0) ;;
  ret [(isNumericE v2); (sameN (numericEval refSys v2) (NQ (ofZ 1)))].
Definition t_power_symbolicPowerBaseSymbolExp : res (list bool) :=
  v2 <- w_pow W0 (Sym (nm "a"%string) false) (Sym (nm "b"%string) false) ;;
  v3 <- w_pow W0 v2 (Sym (nm "c"%string) false) ;;
  ret [(isPowerE v3); (sameE v2 (baseOf v3)); (sameE (Sym (nm "c"%string) false) (expOf v3))].
Definition t_power_zeroBaseToPosExponent : res (list bool) :=
  v2 <- w_pow W0 (numZ 0) (Sym (nm "a"%string) true) ;;
  ret [(isZero v2)].
Definition t_power_zeroBaseToUnclearExponent : res (list bool) :=
  v2 <- w_pow W0 (numZ 0) (Sym (nm "a"%string) false) ;;
  ret [(isZero v2)].
Definition t_power_zeroBaseToNegExponent : res (list bool) :=
  v2 <- minus W0 [(Sym (nm "a"%string) true)] ;;
  v3 <- w_pow W0 (numZ 0) v2 ;;
  ret [(isUndefined v3)].
Definition t_power_powerWithPowerExp : res (list bool) :=
  v2 <- w_sum W0 [(Sym (nm "a"%string) false); (Sym (nm "b"%string) false)] ;;
  v3 <- w_pow W0 v2 (numZ 2) ;;
  v4 <- w_pow W0 (Sym (nm "a"%string) false) v3 ;;
  ret [(isPowerE v4); (isPowerE (expOf v4)); (sameE (Sym (nm "a"%string) false) (baseOf v4)); (sameE v3 (expOf v4))].
Definition t_power_multiplySymbolExp : res (list bool) :=
  v2 <- w_pow W0 (numZ 2) (Sym (nm "a"%string) false) ;;
  v3 <- w_pow W0 v2 (Sym (nm "a"%string) false) ;;
  ret [(isPowerE v3); (isNumericE (baseOf v3)); (isPowerE (expOf v3)); (sameN (numericEval refSys (baseOf v3)) (NQ (ofZ 2))); (sameN (numericEval refSys (expOf (expOf v3))) (NQ (ofZ 2)))].
Definition t_power_multiplyExpWithZeroExp : res (list bool) :=
  v2 <- w_pow W0 (Sym (nm "a"%string) false) (numZ 2) ;;
  v3 <- w_pow W0 v2 (numZ 0) ;;
  ret [(sameE (numZ 1) v3)].
Definition t_power_multiplyNumericExp : res (list bool) :=
  v2 <- w_pow W0 (numZ 2) (Num (frq (4) (7))) ;;
  v3 <- w_pow W0 (numZ 2) (Num (frq (2) (3))) ;;
  v4 <- w_pow W0 v3 (Num (frq (6) (7))) ;;
  ret [(sameE v2 v4)].
Definition t_power_multiplyExponentsByCreation : res (list bool) :=
  v2 <- w_pow W0 (Sym (nm "a"%string) false) (numZ 2) ;;
  v3 <- w_pow W0 v2 (numZ 3) ;;
  v4 <- w_pow W0 v3 (numZ 1) ;;
  ret [(isPowerE v4); (sameE (Sym (nm "a"%string) false) (baseOf v4)); (sameE (numZ 6) (expOf v4))].
Definition t_power_squareOfSymbolSquareRoot : res (list bool) :=
  v2 <- w_pow W0 (Sym (nm "a"%string) false) half ;;
  v3 <- w_pow W0 v2 (numZ 2) ;;
  v4 <- w_pow W0 (Sym (nm "a"%string) false) half ;;
  ret [(isPowerE v3); (sameE (numZ 2) (expOf v3)); (sameE v4 (baseOf v3))].
Definition t_power_squareOfPosSymbolSquareRoot : res (list bool) :=
  v2 <- w_pow W0 (Sym (nm "a"%string) true) half ;;
  v3 <- w_pow W0 v2 (numZ 2) ;;
  ret [(sameE (Sym (nm "a"%string) true) v3)].
Definition t_power_squareRootOfPosSymbolSquare : res (list bool) :=
  v2 <- w_pow W0 (Sym (nm "a"%string) true) (numZ 2) ;;
  v3 <- w_pow W0 v2 half ;;
  ret [(sameE (Sym (nm "a"%string) true) v3)].
Definition t_power_powerOfNegSymbolSquare : res (list bool) :=
  v2 <- minus W0 [(Sym (nm "a"%string) true)] ;;
  v3 <- minus W0 [(Sym (nm "b"%string) true)] ;;
  v4 <- w_sum W0 [v2; v3] ;;
  v5 <- w_pow W0 v4 (numZ 2) ;;
  v6 <- w_pow W0 v5 (Num (frq ((- 1)) (2))) ;;
  v7 <- w_sum W0 [(Sym (nm "a"%string) true); (Sym (nm "b"%string) true)] ;;
  v8 <- oneOver W0 v7 ;;
  ret [(sameE v8 v6)].
Definition t_power_powerOfNegSymbolSumChangesSign : res (list bool) :=
  v2 <- minus W0 [(Sym (nm "a"%string) true)] ;;
  v3 <- minus W0 [(Sym (nm "b"%string) true)] ;;
  v4 <- w_sum W0 [v2; v3] ;;
  v5 <- w_pow W0 v4 (numZ 2) ;;
  v6 <- w_pow W0 v5 (Num (frq (1) (6))) ;;
  v7 <- w_sum W0 [(Sym (nm "a"%string) true); (Sym (nm "b"%string) true)] ;;
  v8 <- w_pow W0 v7 (Num (Qred (1 # 3))) ;;
  ret [(sameE v8 v6)].
Definition t_power_sumBase : res (list bool) :=
  v2 <- w_sum W0 [(Sym (nm "a"%string) false); (Sym (nm "b"%string) false)] ;;
  v3 <- w_pow W0 v2 v2 ;;
  ret [(sameE v2 (expOf v3)); (sameE v2 (baseOf v3))].
Definition t_power_constantBase : res (list bool) :=
  v2 <- w_sum W0 [(Sym (nm "a"%string) false); (Sym (nm "b"%string) false)] ;;
  v3 <- w_pow W0 (Cst CPi) v2 ;;
  ret [(sameE v2 (expOf v3)); (sameE (Cst CPi) (baseOf v3))].
Definition t_power_numericBaseConstantExp : res (list bool) :=
  v2 <- w_pow W0 (numZ 2) (Cst CPi) ;;
  ret [(sameE (Cst CPi) (expOf v2)); (sameE (numZ 2) (baseOf v2))].
Definition t_power_productBaseConstantExp : res (list bool) :=
  v2 <- w_prod W0 [(Sym (nm "a"%string) true); (Sym (nm "b"%string) false)] ;;
  v3 <- w_pow W0 v2 (Cst CPi) ;;
  v4 <- w_pow W0 (Sym (nm "a"%string) true) (Cst CPi) ;;
  v5 <- w_pow W0 (Sym (nm "b"%string) false) (Cst CPi) ;;
  ret [(isProductE v3); (sameE v4 (hd Undef (opsOf v3))); (sameE v5 (last (opsOf v3) Undef))].
Definition t_power_functionBase : res (list bool) :=
  v2 <- w_trig W0 FSin (Sym (nm "a"%string) false) ;;
  v3 <- w_pow W0 v2 (Sym (nm "a"%string) false) ;;
  ret [(isPowerE v3); (sameE v2 (baseOf v3)); (sameE (Sym (nm "a"%string) false) (expOf v3))].
Definition t_power_eulerBaseLogExp : res (list bool) :=
  v2 <- w_pow W0 (numZ 2) half ;;
  v3 <- w_sum W0 [(Sym (nm "a"%string) false); (Sym (nm "b"%string) false); v2] ;;
  v4 <- w_log W0 v3 ;;
  v5 <- w_pow W0 (Cst CE) v4 ;;
  ret [(sameE v3 v5)].
Definition t_power_negativePowByOddExp : res (list bool) :=
  v2 <- minus W0 [(Sym (nm "a"%string) true)] ;;
  v3 <- w_pow W0 v2 (Num (frq (3) (5))) ;;
  ret [(isUndefined v3)].
Definition t_power_unclearSymbolBaseLeftUnchanged : res (list bool) :=
  v2 <- w_pow W0 (Sym (nm "a"%string) false) (Num (Qred (1 # 3))) ;;
  v3 <- w_pow W0 v2 (numZ 3) ;;
  ret [(isPowerE v3); (sameE (numZ 3) (expOf v3)); (sameE v2 (baseOf v3))].
Definition t_power_squareRootOfNegBaseSquared : res (list bool) :=
  v2 <- minus W0 [(Sym (nm "a"%string) true)] ;;
  v3 <- minus W0 [(Sym (nm "b"%string) true)] ;;
  v4 <- w_sum W0 [v2; v3] ;;
  v5 <- w_pow W0 v4 (numZ 2) ;;
  v6 <- w_pow W0 v5 (Num (frq ((- 1)) (2))) ;;
  v7 <- w_sum W0 [(Sym (nm "a"%string) true); (Sym (nm "b"%string) true)] ;;
  v8 <- oneOver W0 v7 ;;
  ret [(sameE v8 v6)].
Definition t_power_negativeBaseOfPowerToTheOneThird : res (list bool) :=
  v2 <- w_sum W0 [(Sym (nm "a"%string) true); (Sym (nm "b"%string) true)] ;;
  v3 <- minus W0 [v2] ;;
  v4 <- w_pow W0 v3 (numZ 2) ;;
  v5 <- w_pow W0 v4 (Num (Qred (1 # 3))) ;;
  v6 <- w_sum W0 [(Sym (nm "a"%string) true); (Sym (nm "b"%string) true)] ;;
  v7 <- w_pow W0 v6 (Num (frq (2) (3))) ;;
  ret [(sameE v7 v5)].
Definition t_power_unclearBaseExpContractionWithConstantFirstExp : res (list bool) :=
  v2 <- w_pow W0 (Sym (nm "a"%string) false) (Cst CPi) ;;
  v3 <- w_pow W0 v2 (numZ 3) ;;
  v4 <- w_prod W0 [(numZ 3); (Cst CPi)] ;;
  v5 <- w_pow W0 (Sym (nm "a"%string) false) v4 ;;
  ret [(sameE v5 v3)].
Definition t_power_unclearBaseExpContractionWithConstantSecondExp : res (list bool) :=
  v2 <- w_pow W0 (Sym (nm "a"%string) false) (numZ 3) ;;
  v3 <- w_pow W0 v2 (Cst CPi) ;;
  v4 <- w_prod W0 [(numZ 3); (Cst CPi)] ;;
  v5 <- w_pow W0 (Sym (nm "a"%string) false) v4 ;;
  ret [(sameE v5 v3)].
Definition t_power_unclearBaseExpContractionWithConstantFirstExpSecondEvenInt : res (list bool) :=
  v2 <- minus W0 [(Sym (nm "a"%string) false)] ;;
  v3 <- w_pow W0 v2 (Cst CPi) ;;
  v4 <- w_pow W0 v3 (numZ ((- 8))) ;;
  v5 <- minus W0 [(numZ 8); (Cst CPi)] ;;
  v6 <- w_pow W0 v2 v5 ;;
  ret [(sameE v6 v4)].
Definition t_power_unclearBaseNoExpContractionWithConstantSecondExp : res (list bool) :=
  v2 <- w_pow W0 (Sym (nm "a"%string) false) (numZ 8) ;;
  v3 <- w_pow W0 v2 (Cst CPi) ;;
  ret [(isPowerE v3); (sameE (Cst CPi) (expOf v3)); (isPowerE (baseOf v3)); (sameE (numZ 8) (expOf (baseOf v3))); (sameE (Sym (nm "a"%string) false) (baseOf (baseOf v3)))].
Definition t_power_unclearBaseNoExpContractionWithSymbolSecondExp : res (list bool) :=
  v2 <- w_pow W0 (Sym (nm "a"%string) false) (Num (Qred (1 # 4))) ;;
  v3 <- w_pow W0 v2 (Sym (nm "b"%string) false) ;;
  ret [(isPowerE v3); (sameE (Sym (nm "b"%string) false) (expOf v3)); (isPowerE (baseOf v3)); (sameE (Num (Qred (1 # 4))) (expOf (baseOf v3))); (sameE (Sym (nm "a"%string) false) (baseOf (baseOf v3)))].
Definition t_power_numericallyEvaluableExpToUndefined : res (list bool) :=
  v2 <- w_pow W0 (numZ ((- 2))) (Cst CPi) ;;
  ret [(isUndefined v2)].
Definition t_powernormal_powerWithPosIntExp : res (list bool) :=
  v14 <- powerNormal refSys W0 {| m_base := freshBase [(Sym (nm "a"%string) false); (numZ 2)]; m_list := [] |} (Sym (nm "a"%string) false) (numZ 2) ;;
  v15 <- w_pow W0 (Sym (nm "a"%string) false) (numZ 2) ;;
  ret [(sameE v15 (fst (fst v14))); (sameE (numZ 1) (snd (fst v14)))].
Definition t_powernormal_powerWithPosNegExp : res (list bool) :=
  v14 <- powerNormal refSys W0 {| m_base := freshBase [(Sym (nm "a"%string) false); (numZ ((- 2)))]; m_list := [] |} (Sym (nm "a"%string) false) (numZ ((- 2))) ;;
  v15 <- w_pow W0 (Sym (nm "a"%string) false) (numZ 2) ;;
  ret [(sameE (numZ 1) (fst (fst v14))); (sameE v15 (snd (fst v14)))].
Definition t_powernormal_powerWithSymbolExp : res (list bool) :=
  v2 <- w_sum W0 [(Sym (nm "a"%string) false); (Sym (nm "b"%string) false)] ;;
  v14 <- w_pow W0 v2 (Sym (nm "c"%string) false) ;;
  v15 <- w_sum W0 [(Sym (nm "a"%string) false); (Sym (nm "b"%string) false)] ;;
  v16 <- powerNormal refSys W0 {| m_base := freshBase [v15; (Sym (nm "c"%string) false)]; m_list := [] |} v15 (Sym (nm "c"%string) false) ;;
  v17 <- replaceBack W0 40 (snd v16) (fst (fst v16)) ;;
  ret [(sameE (numZ 1) (snd (fst v16))); (isSymbolE (fst (fst v16))); (sameE v14 v17)].
Definition t_powernormal_fractionBaseSymbolExp : res (list bool) :=
  v14 <- powerNormal refSys W0 {| m_base := freshBase [(Num (frq (3) (4))); (Sym (nm "a"%string) false)]; m_list := [] |} (Num (frq (3) (4))) (Sym (nm "a"%string) false) ;;
  ret [(sameE (numZ 1) (snd (fst v14))); (isSymbolE (fst (fst v14)))].
Definition t_powernormal_fractionBaseNumericallyEvaluableNegExp : res (list bool) :=
  v14 <- w_trig W0 FSin (numZ 1) ;;
  v15 <- w_pow W0 (numZ 4) v14 ;;
  v16 <- w_pow W0 (numZ 3) v14 ;;
  v17 <- minus W0 [v14] ;;
  v18 <- powerNormal refSys W0 {| m_base := freshBase [(Num (frq (3) (4))); v17]; m_list := [] |} (Num (frq (3) (4))) v17 ;;
  v19 <- replaceBack W0 40 (snd v18) (fst (fst v18)) ;;
  v20 <- replaceBack W0 40 (snd v18) (snd (fst v18)) ;;
  ret [(isSymbolE (fst (fst v18))); (isSymbolE (snd (fst v18))); (sameE v15 v19); (sameE v16 v20)].
Definition t_powernormal_fractionBaseNumericallyEvaluablePosExp : res (list bool) :=
  v14 <- w_pow W0 (numZ 2) half ;;
  v15 <- w_pow W0 (numZ 2) v14 ;;
  v16 <- w_pow W0 (numZ 5) v14 ;;
  v17 <- powerNormal refSys W0 {| m_base := freshBase [(Num (frq (2) (5))); v14]; m_list := [] |} (Num (frq (2) (5))) v14 ;;
  v18 <- replaceBack W0 40 (snd v17) (fst (fst v17)) ;;
  v19 <- replaceBack W0 40 (snd v17) (snd (fst v17)) ;;
  ret [(isSymbolE (fst (fst v17))); (isSymbolE (snd (fst v17))); (sameE v15 v18); (sameE v16 v19)].
Definition t_powernormal_symbolicFractionBaseNumericallyEvaluablePosExp : res (list bool) :=
  v14 <- oneOver W0 (Sym (nm "b"%string) false) ;;
  v15 <- w_prod W0 [(Sym (nm "a"%string) false); v14] ;;
  v16 <- w_pow W0 (numZ 2) half ;;
  v17 <- w_pow W0 (Sym (nm "a"%string) false) v16 ;;
  v18 <- w_pow W0 (Sym (nm "b"%string) false) v16 ;;
  v19 <- powerNormal refSys W0 {| m_base := freshBase [v15; v16]; m_list := [] |} v15 v16 ;;
  v20 <- replaceBack W0 40 (snd v19) (fst (fst v19)) ;;
  v21 <- replaceBack W0 40 (snd v19) (snd (fst v19)) ;;
  ret [(isSymbolE (fst (fst v19))); (isSymbolE (snd (fst v19))); (sameE v17 v20); (sameE v18 v21)].
Definition t_powernormal_powerWithMinusSymbolExp : res (list bool) :=
  v2 <- w_sum W0 [(Sym (nm "a"%string) false); (Sym (nm "b"%string) false)] ;;
  v14 <- minus W0 [(Sym (nm "c"%string) false)] ;;
  v15 <- powerNormal refSys W0 {| m_base := freshBase [v2; v14]; m_list := [] |} v2 v14 ;;
  v16 <- replaceBack W0 40 (snd v15) (fst (fst v15)) ;;
  v17 <- w_pow W0 v2 v14 ;;
  ret [(sameE (numZ 1) (snd (fst v15))); (isSymbolE (fst (fst v15))); (sameE v17 v16)].
Definition t_powernormal_powerWithPiExp : res (list bool) :=
  v14 <- powerNormal refSys W0 {| m_base := freshBase [(Sym (nm "a"%string) false); (Cst CPi)]; m_list := [] |} (Sym (nm "a"%string) false) (Cst CPi) ;;
  v15 <- replaceBack W0 40 (snd v14) (fst (fst v14)) ;;
  v16 <- w_pow W0 (Sym (nm "a"%string) false) (Cst CPi) ;;
  ret [(sameE (numZ 1) (snd (fst v14))); (isSymbolE (fst (fst v14))); (sameE v16 v15)].
Definition t_powernormal_powerWithNegNumEvalExp : res (list bool) :=
  v14 <- w_pow W0 (numZ 2) half ;;
  v15 <- w_prod W0 [(numZ 3); (Cst CPi); v14] ;;
  v16 <- minus W0 [v15] ;;
  v17 <- powerNormal refSys W0 {| m_base := freshBase [(Sym (nm "a"%string) false); v16]; m_list := [] |} (Sym (nm "a"%string) false) v16 ;;
  v18 <- replaceBack W0 40 (snd v17) (snd (fst v17)) ;;
  v19 <- w_pow W0 (Sym (nm "a"%string) false) v15 ;;
  ret [(sameE (numZ 1) (fst (fst v17))); (isSymbolE (snd (fst v17))); (sameE v19 v18)].
Definition t_product_undefinedToUndefined : res (list bool) :=
  v4 <- w_prod W0 [Undef; (Sym (nm "a"%string) false)] ;;
  ret [(isUndefined v4)].
Definition t_product_zero : res (list bool) :=
  v4 <- w_prod W0 [(Sym (nm "a"%string) false); (Sym (nm "b"%string) false)] ;;
  v5 <- w_prod W0 [v4; (numZ 0)] ;;
  ret [(isZero v5)].
Definition t_product_twoNumericFactors : res (list bool) :=
  v4 <- w_prod W0 [(numZ 2); (numZ 3)] ;;
  ret [(isNumericE v4); (sameN (numericEval refSys v4) (NQ (ofZ 6)))].
Definition t_product_twoNumericFactorsResultingInOne : res (list bool) :=
  v4 <- w_prod W0 [(numZ 2); (Num (Qred (1 # 2)))] ;;
  ret [(isNumericE v4); (sameN (numericEval refSys v4) (NQ (ofZ 1)))].
Definition t_product_numberTimesNumericPower : res (list bool) :=
  v1 <- w_pow W0 (numZ 2) half ;;
  v4 <- w_prod W0 [(numZ 2); v1] ;;
  ret [(isProductE v4); (isConst v4); (sameN (numericEval refSys (hd Undef (opsOf v4))) (NQ (ofZ 2))); (isNumericPower (last (opsOf v4) Undef))].
Definition t_product_numberTimesResolvableNumPow : res (list bool) :=
  v4 <- w_pow W0 (numZ 9) half ;;
  v5 <- w_prod W0 [(numZ ((- 2))); v4] ;;
  ret [(sameE (numZ ((- 6))) v5)].
Definition t_product_resolvableNumPowNegativeBase : res (list bool) :=
  v1 <- w_pow W0 (numZ 2) half ;;
  v4 <- minus W0 [v1] ;;
  v5 <- w_pow W0 (numZ 2) (Num (frq ((- 1)) (2))) ;;
  v6 <- minus W0 [v5] ;;
  v7 <- w_prod W0 [(numZ 2); v6] ;;
  ret [(sameE v4 v7)].
Definition t_product_resolvableNumPowNegativeNumericFactor : res (list bool) :=
  v1 <- w_pow W0 (numZ 2) half ;;
  v4 <- minus W0 [v1] ;;
  v5 <- w_pow W0 (numZ 2) (Num (frq ((- 1)) (2))) ;;
  v6 <- w_prod W0 [(numZ ((- 2))); v5] ;;
  ret [(sameE v4 v6)].
Definition t_product_resolvableNumPowNegativeNumericFractionFactor : res (list bool) :=
  v1 <- w_pow W0 (numZ 2) half ;;
  v4 <- w_pow W0 (numZ 2) (Num (frq ((- 1)) (2))) ;;
  v5 <- minus W0 [(Sym (nm "a"%string) false); (Sym (nm "b"%string) false); v4] ;;
  v6 <- w_prod W0 [(Sym (nm "b"%string) false); (Num (frq ((- 1)) (2))); v1; (Sym (nm "a"%string) false)] ;;
  ret [(sameE v5 v6)].
Definition t_product_resolvableNumPowMixedWithSymbol : res (list bool) :=
  v1 <- w_pow W0 (numZ 2) half ;;
  v4 <- minus W0 [v1; (Sym (nm "a"%string) false)] ;;
  v5 <- w_pow W0 (numZ 2) (Num (frq ((- 1)) (2))) ;;
  v6 <- minus W0 [v5] ;;
  v7 <- w_prod W0 [(numZ 2); (Sym (nm "a"%string) false); v6] ;;
  ret [(sameE v4 v7)].
Definition t_product_constantTimesNumeric : res (list bool) :=
  v4 <- w_prod W0 [(Cst CPi); (numZ 2)] ;;
  ret [(isProductE v4); (sameE (numZ 2) (hd Undef (opsOf v4))); (sameE (Cst CPi) (last (opsOf v4) Undef))].
Definition t_product_numericPowerTimesNumber : res (list bool) :=
  v1 <- w_pow W0 (numZ 2) half ;;
  v4 <- w_prod W0 [v1; (numZ 2)] ;;
  ret [(isProductE v4); (isConst v4); (sameE (numZ 2) (hd Undef (opsOf v4))); (sameE v1 (last (opsOf v4) Undef))].
Definition t_product_intTimesNumericPower : res (list bool) :=
  v1 <- w_pow W0 (numZ 2) half ;;
  v4 <- w_prod W0 [(Num (frq ((- 1)) (4))); v1] ;;
  v5 <- w_pow W0 (numZ 2) (Num (frq ((- 1)) (2))) ;;
  ret [(isProductE v4); (sameE (Num (frq ((- 1)) (2))) (hd Undef (opsOf v4))); (sameE v5 (last (opsOf v4) Undef))].
Definition t_product_intTimesNumericPowerTimesOne : res (list bool) :=
  v1 <- w_pow W0 (numZ 2) half ;;
  v4 <- w_prod W0 [(Num (frq ((- 1)) (4))); v1; (numZ 1)] ;;
  v5 <- w_pow W0 (numZ 2) (Num (frq ((- 1)) (2))) ;;
  ret [(isProductE v4); (sameE (Num (frq ((- 1)) (2))) (hd Undef (opsOf v4))); (sameE v5 (last (opsOf v4) Undef))].
Definition t_product_numberAndNumericPowerEqualBase : res (list bool) :=
  v4 <- w_pow W0 (numZ 2) (Num (frq (2) (3))) ;;
  v5 <- w_prod W0 [(numZ 2); v4] ;;
  ret [(isProductE v5); (sameE (numZ 2) (hd Undef (opsOf v5))); (sameE v4 (last (opsOf v5) Undef))].
Definition t_product_numericPowersDifferentExpSameBase : res (list bool) :=
  v4 <- w_pow W0 (numZ 2) (Num (Qred (1 # 3))) ;;
  v5 <- w_pow W0 (numZ 2) (Num (Qred (1 # 4))) ;;
  v6 <- w_prod W0 [v4; v5] ;;
  ret [(isPowerE v6); (isNumericPower v6); (sameN (numericEval refSys (baseOf v6)) (NQ (ofZ 2))); (sameN (numericEval refSys (expOf v6)) (NQ (frq (7) (12))))].
Definition t_product_numericPowersDifferentExpDifferentBase : res (list bool) :=
  v4 <- w_pow W0 (numZ 2) (Num (Qred (1 # 3))) ;;
  v5 <- w_pow W0 (numZ 3) (Num (Qred (1 # 4))) ;;
  v6 <- w_prod W0 [v4; v5] ;;
  ret [(isProductE v6); (sameE v4 (hd Undef (opsOf v6))); (sameE v5 (last (opsOf v6) Undef))].
Definition t_product_reductionOfDifferentNumericPowers : res (list bool) :=
  v4 <- w_pow W0 (Num (frq (2) (3))) half ;;
  v5 <- w_prod W0 [(Num (frq (3) (2))); v4] ;;
  ret [(isPowerE v5); (sameE (Num (Qred (1 # 2))) (expOf v5)); (sameE (Num (frq (3) (2))) (baseOf v5))].
Definition t_product_reductionOfSameNumericBaseDifferentExp : res (list bool) :=
  v4 <- w_pow W0 (numZ 2) (Num (frq ((- 1)) (2))) ;;
  v5 <- w_prod W0 [(numZ 2); v4] ;;
  ret [(isPowerE v5); (sameE (Num (Qred (1 # 2))) (expOf v5)); (sameE (numZ 2) (baseOf v5))].
Definition t_product_reductionOfSameNumericBaseDifferentExponent : res (list bool) :=
  v1 <- w_pow W0 (numZ 2) half ;;
  v4 <- w_pow W0 (numZ 2) (Num (frq ((- 1)) (2))) ;;
  v5 <- w_prod W0 [v1; (Num (Qred (1 # 2)))] ;;
  ret [(isPowerE v5); (sameE (Num (frq ((- 1)) (2))) (expOf v5)); (sameE (numZ 2) (baseOf v5))].
Definition t_product_mergeNumericsOfSimplifiedNumericPower : res (list bool) :=
  v1 <- w_pow W0 (numZ 2) half ;;
  v2 <- w_pow W0 (numZ 3) half ;;
  v4 <- w_prod W0 [(numZ 2); v2] ;;
  v5 <- w_pow W0 (numZ 6) half ;;
  v6 <- w_prod W0 [v4; v5] ;;
  ret [(isProductE v6); (2 =? (Z.of_nat (List.length (opsOf v6)))); (sameE (numZ 6) (hd Undef (opsOf v6))); (sameE v1 (last (opsOf v6) Undef))].
Definition t_product_differentNumericPowerProduct : res (list bool) :=
  v1 <- w_pow W0 (numZ 2) half ;;
  v2 <- w_pow W0 (numZ 3) half ;;
  v4 <- w_prod W0 [v1; v2] ;;
  ret [(isNumericPower v4); (sameE (numZ 6) (baseOf v4)); (sameN (numericEval refSys (expOf v4)) (NQ (frq (1) (2))))].
Definition t_product_simpleNumericPowersDifferentExpSign : res (list bool) :=
  v4 <- w_pow W0 (Num (frq (17) (3))) (Num (Qred (1 # 3))) ;;
  v5 <- w_pow W0 (numZ (17)) (Num (Qred (1 # 3))) ;;
  v6 <- w_pow W0 (numZ 3) (Num (frq ((- 1)) (3))) ;;
  v7 <- w_prod W0 [v5; v6] ;;
  ret [(sameE v4 v7)].
Definition t_product_numericPowersDifferentExpSign : res (list bool) :=
  v4 <- w_pow W0 (Num (frq (11) (300))) (Num (frq (12) (23))) ;;
  v5 <- w_pow W0 (Num (frq (3) (5))) (Num (frq (12) (23))) ;;
  v6 <- minus W0 [(Num (frq (12) (23)))] ;;
  v7 <- w_pow W0 (Num (frq (9) (11))) v6 ;;
  v8 <- minus W0 [(Num (frq (12) (23)))] ;;
  v9 <- w_pow W0 (numZ 2) v8 ;;
  v10 <- w_pow W0 (Num (frq (1) (10))) (Num (frq (12) (23))) ;;
  v11 <- w_prod W0 (((([] ++ [v5]) ++ [v7]) ++ [v9]) ++ [v10]) ;;
  ret [(sameE v4 v11)].
Definition t_product_contractionOfNumerics : res (list bool) :=
  v4 <- w_prod W0 [(Num (Qred (1 # 4))); (Num (frq (2) (5))); (numZ (11)); (Num (frq (3) (7)))] ;;
  ret [(sameE (Num (frq (33) (70))) v4)].
Definition t_product_contractionOfConstPowers : res (list bool) :=
  v4 <- w_pow W0 (numZ 3) (Num (frq (2) (3))) ;;
  v5 <- w_pow W0 (numZ 6) (Num (frq ((- 1)) (2))) ;;
  v6 <- w_prod W0 [v4; v5] ;;
  v7 <- w_pow W0 (Num (Qred (1 # 3))) (Num (Qred (1 # 3))) ;;
  v8 <- w_pow W0 (Num (frq (2) (3))) half ;;
  v9 <- w_prod W0 ((([] ++ [(Num (frq (3) (2)))]) ++ [v7]) ++ [v8]) ;;
  ret [(sameE v6 v9)].
Definition t_product_preSortingOfConstPowers : res (list bool) :=
  v4 <- w_pow W0 (numZ 3) (Num (frq (2) (3))) ;;
  v5 <- w_pow W0 (numZ 6) (Num (frq ((- 1)) (2))) ;;
  v6 <- w_prod W0 [v4; v5] ;;
  v7 <- w_pow W0 (Num (frq (2) (3))) half ;;
  v8 <- w_pow W0 (Num (Qred (1 # 3))) (Num (Qred (1 # 3))) ;;
  v9 <- w_prod W0 ((([] ++ [(Num (frq (3) (2)))]) ++ [v7]) ++ [v8]) ;;
  ret [(sameE v6 v9)].
Definition t_product_orderingOfConstPowers : res (list bool) :=
  v4 <- w_pow W0 (numZ 3) (Num (Qred (1 # 3))) ;;
  v5 <- w_pow W0 (numZ 5) (Num (frq (1) (5))) ;;
  v6 <- w_pow W0 (numZ 2) (Num (frq (1) (5))) ;;
  v7 <- w_prod W0 [v4; v5] ;;
  v8 <- w_prod W0 [v7; v6] ;;
  v9 <- w_pow W0 (numZ 10) (Num (frq (1) (5))) ;;
  ret [(isProductE v8); (2 =? (Z.of_nat (List.length (opsOf v8)))); (sameE v4 (hd Undef (opsOf v8))); (sameE v9 (last (opsOf v8) Undef))].
Definition t_product_expansionOfConstPowerAndSum : res (list bool) :=
  v1 <- w_pow W0 (numZ 2) half ;;
  v2 <- w_pow W0 (numZ 3) half ;;
  v3 <- w_pow W0 (numZ 6) half ;;
  v4 <- w_sum W0 [(numZ 1); v1] ;;
  v5 <- w_prod W0 [v4; v2] ;;
  ret [(isSumE v5); (sameE v2 (hd Undef (opsOf v5))); (sameE v3 (last (opsOf v5) Undef))].
Definition t_product_expansionOfNumberConstPowerAndSum : res (list bool) :=
  v1 <- w_pow W0 (numZ 2) half ;;
  v4 <- w_prod W0 [(numZ 2); v1] ;;
  v5 <- w_sum W0 [(Sym (nm "a"%string) false); (Sym (nm "b"%string) false)] ;;
  v6 <- w_prod W0 [v4; v5] ;;
  v7 <- w_prod W0 [v4; (Sym (nm "a"%string) false)] ;;
  v8 <- w_prod W0 [v4; (Sym (nm "b"%string) false)] ;;
  v9 <- w_sum W0 [v7; v8] ;;
  ret [(sameE v9 v6)].
Definition t_product_expansionOfConstProductAndSum : res (list bool) :=
  v2 <- w_pow W0 (numZ 3) half ;;
  v4 <- w_prod W0 [(numZ 2); v2] ;;
  v5 <- w_sum W0 [(numZ 2); v4] ;;
  v6 <- w_prod W0 [v5; (Sym (nm "a"%string) false)] ;;
  v7 <- w_prod W0 [v5; (Sym (nm "b"%string) false)] ;;
  v8 <- w_sum W0 [v6; v7] ;;
  v9 <- w_sum W0 [(numZ 1); v2] ;;
  v10 <- w_sum W0 [(Sym (nm "a"%string) false); (Sym (nm "b"%string) false)] ;;
  v11 <- w_prod W0 ((([] ++ [(numZ 2)]) ++ [v9]) ++ [v10]) ;;
  ret [(sameE v8 v11)].
Definition t_product_contractNumSqrt : res (list bool) :=
  v1 <- w_pow W0 (numZ 2) half ;;
  v2 <- w_pow W0 (numZ 3) half ;;
  v4 <- w_pow W0 (numZ (14)) half ;;
  v5 <- w_prod W0 [(numZ (30)); v4] ;;
  v6 <- w_pow W0 (numZ 5) half ;;
  v7 <- w_pow W0 (numZ 6) half ;;
  v8 <- w_pow W0 (numZ 7) half ;;
  v9 <- w_pow W0 (numZ 10) half ;;
  v10 <- w_prod W0 (((((([] ++ [v1]) ++ [v2]) ++ [v6]) ++ [v7]) ++ [v8]) ++ [v9]) ;;
  ret [(sameE v5 v10)].
Definition t_product_contractNumPowWithEqualExp : res (list bool) :=
  v2 <- w_pow W0 (numZ 3) half ;;
  v4 <- w_pow W0 (numZ 7) (Num (Qred (1 # 4))) ;;
  v5 <- w_pow W0 (numZ 2) (Num (Qred (1 # 3))) ;;
  v6 <- w_pow W0 (numZ 4) (Num (Qred (1 # 3))) ;;
  v7 <- w_pow W0 (numZ 5) (Num (Qred (1 # 3))) ;;
  v8 <- w_pow W0 (numZ 6) (Num (Qred (1 # 3))) ;;
  v9 <- w_pow W0 (numZ 8) (Num (Qred (1 # 3))) ;;
  v10 <- w_prod W0 ((((((([] ++ [v5]) ++ [v2]) ++ [v6]) ++ [v7]) ++ [v8]) ++ [v4]) ++ [v9]) ;;
  v11 <- w_pow W0 (numZ (30)) (Num (Qred (1 # 3))) ;;
  v12 <- w_prod W0 (((([] ++ [(numZ 4)]) ++ [v2]) ++ [v4]) ++ [v11]) ;;
  ret [(sameE v12 v10)].
Definition t_product_symbolTimesOne : res (list bool) :=
  v4 <- w_prod W0 [(Sym (nm "a"%string) false); (numZ 1)] ;;
  ret [(sameE (Sym (nm "a"%string) false) v4)].
Definition t_product_oneTimesSymbol : res (list bool) :=
  v4 <- w_prod W0 [(numZ 1); (Sym (nm "a"%string) false)] ;;
  ret [(sameE (Sym (nm "a"%string) false) v4)].
Definition t_product_multipleOnesTimesSum : res (list bool) :=
  v4 <- w_sum W0 [(Sym (nm "a"%string) false); (Sym (nm "b"%string) false)] ;;
  v5 <- w_prod W0 [(numZ 1); v4; (numZ 1); (numZ 1); (numZ 1)] ;;
  ret [(sameE v4 v5)].
Definition t_product_minusOneTimesNegProduct : res (list bool) :=
  v4 <- minus W0 [(Sym (nm "a"%string) false)] ;;
  v5 <- w_prod W0 [(numZ (-1)); v4] ;;
  ret [(sameE (Sym (nm "a"%string) false) v5)].
Definition t_product_equalSymbolBasesToPower : res (list bool) :=
  v4 <- w_prod W0 [(Sym (nm "a"%string) false); (Sym (nm "a"%string) false)] ;;
  ret [(isPowerE v4); (sameN (numericEval refSys (expOf v4)) (NQ (ofZ 2)))].
Definition t_product_equalPowerBasesToPower : res (list bool) :=
  v4 <- w_pow W0 (Sym (nm "b"%string) false) (numZ 2) ;;
  v5 <- w_pow W0 (Sym (nm "b"%string) false) (numZ 3) ;;
  v6 <- w_prod W0 [v4; v5] ;;
  ret [(isPowerE v6); (sameN (numericEval refSys (expOf v6)) (NQ (ofZ 5)))].
Definition t_product_equalPowerBasesToOne : res (list bool) :=
  v4 <- oneOver W0 (Sym (nm "a"%string) false) ;;
  v5 <- w_prod W0 [v4; (Sym (nm "a"%string) false)] ;;
  ret [(isOne v5)].
Definition t_product_equalSumBasesToPower : res (list bool) :=
  v4 <- w_sum W0 [(Sym (nm "a"%string) false); (Sym (nm "b"%string) false)] ;;
  v5 <- w_pow W0 v4 (numZ 3) ;;
  v6 <- w_prod W0 [v5; v4] ;;
  ret [(isPowerE v6); (sameN (numericEval refSys (expOf v6)) (NQ (ofZ 4))); (sameE v4 (baseOf v6))].
Definition t_product_rearrangeTwoSymbols : res (list bool) :=
  v4 <- w_prod W0 [(Sym (nm "b"%string) false); (Sym (nm "a"%string) false)] ;;
  ret [(isProductE v4); (sameE (Sym (nm "a"%string) false) (hd Undef (opsOf v4))); (sameE (Sym (nm "b"%string) false) (last (opsOf v4) Undef))].
Definition t_product_productOfThreeSymbols : res (list bool) :=
  v4 <- w_prod W0 [(Sym (nm "a"%string) false); (Sym (nm "b"%string) false); (Sym (nm "c"%string) false)] ;;
  ret [(isProductE v4)].
Definition t_product_twoProducts : res (list bool) :=
  v4 <- w_pow W0 (Sym (nm "e"%string) false) (numZ 2) ;;
  v5 <- w_prod W0 [(numZ 2); (Sym (nm "a"%string) false); (Sym (nm "c"%string) false); (Sym (nm "e"%string) false)] ;;
  v6 <- w_prod W0 [(numZ 3); (Sym (nm "b"%string) false); (Sym (nm "d"%string) false); (Sym (nm "e"%string) false)] ;;
  v7 <- w_prod W0 [v5; v6] ;;
  ret [(isProductE v7); (sameL [(numZ 6); (Sym (nm "a"%string) false); (Sym (nm "b"%string) false); (Sym (nm "c"%string) false); (Sym (nm "d"%string) false); v4] (opsOf v7))].
Definition t_product_equalProductBasesToPower : res (list bool) :=
  v4 <- w_pow W0 (Sym (nm "b"%string) false) (numZ 2) ;;
  v5 <- w_prod W0 [(Sym (nm "a"%string) false); v4] ;;
  v6 <- w_prod W0 [v5; v5] ;;
  ret [(isProductE v6); (2 =? (Z.of_nat (List.length (opsOf v6)))); (isPowerE (hd Undef (opsOf v6))); (sameE (numZ 2) (expOf (hd Undef (opsOf v6)))); (isPowerE (last (opsOf v6) Undef)); (sameE (numZ 4) (expOf (last (opsOf v6) Undef)))].
Definition t_product_threeNumericFactors : res (list bool) :=
  v4 <- w_prod W0 [(numZ 2); (numZ 3); (numZ 2)] ;;
  ret [(sameE (numZ (12)) v4)].
Definition t_product_productOfSymbolAndProduct : res (list bool) :=
  v4 <- w_prod W0 [(Sym (nm "a"%string) false); (Sym (nm "c"%string) false)] ;;
  v5 <- w_prod W0 [v4; (Sym (nm "b"%string) false)] ;;
  ret [(isProductE v5); (sameL [(Sym (nm "a"%string) false); (Sym (nm "b"%string) false); (Sym (nm "c"%string) false)] (opsOf v5))].
Definition t_product_productOfProductAndSymbol : res (list bool) :=
  v4 <- w_prod W0 [(Sym (nm "e"%string) false); (Sym (nm "b"%string) false)] ;;
  v5 <- w_prod W0 [(Sym (nm "a"%string) false); v4] ;;
  ret [(isProductE v5); (sameL [(Sym (nm "a"%string) false); (Sym (nm "b"%string) false); (Sym (nm "e"%string) false)] (opsOf v5))].
Definition t_product_productOfThreeProducts : res (list bool) :=
  v4 <- w_prod W0 [(Sym (nm "a"%string) false); (Sym (nm "c"%string) false)] ;;
  v5 <- w_prod W0 [(Sym (nm "b"%string) false); (Sym (nm "e"%string) false)] ;;
  v6 <- w_prod W0 [(Sym (nm "a"%string) false); (Sym (nm "d"%string) false)] ;;
  v7 <- w_prod W0 [v4; v5; v6] ;;
  v8 <- w_pow W0 (Sym (nm "a"%string) false) (numZ 2) ;;
  ret [(isProductE v7); (sameL [v8; (Sym (nm "b"%string) false); (Sym (nm "c"%string) false); (Sym (nm "d"%string) false); (Sym (nm "e"%string) false)] (opsOf v7))].
Definition t_product_rearrangeSymbolAndPi : res (list bool) :=
  v4 <- w_prod W0 [(Sym (nm "b"%string) false); (Cst CPi); (Sym (nm "a"%string) false)] ;;
  ret [(sameL [(Cst CPi); (Sym (nm "a"%string) false); (Sym (nm "b"%string) false)] (opsOf v4))].
Definition t_product_contractNumericsAndPi : res (list bool) :=
  v4 <- w_prod W0 [(numZ 2); (Cst CPi); (numZ 3); (Cst CPi); (numZ 4)] ;;
  v5 <- w_pow W0 (Cst CPi) (numZ 2) ;;
  ret [(sameE (numZ (24)) (hd Undef (opsOf v4))); (sameE v5 (last (opsOf v4) Undef))].
Definition t_product_piDividedByPi : res (list bool) :=
  v4 <- oneOver W0 (Cst CPi) ;;
  v5 <- w_prod W0 [(Cst CPi); v4] ;;
  ret [(sameE (numZ 1) v5)].
Definition t_product_productOfEqualFunctionsEqualArguments : res (list bool) :=
  v4 <- w_trig W0 FSin (Sym (nm "a"%string) false) ;;
  v5 <- w_pow W0 v4 (numZ 2) ;;
  v6 <- w_prod W0 [v4; (numZ 2); v4; (Sym (nm "a"%string) false)] ;;
  ret [(sameL [(numZ 2); (Sym (nm "a"%string) false); v5] (opsOf v6))].
Definition t_product_equalNonNumericBaseNumExp : res (list bool) :=
  v4 <- w_pow W0 (Sym (nm "a"%string) false) (numZ (2039840928430928094328094)) ;;
  v5 <- w_pow W0 (Sym (nm "a"%string) false) (numZ (2093840928430998324)) ;;
  v6 <- w_sum W0 [(numZ (2039840928430928094328094)); (numZ (2093840928430998324))] ;;
  v7 <- w_pow W0 (Sym (nm "a"%string) false) v6 ;;
  v8 <- w_prod W0 [v4; v5] ;;
  ret [(sameE v7 v8)].
Definition t_product_numPowEqualDenomInPosExp : res (list bool) :=
  v4 <- w_pow W0 (numZ (12)) (Num (Qred (1 # 3))) ;;
  v5 <- w_pow W0 (numZ 2) (Num (frq (2) (3))) ;;
  v6 <- w_pow W0 (numZ 3) (Num (Qred (1 # 3))) ;;
  v7 <- w_prod W0 [v5; v6] ;;
  ret [(sameE v4 v7)].
Definition t_product_numPowEqualDenomInNegExp : res (list bool) :=
  v4 <- w_pow W0 (Num (frq (6) (7))) (Num (frq ((- 2)) (5))) ;;
  v5 <- w_pow W0 (numZ 3) (Num (frq ((- 1)) (5))) ;;
  v6 <- w_prod W0 [v4; v5] ;;
  v7 <- w_pow W0 (Num (frq (49) (108))) (Num (frq (1) (5))) ;;
  ret [(sameE v7 v6)].
Definition t_product_numPowEqualDenomExpToProduct : res (list bool) :=
  v4 <- w_pow W0 (numZ 6) (Num (Qred (1 # 3))) ;;
  v5 <- w_pow W0 (numZ 3) (Num (frq (2) (3))) ;;
  v6 <- w_prod W0 [v4; v5] ;;
  v7 <- w_pow W0 (numZ 2) (Num (Qred (1 # 3))) ;;
  v8 <- w_prod W0 [(numZ 3); v7] ;;
  ret [(sameE v8 v6)].
Definition t_product_numPowEqualDenomExpToProductInLargeList : res (list bool) :=
  v4 <- w_pow W0 (numZ (85)) half ;;
  v5 <- w_pow W0 (numZ 2) (Num (Qred (1 # 3))) ;;
  v6 <- w_prod W0 [(numZ (72)); v4; v5] ;;
  v7 <- w_pow W0 (numZ 6) (Num (Qred (1 # 3))) ;;
  v8 <- w_pow W0 (numZ 5) half ;;
  v9 <- w_pow W0 (numZ (17)) half ;;
  v10 <- w_pow W0 (numZ 3) (Num (frq (2) (3))) ;;
  v11 <- w_prod W0 (((((([] ++ [(numZ 2)]) ++ [v7]) ++ [v8]) ++ [(numZ (12))]) ++ [v9]) ++ [v10]) ;;
  ret [(sameE v6 v11)].
Definition t_product_numPowEqualDenomExpNotContracted : res (list bool) :=
  v4 <- w_pow W0 (numZ 7) (Num (frq (1) (23))) ;;
  v5 <- w_pow W0 (numZ (17)) (Num (frq (21) (23))) ;;
  v6 <- w_prod W0 [v4; v5] ;;
  ret [(isProductE v6); (sameE v4 (hd Undef (opsOf v6))); (sameE v5 (last (opsOf v6) Undef))].
Definition t_product_sineOverCosineSameArgument : res (list bool) :=
  v4 <- w_sum W0 [(Sym (nm "a"%string) false); (Sym (nm "b"%string) false); (numZ 2)] ;;
  v5 <- w_trig W0 FSin v4 ;;
  v6 <- w_trig W0 FCos v4 ;;
  v7 <- oneOver W0 v6 ;;
  v8 <- w_prod W0 [v5; v7] ;;
  v9 <- w_trig W0 FTan v4 ;;
  ret [(sameE v9 v8)].
Definition t_product_sineOverCosineDifferentArgument : res (list bool) :=
  v4 <- w_prod W0 [(numZ 3); (Sym (nm "a"%string) false); (Sym (nm "b"%string) false)] ;;
  v5 <- w_trig W0 FSin v4 ;;
  v6 <- w_sum W0 [(Sym (nm "a"%string) false); (Sym (nm "b"%string) false)] ;;
  v7 <- w_trig W0 FCos v6 ;;
  v8 <- oneOver W0 v7 ;;
  v9 <- w_prod W0 [v5; v8] ;;
  v10 <- oneOver W0 v7 ;;
  ret [(isProductE v9); (sameE v10 (hd Undef (opsOf v9))); (sameE v5 (last (opsOf v9) Undef))].
Definition t_product_cosineOverSineSameArgument : res (list bool) :=
  v4 <- w_trig W0 FSin (numZ 10) ;;
  v5 <- w_trig W0 FCos (numZ 10) ;;
  v6 <- oneOver W0 v4 ;;
  v7 <- w_prod W0 [v5; v6] ;;
  v8 <- w_trig W0 FTan (numZ 10) ;;
  v9 <- oneOver W0 v8 ;;
  ret [(sameE v9 v7)].
Definition t_product_cosineOverSineDifferentArgument : res (list bool) :=
  v4 <- w_trig W0 FSin (numZ 4) ;;
  v5 <- w_trig W0 FCos (numZ 7) ;;
  v6 <- oneOver W0 v4 ;;
  v7 <- w_prod W0 [v5; v6] ;;
  v8 <- oneOver W0 v4 ;;
  ret [(isProductE v7); (sameE v5 (hd Undef (opsOf v7))); (sameE v8 (last (opsOf v7) Undef))].
Definition t_product_sinOverTanSameNumericalArgument : res (list bool) :=
  v4 <- w_pow W0 (numZ 7) (Num (frq (2) (3))) ;;
  v5 <- w_trig W0 FSin v4 ;;
  v6 <- w_trig W0 FCos v4 ;;
  v7 <- w_trig W0 FTan v4 ;;
  v8 <- oneOver W0 v7 ;;
  v9 <- w_prod W0 [v5; v8] ;;
  ret [(sameE v6 v9)].
Definition t_product_tanTimesCosSameArgument : res (list bool) :=
  v4 <- w_sum W0 [(Sym (nm "a"%string) false); (Sym (nm "b"%string) false)] ;;
  v5 <- w_trig W0 FTan v4 ;;
  v6 <- w_trig W0 FCos v4 ;;
  v7 <- w_trig W0 FSin v4 ;;
  v8 <- w_prod W0 [v5; v6] ;;
  ret [(sameE v7 v8)].
Definition t_product_tanTimesCosDifferentArgument : res (list bool) :=
  v4 <- w_pow W0 (numZ 2) half ;;
  v5 <- w_trig W0 FTan v4 ;;
  v6 <- w_trig W0 FCos (Sym (nm "a"%string) false) ;;
  v7 <- w_prod W0 [v5; v6] ;;
  ret [(isProductE v7); (sameE v6 (hd Undef (opsOf v7))); (sameE v5 (last (opsOf v7) Undef))].
Definition t_product_tanTimesCosWithNumExpSameArgument : res (list bool) :=
  v4 <- w_trig W0 FTan (numZ 1) ;;
  v5 <- w_trig W0 FCos (numZ 1) ;;
  v6 <- w_trig W0 FSin (numZ 1) ;;
  v7 <- w_pow W0 v4 (Num (frq (2) (3))) ;;
  v8 <- w_pow W0 v5 (Num (frq ((- 1)) (2))) ;;
  v9 <- w_prod W0 [v7; v8] ;;
  v10 <- w_pow W0 v6 (Num (frq (2) (3))) ;;
  v11 <- w_pow W0 v5 (Num (frq ((- 7)) (6))) ;;
  v12 <- w_prod W0 [v10; v11] ;;
  ret [(sameE v12 v9)].
Definition t_product_sinOverCosineWithExpTimesCosine : res (list bool) :=
  v4 <- w_trig W0 FSin (Sym (nm "a"%string) false) ;;
  v5 <- w_pow W0 v4 (Num (frq (5) (7))) ;;
  v6 <- w_trig W0 FCos (Sym (nm "a"%string) false) ;;
  v7 <- w_pow W0 v6 (Num (frq ((- 2)) (3))) ;;
  v8 <- w_prod W0 [v5; v7; v6] ;;
  v9 <- w_pow W0 v6 (Num (Qred (1 # 3))) ;;
  v10 <- w_prod W0 [v5; v9] ;;
  ret [(sameE v10 v8)].
Definition t_product_sinSquareOverCosSameArg : res (list bool) :=
  v4 <- w_trig W0 FSin (Sym (nm "a"%string) false) ;;
  v5 <- w_prod W0 [v4; v4] ;;
  v6 <- w_trig W0 FCos (Sym (nm "a"%string) false) ;;
  v7 <- oneOver W0 v6 ;;
  v8 <- w_prod W0 [v5; v7] ;;
  v9 <- w_trig W0 FTan (Sym (nm "a"%string) false) ;;
  v10 <- w_prod W0 [v4; v9] ;;
  ret [(sameE v10 v8)].
Definition t_product_sqrtTanTimesCosPositiveSameArg : res (list bool) :=
  v4 <- w_trig W0 FSin (numZ 1) ;;
  v5 <- w_trig W0 FCos (numZ 1) ;;
  v6 <- w_trig W0 FTan (numZ 1) ;;
  v7 <- w_pow W0 v6 half ;;
  v8 <- w_prod W0 [v7; v5] ;;
  v9 <- w_prod W0 [v4; v5] ;;
  v10 <- w_pow W0 v9 half ;;
  ret [(sameE v10 v8)].
Definition t_product_sqrtTanTimesCosSameArg : res (list bool) :=
  v4 <- w_trig W0 FCos (Sym (nm "a"%string) false) ;;
  v5 <- w_trig W0 FTan (Sym (nm "a"%string) false) ;;
  v6 <- w_pow W0 v5 half ;;
  v7 <- w_prod W0 [v6; v4] ;;
  ret [(isProductE v7); (2 =? (Z.of_nat (List.length (opsOf v7)))); (sameE v4 (hd Undef (opsOf v7))); (sameE v6 (last (opsOf v7) Undef))].
Definition t_product_mixedTrigonometricFunctions01 : res (list bool) :=
  v4 <- w_trig W0 FSin (Num (Qred (1 # 2))) ;;
  v5 <- w_trig W0 FCos (numZ 2) ;;
  v6 <- w_trig W0 FTan (Num (Qred (1 # 2))) ;;
  v7 <- w_trig W0 FSin (numZ 2) ;;
  v8 <- w_trig W0 FCos (Num (Qred (1 # 2))) ;;
  v9 <- w_pow W0 v6 (Num (Qred (1 # 3))) ;;
  v10 <- w_pow W0 v7 (numZ ((- 2))) ;;
  v11 <- w_pow W0 v8 (numZ 3) ;;
  v12 <- w_prod W0 ((((([] ++ [v4]) ++ [v5]) ++ [v9]) ++ [v10]) ++ [v11]) ;;
  v13 <- w_trig W0 FTan (numZ 2) ;;
  v14 <- oneOver W0 v13 ;;
  v15 <- oneOver W0 v7 ;;
  v16 <- w_pow W0 v4 (Num (frq (4) (3))) ;;
  v17 <- w_pow W0 v8 (Num (frq (8) (3))) ;;
  v18 <- w_prod W0 (((([] ++ [v14]) ++ [v15]) ++ [v16]) ++ [v17]) ;;
  ret [(sameE v18 v12)].
Definition t_product_mixedTrigonometricFunctions02 : res (list bool) :=
  v4 <- oneOver W0 (Sym (nm "b"%string) false) ;;
  v5 <- w_prod W0 [(Sym (nm "a"%string) false); v4] ;;
  v6 <- w_trig W0 FTan v5 ;;
  v7 <- oneOver W0 v5 ;;
  v8 <- w_trig W0 FCos v5 ;;
  v9 <- oneOver W0 v8 ;;
  v10 <- w_trig W0 FCos v7 ;;
  v11 <- w_trig W0 FSin v5 ;;
  v12 <- w_trig W0 FSin v7 ;;
  v13 <- oneOver W0 v12 ;;
  v14 <- w_prod W0 ((((([] ++ [v9]) ++ [v6]) ++ [v10]) ++ [v11]) ++ [v13]) ;;
  v15 <- w_pow W0 v6 (numZ 2) ;;
  v16 <- w_trig W0 FTan v7 ;;
  v17 <- oneOver W0 v16 ;;
  v18 <- w_prod W0 (([] ++ [v15]) ++ [v17]) ;;
  ret [(sameE v18 v14)].
Definition t_product_noSumOfExpUnclearBasePowers : res (list bool) :=
  v4 <- w_pow W0 (Sym (nm "a"%string) false) half ;;
  v5 <- w_prod W0 [v4; v4] ;;
  ret [(isProductE v5); (2 =? (Z.of_nat (List.length (opsOf v5)))); (sameE v4 (hd Undef (opsOf v5))); (sameE v4 (last (opsOf v5) Undef))].
Definition t_product_sumOfExpUnclearBasePowers : res (list bool) :=
  v4 <- w_pow W0 (Sym (nm "a"%string) false) (numZ 2) ;;
  v5 <- w_pow W0 (Sym (nm "a"%string) false) (Num (frq (3) (4))) ;;
  v6 <- w_prod W0 [v4; v5] ;;
  v7 <- w_pow W0 (Sym (nm "a"%string) false) (Num (frq (11) (4))) ;;
  ret [(sameE v7 v6)].
Definition t_product_dontAlwaysContractZeroSumExp : res (list bool) :=
  v1 <- w_pow W0 (numZ 2) half ;;
  v4 <- minus W0 [(numZ 3); v1] ;;
  v5 <- w_sum W0 [(numZ ((- 4))); v4] ;;
  v6 <- w_prod W0 [(numZ (48)); v1] ;;
  v7 <- w_sum W0 [(numZ (68)); v6] ;;
  v8 <- oneOver W0 v7 ;;
  v9 <- w_prod W0 [v5; v8] ;;
  ret [(1 <? (Z.of_nat (List.length (opsOf v9))))].
Definition t_sign_undefinedIsUnclear : res (list bool) :=
  v2 <- w_pos W0 Undef ;;
  v3 <- w_neg W0 Undef ;;
  ret [(negb v2); (negb v3)].
Definition t_sign_constant : res (list bool) :=
  v2 <- w_pos W0 (Cst CE) ;;
  v3 <- w_neg W0 (Cst CE) ;;
  ret [v2; (negb v3)].
Definition t_sign_unclearSymbol : res (list bool) :=
  v2 <- w_pos W0 (Sym (nm "a"%string) false) ;;
  v3 <- w_neg W0 (Sym (nm "a"%string) false) ;;
  ret [(negb v2); (negb v3)].
Definition t_sign_positiveSimpleSymbol : res (list bool) :=
  v2 <- w_pos W0 (Sym (nm "a"%string) true) ;;
  v3 <- w_neg W0 (Sym (nm "a"%string) true) ;;
  ret [v2; (negb v3)].
Definition t_sign_zeroIsNeitherPosNorNeg : res (list bool) :=
  v2 <- w_pos W0 (numZ 0) ;;
  v3 <- w_neg W0 (numZ 0) ;;
  ret [(negb v2); (negb v3)].
Definition t_sign_posInteger : res (list bool) :=
  v2 <- w_pos W0 (numZ 5) ;;
  v3 <- w_neg W0 (numZ 5) ;;
  ret [v2; (negb v3)].
Definition t_sign_negInteger : res (list bool) :=
  v2 <- w_pos W0 (numZ ((- 1234))) ;;
  v3 <- w_neg W0 (numZ ((- 1234))) ;;
  ret [(negb v2); v3].
Definition t_sign_posFraction : res (list bool) :=
  v2 <- w_pos W0 (Num (frq (4) (17))) ;;
  v3 <- w_neg W0 (Num (frq (4) (17))) ;;
  ret [v2; (negb v3)].
Definition t_sign_negFraction : res (list bool) :=
  v2 <- w_pos W0 (Num (frq ((- 12)) (13))) ;;
  v3 <- w_neg W0 (Num (frq ((- 12)) (13))) ;;
  ret [(negb v2); v3].
Definition t_sign_simpleNegProduct : res (list bool) :=
  v2 <- minus W0 [(Sym (nm "a"%string) true)] ;;
  v3 <- w_pos W0 v2 ;;
  v4 <- w_neg W0 v2 ;;
  ret [(negb v3); v4].
Definition t_sign_simplePosProduct : res (list bool) :=
  v2 <- minus W0 [(numZ 2); (Sym (nm "b"%string) true)] ;;
  v3 <- minus W0 [(numZ 3); (Sym (nm "c"%string) true)] ;;
  v4 <- w_sum W0 [v2; v3] ;;
  v5 <- minus W0 [(Sym (nm "a"%string) true); v4] ;;
  v6 <- w_pos W0 v5 ;;
  v7 <- w_neg W0 v5 ;;
  ret [v6; (negb v7)].
Definition t_sign_simpleUnclearProduct : res (list bool) :=
  v2 <- minus W0 [(numZ 2); (Sym (nm "b"%string) false)] ;;
  v3 <- minus W0 [(numZ 3); (Sym (nm "c"%string) true)] ;;
  v4 <- w_sum W0 [v2; v3] ;;
  v5 <- minus W0 [(Sym (nm "a"%string) true); v4] ;;
  v6 <- w_pos W0 v5 ;;
  v7 <- w_neg W0 v5 ;;
  ret [(negb v6); (negb v7)].
Definition t_sign_simplePosSum01 : res (list bool) :=
  v1 <- w_pow W0 (numZ 2) half ;;
  v2 <- w_sum W0 [(Sym (nm "a"%string) true); (Sym (nm "b"%string) true); v1; (Sym (nm "c"%string) true)] ;;
  v3 <- w_pos W0 v2 ;;
  v4 <- w_neg W0 v2 ;;
  ret [v3; (negb v4)].
Definition t_sign_simplePosSum02 : res (list bool) :=
  v2 <- minus W0 [(Cst CE)] ;;
  v3 <- w_sum W0 [(numZ 2); (Cst CPi); v2] ;;
  v4 <- w_pos W0 v3 ;;
  v5 <- w_neg W0 v3 ;;
  ret [v4; (negb v5)].
Definition t_sign_simpleNegativeSum01 : res (list bool) :=
  v2 <- minus W0 [(numZ 2); (Sym (nm "b"%string) true)] ;;
  v3 <- minus W0 [(numZ 3); (Sym (nm "c"%string) true)] ;;
  v4 <- w_sum W0 [v2; v3] ;;
  v5 <- w_pos W0 v4 ;;
  v6 <- w_neg W0 v4 ;;
  ret [(negb v5); v6].
Definition t_sign_simpleNegativeSum02 : res (list bool) :=
  v2 <- minus W0 [(Sym (nm "a"%string) true)] ;;
  v3 <- minus W0 [(numZ 2); (Cst CPi)] ;;
  v4 <- w_sum W0 [v2; (Num (frq ((- 2)) (3))); v3] ;;
  v5 <- w_pos W0 v4 ;;
  v6 <- w_neg W0 v4 ;;
  ret [(negb v5); v6].
Definition t_sign_simpleNegativeSum03 : res (list bool) :=
  v2 <- minus W0 [(Cst CPi)] ;;
  v3 <- w_sum W0 [(numZ 2); v2] ;;
  v4 <- w_pos W0 v3 ;;
  v5 <- w_neg W0 v3 ;;
  ret [(negb v4); v5].
Definition t_sign_simpleUnclearSumByDifferentSigns : res (list bool) :=
  v2 <- minus W0 [(Sym (nm "a"%string) true); (Sym (nm "b"%string) true)] ;;
  v3 <- w_sum W0 [v2; (Cst CPi); (Num (frq ((- 1)) (3))); (Sym (nm "c"%string) true)] ;;
  v4 <- w_pos W0 v3 ;;
  v5 <- w_neg W0 v3 ;;
  ret [(negb v4); (negb v5)].
Definition t_sign_simpleUnclearSumByNonPositiveSymbol : res (list bool) :=
  v2 <- minus W0 [(Sym (nm "a"%string) true)] ;;
  v3 <- minus W0 [(numZ 2); (Cst CPi)] ;;
  v4 <- minus W0 [(numZ 6); (Sym (nm "b"%string) false)] ;;
  v5 <- w_sum W0 [v2; (Num (frq ((- 2)) (3))); v3; v4] ;;
  v6 <- w_pos W0 v5 ;;
  v7 <- w_neg W0 v5 ;;
  ret [(negb v6); (negb v7)].
Definition t_sign_logarithmArgGreaterThanOne : res (list bool) :=
  v1 <- w_pow W0 (numZ 2) half ;;
  v2 <- w_prod W0 [(Cst CPi); (numZ 9); v1] ;;
  v3 <- w_sum W0 [v2; (numZ 5); (Cst CE)] ;;
  v4 <- w_log W0 v3 ;;
  v5 <- w_pos W0 v4 ;;
  v6 <- w_neg W0 v4 ;;
  ret [v5; (negb v6)].
Definition t_sign_logarithmArgLessThanOne : res (list bool) :=
  v2 <- w_sum W0 [(Cst CPi); (numZ ((- 3)))] ;;
  v3 <- w_log W0 v2 ;;
  v4 <- w_pos W0 v3 ;;
  v5 <- w_neg W0 v3 ;;
  ret [(negb v4); v5].
Definition t_sign_posButNumericallyNonEvaluableLogArgGreaterOne : res (list bool) :=
  v1 <- w_pow W0 (numZ 2) half ;;
  v2 <- w_prod W0 [(Cst CE); (numZ 9); v1] ;;
  v3 <- w_sum W0 [v2; (Sym (nm "a"%string) true)] ;;
  v4 <- w_log W0 v3 ;;
  v5 <- w_pos W0 v4 ;;
  v6 <- w_neg W0 v4 ;;
  ret [v5; (negb v6)].
Definition t_sign_tan : res (list bool) :=
  v2 <- w_trig W0 FTan (Sym (nm "a"%string) true) ;;
  v3 <- minus W0 [(Sym (nm "a"%string) true)] ;;
  v4 <- w_trig W0 FTan v3 ;;
  v5 <- w_trig W0 FTan (Sym (nm "a"%string) false) ;;
  v6 <- w_pos W0 v2 ;;
  v7 <- w_neg W0 v2 ;;
  v8 <- w_pos W0 v4 ;;
  v9 <- w_neg W0 v4 ;;
  v10 <- w_pos W0 v5 ;;
  v11 <- w_neg W0 v5 ;;
  ret [(negb v6); (negb v7); (negb v8); (negb v9); (negb v10); (negb v11)].
Definition t_sign_atan : res (list bool) :=
  v2 <- w_trig W0 FAtan (Sym (nm "a"%string) true) ;;
  v3 <- minus W0 [(Sym (nm "a"%string) true)] ;;
  v4 <- w_trig W0 FAtan v3 ;;
  v5 <- w_trig W0 FAtan (Sym (nm "a"%string) false) ;;
  v6 <- w_pos W0 v2 ;;
  v7 <- w_neg W0 v2 ;;
  v8 <- w_pos W0 v4 ;;
  v9 <- w_neg W0 v4 ;;
  v10 <- w_pos W0 v5 ;;
  v11 <- w_neg W0 v5 ;;
  ret [v6; (negb v7); (negb v8); v9; (negb v10); (negb v11)].
Definition t_sign_atan2 : res (list bool) :=
  v2 <- w_atan2 W0 (Sym (nm "a"%string) true) (Sym (nm "b"%string) true) ;;
  v3 <- minus W0 [(Sym (nm "a"%string) true)] ;;
  v4 <- w_atan2 W0 v3 (Sym (nm "b"%string) true) ;;
  v5 <- w_atan2 W0 (Sym (nm "a"%string) false) (Sym (nm "b"%string) true) ;;
  v6 <- w_pos W0 v2 ;;
  v7 <- w_neg W0 v2 ;;
  v8 <- w_pos W0 v4 ;;
  v9 <- w_neg W0 v4 ;;
  v10 <- w_pos W0 v5 ;;
  v11 <- w_neg W0 v5 ;;
  ret [(negb v6); (negb v7); (negb v8); (negb v9); (negb v10); (negb v11)].
Definition t_sign_sinSymbolic : res (list bool) :=
  v2 <- w_trig W0 FSin (Sym (nm "a"%string) true) ;;
  v3 <- minus W0 [(Sym (nm "a"%string) true)] ;;
  v4 <- w_trig W0 FSin v3 ;;
  v5 <- w_trig W0 FSin (Sym (nm "a"%string) false) ;;
  v6 <- w_pos W0 v2 ;;
  v7 <- w_neg W0 v2 ;;
  v8 <- w_pos W0 v4 ;;
  v9 <- w_neg W0 v4 ;;
  v10 <- w_pos W0 v5 ;;
  v11 <- w_neg W0 v5 ;;
  ret [(negb v6); (negb v7); (negb v8); (negb v9); (negb v10); (negb v11)].
Definition t_sign_sinNumericallyEvaluable : res (list bool) :=
  v2 <- w_trig W0 FSin (numZ 2) ;;
  v3 <- w_trig W0 FSin (numZ 4) ;;
  v4 <- w_pos W0 v2 ;;
  v5 <- w_neg W0 v2 ;;
  v6 <- w_pos W0 v3 ;;
  v7 <- w_neg W0 v3 ;;
  ret [v4; (negb v5); (negb v6); v7].
Definition t_sign_posPowerWithPositiveBase : res (list bool) :=
  v2 <- w_prod W0 [(numZ 2); (Sym (nm "b"%string) true)] ;;
  v3 <- w_sum W0 [(Sym (nm "a"%string) true); v2] ;;
  v4 <- w_sum W0 [(Sym (nm "a"%string) false); (Sym (nm "b"%string) false); (Sym (nm "c"%string) false); (numZ 10)] ;;
  v5 <- w_pow W0 v3 v4 ;;
  v6 <- w_pos W0 v5 ;;
  v7 <- w_neg W0 v5 ;;
  ret [v6; (negb v7)].
Definition t_sign_posPowerWithNegativeBase : res (list bool) :=
  v2 <- minus W0 [(Cst CPi)] ;;
  v3 <- w_pow W0 v2 (numZ 2) ;;
  v4 <- w_pos W0 v3 ;;
  v5 <- w_neg W0 v3 ;;
  ret [v4; (negb v5)].
Definition t_sign_unclearPower : res (list bool) :=
  v2 <- w_pow W0 (Sym (nm "a"%string) false) (Sym (nm "b"%string) true) ;;
  v3 <- w_pos W0 v2 ;;
  v4 <- w_neg W0 v2 ;;
  ret [(negb v3); (negb v4)].
Definition t_sign_posPowerWithUnclearBase : res (list bool) :=
  v2 <- w_pow W0 (Sym (nm "a"%string) false) (numZ 2) ;;
  v3 <- w_pos W0 v2 ;;
  v4 <- w_neg W0 v2 ;;
  ret [v3; (negb v4)].
Definition t_sign_mixedNegativeAndUnclear : res (list bool) :=
  v2 <- w_pow W0 (Sym (nm "a"%string) false) (numZ 6) ;;
  v3 <- minus W0 [(numZ 10); v2] ;;
  v4 <- minus W0 [(numZ 2); (Sym (nm "a"%string) true); (Sym (nm "b"%string) true); (Sym (nm "c"%string) true)] ;;
  v5 <- minus W0 [(Num (Qred (1 # 3))); (Cst CPi)] ;;
  v6 <- minus W0 [(Sym (nm "a"%string) true); (Sym (nm "b"%string) true)] ;;
  v7 <- w_sum W0 [v3; v4; v5; v6] ;;
  v8 <- w_pos W0 v7 ;;
  v9 <- w_neg W0 v7 ;;
  v10 <- w_subst W0 v7 (Sym (nm "b"%string) true) (Sym (nm "b"%string) false) ;;
  v11 <- w_subst W0 v7 (Sym (nm "b"%string) true) (Sym (nm "b"%string) false) ;;
  v12 <- w_pos W0 v11 ;;
  v13 <- w_subst W0 v7 (Sym (nm "b"%string) true) (Sym (nm "b"%string) false) ;;
  v14 <- w_neg W0 v13 ;;
  ret [(negb v8); v9; (negb v12); (negb v14)].
Definition t_sign_mixedPosAndUnclear : res (list bool) :=
  v2 <- w_pow W0 (Sym (nm "c"%string) false) (Num (frq (18) (19))) ;;
  v3 <- w_prod W0 [(Num (frq (5) (13))); v2] ;;
  v4 <- w_pow W0 (Sym (nm "a"%string) false) (numZ 2) ;;
  v5 <- minus W0 [(numZ 2); (Cst CPi)] ;;
  v6 <- w_prod W0 [(numZ 10); (Sym (nm "b"%string) true)] ;;
  v7 <- w_pow W0 (numZ (101)) half ;;
  v8 <- w_sum W0 [v4; v5; v6; v7] ;;
  v9 <- w_prod W0 [v3; v8] ;;
  v10 <- w_pos W0 v9 ;;
  v11 <- w_neg W0 v9 ;;
  v12 <- w_subst W0 v9 (Sym (nm "b"%string) true) (Sym (nm "b"%string) false) ;;
  v13 <- w_subst W0 v9 (Sym (nm "b"%string) true) (Sym (nm "b"%string) false) ;;
  v14 <- w_pos W0 v13 ;;
  v15 <- w_subst W0 v9 (Sym (nm "b"%string) true) (Sym (nm "b"%string) false) ;;
  v16 <- w_neg W0 v15 ;;
  ret [v10; (negb v11); (negb v14); (negb v16)].
Definition t_subst_undefinedToSymbol : res (list bool) :=
  v1 <- w_subst W0 Undef Undef (Sym (nm "a"%string) false) ;;
  ret [(sameE (Sym (nm "a"%string) false) v1)].
Definition t_subst_symbolToNumeric : res (list bool) :=
  v1 <- w_subst W0 (Sym (nm "a"%string) false) (Sym (nm "a"%string) false) (numZ 2) ;;
  ret [(sameE (numZ 2) v1)].
Definition t_subst_symbolNotToNumeric : res (list bool) :=
  v1 <- w_subst W0 (Sym (nm "a"%string) false) (Sym (nm "b"%string) false) (numZ 2) ;;
  ret [(sameE (Sym (nm "a"%string) false) v1)].
Definition t_subst_constantToSum : res (list bool) :=
  v1 <- w_sum W0 [(Sym (nm "a"%string) false); (Sym (nm "b"%string) false)] ;;
  v2 <- w_subst W0 (Cst CPi) (Cst CPi) v1 ;;
  ret [(sameE v1 v2)].
Definition t_subst_constantNotToNumeric : res (list bool) :=
  v1 <- w_subst W0 (Cst CPi) (Sym (nm "a"%string) false) (numZ 2) ;;
  ret [(sameE (Cst CPi) v1)].
Definition t_subst_numericToSymbol : res (list bool) :=
  v1 <- w_subst W0 (Num (frq (5) (17))) (Num (frq (5) (17))) (Sym (nm "a"%string) false) ;;
  ret [(sameE (Sym (nm "a"%string) false) v1)].
Definition t_subst_powerToSum : res (list bool) :=
  v1 <- w_sum W0 [(Sym (nm "a"%string) false); (Sym (nm "b"%string) false); (Sym (nm "c"%string) false)] ;;
  v2 <- w_pow W0 (Sym (nm "a"%string) false) (numZ 2) ;;
  v3 <- w_subst W0 v2 v2 v1 ;;
  ret [(sameE v1 v3)].
Definition t_subst_productToPower : res (list bool) :=
  v1 <- w_pow W0 (Sym (nm "a"%string) false) (Sym (nm "b"%string) false) ;;
  v2 <- w_prod W0 [(Sym (nm "a"%string) false); (Sym (nm "b"%string) false)] ;;
  v3 <- w_subst W0 v2 v2 v1 ;;
  ret [(sameE v1 v3)].
Definition t_subst_sumToSymbol : res (list bool) :=
  v1 <- w_sum W0 [(Sym (nm "a"%string) false); (Sym (nm "b"%string) false)] ;;
  v2 <- w_subst W0 v1 v1 (Sym (nm "a"%string) false) ;;
  ret [(sameE (Sym (nm "a"%string) false) v2)].
Definition t_subst_undefinedNoChange : res (list bool) :=
  v1 <- w_subst W0 Undef (Sym (nm "a"%string) false) (Sym (nm "b"%string) false) ;;
  ret [(isUndefined v1)].
Definition t_subst_cosineToConstant : res (list bool) :=
  v1 <- w_trig W0 FCos (Sym (nm "a"%string) false) ;;
  v2 <- w_subst W0 v1 v1 (Cst CPi) ;;
  ret [(sameE (Cst CPi) v2)].
Definition t_subst_atanArgToConstant : res (list bool) :=
  v1 <- w_trig W0 FAtan (Sym (nm "a"%string) false) ;;
  v2 <- w_trig W0 FAtan (Cst CPi) ;;
  v3 <- w_subst W0 v1 (Sym (nm "a"%string) false) (Cst CPi) ;;
  ret [(sameE v2 v3)].
Definition t_subst_sinToZero : res (list bool) :=
  v1 <- w_trig W0 FSin (Sym (nm "a"%string) false) ;;
  v2 <- w_subst W0 v1 (Sym (nm "a"%string) false) (Cst CPi) ;;
  ret [(isZero v2)].
Definition t_subst_atan2ToPiFourth : res (list bool) :=
  v1 <- w_atan2 W0 (Sym (nm "b"%string) false) (Sym (nm "a"%string) false) ;;
  v2 <- w_subst W0 v1 (Sym (nm "b"%string) false) (numZ 2) ;;
  v3 <- w_prod W0 [(Num (Qred (1 # 4))); (Cst CPi)] ;;
  v4 <- w_subst W0 v2 (Sym (nm "a"%string) false) (numZ 2) ;;
  ret [(isFunctionE v2); (sameE v3 v4)].
Definition t_subst_logToLog : res (list bool) :=
  v1 <- w_log W0 (Sym (nm "b"%string) false) ;;
  v2 <- w_log W0 (Sym (nm "a"%string) false) ;;
  v3 <- w_subst W0 v2 (Sym (nm "a"%string) false) (Sym (nm "b"%string) false) ;;
  ret [(sameE v1 v3)].
Definition t_subst_logToZero : res (list bool) :=
  v1 <- w_log W0 (Sym (nm "a"%string) false) ;;
  v2 <- w_subst W0 v1 (Sym (nm "a"%string) false) (numZ 1) ;;
  ret [(isZero v2)].
Definition t_subst_logEqualArg : res (list bool) :=
  v1 <- w_log W0 (Sym (nm "a"%string) false) ;;
  v2 <- w_subst W0 v1 v1 (Sym (nm "a"%string) false) ;;
  ret [(sameE (Sym (nm "a"%string) false) v2)].
Definition t_subst_powerToUndefined : res (list bool) :=
  v1 <- w_pow W0 (Sym (nm "a"%string) false) (numZ ((- 2))) ;;
  v2 <- w_subst W0 v1 (Sym (nm "a"%string) false) (numZ 0) ;;
  ret [(isUndefined v2)].
Definition t_subst_sumToUndefined : res (list bool) :=
  v1 <- w_sum W0 [(Sym (nm "a"%string) false); (Sym (nm "b"%string) false); (Sym (nm "c"%string) false); (Sym (nm "d"%string) false)] ;;
  v2 <- w_subst W0 v1 (Sym (nm "c"%string) false) Undef ;;
  ret [(isUndefined v2)].
Definition t_subst_sumToOne : res (list bool) :=
  v1 <- w_pow W0 (Sym (nm "b"%string) false) (Sym (nm "a"%string) false) ;;
  v2 <- w_sum W0 [(Sym (nm "b"%string) false); (Sym (nm "c"%string) false)] ;;
  v3 <- w_prod W0 [(Sym (nm "a"%string) false); v2] ;;
  v4 <- w_sum W0 [(Sym (nm "a"%string) false); v1; v3] ;;
  v5 <- w_subst W0 v4 (Sym (nm "a"%string) false) (numZ 0) ;;
  ret [(sameE (numZ 1) v5)].
Definition t_subst_noSubExpressionInSum : res (list bool) :=
  v1 <- w_sum W0 [(Sym (nm "a"%string) false); (Sym (nm "b"%string) false)] ;;
  v2 <- w_sum W0 [v1; (Sym (nm "c"%string) false)] ;;
  v3 <- w_subst W0 v2 v1 (numZ 2) ;;
  ret [(sameE v2 v3)].
Definition t_subst_noSubExpressionInProduct : res (list bool) :=
  v1 <- w_prod W0 [(Sym (nm "a"%string) false); (Sym (nm "b"%string) false)] ;;
  v2 <- w_prod W0 [(numZ 2); v1] ;;
  v3 <- w_subst W0 v2 v1 (numZ 3) ;;
  ret [(sameE v2 v3)].
Definition t_subst_powerExpanedBySubst : res (list bool) :=
  v1 <- w_pow W0 (Sym (nm "a"%string) false) (numZ 2) ;;
  v2 <- w_pow W0 (Sym (nm "b"%string) false) (numZ 2) ;;
  v3 <- w_prod W0 [v1; v2] ;;
  v4 <- w_prod W0 [(Sym (nm "a"%string) false); (Sym (nm "b"%string) false)] ;;
  v5 <- w_sum W0 [v4; (Sym (nm "c"%string) false); (Sym (nm "d"%string) false)] ;;
  v6 <- w_pow W0 v5 (numZ 2) ;;
  v7 <- w_subst W0 v6 (Sym (nm "c"%string) false) (numZ 0) ;;
  v8 <- w_subst W0 v7 (Sym (nm "d"%string) false) (numZ 0) ;;
  ret [(sameE v3 v8)].
Definition t_subst_numPowerSimplInSubstitution : res (list bool) :=
  v1 <- w_trig W0 FCos (Sym (nm "b"%string) false) ;;
  v2 <- w_prod W0 [(numZ 2); (Sym (nm "a"%string) false); v1] ;;
  v3 <- w_prod W0 [(Num (frq (5) (4))); (Cst CPi)] ;;
  v4 <- w_subst W0 v2 (Sym (nm "b"%string) false) v3 ;;
  v5 <- w_pow W0 (numZ 2) half ;;
  v6 <- minus W0 [v5; (Sym (nm "a"%string) false)] ;;
  ret [(sameE v6 v4)].
Definition t_subst_mixedTerm : res (list bool) :=
  v1 <- w_pow W0 (numZ 3) half ;;
  v2 <- w_pow W0 (numZ (17)) (Num (Qred (1 # 3))) ;;
  v3 <- w_prod W0 [(numZ 4); v2; (Sym (nm "a"%string) false)] ;;
  v4 <- w_prod W0 [(numZ 2); v2; (Sym (nm "b"%string) false)] ;;
  v5 <- w_sum W0 [v3; v4] ;;
  v6 <- w_sum W0 [(Sym (nm "a"%string) false); (Sym (nm "b"%string) false); v1] ;;
  v7 <- w_sum W0 [(Sym (nm "b"%string) false); (Sym (nm "c"%string) false)] ;;
  v8 <- oneOver W0 (Sym (nm "a"%string) false) ;;
  v9 <- w_prod W0 ((((([] ++ [(numZ 2)]) ++ [v1]) ++ [v6]) ++ [v7]) ++ [v8]) ;;
  v10 <- w_subst W0 v9 v1 (Sym (nm "a"%string) false) ;;
  v11 <- w_sum W0 [(Sym (nm "b"%string) false); (Sym (nm "c"%string) false)] ;;
  v12 <- w_subst W0 v10 v11 v2 ;;
  ret [(sameE v5 v12)].
Definition t_sum_undefinedToUndefined : res (list bool) :=
  v5 <- w_sum W0 [Undef; (Sym (nm "a"%string) false)] ;;
  ret [(isUndefined v5)].
Definition t_sum_createWithOneSummandGivenAsList : res (list bool) :=
  v5 <- w_sum W0 ([] ++ [(Sym (nm "a"%string) false)]) ;;
  ret [(sameE (Sym (nm "a"%string) false) v5)].
Definition t_sum_twoNumericSummands : res (list bool) :=
  v5 <- w_sum W0 [(numZ 2); (numZ 3)] ;;
  ret [(isNumericE v5); (sameN (numericEval refSys v5) (NQ (ofZ 5)))].
Definition t_sum_twoNumericSummandsResultingInZero : res (list bool) :=
  v5 <- w_sum W0 [(numZ 2); (numZ ((- 2)))] ;;
  ret [(isZero v5)].
Definition t_sum_zeroPlusZero : res (list bool) :=
  v5 <- w_sum W0 [(numZ 0); (numZ 0)] ;;
  ret [(isZero v5)].
Definition t_sum_symbolPlusZero : res (list bool) :=
  v5 <- w_sum W0 [(Sym (nm "a"%string) false); (numZ 0)] ;;
  ret [(sameE (Sym (nm "a"%string) false) v5)].
Definition t_sum_zeroPlusSymbol : res (list bool) :=
  v5 <- w_sum W0 [(numZ 0); (Sym (nm "a"%string) false)] ;;
  ret [(sameE (Sym (nm "a"%string) false) v5)].
Definition t_sum_rearrangeTwoSymbols : res (list bool) :=
  v5 <- w_sum W0 [(Sym (nm "b"%string) false); (Sym (nm "a"%string) false)] ;;
  ret [(isSumE v5); (sameE (Sym (nm "a"%string) false) (hd Undef (opsOf v5))); (sameE (Sym (nm "b"%string) false) (last (opsOf v5) Undef))].
Definition t_sum_rearrangeFiveSymbols : res (list bool) :=
  v5 <- w_sum W0 [(Sym (nm "e"%string) false); (Sym (nm "c"%string) false); (Sym (nm "a"%string) false); (Sym (nm "b"%string) false); (Sym (nm "d"%string) false)] ;;
  ret [(isSumE v5); (sameL [(Sym (nm "a"%string) false); (Sym (nm "b"%string) false); (Sym (nm "c"%string) false); (Sym (nm "d"%string) false); (Sym (nm "e"%string) false)] (opsOf v5))].
Definition t_sum_orderingOfMixedTerms : res (list bool) :=
  v3 <- w_pow W0 (numZ 2) half ;;
  v5 <- minus W0 [v3; (Sym (nm "a"%string) false)] ;;
  v6 <- w_sum W0 [(Sym (nm "a"%string) false); v5] ;;
  v7 <- minus W0 [v3; (Sym (nm "a"%string) false)] ;;
  v8 <- w_sum W0 [v7; (Sym (nm "a"%string) false)] ;;
  ret [(sameE v6 v8)].
Definition t_sum_collectSymbols : res (list bool) :=
  v5 <- w_sum W0 [(Sym (nm "a"%string) false); (Sym (nm "a"%string) false)] ;;
  ret [(isProductE v5); (2 =? (Z.of_nat (List.length (opsOf v5)))); (sameE (numZ 2) (hd Undef (opsOf v5))); (sameE (Sym (nm "a"%string) false) (last (opsOf v5) Undef))].
Definition t_sum_collectProducts : res (list bool) :=
  v5 <- w_prod W0 [(Sym (nm "a"%string) false); (Sym (nm "b"%string) false)] ;;
  v6 <- w_prod W0 [(numZ 2); v5] ;;
  v7 <- w_prod W0 [(numZ 3); v5] ;;
  v8 <- w_sum W0 [v6; v7] ;;
  ret [(isProductE v8); (sameL [(numZ 5); (Sym (nm "a"%string) false); (Sym (nm "b"%string) false)] (opsOf v8))].
Definition t_sum_collectProductOfSymbols : res (list bool) :=
  v5 <- w_prod W0 [(Sym (nm "a"%string) false); (Sym (nm "b"%string) false)] ;;
  v6 <- w_prod W0 [(numZ 3); v5] ;;
  v7 <- w_prod W0 [(numZ 2); v5] ;;
  v8 <- w_sum W0 [v7; v5] ;;
  ret [(sameE v8 v6)].
Definition t_sum_collectPower : res (list bool) :=
  v5 <- w_pow W0 (Sym (nm "a"%string) false) (numZ 3) ;;
  v6 <- w_prod W0 [(numZ 3); v5] ;;
  v7 <- w_sum W0 [v6; v5] ;;
  ret [(isProductE v7); (2 =? (Z.of_nat (List.length (opsOf v7)))); (sameE (numZ 4) (hd Undef (opsOf v7))); (sameE (Sym (nm "a"%string) false) (baseOf (last (opsOf v7) Undef))); (sameE (numZ 3) (expOf (last (opsOf v7) Undef)))].
Definition t_sum_collectProductOfPower : res (list bool) :=
  v5 <- w_pow W0 (Sym (nm "a"%string) false) (numZ 2) ;;
  v6 <- w_pow W0 (Sym (nm "b"%string) false) half ;;
  v7 <- w_prod W0 [v5; v6] ;;
  v8 <- minus W0 [v7] ;;
  v9 <- w_sum W0 [v7; v8] ;;
  ret [(isZero v9)].
Definition t_sum_twoSums : res (list bool) :=
  v5 <- w_sum W0 [(Sym (nm "a"%string) false); (Sym (nm "b"%string) false)] ;;
  v6 <- w_sum W0 [(Sym (nm "a"%string) false); (Sym (nm "c"%string) false)] ;;
  v7 <- w_sum W0 [v5; v6] ;;
  v8 <- w_prod W0 [(numZ 2); (Sym (nm "a"%string) false)] ;;
  ret [(isSumE v7); (sameL [v8; (Sym (nm "b"%string) false); (Sym (nm "c"%string) false)] (opsOf v7))].
Definition t_sum_sumOfSumAndSymbols : res (list bool) :=
  v5 <- w_sum W0 [(Sym (nm "a"%string) false); (Sym (nm "d"%string) false)] ;;
  v6 <- w_sum W0 [v5; (Sym (nm "e"%string) false); (Sym (nm "c"%string) false)] ;;
  ret [(isSumE v6); (sameL [(Sym (nm "a"%string) false); (Sym (nm "c"%string) false); (Sym (nm "d"%string) false); (Sym (nm "e"%string) false)] (opsOf v6))].
Definition t_sum_cancellationOfNumbersInTwoSums : res (list bool) :=
  v5 <- w_sum W0 [(numZ 1); (Sym (nm "a"%string) false)] ;;
  v6 <- w_sum W0 [(numZ (-1)); (Sym (nm "b"%string) false)] ;;
  v7 <- w_sum W0 [v5; v6] ;;
  ret [(isSumE v7); (2 =? (Z.of_nat (List.length (opsOf v7)))); (sameE (Sym (nm "a"%string) false) (hd Undef (opsOf v7))); (sameE (Sym (nm "b"%string) false) (last (opsOf v7) Undef))].
Definition t_sum_simpleCollectionOfNumericPowers : res (list bool) :=
  v3 <- w_pow W0 (numZ 2) half ;;
  v5 <- w_sum W0 [v3; v3] ;;
  v6 <- w_prod W0 [(numZ 2); v3] ;;
  ret [(isProductE v5); (sameE v6 v5)].
Definition t_sum_collectionOfNumericPowers : res (list bool) :=
  v3 <- w_pow W0 (numZ 2) half ;;
  v5 <- w_prod W0 [(numZ 2); v3] ;;
  v6 <- w_sum W0 [v5; v3] ;;
  v7 <- w_prod W0 [(numZ 3); v3] ;;
  ret [(isProductE v6); (sameE v7 v6)].
Definition t_sum_collectionOfNumericPowersInProduct : res (list bool) :=
  v3 <- w_pow W0 (numZ 2) half ;;
  v5 <- w_pow W0 (numZ 3) (Num (Qred (1 # 4))) ;;
  v6 <- w_prod W0 [v3; v5] ;;
  v7 <- w_prod W0 [(numZ 2); v6] ;;
  v8 <- w_sum W0 [v7; v6] ;;
  v9 <- w_prod W0 [(numZ 3); v6] ;;
  ret [(isProductE v8); (sameE v9 v8)].
Definition t_sum_collectNumericPowerProduct : res (list bool) :=
  v3 <- w_pow W0 (numZ 2) half ;;
  v4 <- w_pow W0 (numZ 3) half ;;
  v5 <- w_pow W0 (numZ 6) half ;;
  v6 <- w_prod W0 [(numZ 3); v5] ;;
  v7 <- w_sum W0 [(numZ 3); v6] ;;
  v8 <- w_prod W0 [v3; v4] ;;
  v9 <- w_sum W0 [(numZ 2); v8] ;;
  v10 <- w_prod W0 [(numZ 2); v8] ;;
  v11 <- w_sum W0 [(numZ 1); v10] ;;
  v12 <- w_sum W0 [v9; v11] ;;
  ret [(isSumE v12); (isConst v12); (sameE v7 v12)].
Definition t_sum_collectionOfConstCoeff : res (list bool) :=
  v4 <- w_pow W0 (numZ 3) half ;;
  v5 <- w_prod W0 [(numZ 2); (Sym (nm "a"%string) false)] ;;
  v6 <- w_prod W0 [v4; (Sym (nm "a"%string) false)] ;;
  v7 <- w_sum W0 [v5; v6] ;;
  ret [(isSumE v7); (sameE v5 (hd Undef (opsOf v7))); (sameE v6 (last (opsOf v7) Undef))].
Definition t_sum_collectionOfPi : res (list bool) :=
  v5 <- w_prod W0 [(numZ 2); (Cst CPi)] ;;
  v6 <- w_sum W0 [v5; (Cst CPi)] ;;
  v7 <- w_prod W0 [(numZ 3); (Cst CPi)] ;;
  ret [(sameE v7 v6)].
Definition t_sum_collectionOfE : res (list bool) :=
  v5 <- w_pow W0 (numZ 3) half ;;
  v6 <- w_prod W0 [(numZ 2); (Cst CE)] ;;
  v7 <- w_prod W0 [v5; (Cst CE)] ;;
  v8 <- w_sum W0 [v6; v7] ;;
  v9 <- w_sum W0 [(numZ 2); v5] ;;
  v10 <- w_prod W0 [v9; (Cst CE)] ;;
  ret [(sameE v10 v8)].
Definition t_sum_collectionOfPiTimesSymbol : res (list bool) :=
  v5 <- w_prod W0 [(Cst CPi); (Sym (nm "a"%string) false); (Sym (nm "b"%string) false)] ;;
  v6 <- w_prod W0 [(numZ 2); v5] ;;
  v7 <- w_sum W0 [v6; v5] ;;
  v8 <- w_prod W0 [(numZ 3); v5] ;;
  ret [(isProductE v7); (sameE v8 v7)].
Definition t_sum_noCollectionOfPiInDifferentProducts : res (list bool) :=
  v5 <- w_prod W0 [(numZ 3); (Cst CPi)] ;;
  v6 <- w_prod W0 [(numZ 2); (Cst CPi); (Sym (nm "a"%string) false)] ;;
  v7 <- w_sum W0 [v5; v6] ;;
  ret [(isSumE v7); (sameE v5 (hd Undef (opsOf v7))); (sameE v6 (last (opsOf v7) Undef))].
Definition t_sum_noCollectionOfNumberAndPi : res (list bool) :=
  v5 <- w_prod W0 [(Sym (nm "a"%string) false); (Sym (nm "b"%string) false)] ;;
  v6 <- w_prod W0 [(numZ 2); v5] ;;
  v7 <- w_prod W0 [(Cst CPi); v5] ;;
  v8 <- w_sum W0 [v6; v7] ;;
  ret [(isSumE v8); (sameE v6 (hd Undef (opsOf v8))); (sameE v7 (last (opsOf v8) Undef))].
Definition t_sum_collectionOfNumberNumPowAndPi : res (list bool) :=
  v4 <- w_pow W0 (numZ 3) half ;;
  v5 <- w_prod W0 [v4; (Cst CPi)] ;;
  v6 <- w_prod W0 [(numZ 6); v5] ;;
  v7 <- w_prod W0 [(numZ 2); v5] ;;
  v8 <- w_prod W0 [(numZ 4); v5] ;;
  v9 <- w_sum W0 [v7; v8] ;;
  ret [(sameE v6 v9)].
Definition t_sum_nonEqualConstTermsWithPi : res (list bool) :=
  v4 <- w_pow W0 (numZ 3) half ;;
  v5 <- w_prod W0 [(Cst CPi); (Sym (nm "a"%string) false); (Sym (nm "b"%string) false)] ;;
  v6 <- w_prod W0 [(numZ 2); v5] ;;
  v7 <- w_prod W0 [v4; v5] ;;
  v8 <- w_sum W0 [v6; v7] ;;
  ret [(isSumE v8); (sameE v6 (hd Undef (opsOf v8))); (sameE v7 (last (opsOf v8) Undef))].
Definition t_sum_noCollectionOfPiNumericPowCoeff : res (list bool) :=
  v4 <- w_pow W0 (numZ 3) half ;;
  v5 <- w_prod W0 [(numZ 2); (Cst CPi)] ;;
  v6 <- w_prod W0 [v4; (Cst CPi)] ;;
  v7 <- w_sum W0 [v5; v6] ;;
  ret [(isSumE v7); (sameE v5 (hd Undef (opsOf v7))); (sameE v6 (last (opsOf v7) Undef))].
Definition t_sum_sumOfEqualFunctionsEqualArgs : res (list bool) :=
  v1 <- w_trig W0 FSin (Sym (nm "a"%string) false) ;;
  v5 <- w_prod W0 [(numZ 3); v1] ;;
  v6 <- w_prod W0 [(numZ 2); v1] ;;
  v7 <- w_sum W0 [v1; v6] ;;
  ret [(sameE v5 v7)].
Definition t_sum_sumOfEqualFunctionsDifferentArguments : res (list bool) :=
  v1 <- w_trig W0 FSin (Sym (nm "a"%string) false) ;;
  v5 <- w_trig W0 FSin (Sym (nm "b"%string) false) ;;
  v6 <- w_sum W0 [v1; v5] ;;
  ret [(isSumE v6); (sameE v1 (hd Undef (opsOf v6))); (sameE v5 (last (opsOf v6) Undef))].
Definition t_sum_sumOfLogarithmDifferentArguments : res (list bool) :=
  v5 <- w_log W0 (numZ 2) ;;
  v6 <- w_log W0 (numZ 3) ;;
  v7 <- w_sum W0 [v5; v6] ;;
  ret [(isSumE v7); (sameE v5 (hd Undef (opsOf v7))); (sameE v6 (last (opsOf v7) Undef))].
Definition t_sum_sumOfLogarithmNoSimplification : res (list bool) :=
  v5 <- w_log W0 (Sym (nm "a"%string) false) ;;
  v6 <- w_log W0 (Sym (nm "b"%string) false) ;;
  v7 <- minus W0 [v6] ;;
  v8 <- w_sum W0 [v5; v7] ;;
  ret [(isSumE v8); (sameE v5 (hd Undef (opsOf v8))); (sameE v7 (last (opsOf v8) Undef))].
Definition t_sum_contractableSinCosSquareWithoutPrefactor : res (list bool) :=
  v1 <- w_trig W0 FSin (Sym (nm "a"%string) false) ;;
  v2 <- w_trig W0 FCos (Sym (nm "a"%string) false) ;;
  v5 <- w_pow W0 v1 (numZ 2) ;;
  v6 <- w_pow W0 v2 (numZ 2) ;;
  v7 <- w_sum W0 [v5; v6] ;;
  ret [(isOne v7)].
Definition t_sum_contractableSinCosSquarePrefactorMinusOne : res (list bool) :=
  v1 <- w_trig W0 FSin (Sym (nm "a"%string) false) ;;
  v2 <- w_trig W0 FCos (Sym (nm "a"%string) false) ;;
  v5 <- w_pow W0 v1 (numZ 2) ;;
  v6 <- minus W0 [v5] ;;
  v7 <- w_pow W0 v2 (numZ 2) ;;
  v8 <- minus W0 [v7] ;;
  v9 <- w_sum W0 [v6; v8] ;;
  ret [(sameE (numZ (-1)) v9)].
Definition t_sum_contractableSinCosSquareNegNumericPrefactor : res (list bool) :=
  v1 <- w_trig W0 FSin (Sym (nm "a"%string) false) ;;
  v2 <- w_trig W0 FCos (Sym (nm "a"%string) false) ;;
  v5 <- w_pow W0 v1 (numZ 2) ;;
  v6 <- w_prod W0 [(Num (frq ((- 17)) (18))); v5] ;;
  v7 <- w_pow W0 v2 (numZ 2) ;;
  v8 <- w_prod W0 [(Num (frq ((- 17)) (18))); v7] ;;
  v9 <- w_sum W0 [v6; v8] ;;
  ret [(sameE (Num (frq ((- 17)) (18))) v9)].
Definition t_sum_contractableSinCosSquarePosNumPowPrefactor : res (list bool) :=
  v1 <- w_trig W0 FSin (Sym (nm "a"%string) false) ;;
  v2 <- w_trig W0 FCos (Sym (nm "a"%string) false) ;;
  v5 <- w_pow W0 (numZ (12)) (Num (frq (1) (5))) ;;
  v6 <- w_pow W0 v2 (numZ 2) ;;
  v7 <- w_prod W0 [v5; v6] ;;
  v8 <- w_pow W0 v1 (numZ 2) ;;
  v9 <- w_prod W0 [v5; v8] ;;
  v10 <- w_sum W0 [v7; v9] ;;
  ret [(sameE v5 v10)].
Definition t_sum_contractableSinCosSquareNegNumPowPrefactor : res (list bool) :=
  v1 <- w_trig W0 FSin (Sym (nm "a"%string) false) ;;
  v2 <- w_trig W0 FCos (Sym (nm "a"%string) false) ;;
  v4 <- w_pow W0 (numZ 3) half ;;
  v5 <- w_pow W0 v2 (numZ 2) ;;
  v6 <- w_prod W0 [v4; v5] ;;
  v7 <- w_pow W0 v1 (numZ 2) ;;
  v8 <- w_prod W0 [v4; v7] ;;
  v9 <- w_sum W0 [v6; v8] ;;
  ret [(sameE v4 v9)].
Definition t_sum_nonContractableSinCosSquareNonEqualPrefactor : res (list bool) :=
  v1 <- w_trig W0 FSin (Sym (nm "a"%string) false) ;;
  v2 <- w_trig W0 FCos (Sym (nm "a"%string) false) ;;
  v5 <- w_pow W0 v1 (numZ 2) ;;
  v6 <- w_prod W0 [(numZ 3); v5] ;;
  v7 <- w_pow W0 v2 (numZ 2) ;;
  v8 <- w_prod W0 [(numZ 2); v7] ;;
  v9 <- w_sum W0 [v6; v8] ;;
  ret [(isSumE v9); (sameE v8 (hd Undef (opsOf v9))); (sameE v6 (last (opsOf v9) Undef))].
Definition t_symbol_emptyName : res (list bool) :=
  ret [(isUndefined Undef)].
Definition t_trigonometric_typeRequest : res (list bool) :=
  v4 <- w_trig W0 FSin (Sym (nm "a"%string) false) ;;
  ret [(isFunctionE v4)].
Definition t_trigonometric_constRequest : res (list bool) :=
  v5 <- w_trig W0 FCos (Sym (nm "a"%string) false) ;;
  v6 <- w_trig W0 FCos (numZ 2) ;;
  ret [(negb (isConst v5)); (negb (isConst v6))].
Definition t_trigonometric_trivialEquality : res (list bool) :=
  v4 <- w_trig W0 FSin (Sym (nm "a"%string) false) ;;
  ret [(isEqual v4 v4)].
Definition t_trigonometric_inequalityDifferentArg : res (list bool) :=
  v4 <- w_trig W0 FSin (Sym (nm "a"%string) false) ;;
  v5 <- w_trig W0 FSin (Sym (nm "b"%string) false) ;;
  ret [(negb (isEqual v4 v5))].
Definition t_trigonometric_inequalityDifferentTrigonometric : res (list bool) :=
  v4 <- w_trig W0 FSin (Sym (nm "a"%string) false) ;;
  v5 <- w_trig W0 FCos (Sym (nm "a"%string) false) ;;
  ret [(negb (isEqual v4 v5))].
Definition t_trigonometric_sinZero : res (list bool) :=
  v5 <- w_trig W0 FSin (numZ 0) ;;
  ret [(sameE (numZ 0) v5)].
Definition t_trigonometric_cos345Degree : res (list bool) :=
  v1 <- w_pow W0 (numZ 2) half ;;
  v5 <- w_prod W0 [(Num (frq (23) (12))); (Cst CPi)] ;;
  v6 <- w_pow W0 (numZ 6) half ;;
  v7 <- w_sum W0 [v6; v1] ;;
  v8 <- w_prod W0 [(Num (Qred (1 # 4))); v7] ;;
  v9 <- w_trig W0 FCos v5 ;;
  ret [(sameE v8 v9)].
Definition t_trigonometric_tan240Degree : res (list bool) :=
  v2 <- w_pow W0 (numZ 3) half ;;
  v5 <- w_prod W0 [(Num (frq (4) (3))); (Cst CPi)] ;;
  v6 <- w_trig W0 FTan v5 ;;
  ret [(sameE v2 v6)].
Definition t_trigonometric_atan2Order : res (list bool) :=
  v5 <- w_atan2 W0 (Sym (nm "a"%string) false) (Sym (nm "b"%string) false) ;;
  v6 <- w_atan2 W0 (Sym (nm "b"%string) false) (Sym (nm "a"%string) false) ;;
  ret [(sameE (Sym (nm "a"%string) false) (hd Undef (opsOf v5))); (sameE (Sym (nm "a"%string) false) (last (opsOf v6) Undef)); (sameE (Sym (nm "b"%string) false) (last (opsOf v5) Undef)); (sameE (Sym (nm "b"%string) false) (hd Undef (opsOf v6)))].
Definition t_trigonometric_atan2XZeroNonEvaluable : res (list bool) :=
  v5 <- w_atan2 W0 (Sym (nm "a"%string) false) (numZ 0) ;;
  ret [(isFunctionE v5); (sameE (Sym (nm "a"%string) false) (hd Undef (opsOf v5))); (sameE (numZ 0) (last (opsOf v5) Undef))].
Definition t_trigonometric_atan2FirstQuadrantResolvable : res (list bool) :=
  v5 <- w_prod W0 [(Num (frq (25) (180))); (Cst CPi)] ;;
  v6 <- w_trig W0 FSin v5 ;;
  v7 <- w_trig W0 FCos v5 ;;
  v8 <- w_atan2 W0 v6 v7 ;;
  ret [(sameE v5 v8)].
Definition t_trigonometric_atan2SecondQuadrantResolvable : res (list bool) :=
  v5 <- w_atan2 W0 (numZ 1) (numZ (-1)) ;;
  v6 <- w_prod W0 [(Cst CPi); (Num (frq (3) (4)))] ;;
  ret [(sameE v6 v5)].
Definition t_trigonometric_atan2ThirdQuadrantResolvable : res (list bool) :=
  v1 <- w_pow W0 (numZ 2) half ;;
  v5 <- w_sum W0 [(numZ 1); v1] ;;
  v6 <- w_prod W0 [(numZ ((- 3))); v5] ;;
  v7 <- w_atan2 W0 v6 (numZ ((- 3))) ;;
  v8 <- w_prod W0 [(Num (frq (11) (8))); (Cst CPi)] ;;
  ret [(sameE v8 v7)].
Definition t_trigonometric_atan2FourthQuadrantNonResolvable : res (list bool) :=
  v5 <- w_trig W0 FAtan (Num (Qred (1 # 2))) ;;
  v6 <- minus W0 [v5] ;;
  v7 <- w_atan2 W0 (numZ 1) (numZ ((- 2))) ;;
  ret [(sameE v6 v7)].
Definition t_trigonometric_atan2FourthQuadrantResolvable : res (list bool) :=
  v5 <- w_pow W0 (numZ 5) half ;;
  v6 <- minus W0 [v5] ;;
  v7 <- w_atan2 W0 v6 v5 ;;
  v8 <- w_prod W0 [(Cst CPi); (Num (frq (7) (4)))] ;;
  ret [(sameE v8 v7)].
Definition t_trigonometric_atan2XZeroEvaluable : res (list bool) :=
  v1 <- w_pow W0 (numZ 2) half ;;
  v5 <- minus W0 [(numZ 2); v1] ;;
  v6 <- w_atan2 W0 v5 (numZ 0) ;;
  v7 <- w_atan2 W0 v1 (numZ 0) ;;
  v8 <- w_prod W0 [(Num (Qred (1 # 2))); (Cst CPi)] ;;
  v9 <- w_prod W0 [(Num (frq (3) (2))); (Cst CPi)] ;;
  ret [(sameE v8 v7); (sameE v9 v6)].
Definition t_trigonometric_illegalAtan2 : res (list bool) :=
  v5 <- w_atan2 W0 (numZ 0) (numZ 0) ;;
  ret [(isUndefined v5)].
Definition t_trigonometric_undefinedArg : res (list bool) :=
  v5 <- w_trig W0 FSin Undef ;;
  ret [(isUndefined v5)].
Definition t_trigonometric_undefinedArgAtan : res (list bool) :=
  v5 <- w_atan2 W0 Undef (Sym (nm "a"%string) false) ;;
  v6 <- w_atan2 W0 (Sym (nm "a"%string) false) Undef ;;
  ret [(isUndefined v5); (isUndefined v6)].
Definition t_trigonometric_sinOfAsin : res (list bool) :=
  v5 <- w_trig W0 FAsin (Sym (nm "a"%string) false) ;;
  v6 <- w_trig W0 FSin v5 ;;
  ret [(sameE (Sym (nm "a"%string) false) v6)].
Definition t_trigonometric_sinOfNegativeSum : res (list bool) :=
  v5 <- minus W0 [(Sym (nm "a"%string) false); (Sym (nm "b"%string) false); (Sym (nm "c"%string) false)] ;;
  v6 <- w_prod W0 [(Num (frq ((- 7)) (8))); (Sym (nm "a"%string) false)] ;;
  v7 <- w_trig W0 FCos (Sym (nm "b"%string) false) ;;
  v8 <- minus W0 [(Sym (nm "a"%string) false); v7] ;;
  v9 <- w_sum W0 [v5; v6; v8] ;;
  v10 <- minus W0 [v9] ;;
  v11 <- w_trig W0 FSin v10 ;;
  v12 <- minus W0 [v11] ;;
  v13 <- w_trig W0 FSin v9 ;;
  ret [(sameE v12 v13)].
Definition t_trigonometric_sinOfNegativeProduct : res (list bool) :=
  v5 <- w_pow W0 (numZ 2) (Num (Qred (1 # 3))) ;;
  v6 <- w_prod W0 [(Num (frq ((- 1)) (5))); v5; (Sym (nm "a"%string) false)] ;;
  v7 <- w_trig W0 FSin v6 ;;
  v8 <- minus W0 [v6] ;;
  v9 <- w_trig W0 FSin v8 ;;
  v10 <- minus W0 [v9] ;;
  ret [(sameE v10 v7)].
Definition t_trigonometric_sinOfMinusAsin : res (list bool) :=
  v5 <- w_trig W0 FAsin (Sym (nm "a"%string) false) ;;
  v6 <- minus W0 [v5] ;;
  v7 <- w_trig W0 FSin v6 ;;
  v8 <- minus W0 [(Sym (nm "a"%string) false)] ;;
  ret [(sameE v8 v7)].
Definition t_trigonometric_cosOfAcos : res (list bool) :=
  v5 <- w_trig W0 FAcos (Sym (nm "a"%string) false) ;;
  v6 <- w_trig W0 FCos v5 ;;
  ret [(sameE (Sym (nm "a"%string) false) v6)].
Definition t_trigonometric_cosOfNegativeNumericArg : res (list bool) :=
  v5 <- w_trig W0 FCos (numZ ((- 2))) ;;
  v6 <- w_trig W0 FCos (numZ 2) ;;
  ret [(sameE v6 v5)].
Definition t_trigonometric_cosOfNegativeProduct : res (list bool) :=
  v5 <- w_sum W0 [(Sym (nm "a"%string) false); (Sym (nm "b"%string) false)] ;;
  v6 <- w_trig W0 FAtan v5 ;;
  v7 <- minus W0 [(Sym (nm "a"%string) false); (Sym (nm "b"%string) false); v6] ;;
  v8 <- w_trig W0 FCos v7 ;;
  v9 <- minus W0 [v7] ;;
  v10 <- w_trig W0 FCos v9 ;;
  ret [(sameE v10 v8)].
Definition t_trigonometric_cosOfMinusAcos : res (list bool) :=
  v5 <- w_prod W0 [(numZ 2); (Sym (nm "b"%string) false)] ;;
  v6 <- w_sum W0 [(Sym (nm "a"%string) false); v5] ;;
  v7 <- w_trig W0 FAcos v6 ;;
  v8 <- minus W0 [v7] ;;
  v9 <- w_trig W0 FCos v8 ;;
  ret [(sameE v6 v9)].
Definition t_trigonometric_tanOfAtan : res (list bool) :=
  v5 <- w_trig W0 FAtan (Sym (nm "a"%string) false) ;;
  v6 <- w_trig W0 FTan v5 ;;
  ret [(sameE (Sym (nm "a"%string) false) v6)].
Definition t_trigonometric_tanOfSimpleNegativeProduct : res (list bool) :=
  v5 <- w_trig W0 FTan (Sym (nm "a"%string) false) ;;
  v6 <- minus W0 [v5] ;;
  v7 <- minus W0 [(Sym (nm "a"%string) false)] ;;
  v8 <- w_trig W0 FTan v7 ;;
  ret [(sameE v6 v8)].
Definition t_trigonometric_atanOfNegSimpleProduct : res (list bool) :=
  v5 <- w_trig W0 FAtan (Sym (nm "a"%string) false) ;;
  v6 <- minus W0 [v5] ;;
  v7 <- minus W0 [(Sym (nm "a"%string) false)] ;;
  v8 <- w_trig W0 FAtan v7 ;;
  ret [(sameE v6 v8)].
Definition t_trigonometric_atanOfNegSum : res (list bool) :=
  v1 <- w_pow W0 (numZ 2) half ;;
  v5 <- minus W0 [(numZ 2); (Sym (nm "a"%string) false); (Sym (nm "b"%string) false); (Sym (nm "c"%string) false)] ;;
  v6 <- w_prod W0 [(Num (frq ((- 7)) (11))); v1] ;;
  v7 <- w_sum W0 [(Num (frq ((- 2)) (3))); (Sym (nm "a"%string) false)] ;;
  v8 <- w_log W0 v7 ;;
  v9 <- minus W0 [v8] ;;
  v10 <- w_sum W0 [v5; v6; v9] ;;
  v11 <- minus W0 [v10] ;;
  v12 <- w_trig W0 FAtan v11 ;;
  v13 <- minus W0 [v12] ;;
  v14 <- w_trig W0 FAtan v10 ;;
  ret [(sameE v13 v14)].
Definition t_trigonometric_tanOfMinusAtan : res (list bool) :=
  v5 <- w_trig W0 FAtan (Sym (nm "a"%string) false) ;;
  v6 <- minus W0 [v5] ;;
  v7 <- w_trig W0 FTan v6 ;;
  v8 <- minus W0 [(Sym (nm "a"%string) false)] ;;
  ret [(sameE v8 v7)].
Definition t_trigonometric_tanOfMinusAsin : res (list bool) :=
  v5 <- minus W0 [(Sym (nm "a"%string) false); (Sym (nm "a"%string) false)] ;;
  v6 <- w_sum W0 [(numZ 1); v5] ;;
  v7 <- w_pow W0 v6 (Num (frq ((- 1)) (2))) ;;
  v8 <- minus W0 [(Sym (nm "a"%string) false); v7] ;;
  v9 <- w_trig W0 FAsin (Sym (nm "a"%string) false) ;;
  v10 <- minus W0 [v9] ;;
  v11 <- w_trig W0 FTan v10 ;;
  ret [(sameE v8 v11)].
Definition t_trigonometric_sinOfCos : res (list bool) :=
  v5 <- w_trig W0 FSin (Sym (nm "a"%string) false) ;;
  v6 <- w_trig W0 FCos v5 ;;
  ret [(isFunctionE v6); (isFunctionE (hd Undef (opsOf v6))); (sameE (Sym (nm "a"%string) false) (hd Undef (opsOf (hd Undef (opsOf v6)))))].
Definition t_trigonometric_asinOfSin : res (list bool) :=
  v5 <- w_trig W0 FSin (Sym (nm "a"%string) false) ;;
  v6 <- w_trig W0 FAsin v5 ;;
  ret [(isFunctionE v6); (isFunctionE (hd Undef (opsOf v6))); (sameE (Sym (nm "a"%string) false) (hd Undef (opsOf (hd Undef (opsOf v6)))))].
Definition t_trigonometric_asinOfMinusSin : res (list bool) :=
  v5 <- w_trig W0 FSin (Sym (nm "a"%string) false) ;;
  v6 <- w_trig W0 FAsin v5 ;;
  v7 <- minus W0 [v6] ;;
  v8 <- w_trig W0 FSin (Sym (nm "a"%string) false) ;;
  v9 <- minus W0 [v8] ;;
  v10 <- w_trig W0 FAsin v9 ;;
  ret [(sameE v7 v10)].
Definition t_trigonometric_acosOfCos : res (list bool) :=
  v5 <- w_trig W0 FCos (Sym (nm "a"%string) false) ;;
  v6 <- w_trig W0 FAcos v5 ;;
  v7 <- w_trig W0 FCos (Sym (nm "a"%string) false) ;;
  ret [(isFunctionE v6); (1 =? (Z.of_nat (List.length (opsOf v6)))); (sameE v7 (hd Undef (opsOf v6)))].
Definition t_trigonometric_acosOfMinusCos : res (list bool) :=
  v5 <- w_trig W0 FCos (Sym (nm "a"%string) false) ;;
  v6 <- w_trig W0 FAcos v5 ;;
  v7 <- minus W0 [v6] ;;
  v8 <- w_sum W0 [(Cst CPi); v7] ;;
  v9 <- w_trig W0 FCos (Sym (nm "a"%string) false) ;;
  v10 <- minus W0 [v9] ;;
  v11 <- w_trig W0 FAcos v10 ;;
  ret [(sameE v8 v11)].
Definition t_trigonometric_asinOfSinOfNumEvalNoShift : res (list bool) :=
  v5 <- w_pow W0 (numZ 5) (Num (Qred (1 # 2))) ;;
  v6 <- minus W0 [v5] ;;
  v7 <- oneOver W0 v6 ;;
  v8 <- w_trig W0 FSin v7 ;;
  v9 <- w_trig W0 FAsin v8 ;;
  ret [(sameE v7 v9)].
Definition t_trigonometric_asinOfSinOfNumEvalNoShift2 : res (list bool) :=
  v5 <- w_trig W0 FSin (Num (frq (2) (17))) ;;
  v6 <- w_trig W0 FAsin v5 ;;
  ret [(sameE (Num (frq (2) (17))) v6)].
Definition t_trigonometric_asinOfSinOfNumEvalNegShift : res (list bool) :=
  v5 <- w_prod W0 [(Num (frq (13) (4))); (Cst CPi)] ;;
  v6 <- w_trig W0 FSin v5 ;;
  v7 <- w_trig W0 FAsin v6 ;;
  v8 <- w_prod W0 [(Num (frq ((- 1)) (4))); (Cst CPi)] ;;
  ret [(sameE v8 v7)].
Definition t_trigonometric_asinOfSinOfNumEvalNegShift2 : res (list bool) :=
  v5 <- w_pow W0 (Cst CPi) half ;;
  v6 <- w_prod W0 [(numZ (12)); v5] ;;
  v7 <- w_trig W0 FSin v6 ;;
  v8 <- w_trig W0 FAsin v7 ;;
  v9 <- w_prod W0 [(numZ 7); (Cst CPi)] ;;
  v10 <- minus W0 [v6] ;;
  v11 <- w_sum W0 [v9; v10] ;;
  ret [(sameE v11 v8)].
Definition t_trigonometric_asinOfSinOfNumEvalPosShift : res (list bool) :=
  v5 <- w_prod W0 [(Num (frq ((- 79)) (7))); (Cst CPi)] ;;
  v6 <- w_sum W0 [(Num (frq (2) (15))); v5] ;;
  v7 <- w_trig W0 FSin v6 ;;
  v8 <- w_trig W0 FAsin v7 ;;
  v9 <- w_prod W0 [(Num (frq (2) (7))); (Cst CPi)] ;;
  v10 <- w_sum W0 [v9; (Num (frq ((- 2)) (15)))] ;;
  ret [(sameE v10 v8)].
Definition t_trigonometric_asinOfSinOfNumEvalPosShift2 : res (list bool) :=
  v5 <- w_prod W0 [(Num (frq ((- 6)) (7))); (Cst CPi)] ;;
  v6 <- w_trig W0 FSin v5 ;;
  v7 <- w_trig W0 FAsin v6 ;;
  v8 <- w_prod W0 [(Num (frq ((- 1)) (7))); (Cst CPi)] ;;
  ret [(sameE v8 v7)].
Definition t_trigonometric_asinOfMinusAsinNumEval : res (list bool) :=
  v5 <- w_trig W0 FSin (Num (Qred (1 # 2))) ;;
  v6 <- minus W0 [v5] ;;
  v7 <- w_trig W0 FAsin v6 ;;
  ret [(sameE (Num (frq ((- 1)) (2))) v7)].
Definition t_trigonometric_atanOfTanNumEvalNoShift : res (list bool) :=
  v5 <- w_trig W0 FTan (Num (Qred (1 # 2))) ;;
  v6 <- w_trig W0 FAtan v5 ;;
  ret [(sameE (Num (Qred (1 # 2))) v6)].
Definition t_trigonometric_atanOfTanNumEvalWithNegShift : res (list bool) :=
  v5 <- minus W0 [(Cst CPi)] ;;
  v6 <- w_sum W0 [(numZ 2); v5] ;;
  v7 <- w_trig W0 FTan (Sym (nm "a"%string) false) ;;
  v8 <- w_trig W0 FAtan v7 ;;
  v9 <- w_subst W0 v8 (Sym (nm "a"%string) false) (numZ 2) ;;
  ret [(isFunctionE v8); (isFunctionE (hd Undef (opsOf v8))); (sameE v6 v9)].
Definition t_trigonometric_atanOfTanNumEvalWithPosShift : res (list bool) :=
  v5 <- w_pow W0 (numZ 3) half ;;
  v6 <- minus W0 [v5] ;;
  v7 <- w_prod W0 [(Num (frq ((- 23)) (21))); (Cst CPi)] ;;
  v8 <- w_sum W0 [v7; v6] ;;
  v9 <- w_trig W0 FTan v8 ;;
  v10 <- w_trig W0 FAtan v9 ;;
  v11 <- w_prod W0 [(Num (frq (19) (21))); (Cst CPi)] ;;
  v12 <- w_sum W0 [v11; v6] ;;
  ret [(sameE v12 v10)].
Definition t_trigonometric_atanOfMinusTanNumEval : res (list bool) :=
  v5 <- w_trig W0 FTan (Num (frq ((- 1)) (2))) ;;
  v6 <- minus W0 [v5] ;;
  v7 <- w_trig W0 FAtan v6 ;;
  ret [(sameE (Num (Qred (1 # 2))) v7)].
Definition t_trigonometric_acosOfCosNumEvalNoShift : res (list bool) :=
  v5 <- w_trig W0 FCos (Num (Qred (1 # 2))) ;;
  v6 <- w_trig W0 FAcos v5 ;;
  ret [(sameE (Num (Qred (1 # 2))) v6)].
Definition t_trigonometric_acosOfCosNumEvalPosShift : res (list bool) :=
  v5 <- w_pow W0 (numZ (21)) half ;;
  v6 <- w_prod W0 [(Num (frq (3) (8))); (Cst CPi)] ;;
  v7 <- w_sum W0 [v5; v6] ;;
  v8 <- minus W0 [v7] ;;
  v9 <- w_trig W0 FCos v8 ;;
  v10 <- w_trig W0 FAcos v9 ;;
  v11 <- w_prod W0 [(Num (frq (13) (8))); (Cst CPi)] ;;
  v12 <- minus W0 [v5] ;;
  v13 <- w_sum W0 [v11; v12] ;;
  ret [(sameE v13 v10)].
Definition t_trigonometric_acosOfCosNumEvalNegShiftAndCorrection : res (list bool) :=
  v5 <- w_prod W0 [(Num (frq (37) (11))); (Cst CPi)] ;;
  v6 <- w_trig W0 FCos v5 ;;
  v7 <- w_trig W0 FAcos v6 ;;
  v8 <- w_prod W0 [(Num (frq (7) (11))); (Cst CPi)] ;;
  ret [(sameE v8 v7)].
Definition t_trigonometric_acosOfCosNumEvalPosShiftAndCorrection : res (list bool) :=
  v5 <- w_pow W0 (numZ (21)) half ;;
  v6 <- minus W0 [(Cst CPi)] ;;
  v7 <- w_sum W0 [v5; v6] ;;
  v8 <- minus W0 [v7] ;;
  v9 <- w_trig W0 FCos v8 ;;
  v10 <- w_trig W0 FAcos v9 ;;
  v11 <- minus W0 [(Cst CPi)] ;;
  v12 <- w_sum W0 [v5; v11] ;;
  ret [(sameE v12 v10)].
Definition t_trigonometric_acosOfNegativeCosNumEvalWithShift : res (list bool) :=
  v5 <- w_trig W0 FCos (Num (Qred (1 # 2))) ;;
  v6 <- minus W0 [v5] ;;
  v7 <- w_trig W0 FAcos v6 ;;
  v8 <- w_sum W0 [(Cst CPi); (Num (frq ((- 1)) (2)))] ;;
  ret [(sameE v8 v7)].
Definition t_trigonometric_sinOfAcos : res (list bool) :=
  v3 <- w_pow W0 (Sym (nm "a"%string) false) (numZ 2) ;;
  v5 <- minus W0 [v3] ;;
  v6 <- w_sum W0 [(numZ 1); v5] ;;
  v7 <- w_pow W0 v6 half ;;
  v8 <- w_trig W0 FAcos (Sym (nm "a"%string) false) ;;
  v9 <- w_trig W0 FSin v8 ;;
  ret [(sameE v7 v9)].
Definition t_trigonometric_cosOfAsin : res (list bool) :=
  v3 <- w_pow W0 (Sym (nm "a"%string) false) (numZ 2) ;;
  v5 <- minus W0 [v3] ;;
  v6 <- w_sum W0 [(numZ 1); v5] ;;
  v7 <- w_pow W0 v6 half ;;
  v8 <- w_trig W0 FAsin (Sym (nm "a"%string) false) ;;
  v9 <- w_trig W0 FCos v8 ;;
  ret [(sameE v7 v9)].
Definition t_trigonometric_sinOfAtan : res (list bool) :=
  v3 <- w_pow W0 (Sym (nm "a"%string) false) (numZ 2) ;;
  v5 <- w_sum W0 [v3; (numZ 1)] ;;
  v6 <- w_pow W0 v5 (Num (frq ((- 1)) (2))) ;;
  v7 <- w_prod W0 [(Sym (nm "a"%string) false); v6] ;;
  v8 <- w_trig W0 FAtan (Sym (nm "a"%string) false) ;;
  v9 <- w_trig W0 FSin v8 ;;
  ret [(sameE v7 v9)].
Definition t_trigonometric_cosOfAtan : res (list bool) :=
  v5 <- w_pow W0 (Sym (nm "a"%string) false) (numZ 2) ;;
  v6 <- w_sum W0 [v5; (numZ 1)] ;;
  v7 <- w_pow W0 v6 (Num (frq ((- 1)) (2))) ;;
  v8 <- w_trig W0 FAtan (Sym (nm "a"%string) false) ;;
  v9 <- w_trig W0 FCos v8 ;;
  ret [(sameE v7 v9)].
Definition t_trigonometric_tanOfAsin : res (list bool) :=
  v5 <- w_pow W0 (Sym (nm "a"%string) false) (numZ 2) ;;
  v6 <- minus W0 [v5] ;;
  v7 <- w_sum W0 [(numZ 1); v6] ;;
  v8 <- w_pow W0 v7 (Num (frq ((- 1)) (2))) ;;
  v9 <- w_prod W0 [(Sym (nm "a"%string) false); v8] ;;
  v10 <- w_trig W0 FAsin (Sym (nm "a"%string) false) ;;
  v11 <- w_trig W0 FTan v10 ;;
  ret [(sameE v9 v11)].
Definition t_trigonometric_tanOfAcos : res (list bool) :=
  v3 <- w_pow W0 (Sym (nm "a"%string) false) (numZ 2) ;;
  v5 <- minus W0 [v3] ;;
  v6 <- w_sum W0 [(numZ 1); v5] ;;
  v7 <- w_pow W0 v6 half ;;
  v8 <- oneOver W0 (Sym (nm "a"%string) false) ;;
  v9 <- w_prod W0 [v7; v8] ;;
  v10 <- w_trig W0 FAcos (Sym (nm "a"%string) false) ;;
  v11 <- w_trig W0 FTan v10 ;;
  ret [(sameE v9 v11)].
Definition t_trigonometric_atan2OfSinCos : res (list bool) :=
  v4 <- w_trig W0 FSin (Sym (nm "a"%string) false) ;;
  v5 <- w_trig W0 FCos (Sym (nm "a"%string) false) ;;
  v6 <- w_atan2 W0 v4 v5 ;;
  ret [(isFunctionE v6); (sameE v4 (hd Undef (opsOf v6))); (sameE v5 (last (opsOf v6) Undef))].
Definition t_trigonometric_atan2OfNumericsNotResolvableArg : res (list bool) :=
  v5 <- w_atan2 W0 (Num (frq (2) (3))) (Num (frq (7) (11))) ;;
  v6 <- w_trig W0 FAtan (Num (frq (22) (21))) ;;
  ret [(sameE v6 v5)].
Definition t_trigonometric_atan2OfNumEvaluableNotResolvable : res (list bool) :=
  v1 <- w_pow W0 (numZ 2) half ;;
  v5 <- w_trig W0 FTan (Num (Qred (1 # 2))) ;;
  v6 <- w_log W0 v5 ;;
  v7 <- w_prod W0 [v1; (Cst CE)] ;;
  v8 <- w_trig W0 FCos (numZ 2) ;;
  v9 <- w_sum W0 [v7; (numZ 5); v8] ;;
  v10 <- w_atan2 W0 v6 v9 ;;
  v11 <- oneOver W0 v9 ;;
  v12 <- w_prod W0 [v6; v11] ;;
  v13 <- w_trig W0 FAtan v12 ;;
  ret [(sameE v13 v10)].
Definition t_trigonometric_atan2OfNegNumEvaluableArg : res (list bool) :=
  v5 <- w_atan2 W0 (Num (frq ((- 2)) (3))) (numZ 7) ;;
  v6 <- w_trig W0 FAtan (Num (frq (2) (21))) ;;
  v7 <- minus W0 [v6] ;;
  ret [(sameE v7 v5)].
Definition t_trigonometric_atan2OfNegSymbolicArg : res (list bool) :=
  v5 <- minus W0 [(Sym (nm "a"%string) false)] ;;
  v6 <- w_atan2 W0 v5 (Sym (nm "b"%string) false) ;;
  v7 <- minus W0 [(Sym (nm "a"%string) false)] ;;
  ret [(isFunctionE v6); (sameE v7 (hd Undef (opsOf v6))); (sameE (Sym (nm "b"%string) false) (last (opsOf v6) Undef))].
Definition t_trigonometric_tanOfAtan2 : res (list bool) :=
  v5 <- w_atan2 W0 (Sym (nm "b"%string) false) (Sym (nm "a"%string) false) ;;
  v6 <- w_trig W0 FTan v5 ;;
  v7 <- oneOver W0 (Sym (nm "a"%string) false) ;;
  v8 <- w_prod W0 [(Sym (nm "b"%string) false); v7] ;;
  ret [(sameE v8 v6)].
Definition t_trigonometric_cosOfAtan2 : res (list bool) :=
  v3 <- w_pow W0 (Sym (nm "a"%string) false) (numZ 2) ;;
  v5 <- w_atan2 W0 (Sym (nm "b"%string) false) (Sym (nm "a"%string) false) ;;
  v6 <- w_trig W0 FCos v5 ;;
  v7 <- w_pow W0 (Sym (nm "b"%string) false) (numZ 2) ;;
  v8 <- w_sum W0 [v3; v7] ;;
  v9 <- w_pow W0 v8 (Num (frq ((- 1)) (2))) ;;
  v10 <- w_prod W0 [(Sym (nm "a"%string) false); v9] ;;
  ret [(sameE v10 v6)].
Definition t_trigonometric_sinOfAtan2 : res (list bool) :=
  v3 <- w_pow W0 (Sym (nm "a"%string) false) (numZ 2) ;;
  v5 <- w_atan2 W0 (Sym (nm "b"%string) false) (Sym (nm "a"%string) false) ;;
  v6 <- w_trig W0 FSin v5 ;;
  v7 <- w_pow W0 (Sym (nm "b"%string) false) (numZ 2) ;;
  v8 <- w_sum W0 [v3; v7] ;;
  v9 <- w_pow W0 v8 (Num (frq ((- 1)) (2))) ;;
  v10 <- w_prod W0 [(Sym (nm "b"%string) false); v9] ;;
  ret [(sameE v10 v6)].
Definition t_trigonometric_sinOfAtan2NegDeltaYOnly : res (list bool) :=
  v5 <- minus W0 [(Sym (nm "a"%string) true)] ;;
  v6 <- w_atan2 W0 v5 (numZ 0) ;;
  v7 <- w_trig W0 FSin v6 ;;
  ret [(sameE (numZ (-1)) v7)].
Definition t_trigonometric_sinOfAtan2NegDeltaYSumOnly : res (list bool) :=
  v5 <- minus W0 [(Sym (nm "a"%string) true)] ;;
  v6 <- minus W0 [(Sym (nm "b"%string) true)] ;;
  v7 <- w_sum W0 [v5; v6] ;;
  v8 <- w_atan2 W0 v7 (numZ 0) ;;
  v9 <- w_trig W0 FSin v8 ;;
  ret [(sameE (numZ (-1)) v9)].
Definition t_trigonometric_numericTerm : res (list bool) :=
  v4 <- w_trig W0 FSin (Sym (nm "a"%string) false) ;;
  v5 <- numericTerm v4 ;;
  ret [(sameE (numZ 1) v5)].
Definition t_trigonometric_nonNumericTerm : res (list bool) :=
  v4 <- w_trig W0 FSin (Sym (nm "a"%string) false) ;;
  v5 <- nonNumericTerm W0 v4 ;;
  ret [(sameE v4 v5)].
Definition t_trigonometric_constTerm : res (list bool) :=
  v5 <- w_trig W0 FSin (numZ 2) ;;
  v6 <- constTerm W0 v5 ;;
  ret [(sameE (numZ 1) v6)].
Definition t_trigonometric_nonConstTerm : res (list bool) :=
  v5 <- w_trig W0 FSin (numZ 2) ;;
  v6 <- nonConstTerm W0 v5 ;;
  ret [(sameE v5 v6)].
Definition t_undefined_numericTerm : res (list bool) :=
  v1 <- numericTerm Undef ;;
  ret [(sameE (numZ 1) v1)].
Definition t_undefined_nonNumericTerm : res (list bool) :=
  v1 <- nonNumericTerm W0 Undef ;;
  ret [(isUndefined v1)].
Definition t_undefined_constTerm : res (list bool) :=
  v1 <- constTerm W0 Undef ;;
  ret [(sameE (numZ 1) v1)].
Definition t_undefined_nonConstTerm : res (list bool) :=
  v1 <- nonConstTerm W0 Undef ;;
  ret [(isUndefined v1)].
Definition t_undefined_equalityOtherUndefined : res (list bool) :=
  ret [(negb (isEqual Undef Undef)); (negb (isEqual Undef Undef)); (negb (isEqual Undef Undef)); (negb (isEqual Undef Undef))].
Definition t_var_posIntWithPosSign : res (list bool) :=
  ret [(sameE (numZ (1234567)) (numZ (1234567)))].
Definition t_var_negIntWithPosSign : res (list bool) :=
  ret [(sameE (numZ ((- 1234567))) (numZ (-1234567)))].
Definition t_var_sumHasSymbol : res (list bool) :=
  v4 <- w_sum W0 [(Sym (nm "a"%string) false); (Sym (nm "b"%string) false)] ;;
  v5 <- w_sum W0 [v4; (Sym (nm "c"%string) false)] ;;
  v6 <- w_sum W0 [(Sym (nm "a"%string) false); (Sym (nm "b"%string) false)] ;;
  ret [(has v5 (Sym (nm "a"%string) false)); (negb (has v5 v6))].
Definition t_var_substSymbolInProduct : res (list bool) :=
  v4 <- w_prod W0 [(numZ (2)); (Sym (nm "a"%string) false)] ;;
  v5 <- w_prod W0 [v4; (Sym (nm "b"%string) false)] ;;
  v6 <- w_prod W0 [v5; (Sym (nm "c"%string) false)] ;;
  v7 <- w_subst W0 v6 (Sym (nm "b"%string) false) (numZ (4)) ;;
  v8 <- w_prod W0 [(numZ (8)); (Sym (nm "a"%string) false)] ;;
  v9 <- w_prod W0 [v8; (Sym (nm "c"%string) false)] ;;
  ret [(sameE v9 v7)].
Definition t_var_substituteInSimpleSum : res (list bool) :=
  v4 <- oneOver W0 (Sym (nm "b"%string) false) ;;
  v5 <- w_prod W0 [(Sym (nm "a"%string) false); v4] ;;
  v6 <- w_prod W0 [(numZ (5)); (Sym (nm "b"%string) false)] ;;
  v7 <- oneOver W0 v6 ;;
  v8 <- w_prod W0 [(numZ (1)); v7] ;;
  v9 <- w_sum W0 [v5; v8] ;;
  v10 <- w_prod W0 [(numZ (3)); (Sym (nm "a"%string) false)] ;;
  v11 <- w_sum W0 [v10; (Num (frq (3) (5)))] ;;
  v12 <- w_subst W0 v9 (Sym (nm "b"%string) false) (Num (frq (1) (3))) ;;
  ret [(sameE v11 v12)].
Definition t_var_defaultAssignment : res (list bool) :=
  ret [(sameE (numZ 0) (numZ 0))].
Definition t_var_equalityOfSymbols : res (list bool) :=
  ret [(sameE (Sym (nm "a"%string) false) (Sym (nm "a"%string) false))].
Definition t_var_symbolMinusSymbolToZero : res (list bool) :=
  v4 <- minus W0 [(Sym (nm "a"%string) false)] ;;
  v5 <- w_sum W0 [(Sym (nm "a"%string) false); v4] ;;
  ret [(sameE (numZ (0)) v5)].
Definition t_var_symbolsMinusSymbolsToZero : res (list bool) :=
  v4 <- w_sum W0 [(Sym (nm "a"%string) false); (Sym (nm "b"%string) false)] ;;
  v5 <- w_sum W0 [v4; (Sym (nm "c"%string) false)] ;;
  v6 <- w_sum W0 [v5; (Sym (nm "d"%string) false)] ;;
  v7 <- w_sum W0 [(Sym (nm "a"%string) false); (Sym (nm "b"%string) false)] ;;
  v8 <- w_sum W0 [v7; (Sym (nm "c"%string) false)] ;;
  v9 <- w_sum W0 [v8; (Sym (nm "d"%string) false)] ;;
  v10 <- minus W0 [v9] ;;
  v11 <- w_sum W0 [v6; v10] ;;
  ret [(sameE (numZ (0)) v11)].
Definition t_var_addSameSymbol : res (list bool) :=
  v4 <- w_prod W0 [(numZ (8)); (Sym (nm "a"%string) false)] ;;
  v5 <- w_prod W0 [(numZ (6)); (Sym (nm "a"%string) false)] ;;
  v6 <- w_prod W0 [(numZ (2)); (Sym (nm "a"%string) false)] ;;
  v7 <- w_sum W0 [v5; v6] ;;
  ret [(sameE v4 v7)].
Definition t_var_addSameSymbolThreeTimes : res (list bool) :=
  v4 <- w_prod W0 [(numZ (3)); (Sym (nm "a"%string) false)] ;;
  v5 <- w_sum W0 [(Sym (nm "a"%string) false); (Sym (nm "a"%string) false)] ;;
  v6 <- w_sum W0 [v5; (Sym (nm "a"%string) false)] ;;
  ret [(sameE v4 v6)].
Definition t_var_addSymbolAndNumbers : res (list bool) :=
  v4 <- w_sum W0 [(numZ (4)); (Sym (nm "a"%string) false)] ;;
  v5 <- w_sum W0 [(numZ (3)); (Sym (nm "a"%string) false)] ;;
  v6 <- w_sum W0 [v5; (numZ (1))] ;;
  ret [(sameE v4 v6)].
Definition t_var_addSameSymbolAndNumbers : res (list bool) :=
  v4 <- w_prod W0 [(numZ (3)); (Sym (nm "a"%string) false)] ;;
  v5 <- w_sum W0 [(numZ (14)); v4] ;;
  v6 <- w_sum W0 [(Sym (nm "a"%string) false); (numZ (10))] ;;
  v7 <- w_prod W0 [(numZ (2)); (Sym (nm "a"%string) false)] ;;
  v8 <- w_sum W0 [v6; v7] ;;
  v9 <- w_sum W0 [v8; (numZ (4))] ;;
  ret [(sameE v5 v9)].
Definition t_var_addSameSymbolMultipledByFrac : res (list bool) :=
  v4 <- w_prod W0 [(Num (frq (1) (4))); (Sym (nm "a"%string) false)] ;;
  v5 <- w_prod W0 [(Num (frq (3) (4))); (Sym (nm "a"%string) false)] ;;
  v6 <- w_sum W0 [v4; v5] ;;
  ret [(sameE (Sym (nm "a"%string) false) v6)].
Definition t_var_collectMultipleSymbolsInSum : res (list bool) :=
  v4 <- w_sum W0 [(Sym (nm "a"%string) false); (Sym (nm "b"%string) false)] ;;
  v5 <- w_prod W0 [(numZ (2)); (Sym (nm "c"%string) false)] ;;
  v6 <- w_sum W0 [v4; v5] ;;
  v7 <- w_prod W0 [(numZ (2)); (Sym (nm "d"%string) false)] ;;
  v8 <- w_sum W0 [v6; v7] ;;
  v9 <- w_sum W0 [(Sym (nm "a"%string) false); (Sym (nm "c"%string) false)] ;;
  v10 <- w_sum W0 [v9; (Sym (nm "d"%string) false)] ;;
  v11 <- w_sum W0 [v10; (Sym (nm "b"%string) false)] ;;
  v12 <- w_sum W0 [v11; (Sym (nm "c"%string) false)] ;;
  v13 <- w_sum W0 [v12; (Sym (nm "d"%string) false)] ;;
  ret [(sameE v8 v13)].
Definition t_var_unaryPlusOperator : res (list bool) :=
  ret [(sameE (Sym (nm "a"%string) false) (Sym (nm "a"%string) false))].
Definition t_var_unaryMinusOperator : res (list bool) :=
  v4 <- w_prod W0 [(numZ ((- 1))); (Sym (nm "a"%string) false)] ;;
  v5 <- minus W0 [(Sym (nm "a"%string) false)] ;;
  ret [(sameE v4 v5)].
Definition t_var_divisionToPower : res (list bool) :=
  v4 <- w_pow W0 (Sym (nm "b"%string) false) (numZ ((- 1))) ;;
  v5 <- w_prod W0 [(Sym (nm "a"%string) false); v4] ;;
  v6 <- oneOver W0 (Sym (nm "b"%string) false) ;;
  v7 <- w_prod W0 [(numZ (1)); v6] ;;
  v8 <- w_prod W0 [v7; (Sym (nm "a"%string) false)] ;;
  ret [(sameE v5 v8)].
Definition t_var_divisionToFrac : res (list bool) :=
  v4 <- w_prod W0 [(Num (frq (1) (3))); (Sym (nm "a"%string) false)] ;;
  v5 <- w_prod W0 [v4; (Sym (nm "b"%string) false)] ;;
  v6 <- w_prod W0 [(Sym (nm "a"%string) false); (Sym (nm "b"%string) false)] ;;
  v7 <- oneOver W0 (numZ (3)) ;;
  v8 <- w_prod W0 [v6; v7] ;;
  ret [(sameE v5 v8)].
Definition t_var_productDividedByNumber : res (list bool) :=
  v4 <- w_prod W0 [(numZ (3)); (Sym (nm "b"%string) false)] ;;
  v5 <- w_prod W0 [v4; (Sym (nm "c"%string) false)] ;;
  v6 <- w_prod W0 [(numZ (12)); (Sym (nm "c"%string) false)] ;;
  v7 <- w_prod W0 [v6; (Sym (nm "b"%string) false)] ;;
  v8 <- oneOver W0 (numZ (4)) ;;
  v9 <- w_prod W0 [v7; v8] ;;
  ret [(sameE v5 v9)].
Definition t_var_multiplicationOfExpPosSymbol : res (list bool) :=
  v4 <- w_pow W0 (Sym (nm "a"%string) true) (Num (frq (10) (3))) ;;
  v5 <- w_pow W0 (Sym (nm "a"%string) true) (numZ (2)) ;;
  v6 <- w_pow W0 v5 (numZ (5)) ;;
  v7 <- w_pow W0 v6 (Num (frq (1) (3))) ;;
  ret [(sameE v4 v7)].
Definition t_var_multiplicationOfExpUnclearSymbol : res (list bool) :=
  v4 <- w_pow W0 (Sym (nm "a"%string) false) (Num (frq ((- 2)) (3))) ;;
  v5 <- oneOver W0 (Sym (nm "a"%string) false) ;;
  v6 <- w_prod W0 [(numZ (1)); v5] ;;
  v7 <- w_pow W0 v6 (Num (frq (2) (3))) ;;
  ret [(sameE v4 v7)].
Definition t_var_expansionPowerOfProduct : res (list bool) :=
  v4 <- w_prod W0 [(Sym (nm "a"%string) false); (Sym (nm "a"%string) false)] ;;
  v5 <- w_prod W0 [v4; (Sym (nm "b"%string) false)] ;;
  v6 <- w_prod W0 [v5; (Sym (nm "b"%string) false)] ;;
  v7 <- w_prod W0 [v6; (Sym (nm "c"%string) false)] ;;
  v8 <- w_prod W0 [v7; (Sym (nm "c"%string) false)] ;;
  v9 <- w_prod W0 [(Sym (nm "a"%string) false); (Sym (nm "b"%string) false)] ;;
  v10 <- w_prod W0 [v9; (Sym (nm "c"%string) false)] ;;
  v11 <- w_pow W0 v10 (numZ (2)) ;;
  ret [(sameE v8 v11)].
Definition t_var_fracOfSymbolsMultipliedByInverse : res (list bool) :=
  v4 <- oneOver W0 (Sym (nm "b"%string) false) ;;
  v5 <- w_prod W0 [(Sym (nm "a"%string) false); v4] ;;
  v6 <- oneOver W0 (Sym (nm "a"%string) false) ;;
  v7 <- w_prod W0 [(Sym (nm "b"%string) false); v6] ;;
  v8 <- w_prod W0 [v5; v7] ;;
  ret [(sameE v8 (numZ 1))].
Definition t_var_expAdditionEqualBase : res (list bool) :=
  v4 <- w_prod W0 [(Sym (nm "a"%string) false); (Sym (nm "b"%string) false)] ;;
  v5 <- w_pow W0 v4 (numZ (23)) ;;
  v6 <- w_prod W0 [(Sym (nm "a"%string) false); (Sym (nm "b"%string) false)] ;;
  v7 <- w_prod W0 [(Sym (nm "b"%string) false); (Sym (nm "a"%string) false)] ;;
  v8 <- w_pow W0 v6 (numZ (15)) ;;
  v9 <- w_pow W0 v7 (numZ (8)) ;;
  v10 <- w_prod W0 [v8; v9] ;;
  ret [(sameE v5 v10)].
Definition t_var_powerWithZeroBase : res (list bool) :=
  v4 <- w_pow W0 (numZ (0)) (numZ (2)) ;;
  ret [(sameE v4 (numZ 0))].
Definition t_var_powerWithBaseOne : res (list bool) :=
  v4 <- w_pow W0 (numZ (1)) (numZ (123)) ;;
  ret [(sameE v4 (numZ (1)))].
Definition t_var_powerWithZeroExp : res (list bool) :=
  v4 <- w_pow W0 (Sym (nm "a"%string) false) (numZ (0)) ;;
  ret [(sameE v4 (numZ 1))].
Definition t_var_powerWithExpOne : res (list bool) :=
  v4 <- w_pow W0 (Sym (nm "a"%string) false) (numZ (1)) ;;
  ret [(sameE (Sym (nm "a"%string) false) v4)].
Definition t_var_productWithZero : res (list bool) :=
  v4 <- w_prod W0 [(Sym (nm "a"%string) false); (Sym (nm "b"%string) false)] ;;
  v5 <- w_prod W0 [v4; (Sym (nm "d"%string) false)] ;;
  v6 <- w_prod W0 [v5; (numZ (0))] ;;
  ret [(sameE v6 (numZ 0))].
Definition t_var_productOfNumberAndSum : res (list bool) :=
  v4 <- w_prod W0 [(numZ (2)); (Sym (nm "a"%string) false)] ;;
  v5 <- w_prod W0 [(numZ (2)); (Sym (nm "b"%string) false)] ;;
  v6 <- w_sum W0 [v4; v5] ;;
  v7 <- w_sum W0 [(Sym (nm "a"%string) false); (Sym (nm "b"%string) false)] ;;
  v8 <- w_prod W0 [(numZ (2)); v7] ;;
  ret [(sameE v6 v8)].
Definition t_var_productOfConstAndConstSum : res (list bool) :=
  v1 <- w_pow W0 (numZ (2)) half ;;
  v2 <- w_pow W0 (numZ (3)) half ;;
  v3 <- w_pow W0 (numZ (6)) half ;;
  v4 <- w_prod W0 [(numZ (2)); v1] ;;
  v5 <- w_sum W0 [v4; v3] ;;
  v6 <- w_sum W0 [(numZ (2)); v2] ;;
  v7 <- w_prod W0 [v1; v6] ;;
  ret [(sameE v5 v7)].
Definition t_var_productOfConstPowerAndConstSum : res (list bool) :=
  v1 <- w_pow W0 (numZ (2)) half ;;
  v2 <- w_pow W0 (numZ (3)) half ;;
  v3 <- w_pow W0 (numZ (6)) half ;;
  v4 <- w_sum W0 [(numZ (1)); v1] ;;
  v5 <- w_prod W0 [v4; v2] ;;
  v6 <- w_sum W0 [v2; v3] ;;
  ret [(sameE v6 v5)].
Definition t_var_productOfNumberAndConstSum : res (list bool) :=
  v1 <- w_pow W0 (numZ (2)) half ;;
  v4 <- w_sum W0 [(numZ (4)); v1] ;;
  v5 <- w_prod W0 [(numZ (3)); v4] ;;
  v6 <- w_prod W0 [(numZ (3)); v1] ;;
  v7 <- w_sum W0 [(numZ (12)); v6] ;;
  ret [(sameE v7 v5)].
Definition t_var_productOfNumberNumPowAndSum : res (list bool) :=
  v1 <- w_pow W0 (numZ (2)) half ;;
  v4 <- w_prod W0 [(numZ (2)); v1] ;;
  v5 <- w_sum W0 [(Sym (nm "a"%string) false); (Sym (nm "b"%string) false)] ;;
  v6 <- w_prod W0 [v4; v5] ;;
  v7 <- w_prod W0 [(numZ (2)); v1] ;;
  v8 <- w_prod W0 [v7; (Sym (nm "a"%string) false)] ;;
  v9 <- w_prod W0 [(numZ (2)); v1] ;;
  v10 <- w_prod W0 [v9; (Sym (nm "b"%string) false)] ;;
  v11 <- w_sum W0 [v8; v10] ;;
  ret [(sameE v11 v6)].
Definition t_var_minusOneSquare : res (list bool) :=
  v4 <- w_pow W0 (numZ ((- 1))) (numZ (2)) ;;
  ret [(sameE v4 (numZ 1))].
Definition t_var_minusOneCubic : res (list bool) :=
  v4 <- w_pow W0 (numZ ((- 1))) (numZ (3)) ;;
  ret [(sameE v4 (numZ (- 1)))].
Definition t_var_simpleNumericPowerSimplification : res (list bool) :=
  v2 <- w_pow W0 (numZ (3)) half ;;
  v4 <- w_pow W0 (numZ (3)) (Num (frq ((- 1)) (2))) ;;
  v5 <- w_prod W0 [(numZ (2)); v4] ;;
  v6 <- w_prod W0 [(Num (frq (2) (3))); v2] ;;
  ret [(sameE v5 v6)].
Definition t_var_numericPowerSimplification : res (list bool) :=
  v4 <- minus W0 [(Num (frq (12) (23)))] ;;
  v5 <- w_pow W0 (Num (frq (126) (11))) v4 ;;
  v6 <- minus W0 [(Num (frq (12) (23)))] ;;
  v7 <- w_pow W0 (Num (frq (9) (11))) v6 ;;
  v8 <- minus W0 [(Num (frq (12) (23)))] ;;
  v9 <- w_pow W0 (numZ (2)) v8 ;;
  v10 <- w_prod W0 [v7; v9] ;;
  v11 <- w_pow W0 (Num (frq (1) (7))) (Num (frq (12) (23))) ;;
  v12 <- w_prod W0 [v10; v11] ;;
  ret [(sameE v5 v12)].
Definition t_var_simpleNumPowExtraction : res (list bool) :=
  v4 <- w_pow W0 (numZ (3)) (Num (frq (2) (3))) ;;
  v5 <- w_prod W0 [(Num (frq (1) (2))); v4] ;;
  v6 <- w_pow W0 (Num (frq (1) (3))) (Num (frq (1) (3))) ;;
  v7 <- w_prod W0 [(Num (frq (3) (2))); v6] ;;
  ret [(sameE v5 v7)].
Definition t_var_orderingOfProductOfConstants : res (list bool) :=
  v1 <- w_pow W0 (numZ (2)) half ;;
  v2 <- w_pow W0 (numZ (3)) half ;;
  v4 <- w_prod W0 [(numZ (3)); v2] ;;
  v5 <- w_prod W0 [v4; (numZ (10))] ;;
  v6 <- w_prod W0 [v5; v1] ;;
  v7 <- w_prod W0 [v6; (numZ (3))] ;;
  v8 <- w_prod W0 [v7; v1] ;;
  v9 <- w_prod W0 [(numZ (180)); v2] ;;
  ret [(sameE v9 v8)].
Definition t_var_constProductsEqualBaseAfterExtraction : res (list bool) :=
  v4 <- w_pow W0 (numZ (17)) (Num (frq (1) (6))) ;;
  v5 <- w_prod W0 [(numZ (119)); v4] ;;
  v6 <- w_pow W0 (numZ (17)) (Num (frq (2) (3))) ;;
  v7 <- w_pow W0 (numZ (833)) half ;;
  v8 <- w_prod W0 [v6; v7] ;;
  ret [(sameE v5 v8)].
Definition t_var_orderingOfLargeProductOfConstants : res (list bool) :=
  v4 <- w_pow W0 (numZ (2)) (Num (frq (3) (5))) ;;
  v5 <- w_prod W0 [(Num (frq (25) (33))); v4] ;;
  v6 <- w_pow W0 (numZ (17)) (Num (frq (2) (3))) ;;
  v7 <- w_prod W0 [v5; v6] ;;
  v8 <- w_pow W0 (Num (frq (1666) (3))) half ;;
  v9 <- w_prod W0 [v7; v8] ;;
  v10 <- w_prod W0 [(numZ (5)); (Num (frq (2) (9)))] ;;
  v11 <- w_pow W0 (numZ (3)) half ;;
  v12 <- w_prod W0 [v10; v11] ;;
  v13 <- w_pow W0 (numZ (2)) (Num (frq (1) (5))) ;;
  v14 <- w_prod W0 [v12; v13] ;;
  v15 <- w_pow W0 (numZ (17)) half ;;
  v16 <- w_prod W0 [v14; v15] ;;
  v17 <- w_prod W0 [v16; (Num (frq (10) (11)))] ;;
  v18 <- w_pow W0 (numZ (2)) half ;;
  v19 <- w_prod W0 [v17; v18] ;;
  v20 <- w_pow W0 (numZ (7)) half ;;
  v21 <- w_prod W0 [v19; v20] ;;
  v22 <- w_pow W0 (numZ (4)) (Num (frq (1) (5))) ;;
  v23 <- w_prod W0 [v21; v22] ;;
  v24 <- w_pow W0 (numZ (17)) (Num (frq (2) (3))) ;;
  v25 <- w_prod W0 [v23; v24] ;;
  v26 <- w_prod W0 [v25; (Num (frq (1) (4)))] ;;
  v27 <- w_pow W0 (numZ (7)) half ;;
  v28 <- w_prod W0 [v26; v27] ;;
  ret [(sameE v9 v28)].
Definition t_var_piInSum : res (list bool) :=
  v4 <- w_sum W0 [(numZ (2)); (Cst CPi)] ;;
  v5 <- w_pow W0 (numZ (5)) half ;;
  v6 <- w_prod W0 [(numZ (3)); v5] ;;
  v7 <- w_prod W0 [v6; (Cst CPi)] ;;
  v8 <- w_sum W0 [v4; v7] ;;
  v9 <- w_sum W0 [v8; (numZ (5))] ;;
  v10 <- w_sum W0 [v9; (Cst CPi)] ;;
  v11 <- w_prod W0 [(numZ (2)); (Cst CPi)] ;;
  v12 <- w_sum W0 [(numZ (7)); v11] ;;
  v13 <- w_pow W0 (numZ (5)) half ;;
  v14 <- w_prod W0 [(numZ (3)); v13] ;;
  v15 <- w_prod W0 [v14; (Cst CPi)] ;;
  v16 <- w_sum W0 [v12; v15] ;;
  ret [(sameE v16 v10)].
Definition t_var_collectConstTerms : res (list bool) :=
  v1 <- w_pow W0 (numZ (2)) half ;;
  v2 <- w_pow W0 (numZ (3)) half ;;
  v4 <- w_prod W0 [(numZ (2)); (Sym (nm "a"%string) false)] ;;
  v5 <- w_prod W0 [v1; (Sym (nm "a"%string) false)] ;;
  v6 <- w_sum W0 [v4; v5] ;;
  v7 <- w_prod W0 [v2; (Sym (nm "a"%string) false)] ;;
  v8 <- w_sum W0 [v6; v7] ;;
  v9 <- w_prod W0 [(numZ (5)); (Sym (nm "a"%string) false)] ;;
  v10 <- w_sum W0 [v8; v9] ;;
  v11 <- w_sum W0 [(numZ (7)); v1] ;;
  v12 <- w_sum W0 [v11; v2] ;;
  v13 <- w_prod W0 [v12; (Sym (nm "a"%string) false)] ;;
  ret [(sameE v13 v10)].
Definition t_var_simpleExpansion : res (list bool) :=
  v4 <- w_prod W0 [(Sym (nm "a"%string) false); (Sym (nm "b"%string) false)] ;;
  v5 <- w_prod W0 [v4; (Sym (nm "d"%string) false)] ;;
  v6 <- w_prod W0 [(Sym (nm "a"%string) false); (Sym (nm "c"%string) false)] ;;
  v7 <- w_prod W0 [v6; (Sym (nm "d"%string) false)] ;;
  v8 <- w_sum W0 [v5; v7] ;;
  v9 <- w_sum W0 [(Sym (nm "b"%string) false); (Sym (nm "c"%string) false)] ;;
  v10 <- w_prod W0 [(Sym (nm "a"%string) false); v9] ;;
  v11 <- w_prod W0 [v10; (Sym (nm "d"%string) false)] ;;
  v12 <- w_expand W0 v11 ;;
  ret [(sameE v8 v12)].
Definition t_var_dontCollectProductOfConstTerms : res (list bool) :=
  v1 <- w_pow W0 (numZ (2)) half ;;
  v2 <- w_pow W0 (numZ (3)) half ;;
  v3 <- w_pow W0 (numZ (6)) half ;;
  v4 <- w_pow W0 (numZ (5)) half ;;
  v5 <- w_pow W0 (numZ (15)) half ;;
  v6 <- w_prod W0 [(numZ (2)); v2] ;;
  v7 <- w_prod W0 [v6; v1] ;;
  v8 <- w_prod W0 [(numZ (3)); v2] ;;
  v9 <- w_prod W0 [v8; v4] ;;
  v10 <- w_sum W0 [v7; v9] ;;
  v11 <- w_prod W0 [(numZ (2)); v3] ;;
  v12 <- w_prod W0 [(numZ (3)); v5] ;;
  v13 <- w_sum W0 [v11; v12] ;;
  ret [(sameE v13 v10)].
Definition t_var_sumWithNumericAndNumPowProducts : res (list bool) :=
  v1 <- w_pow W0 (numZ (2)) half ;;
  v4 <- w_prod W0 [(Num (frq (7) (5))); v1] ;;
  v5 <- w_prod W0 [v4; (Sym (nm "a"%string) false)] ;;
  v6 <- w_prod W0 [(numZ (2)); v1] ;;
  v7 <- w_prod W0 [v6; (Sym (nm "a"%string) false)] ;;
  v8 <- w_prod W0 [(Num (frq (3) (5))); v1] ;;
  v9 <- w_prod W0 [v8; (Sym (nm "a"%string) false)] ;;
  v10 <- minus W0 [v9] ;;
  v11 <- w_sum W0 [v7; v10] ;;
  ret [(sameE v5 v11)].
Definition t_var_simpleExpandNumPowFactorResultingInZero : res (list bool) :=
  v1 <- w_pow W0 (numZ (2)) half ;;
  v4 <- w_prod W0 [v1; (Sym (nm "a"%string) false)] ;;
  v5 <- w_prod W0 [v1; (Sym (nm "a"%string) false)] ;;
  v6 <- minus W0 [v5] ;;
  v7 <- w_sum W0 [v4; v6] ;;
  ret [(sameE (numZ (0)) v7)].
Definition t_var_expandNumPowFactorResultingInZero : res (list bool) :=
  v1 <- w_pow W0 (numZ (2)) half ;;
  v2 <- w_pow W0 (numZ (3)) half ;;
  v4 <- w_prod W0 [v1; (Sym (nm "a"%string) false)] ;;
  v5 <- w_prod W0 [v2; (Sym (nm "b"%string) false)] ;;
  v6 <- minus W0 [v5] ;;
  v7 <- w_sum W0 [v4; v6] ;;
  v8 <- minus W0 [v2] ;;
  v9 <- w_prod W0 [v8; (Sym (nm "b"%string) false)] ;;
  v10 <- w_prod W0 [v1; (Sym (nm "a"%string) false)] ;;
  v11 <- w_sum W0 [v9; v10] ;;
  v12 <- minus W0 [v11] ;;
  v13 <- w_sum W0 [v7; v12] ;;
  ret [(sameE (numZ (0)) v13)].
Definition t_var_sumOfProduts : res (list bool) :=
  v4 <- w_sum W0 [(Sym (nm "a"%string) false); (Sym (nm "b"%string) false)] ;;
  v5 <- w_sum W0 [(Sym (nm "c"%string) false); (Sym (nm "d"%string) false)] ;;
  v6 <- w_prod W0 [v4; v5] ;;
  v7 <- w_prod W0 [(numZ (2)); v6] ;;
  v8 <- minus W0 [v6] ;;
  v9 <- w_sum W0 [v7; v8] ;;
  ret [(sameE v6 v9)].
Definition t_var_largeMixedTerm01 : res (list bool) :=
  v4 <- w_pow W0 (numZ (5)) (Num (frq (1) (3))) ;;
  v5 <- w_prod W0 [(numZ (7)); v4] ;;
  v6 <- w_pow W0 (numZ (6)) half ;;
  v7 <- w_prod W0 [v5; v6] ;;
  v8 <- minus W0 [v7] ;;
  v9 <- w_sum W0 [(numZ (1)); v8] ;;
  v10 <- w_prod W0 [v9; (Sym (nm "a"%string) false)] ;;
  v11 <- w_prod W0 [(numZ (3)); (Sym (nm "c"%string) false)] ;;
  v12 <- w_sum W0 [v10; v11] ;;
  v13 <- w_prod W0 [(numZ (2)); (Sym (nm "a"%string) false)] ;;
  v14 <- w_prod W0 [(numZ (2)); (Sym (nm "b"%string) false)] ;;
  v15 <- w_sum W0 [v13; v14] ;;
  v16 <- w_pow W0 (Sym (nm "d"%string) false) v15 ;;
  v17 <- w_prod W0 [(numZ (4)); v16] ;;
  v18 <- w_sum W0 [v12; v17] ;;
  v19 <- w_pow W0 (numZ (2)) half ;;
  v20 <- w_prod W0 [(numZ (2)); v19] ;;
  v21 <- w_prod W0 [v20; (Sym (nm "b"%string) false)] ;;
  v22 <- w_sum W0 [(Sym (nm "a"%string) false); v21] ;;
  v23 <- w_prod W0 [(numZ (3)); (Sym (nm "c"%string) false)] ;;
  v24 <- w_sum W0 [v22; v23] ;;
  v25 <- w_prod W0 [(numZ (7)); (Sym (nm "a"%string) false)] ;;
  v26 <- w_pow W0 (numZ (2)) half ;;
  v27 <- w_prod W0 [v25; v26] ;;
  v28 <- w_pow W0 (numZ (3)) half ;;
  v29 <- w_prod W0 [v27; v28] ;;
  v30 <- w_pow W0 (numZ (5)) (Num (frq (1) (3))) ;;
  v31 <- w_prod W0 [v29; v30] ;;
  v32 <- minus W0 [v31] ;;
  v33 <- w_sum W0 [v24; v32] ;;
  v34 <- w_prod W0 [(numZ (2)); (Sym (nm "b"%string) false)] ;;
  v35 <- w_prod W0 [(numZ (2)); (Sym (nm "a"%string) false)] ;;
  v36 <- w_sum W0 [v34; v35] ;;
  v37 <- w_pow W0 (Sym (nm "d"%string) false) v36 ;;
  v38 <- w_prod W0 [(numZ (4)); v37] ;;
  v39 <- w_sum W0 [v33; v38] ;;
  v40 <- w_prod W0 [(Sym (nm "b"%string) false); (numZ (2))] ;;
  v41 <- w_pow W0 (numZ (2)) half ;;
  v42 <- oneOver W0 v41 ;;
  v43 <- w_prod W0 [v40; v42] ;;
  v44 <- minus W0 [v43] ;;
  v45 <- w_sum W0 [v39; v44] ;;
  v46 <- w_pow W0 (numZ (2)) half ;;
  v47 <- w_prod W0 [(Sym (nm "b"%string) false); v46] ;;
  v48 <- minus W0 [v47] ;;
  v49 <- w_sum W0 [v45; v48] ;;
  ret [(sameE v18 v49)].
Definition t_var_largeMixedTerm02 : res (list bool) :=
  v4 <- w_pow W0 (numZ (2)) (Num (frq (1) (12))) ;;
  v5 <- w_prod W0 [(numZ (3)); v4] ;;
  v6 <- w_prod W0 [v5; (Sym (nm "a"%string) false)] ;;
  v7 <- w_prod W0 [v5; (Sym (nm "b"%string) false)] ;;
  v8 <- w_sum W0 [v6; v7] ;;
  v9 <- w_sum W0 [(Sym (nm "a"%string) false); (Sym (nm "b"%string) false)] ;;
  v10 <- w_sum W0 [(Sym (nm "c"%string) false); (Sym (nm "d"%string) false)] ;;
  v11 <- w_prod W0 [v9; v10] ;;
  v12 <- w_sum W0 [v8; v11] ;;
  v13 <- w_pow W0 (numZ (2)) (Num (frq (1) (3))) ;;
  v14 <- w_sum W0 [(Sym (nm "a"%string) false); (Sym (nm "b"%string) false)] ;;
  v15 <- w_prod W0 [v13; v14] ;;
  v16 <- w_pow W0 (numZ (2)) (Num (frq (1) (4))) ;;
  v17 <- w_prod W0 [v15; v16] ;;
  v18 <- w_pow W0 (numZ (2)) half ;;
  v19 <- w_prod W0 [v17; v18] ;;
  v20 <- w_sum W0 [(Sym (nm "b"%string) false); (Sym (nm "a"%string) false)] ;;
  v21 <- w_pow W0 (numZ (2)) (Num (frq (1) (12))) ;;
  v22 <- w_prod W0 [v20; v21] ;;
  v23 <- w_sum W0 [v19; v22] ;;
  v24 <- w_sum W0 [(Sym (nm "a"%string) false); (Sym (nm "b"%string) false)] ;;
  v25 <- w_sum W0 [(Sym (nm "d"%string) false); (Sym (nm "c"%string) false)] ;;
  v26 <- w_prod W0 [v24; v25] ;;
  v27 <- w_sum W0 [v23; v26] ;;
  ret [(sameE v12 v27)].
Definition t_var_largeMixedTerm03 : res (list bool) :=
  v4 <- w_prod W0 [(Num (frq (14) (15))); (Sym (nm "b"%string) false)] ;;
  v5 <- w_prod W0 [v4; (Sym (nm "c"%string) false)] ;;
  v6 <- w_pow W0 (Sym (nm "d"%string) false) (numZ ((- 1))) ;;
  v7 <- w_prod W0 [v5; v6] ;;
  v8 <- w_pow W0 (Sym (nm "e"%string) false) (numZ ((- 1))) ;;
  v9 <- w_prod W0 [v7; v8] ;;
  v10 <- w_sum W0 [(Sym (nm "d"%string) false); (Sym (nm "e"%string) false)] ;;
  v11 <- w_sum W0 [(numZ ((- 1))); (Sym (nm "d"%string) false)] ;;
  v12 <- w_sum W0 [v11; (Sym (nm "e"%string) false)] ;;
  v13 <- w_pow W0 v10 v12 ;;
  v14 <- w_prod W0 [v9; v13] ;;
  v15 <- w_prod W0 [(Sym (nm "c"%string) false); (Sym (nm "a"%string) false)] ;;
  v16 <- w_prod W0 [v15; (Sym (nm "b"%string) false)] ;;
  v17 <- w_sum W0 [(Sym (nm "d"%string) false); (Sym (nm "e"%string) false)] ;;
  v18 <- w_sum W0 [(Sym (nm "d"%string) false); (Sym (nm "e"%string) false)] ;;
  v19 <- w_pow W0 v17 v18 ;;
  v20 <- w_prod W0 [v16; v19] ;;
  v21 <- w_prod W0 [(Sym (nm "a"%string) false); (Sym (nm "e"%string) false)] ;;
  v22 <- w_prod W0 [v21; (Sym (nm "d"%string) false)] ;;
  v23 <- w_sum W0 [(Sym (nm "e"%string) false); (Sym (nm "d"%string) false)] ;;
  v24 <- w_prod W0 [v22; v23] ;;
  v25 <- oneOver W0 v24 ;;
  v26 <- w_prod W0 [v20; v25] ;;
  v27 <- w_prod W0 [v26; (Num (frq (14) (15)))] ;;
  ret [(sameE v14 v27)].
Definition t_var_largeMixedTerm04 : res (list bool) :=
  v1 <- w_pow W0 (numZ (2)) half ;;
  v4 <- w_sum W0 [(numZ (10)); v1] ;;
  v5 <- w_prod W0 [v4; (Sym (nm "a"%string) false)] ;;
  v6 <- w_pow W0 (Sym (nm "a"%string) false) (numZ (2)) ;;
  v7 <- w_prod W0 [(numZ (100)); v6] ;;
  v8 <- w_sum W0 [v5; v7] ;;
  v9 <- w_sum W0 [(numZ (3)); v1] ;;
  v10 <- w_prod W0 [v9; (Sym (nm "b"%string) false)] ;;
  v11 <- w_sum W0 [v8; v10] ;;
  v12 <- w_prod W0 [(numZ (2)); (Sym (nm "c"%string) false)] ;;
  v13 <- w_sum W0 [v11; v12] ;;
  v14 <- w_prod W0 [(Num (frq (13) (9))); (Sym (nm "d"%string) false)] ;;
  v15 <- w_sum W0 [v13; v14] ;;
  v16 <- w_prod W0 [(numZ (2)); (Sym (nm "b"%string) false)] ;;
  v17 <- w_sum W0 [(Sym (nm "a"%string) false); v16] ;;
  v18 <- w_prod W0 [(numZ (2)); (Sym (nm "c"%string) false)] ;;
  v19 <- w_sum W0 [v17; v18] ;;
  v20 <- w_prod W0 [(numZ (9)); (Sym (nm "a"%string) false)] ;;
  v21 <- w_sum W0 [v20; (Sym (nm "b"%string) false)] ;;
  v22 <- w_sum W0 [v21; (Sym (nm "d"%string) false)] ;;
  v23 <- w_sum W0 [v19; v22] ;;
  v24 <- w_pow W0 (numZ (2)) half ;;
  v25 <- w_sum W0 [(Sym (nm "a"%string) false); (Sym (nm "b"%string) false)] ;;
  v26 <- w_prod W0 [v24; v25] ;;
  v27 <- w_sum W0 [v23; v26] ;;
  v28 <- w_prod W0 [(numZ (4)); (Sym (nm "d"%string) false)] ;;
  v29 <- oneOver W0 (numZ (9)) ;;
  v30 <- w_prod W0 [v28; v29] ;;
  v31 <- w_sum W0 [v27; v30] ;;
  v32 <- w_prod W0 [(numZ (100)); (Sym (nm "a"%string) false)] ;;
  v33 <- w_prod W0 [v32; (Sym (nm "a"%string) false)] ;;
  v34 <- w_sum W0 [v31; v33] ;;
  ret [(sameE v15 v34)].
Definition t_var_acosOfCosOfThreePiFourth : res (list bool) :=
  v4 <- w_prod W0 [(numZ (7)); (Cst CPi)] ;;
  v5 <- oneOver W0 (numZ (4)) ;;
  v6 <- w_prod W0 [v4; v5] ;;
  v7 <- w_trig W0 FCos v6 ;;
  v8 <- w_trig W0 FAcos v7 ;;
  v9 <- oneOver W0 (numZ (4)) ;;
  v10 <- w_prod W0 [(Cst CPi); v9] ;;
  ret [(sameE v10 v8)].
Definition t_var_atan2OfResolvableArgs : res (list bool) :=
  v4 <- w_atan2 W0 (Num (frq ((- 123)) (28))) (Num (frq ((- 123)) (28))) ;;
  v5 <- w_prod W0 [(numZ (225)); (Cst CPi)] ;;
  v6 <- oneOver W0 (numZ (180)) ;;
  v7 <- w_prod W0 [v5; v6] ;;
  ret [(sameE v7 v4)].
Definition t_var_diffOfSum : res (list bool) :=
  v4 <- w_pow W0 (Sym (nm "a"%string) false) (numZ (3)) ;;
  v5 <- w_prod W0 [(numZ (2)); v4] ;;
  v6 <- w_prod W0 [(Sym (nm "a"%string) false); (Sym (nm "b"%string) false)] ;;
  v7 <- w_sum W0 [v5; v6] ;;
  v8 <- diffTop W0 40 v7 (Sym (nm "a"%string) false) ;;
  v9 <- w_prod W0 [(numZ (6)); (Sym (nm "a"%string) false)] ;;
  v10 <- w_prod W0 [v9; (Sym (nm "a"%string) false)] ;;
  v11 <- w_sum W0 [v10; (Sym (nm "b"%string) false)] ;;
  ret [(sameE v11 v8)].
Definition t_var_simplifyToZero : res (list bool) :=
  v4 <- w_prod W0 [(Sym (nm "a"%string) false); (Sym (nm "b"%string) false)] ;;
  v5 <- w_prod W0 [(Sym (nm "a"%string) false); (Sym (nm "c"%string) false)] ;;
  v6 <- w_sum W0 [v4; v5] ;;
  v7 <- w_sum W0 [(Sym (nm "b"%string) false); (Sym (nm "c"%string) false)] ;;
  v8 <- w_prod W0 [(Sym (nm "a"%string) false); v7] ;;
  v9 <- minus W0 [v8] ;;
  v10 <- w_sum W0 [v6; v9] ;;
  v11 <- w_expand W0 v10 ;;
  v12 <- simplifyVar W0 40 v10 ;;
  ret [(sameE v11 (numZ 0)); (sameE v12 (numZ 0))].
Definition t_var_comparisonPosAndNonPosSymbols : res (list bool) :=
  ret [(negb (sameE (Sym (nm "a_3"%string) true) (Sym (nm "a_3"%string) false)))].

(** unit-tests/testcoeff.cpp *)
Definition ran_coeff : list bool := Eval vm_compute in map passes [
  t_coeff_equalSymbolsExpOne;
  t_coeff_equalSymbolsExpZero;
  t_coeff_differentSymbolsExpOne;
  t_coeff_differentSymbolExpZero;
  t_coeff_symbolAndProductExpZero;
  t_coeff_numericEqualArgExpZero;
  t_coeff_numericEqualArgExpNotOne;
  t_coeff_numericDifferentArgExpZero;
  t_coeff_numericDifferentArgExpNotOne;
  t_coeff_powerEqualArgExpOne;
  t_coeff_powerEqualArgExpZero;
  t_coeff_powerDifferentArgExpNonZero;
  t_coeff_powerDifferentArgExpZero;
  t_coeff_powerArgsToPowerMatches;
  t_coeff_productEqualArgExpZero;
  t_coeff_productEqualArgExpOne;
  t_coeff_productDifferentArgExpZero;
  t_coeff_productDifferentArgExpNonZero;
  t_coeff_productFactorMatchesExpOne;
  t_coeff_productFactorMatchesArgsToPower;
  t_coeff_productFactorIsSubexpressionExpOne;
  t_coeff_productFactorArgsToSubexpression;
  t_coeff_sumEqualArgExpZero;
  t_coeff_sumDifferentArgExpZero;
  t_coeff_sumDifferentArgExpNonZero;
  t_coeff_summandMatchesExpOne;
  t_coeff_sumBaseHasVariable;
  t_coeff_simpleMonomial;
  t_coeff_simplePolynomial;
  t_coeff_summandMatchesArgsToPower;
  t_coeff_summandIsSubexpressionExpOne;
  t_coeff_summandArgsToSubexpression;
  t_coeff_sumIncludingFunctionTermsAndPowers].
Example conforms_coeff : forallb id ran_coeff = true.
Proof. reflexivity. Qed.

(** unit-tests/testcomparison.cpp *)
Definition ran_comparison : list bool := Eval vm_compute in map passes [
  t_comparison_equalSymbols;
  t_comparison_symbolsEqualNameOnePositive;
  t_comparison_equalConstants;
  t_comparison_differentSymbols;
  t_comparison_equalNumerics;
  t_comparison_differentNumerics;
  t_comparison_twoUndefined;
  t_comparison_equalPowers;
  t_comparison_differentExpPowers;
  t_comparison_diffBasePowers;
  t_comparison_equalProduct;
  t_comparison_differentProduct;
  t_comparison_differentProductByNumberOfFactors;
  t_comparison_equalSum;
  t_comparison_differentSum;
  t_comparison_equalProductOfSymbolAndPower;
  t_comparison_equalFunctions;
  t_comparison_functionsDifferentArg;
  t_comparison_functionsDifferentTrigonometric].
Example conforms_comparison : forallb id ran_comparison = true.
Proof. reflexivity. Qed.

(** unit-tests/testcomplexity.cpp *)
Definition ran_complexity : list bool := Eval vm_compute in map passes [
  t_complexity_trivialUndefined;
  t_complexity_integer;
  t_complexity_fraction;
  t_complexity_constant;
  t_complexity_symbol;
  t_complexity_sum;
  t_complexity_product;
  t_complexity_power;
  t_complexity_sinA;
  t_complexity_logarithmOfSymbol].
Example conforms_complexity : forallb id ran_complexity = true.
Proof. reflexivity. Qed.

(** unit-tests/testconstant.cpp *)
Definition ran_constant : list bool := Eval vm_compute in map passes [
  t_constant_constRequest;
  t_constant_typeRequest;
  t_constant_trivialEquality;
  t_constant_numericTerm;
  t_constant_nonNumericTerm;
  t_constant_constTerm;
  t_constant_nonConstTerm].
Example conforms_constant : forallb id ran_constant = true.
Proof. reflexivity. Qed.

(** unit-tests/testdegree.cpp *)
Definition ran_degree : list bool := Eval vm_compute in map passes [
  t_degree_equalSymbol;
  t_degree_equalFunction;
  t_degree_equalConstant;
  t_degree_equalSum;
  t_degree_equalProduct;
  t_degree_equalPower;
  t_degree_equalNumeric;
  t_degree_equalUndefined;
  t_degree_differentSymbols;
  t_degree_symbolDifferentType;
  t_degree_differentNumerics;
  t_degree_numericSymbol;
  t_degree_constantSymbol;
  t_degree_functionSum;
  t_degree_undefinedSymbol;
  t_degree_differentPowers;
  t_degree_sumProductNoSubExpression;
  t_degree_productPowerNoSubExpression;
  t_degree_simpleSum;
  t_degree_sumWithProduct;
  t_degree_sumWithMultipleExponents;
  t_degree_sumWithNegativeAndZeroDegree;
  t_degree_sumWithOnlyNegativeDegrees;
  t_degree_simpleProduct;
  t_degree_unexpandedProduct;
  t_degree_productWithNegativeExp;
  t_degree_simplePower;
  t_degree_simplePowerSumBase;
  t_degree_powerSumBase;
  t_degree_powerWithNegIntExp].
Example conforms_degree : forallb id ran_degree = true.
Proof. reflexivity. Qed.

(** unit-tests/testdiff.cpp *)
Definition ran_diff : list bool := Eval vm_compute in map passes [
  t_diff_numeric;
  t_diff_constant;
  t_diff_undefinedWrtSymbol;
  t_diff_symbolWrtItself;
  t_diff_symbolWrtOtherSymbol;
  t_diff_wrongArguments;
  t_diff_powerWithPosIntExp;
  t_diff_powerWithNegIntExp;
  t_diff_powerWithPosRationalExp;
  t_diff_powerOfEuler;
  t_diff_symbolPower;
  t_diff_logOfSymbol;
  t_diff_logOfSymbolWrtToDifferentSymbol;
  t_diff_sinOfSum;
  t_diff_cosOfLogarithmOfProduct;
  t_diff_tanOfSinOfSymbol;
  t_diff_asinOfCosOfPower;
  t_diff_acosOfSum;
  t_diff_atanOfPower;
  t_diff_atan2OfSymbols;
  t_diff_mixedTerm01;
  t_diff_mixedTerm02].
Example conforms_diff : forallb id ran_diff = true.
Proof. reflexivity. Qed.

(** unit-tests/testexpansion.cpp *)
Definition ran_expansion : list bool := Eval vm_compute in map passes [
  t_expansion_trivialNumeric;
  t_expansion_trivialSum;
  t_expansion_trivialUndefined;
  t_expansion_trivialConstant;
  t_expansion_trivialSymbol;
  t_expansion_powerOfSumPosIntExp;
  t_expansion_powerOfSumNegIntExp;
  t_expansion_powerOfSumPosFracExp;
  t_expansion_powerOfSumNegFracExp;
  t_expansion_powerOfSymbolicSumExp;
  t_expansion_numericPower;
  t_expansion_symbolTimesSum;
  t_expansion_symbolSumTimesSum;
  t_expansion_noExpansionOfFunctionArg;
  t_expansion_symbolSumProduct;
  t_expansion_mixedSumTimesSum;
  t_expansion_polynomial;
  t_expansion_sumWithTermsToExpand;
  t_expansion_expansionLeadsToZero;
  t_expansion_sumPowerOfThree;
  t_expansion_productOfPowersWithIntExp;
  t_expansion_fractionsWithSumInDenominator;
  t_expansion_sumsOfPowersWithIntExp;
  t_expansion_partialSumExpansionIsScalar].
Example conforms_expansion : forallb id ran_expansion = true.
Proof. reflexivity. Qed.

(** unit-tests/testfraction.cpp *)
Definition ran_fraction : list bool := Eval vm_compute in map passes [
  t_fraction_constructWithoutDenom;
  t_fraction_constructWithNumAndDenom;
  t_fraction_cancelZeroNumerator;
  t_fraction_cancelZeroDenominator].
Example conforms_fraction : forallb id ran_fraction = true.
Proof. reflexivity. Qed.

(** unit-tests/testfunctions.cpp *)
Definition ran_functions : list bool := Eval vm_compute in map passes [
  t_functions_squareRoot;
  t_functions_resolvableSquareRoot;
  t_functions_nonResolvableNumericSquareRoot;
  t_functions_powerEulerBaseLogExp;
  t_functions_logOfE;
  t_functions_logOfPowerWithBaseE;
  t_functions_logOfPower;
  t_functions_sinePiOverSix;
  t_functions_sinePiOverThree;
  t_functions_sineSevenPiOverFour;
  t_functions_cosFivePiOverFour;
  t_functions_tanTwoThirdPi;
  t_functions_asinHalf;
  t_functions_acosMinusOneOverSqrtTwo;
  t_functions_atanMinusOneOverSqrtThree].
Example conforms_functions : forallb id ran_functions = true.
Proof. reflexivity. Qed.

(** unit-tests/testgcd.cpp *)
Definition ran_gcd : list bool := Eval vm_compute in map passes [
  t_gcd_twoIntegerNumerics;
  t_gcd_twoRationalNumerics;
  t_gcd_twoIntegerNumericsWithGcdOne;
  t_gcd_equalSums;
  t_gcd_bothZero;
  t_gcd_bothZeroAfterExpansion;
  t_gcd_firstArgZeroAfterExpansion;
  t_gcd_secondArgZeroAfterExpansion;
  t_gcd_firstArgOneAfterExpansion;
  t_gcd_secondArgOneAfterExpansion;
  t_gcd_noCommonSymbol;
  t_gcd_numericsAfterExpansion;
  t_gcd_equalAfterExpansion;
  t_gcd_negAndPosSymbol;
  t_gcd_posPowerAndNegNumFactor;
  t_gcd_negNumFactorAndPosPower;
  t_gcd_negSymbolAndSimplePower;
  t_gcd_simpleUnivarMonomial;
  t_gcd_numericAndSimpleMonomial;
  t_gcd_simpleMultivarPoly;
  t_gcd_simpleMultivarPolyCohenExample;
  t_gcd_rationalCoefficients;
  t_gcd_simpleFractionCoefficients;
  t_gcd_simpleIntegerCoefficientsAllExpOne;
  t_gcd_simpleIntegerCoefficientsExpGreaterOne;
  t_gcd_integerCoefficientsLargerIntExp;
  t_gcd_simpleIntegerCoefficients;
  t_gcd_integerCoefficients;
  t_gcd_largeMultivarPolyCohenExample].
Example conforms_gcd : forallb id ran_gcd = true.
Proof. reflexivity. Qed.

(** unit-tests/testhas.cpp *)
Definition ran_has : list bool := Eval vm_compute in map passes [
  t_has_equalSymbols;
  t_has_differentSymbols;
  t_has_equalNumerics;
  t_has_differentNumerics;
  t_has_equalConstant;
  t_has_equalUndefined;
  t_has_differentScalarTypes;
  t_has_equalProducts;
  t_has_differentProducts;
  t_has_subProductsMultipleFactors;
  t_has_subProductsOneFactor;
  t_has_differentSums;
  t_has_subSumMultipleSummands;
  t_has_subSumOneSummand;
  t_has_equalPowers;
  t_has_differentPowers;
  t_has_baseOfPower;
  t_has_exponentOfPower;
  t_has_equalFunctions;
  t_has_differentFunctions;
  t_has_argOfFunction].
Example conforms_has : forallb id ran_has = true.
Proof. reflexivity. Qed.

(** unit-tests/testint.cpp *)
Definition ran_int : list bool := Eval vm_compute in map passes [
  t_int_equality;
  t_int_powerWithZeroExp;
  t_int_power;
  t_int_unaryPlusOperator;
  t_int_multiplication].
Example conforms_int : forallb id ran_int = true.
Proof. reflexivity. Qed.

(** unit-tests/testlogarithm.cpp *)
Definition ran_logarithm : list bool := Eval vm_compute in map passes [
  t_logarithm_logOfZero;
  t_logarithm_logOfOne;
  t_logarithm_logOfUndefinedArg;
  t_logarithm_logOfE;
  t_logarithm_logOfPi;
  t_logarithm_logOfRationalNumericArg;
  t_logarithm_logOfValidNumericallyEvaluable;
  t_logarithm_logOfNegativeArgument;
  t_logarithm_logOfInvalidNumericallyEvaluableLessThanZero;
  t_logarithm_logOfSymbolicSum;
  t_logarithm_logOfPowerWithNegEulerBasePosNumericExp;
  t_logarithm_logOfPowerWithEulerBaseNegNumericExp;
  t_logarithm_logOfPowerWithEulerBasePosNumericExp;
  t_logarithm_logOfPowerWithEulerBaseArbitraryExp;
  t_logarithm_logOfPower;
  t_logarithm_logOfSymbolicPower].
Example conforms_logarithm : forallb id ran_logarithm = true.
Proof. reflexivity. Qed.

(** unit-tests/testnormal.cpp *)
Definition ran_normal : list bool := Eval vm_compute in map passes [
  t_normal_numericInteger;
  t_normal_numericFraction;
  t_normal_symbol;
  t_normal_constantPi;
  t_normal_constantE;
  t_normal_undefinedToUndefined;
  t_normal_powerWithPosIntExp;
  t_normal_powerWithPosNegExp;
  t_normal_powerWithSymbolExp;
  t_normal_powerWithMinusSymbolExp;
  t_normal_powerWithPiExp;
  t_normal_powerWithNegNumEvalExp;
  t_normal_simpleSum;
  t_normal_simpleSumToZero;
  t_normal_simpleSumWithFractionCoeff;
  t_normal_sum;
  t_normal_longSimpleSum;
  t_normal_fractionsOfNumPowersAndFunctions01;
  t_normal_fractionsOfNumPowersAndFunctions02;
  t_normal_fractionSumWithPiExp;
  t_normal_sumWithNumPowerOfFractions;
  t_normal_trigonometricFunctionArgToZero;
  t_normal_logarithmicFunctionArgToZero;
  t_normal_logarithmicFunction;
  t_normal_trigoPowerSumComposite;
  t_normal_tanToSinOverCos;
  t_normal_tanInDenominator].
Example conforms_normal : forallb id ran_normal = true.
Proof. reflexivity. Qed.

(** unit-tests/testnumber.cpp *)
Definition ran_number : list bool := Eval vm_compute in map passes [
  t_number_one;
  t_number_unaryPlus].
Example conforms_number : forallb id ran_number = true.
Proof. reflexivity. Qed.

(** unit-tests/testnumeric.cpp *)
Definition ran_numeric : list bool := Eval vm_compute in map passes [
  t_numeric_creationByNumber;
  t_numeric_creationByIntegerClass;
  t_numeric_creationWithZeroDenominator;
  t_numeric_creationByInt;
  t_numeric_creationByFraction;
  t_numeric_numericEvaluation].
Example conforms_numeric : forallb id ran_numeric = true.
Proof. reflexivity. Qed.

(** unit-tests/testnumtrigosimpl.cpp *)
Definition ran_numtrigosimpl : list bool := Eval vm_compute in map passes [
  t_numtrigosimpl_triviallyZero;
  t_numtrigosimpl_eightPi;
  t_numtrigosimpl_minusTwoPi;
  t_numtrigosimpl_minusPi;
  t_numtrigosimpl_piFourth;
  t_numtrigosimpl_threeFourthPi;
  t_numtrigosimpl_fiveFourthPi;
  t_numtrigosimpl_sevenFourthPi;
  t_numtrigosimpl_threePiOverEight;
  t_numtrigosimpl_cosLeadsToNewAdjustment;
  t_numtrigosimpl_unresolvableNumeric;
  t_numtrigosimpl_unresolvableNumericPower;
  t_numtrigosimpl_undefinedTan;
  t_numtrigosimpl_inverseZero;
  t_numtrigosimpl_inverseOneOverSqrtTwo;
  t_numtrigosimpl_inverseNegativeArg;
  t_numtrigosimpl_inverseFromSum;
  t_numtrigosimpl_inverseNegativeSum;
  t_numtrigosimpl_atanNegativeArg;
  t_numtrigosimpl_atanNegativeSum;
  t_numtrigosimpl_inverseFromSumAtan;
  t_numtrigosimpl_noSimplification;
  t_numtrigosimpl_noSimplificationInverse;
  t_numtrigosimpl_noSimplificationLargeInput;
  t_numtrigosimpl_greaterThanRange;
  t_numtrigosimpl_inverseUnresolvableNumeric].
Example conforms_numtrigosimpl : forallb id ran_numtrigosimpl = true.
Proof. reflexivity. Qed.

(** unit-tests/testorder.cpp *)
Definition ran_order : list bool := Eval vm_compute in map passes [
  t_order_twoUndefined;
  t_order_oneUndefined;
  t_order_twoConstants;
  t_order_twoSymbolsAlphanumericNames;
  t_order_twoEqualSymbols;
  t_order_twoSymbolsOnePositive;
  t_order_twoSymbolsCapitalSmall;
  t_order_twoSymbolsNumericNames;
  t_order_twoSymbolsNumericNameAndLetter;
  t_order_twoNumericsFrac;
  t_order_twoNumericsInteger;
  t_order_twoPowersDifferentBase;
  t_order_twoPowersDifferentExp;
  t_order_twoPowersDifferentBaseAndExp;
  t_order_sumsWithTwoSummands;
  t_order_sumsWithThreeSummands;
  t_order_sumsWithTwoAndThreeSummands;
  t_order_equalSumsWithFourSummands;
  t_order_productsWithTwoFactors;
  t_order_productAndPower;
  t_order_productAndSymbol;
  t_order_powerAndNumber;
  t_order_sumAndSymbol;
  t_order_powerAndSum;
  t_order_powerAndSumSameBase;
  t_order_powerAndSymbol;
  t_order_numericAndConstPower;
  t_order_constSumAndNumeric;
  t_order_constSumAndConstPower;
  t_order_constantAndSmallerNumeric;
  t_order_constantAndGreaterNumeric;
  t_order_constantAndSymbol;
  t_order_constantAndPower;
  t_order_constantAndSum;
  t_order_constantAndProduct;
  t_order_twoDifferentFunctionsSameArgument;
  t_order_twoDifferentFunctionsDifferentArguments;
  t_order_sameFunctionDifferentSymbolArguments;
  t_order_sameFunctionDifferentNumericArguments;
  t_order_sameFunctionDifferentProductArgument;
  t_order_functionAndSymbolSameName;
  t_order_functionAndSymbolDifferentNames;
  t_order_functionAndProduct;
  t_order_functionAndProductEqualLastFactor;
  t_order_functionAndPower;
  t_order_functionAndSum;
  t_order_numericFraction;
  t_order_numericPower;
  t_order_equalTrigonometricFunction].
Example conforms_order : forallb id ran_order = true.
Proof. reflexivity. Qed.

(** unit-tests/testpolycontentunit.cpp *)
Definition ran_polycontentunit : list bool := Eval vm_compute in map passes [
  t_polycontentunit_unitOfZero;
  t_polycontentunit_illegalUndefinedInput;
  t_polycontentunit_illegalNumPowerInput;
  t_polycontentunit_posSymbol;
  t_polycontentunit_negSymbol;
  t_polycontentunit_negMonomial;
  t_polycontentunit_posMonomial;
  t_polycontentunit_longNegativeMonomial;
  t_polycontentunit_mixedSignPolynomial;
  t_polycontentunit_mixedInverseSignPolynomial;
  t_polycontentunit_positiveSignPolynomial;
  t_polycontentunit_negativeSignPolynomial;
  t_polycontentunit_contentOfZero;
  t_polycontentunit_posSymbol';
  t_polycontentunit_negSymbol';
  t_polycontentunit_positiveNumeric;
  t_polycontentunit_negativeNumeric;
  t_polycontentunit_simpleMultiVarPolyWithIntCoeff;
  t_polycontentunit_simpleMultivarPoly;
  t_polycontentunit_multivarPoly].
Example conforms_polycontentunit : forallb id ran_polycontentunit = true.
Proof. reflexivity. Qed.

(** unit-tests/testpolydivide.cpp *)
Definition ran_polydivide : list bool := Eval vm_compute in map passes [
  t_polydivide_zeroDividend;
  t_polydivide_emptyContainer;
  t_polydivide_wrongSymbolsInContainer;
  t_polydivide_twoFractionsEmptyContainer;
  t_polydivide_fractionCoeff;
  t_polydivide_invalidInputBothZero;
  t_polydivide_invalidInputWithFunction;
  t_polydivide_intRemainder;
  t_polydivide_noQuotient;
  t_polydivide_quotientWithRationalCoeff;
  t_polydivide_multipleVarsNoRemainder;
  t_polydivide_hugeExpandedPolynomials;
  t_polydivide_cohenExample01;
  t_polydivide_cohenExample02].
Example conforms_polydivide : forallb id ran_polydivide = true.
Proof. reflexivity. Qed.

(** unit-tests/testpolyinfo.cpp *)
Definition ran_polyinfo : list bool := Eval vm_compute in map passes [
  t_polyinfo_bothZero;
  t_polyinfo_invalidInputFirstArgUndefined;
  t_polyinfo_invalidInputSecondArgUndefined;
  t_polyinfo_validInputFraction;
  t_polyinfo_invalidInputSumWithNumericPower;
  t_polyinfo_invalidInputPowerWithSymbolExp;
  t_polyinfo_invalidInputPowerWithValidSumExp;
  t_polyinfo_validInputTwoInteger;
  t_polyinfo_validInputSumAndProduct;
  t_polyinfo_emptySymbolList;
  t_polyinfo_symbolListForOneSymbol;
  t_polyinfo_symbolListTwoSymbols].
Example conforms_polyinfo : forallb id ran_polyinfo = true.
Proof. reflexivity. Qed.

(** unit-tests/testpolymindegree.cpp *)
Definition ran_polymindegree : list bool := Eval vm_compute in map passes [
  t_polymindegree_minDegreeMatchingSymbol;
  t_polymindegree_minDegreeDifferentSymbol;
  t_polymindegree_minDegreeInteger;
  t_polymindegree_minDegreePowerOneSymbolInBase;
  t_polymindegree_minDegreeNestedPower;
  t_polymindegree_minDegreePowerOtherSymbolInBase;
  t_polymindegree_minDegreeSum;
  t_polymindegree_minDegreeSumOneIntegerSummand;
  t_polymindegree_minDegreeSumOneSummandIndependent;
  t_polymindegree_minDegreeProduct;
  t_polymindegree_minDegreeProductNoMatchingSymbol;
  t_polymindegree_minDegreeInvalidInput].
Example conforms_polymindegree : forallb id ran_polymindegree = true.
Proof. reflexivity. Qed.

(** unit-tests/testpower.cpp *)
Definition ran_power : list bool := Eval vm_compute in map passes [
  t_power_undefinedExponent;
  t_power_illegalNumberExponent;
  t_power_undefinedBase;
  t_power_integerOnly;
  t_power_exponentFraction;
  t_power_expFracGreaterThanOne;
  t_power_baseFracWithExpFracGreaterThanOne;
  t_power_expFracLessThanMinusOne;
  t_power_simpleFracBaseToIntWithNegExp;
  t_power_illegalPower;
  t_power_fracBaseToIntWithNegExp;
  t_power_evalLargeNumericExponent;
  t_power_fracBaseNegFracExp;
  t_power_fracBaseNoChange;
  t_power_resolvableExpFracBaseInt;
  t_power_simpleSplittableExpFracBaseInt;
  t_power_splittableExpFracBaseInt;
  t_power_splittableExpSqrtBaseInt;
  t_power_splittableExpFracBaseOneEigth;
  t_power_splittableNegExpFracBaseOneThirtyHalf;
  t_power_splittableExpFracBaseThreeEigth;
  t_power_splittableNegExpFracBaseFrac;
  t_power_negFractionBaseWithNegFractionExp;
  t_power_negFractionBaseWithPosFractionExp;
  t_power_unclearBaseExponentContractionBothFractionsOddDenom;
  t_power_unclearBaseExponentContractionBothFractionsEvenDenom;
  t_power_unclearBaseExponentContractionBothFractions;
  t_power_unclearBaseExponentContractionWithInteger;
  t_power_unclearBaseExpContraction;
  t_power_negBaseSymbolicExp;
  t_power_unclearProductBaseFractionExp;
  t_power_negProductBaseFractionExp;
  t_power_zeroExponent;
  t_power_symbolicPowerBaseSymbolExp;
  t_power_zeroBaseToPosExponent;
  t_power_zeroBaseToUnclearExponent;
  t_power_zeroBaseToNegExponent;
  t_power_powerWithPowerExp;
  t_power_multiplySymbolExp;
  t_power_multiplyExpWithZeroExp;
  t_power_multiplyNumericExp;
  t_power_multiplyExponentsByCreation;
  t_power_squareOfSymbolSquareRoot;
  t_power_squareOfPosSymbolSquareRoot;
  t_power_squareRootOfPosSymbolSquare;
  t_power_powerOfNegSymbolSquare;
  t_power_powerOfNegSymbolSumChangesSign;
  t_power_sumBase;
  t_power_constantBase;
  t_power_numericBaseConstantExp;
  t_power_productBaseConstantExp;
  t_power_functionBase;
  t_power_eulerBaseLogExp;
  t_power_negativePowByOddExp;
  t_power_unclearSymbolBaseLeftUnchanged;
  t_power_squareRootOfNegBaseSquared;
  t_power_negativeBaseOfPowerToTheOneThird;
  t_power_unclearBaseExpContractionWithConstantFirstExp;
  t_power_unclearBaseExpContractionWithConstantSecondExp;
  t_power_unclearBaseExpContractionWithConstantFirstExpSecondEvenInt;
  t_power_unclearBaseNoExpContractionWithConstantSecondExp;
  t_power_unclearBaseNoExpContractionWithSymbolSecondExp;
  t_power_numericallyEvaluableExpToUndefined].
Example conforms_power : forallb id ran_power = true.
Proof. reflexivity. Qed.

(** unit-tests/testpowernormal.cpp *)
Definition ran_powernormal : list bool := Eval vm_compute in map passes [
  t_powernormal_powerWithPosIntExp;
  t_powernormal_powerWithPosNegExp;
  t_powernormal_powerWithSymbolExp;
  t_powernormal_fractionBaseSymbolExp;
  t_powernormal_fractionBaseNumericallyEvaluableNegExp;
  t_powernormal_fractionBaseNumericallyEvaluablePosExp;
  t_powernormal_symbolicFractionBaseNumericallyEvaluablePosExp;
  t_powernormal_powerWithMinusSymbolExp;
  t_powernormal_powerWithPiExp;
  t_powernormal_powerWithNegNumEvalExp].
Example conforms_powernormal : forallb id ran_powernormal = true.
Proof. reflexivity. Qed.

(** unit-tests/testproduct.cpp *)
Definition ran_product : list bool := Eval vm_compute in map passes [
  t_product_undefinedToUndefined;
  t_product_zero;
  t_product_twoNumericFactors;
  t_product_twoNumericFactorsResultingInOne;
  t_product_numberTimesNumericPower;
  t_product_numberTimesResolvableNumPow;
  t_product_resolvableNumPowNegativeBase;
  t_product_resolvableNumPowNegativeNumericFactor;
  t_product_resolvableNumPowNegativeNumericFractionFactor;
  t_product_resolvableNumPowMixedWithSymbol;
  t_product_constantTimesNumeric;
  t_product_numericPowerTimesNumber;
  t_product_intTimesNumericPower;
  t_product_intTimesNumericPowerTimesOne;
  t_product_numberAndNumericPowerEqualBase;
  t_product_numericPowersDifferentExpSameBase;
  t_product_numericPowersDifferentExpDifferentBase;
  t_product_reductionOfDifferentNumericPowers;
  t_product_reductionOfSameNumericBaseDifferentExp;
  t_product_reductionOfSameNumericBaseDifferentExponent;
  t_product_mergeNumericsOfSimplifiedNumericPower;
  t_product_differentNumericPowerProduct;
  t_product_simpleNumericPowersDifferentExpSign;
  t_product_numericPowersDifferentExpSign;
  t_product_contractionOfNumerics;
  t_product_contractionOfConstPowers;
  t_product_preSortingOfConstPowers;
  t_product_orderingOfConstPowers;
  t_product_expansionOfConstPowerAndSum;
  t_product_expansionOfNumberConstPowerAndSum;
  t_product_expansionOfConstProductAndSum;
  t_product_contractNumSqrt;
  t_product_contractNumPowWithEqualExp;
  t_product_symbolTimesOne;
  t_product_oneTimesSymbol;
  t_product_multipleOnesTimesSum;
  t_product_minusOneTimesNegProduct;
  t_product_equalSymbolBasesToPower;
  t_product_equalPowerBasesToPower;
  t_product_equalPowerBasesToOne;
  t_product_equalSumBasesToPower;
  t_product_rearrangeTwoSymbols;
  t_product_productOfThreeSymbols;
  t_product_twoProducts;
  t_product_equalProductBasesToPower;
  t_product_threeNumericFactors;
  t_product_productOfSymbolAndProduct;
  t_product_productOfProductAndSymbol;
  t_product_productOfThreeProducts;
  t_product_rearrangeSymbolAndPi;
  t_product_contractNumericsAndPi;
  t_product_piDividedByPi;
  t_product_productOfEqualFunctionsEqualArguments;
  t_product_equalNonNumericBaseNumExp;
  t_product_numPowEqualDenomInPosExp;
  t_product_numPowEqualDenomInNegExp;
  t_product_numPowEqualDenomExpToProduct;
  t_product_numPowEqualDenomExpToProductInLargeList;
  t_product_numPowEqualDenomExpNotContracted;
  t_product_sineOverCosineSameArgument;
  t_product_sineOverCosineDifferentArgument;
  t_product_cosineOverSineSameArgument;
  t_product_cosineOverSineDifferentArgument;
  t_product_sinOverTanSameNumericalArgument;
  t_product_tanTimesCosSameArgument;
  t_product_tanTimesCosDifferentArgument;
  t_product_tanTimesCosWithNumExpSameArgument;
  t_product_sinOverCosineWithExpTimesCosine;
  t_product_sinSquareOverCosSameArg;
  t_product_sqrtTanTimesCosPositiveSameArg;
  t_product_sqrtTanTimesCosSameArg;
  t_product_mixedTrigonometricFunctions01;
  t_product_mixedTrigonometricFunctions02;
  t_product_noSumOfExpUnclearBasePowers;
  t_product_sumOfExpUnclearBasePowers;
  t_product_dontAlwaysContractZeroSumExp].
Example conforms_product : forallb id ran_product = true.
Proof. reflexivity. Qed.

(** unit-tests/testsign.cpp *)
Definition ran_sign : list bool := Eval vm_compute in map passes [
  t_sign_undefinedIsUnclear;
  t_sign_constant;
  t_sign_unclearSymbol;
  t_sign_positiveSimpleSymbol;
  t_sign_zeroIsNeitherPosNorNeg;
  t_sign_posInteger;
  t_sign_negInteger;
  t_sign_posFraction;
  t_sign_negFraction;
  t_sign_simpleNegProduct;
  t_sign_simplePosProduct;
  t_sign_simpleUnclearProduct;
  t_sign_simplePosSum01;
  t_sign_simplePosSum02;
  t_sign_simpleNegativeSum01;
  t_sign_simpleNegativeSum02;
  t_sign_simpleNegativeSum03;
  t_sign_simpleUnclearSumByDifferentSigns;
  t_sign_simpleUnclearSumByNonPositiveSymbol;
  t_sign_logarithmArgGreaterThanOne;
  t_sign_logarithmArgLessThanOne;
  t_sign_posButNumericallyNonEvaluableLogArgGreaterOne;
  t_sign_tan;
  t_sign_atan;
  t_sign_atan2;
  t_sign_sinSymbolic;
  t_sign_sinNumericallyEvaluable;
  t_sign_posPowerWithPositiveBase;
  t_sign_posPowerWithNegativeBase;
  t_sign_unclearPower;
  t_sign_posPowerWithUnclearBase;
  t_sign_mixedNegativeAndUnclear;
  t_sign_mixedPosAndUnclear].
Example conforms_sign : forallb id ran_sign = true.
Proof. reflexivity. Qed.

(** unit-tests/testsubst.cpp *)
Definition ran_subst : list bool := Eval vm_compute in map passes [
  t_subst_undefinedToSymbol;
  t_subst_symbolToNumeric;
  t_subst_symbolNotToNumeric;
  t_subst_constantToSum;
  t_subst_constantNotToNumeric;
  t_subst_numericToSymbol;
  t_subst_powerToSum;
  t_subst_productToPower;
  t_subst_sumToSymbol;
  t_subst_undefinedNoChange;
  t_subst_cosineToConstant;
  t_subst_atanArgToConstant;
  t_subst_sinToZero;
  t_subst_atan2ToPiFourth;
  t_subst_logToLog;
  t_subst_logToZero;
  t_subst_logEqualArg;
  t_subst_powerToUndefined;
  t_subst_sumToUndefined;
  t_subst_sumToOne;
  t_subst_noSubExpressionInSum;
  t_subst_noSubExpressionInProduct;
  t_subst_powerExpanedBySubst;
  t_subst_numPowerSimplInSubstitution;
  t_subst_mixedTerm].
Example conforms_subst : forallb id ran_subst = true.
Proof. reflexivity. Qed.

(** unit-tests/testsum.cpp *)
Definition ran_sum : list bool := Eval vm_compute in map passes [
  t_sum_undefinedToUndefined;
  t_sum_createWithOneSummandGivenAsList;
  t_sum_twoNumericSummands;
  t_sum_twoNumericSummandsResultingInZero;
  t_sum_zeroPlusZero;
  t_sum_symbolPlusZero;
  t_sum_zeroPlusSymbol;
  t_sum_rearrangeTwoSymbols;
  t_sum_rearrangeFiveSymbols;
  t_sum_orderingOfMixedTerms;
  t_sum_collectSymbols;
  t_sum_collectProducts;
  t_sum_collectProductOfSymbols;
  t_sum_collectPower;
  t_sum_collectProductOfPower;
  t_sum_twoSums;
  t_sum_sumOfSumAndSymbols;
  t_sum_cancellationOfNumbersInTwoSums;
  t_sum_simpleCollectionOfNumericPowers;
  t_sum_collectionOfNumericPowers;
  t_sum_collectionOfNumericPowersInProduct;
  t_sum_collectNumericPowerProduct;
  t_sum_collectionOfConstCoeff;
  t_sum_collectionOfPi;
  t_sum_collectionOfE;
  t_sum_collectionOfPiTimesSymbol;
  t_sum_noCollectionOfPiInDifferentProducts;
  t_sum_noCollectionOfNumberAndPi;
  t_sum_collectionOfNumberNumPowAndPi;
  t_sum_nonEqualConstTermsWithPi;
  t_sum_noCollectionOfPiNumericPowCoeff;
  t_sum_sumOfEqualFunctionsEqualArgs;
  t_sum_sumOfEqualFunctionsDifferentArguments;
  t_sum_sumOfLogarithmDifferentArguments;
  t_sum_sumOfLogarithmNoSimplification;
  t_sum_contractableSinCosSquareWithoutPrefactor;
  t_sum_contractableSinCosSquarePrefactorMinusOne;
  t_sum_contractableSinCosSquareNegNumericPrefactor;
  t_sum_contractableSinCosSquarePosNumPowPrefactor;
  t_sum_contractableSinCosSquareNegNumPowPrefactor;
  t_sum_nonContractableSinCosSquareNonEqualPrefactor].
Example conforms_sum : forallb id ran_sum = true.
Proof. reflexivity. Qed.

(** unit-tests/testsymbol.cpp *)
Definition ran_symbol : list bool := Eval vm_compute in map passes [
  t_symbol_emptyName].
Example conforms_symbol : forallb id ran_symbol = true.
Proof. reflexivity. Qed.

(** unit-tests/testtrigonometric.cpp *)
Definition ran_trigonometric : list bool := Eval vm_compute in map passes [
  t_trigonometric_typeRequest;
  t_trigonometric_constRequest;
  t_trigonometric_trivialEquality;
  t_trigonometric_inequalityDifferentArg;
  t_trigonometric_inequalityDifferentTrigonometric;
  t_trigonometric_sinZero;
  t_trigonometric_cos345Degree;
  t_trigonometric_tan240Degree;
  t_trigonometric_atan2Order;
  t_trigonometric_atan2XZeroNonEvaluable;
  t_trigonometric_atan2FirstQuadrantResolvable;
  t_trigonometric_atan2SecondQuadrantResolvable;
  t_trigonometric_atan2ThirdQuadrantResolvable;
  t_trigonometric_atan2FourthQuadrantNonResolvable;
  t_trigonometric_atan2FourthQuadrantResolvable;
  t_trigonometric_atan2XZeroEvaluable;
  t_trigonometric_illegalAtan2;
  t_trigonometric_undefinedArg;
  t_trigonometric_undefinedArgAtan;
  t_trigonometric_sinOfAsin;
  t_trigonometric_sinOfNegativeSum;
  t_trigonometric_sinOfNegativeProduct;
  t_trigonometric_sinOfMinusAsin;
  t_trigonometric_cosOfAcos;
  t_trigonometric_cosOfNegativeNumericArg;
  t_trigonometric_cosOfNegativeProduct;
  t_trigonometric_cosOfMinusAcos;
  t_trigonometric_tanOfAtan;
  t_trigonometric_tanOfSimpleNegativeProduct;
  t_trigonometric_atanOfNegSimpleProduct;
  t_trigonometric_atanOfNegSum;
  t_trigonometric_tanOfMinusAtan;
  t_trigonometric_tanOfMinusAsin;
  t_trigonometric_sinOfCos;
  t_trigonometric_asinOfSin;
  t_trigonometric_asinOfMinusSin;
  t_trigonometric_acosOfCos;
  t_trigonometric_acosOfMinusCos;
  t_trigonometric_asinOfSinOfNumEvalNoShift;
  t_trigonometric_asinOfSinOfNumEvalNoShift2;
  t_trigonometric_asinOfSinOfNumEvalNegShift;
  t_trigonometric_asinOfSinOfNumEvalNegShift2;
  t_trigonometric_asinOfSinOfNumEvalPosShift;
  t_trigonometric_asinOfSinOfNumEvalPosShift2;
  t_trigonometric_asinOfMinusAsinNumEval;
  t_trigonometric_atanOfTanNumEvalNoShift;
  t_trigonometric_atanOfTanNumEvalWithNegShift;
  t_trigonometric_atanOfTanNumEvalWithPosShift;
  t_trigonometric_atanOfMinusTanNumEval;
  t_trigonometric_acosOfCosNumEvalNoShift;
  t_trigonometric_acosOfCosNumEvalPosShift;
  t_trigonometric_acosOfCosNumEvalNegShiftAndCorrection;
  t_trigonometric_acosOfCosNumEvalPosShiftAndCorrection;
  t_trigonometric_acosOfNegativeCosNumEvalWithShift;
  t_trigonometric_sinOfAcos;
  t_trigonometric_cosOfAsin;
  t_trigonometric_sinOfAtan;
  t_trigonometric_cosOfAtan;
  t_trigonometric_tanOfAsin;
  t_trigonometric_tanOfAcos;
  t_trigonometric_atan2OfSinCos;
  t_trigonometric_atan2OfNumericsNotResolvableArg;
  t_trigonometric_atan2OfNumEvaluableNotResolvable;
  t_trigonometric_atan2OfNegNumEvaluableArg;
  t_trigonometric_atan2OfNegSymbolicArg;
  t_trigonometric_tanOfAtan2;
  t_trigonometric_cosOfAtan2;
  t_trigonometric_sinOfAtan2;
  t_trigonometric_sinOfAtan2NegDeltaYOnly;
  t_trigonometric_sinOfAtan2NegDeltaYSumOnly;
  t_trigonometric_numericTerm;
  t_trigonometric_nonNumericTerm;
  t_trigonometric_constTerm;
  t_trigonometric_nonConstTerm].
Example conforms_trigonometric : forallb id ran_trigonometric = true.
Proof. reflexivity. Qed.

(** unit-tests/testundefined.cpp *)
Definition ran_undefined : list bool := Eval vm_compute in map passes [
  t_undefined_numericTerm;
  t_undefined_nonNumericTerm;
  t_undefined_constTerm;
  t_undefined_nonConstTerm;
  t_undefined_equalityOtherUndefined].
Example conforms_undefined : forallb id ran_undefined = true.
Proof. reflexivity. Qed.

(** unit-tests/testvar.cpp *)
Definition ran_var : list bool := Eval vm_compute in map passes [
  t_var_posIntWithPosSign;
  t_var_negIntWithPosSign;
  t_var_sumHasSymbol;
  t_var_substSymbolInProduct;
  t_var_substituteInSimpleSum;
  t_var_defaultAssignment;
  t_var_equalityOfSymbols;
  t_var_symbolMinusSymbolToZero;
  t_var_symbolsMinusSymbolsToZero;
  t_var_addSameSymbol;
  t_var_addSameSymbolThreeTimes;
  t_var_addSymbolAndNumbers;
  t_var_addSameSymbolAndNumbers;
  t_var_addSameSymbolMultipledByFrac;
  t_var_collectMultipleSymbolsInSum;
  t_var_unaryPlusOperator;
  t_var_unaryMinusOperator;
  t_var_divisionToPower;
  t_var_divisionToFrac;
  t_var_productDividedByNumber;
  t_var_multiplicationOfExpPosSymbol;
  t_var_multiplicationOfExpUnclearSymbol;
  t_var_expansionPowerOfProduct;
  t_var_fracOfSymbolsMultipliedByInverse;
  t_var_expAdditionEqualBase;
  t_var_powerWithZeroBase;
  t_var_powerWithBaseOne;
  t_var_powerWithZeroExp;
  t_var_powerWithExpOne;
  t_var_productWithZero;
  t_var_productOfNumberAndSum;
  t_var_productOfConstAndConstSum;
  t_var_productOfConstPowerAndConstSum;
  t_var_productOfNumberAndConstSum;
  t_var_productOfNumberNumPowAndSum;
  t_var_minusOneSquare;
  t_var_minusOneCubic;
  t_var_simpleNumericPowerSimplification;
  t_var_numericPowerSimplification;
  t_var_simpleNumPowExtraction;
  t_var_orderingOfProductOfConstants;
  t_var_constProductsEqualBaseAfterExtraction;
  t_var_orderingOfLargeProductOfConstants;
  t_var_piInSum;
  t_var_collectConstTerms;
  t_var_simpleExpansion;
  t_var_dontCollectProductOfConstTerms;
  t_var_sumWithNumericAndNumPowProducts;
  t_var_simpleExpandNumPowFactorResultingInZero;
  t_var_expandNumPowFactorResultingInZero;
  t_var_sumOfProduts;
  t_var_largeMixedTerm01;
  t_var_largeMixedTerm02;
  t_var_largeMixedTerm03;
  t_var_largeMixedTerm04;
  t_var_acosOfCosOfThreePiFourth;
  t_var_atan2OfResolvableArgs;
  t_var_diffOfSum;
  t_var_simplifyToZero;
  t_var_comparisonPosAndNonPosSymbols].
Example conforms_var : forallb id ran_var = true.
Proof. reflexivity. Qed.
