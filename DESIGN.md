# Formal model of tsym: design

What is modelled, how each property is proved, what is trusted. Updated as the model grows.
Files are in `rocq/theories`; `*Model.v` transcribe the code, `*Spec.v` (and `Sem.v`, `RPow.v`) say what is claimed without referring to the algorithms, `Prop*.v` state the theorems of `MANIFEST.json`, the rest are proofs.

## Approach

* The C++ sources in /repo/src and /repo/include are read as text and transcribed function by function into total Gallina functions. Each definition cites file and lines, and says where it simplifies.
* Expressions are finite trees (`ExprModel.v`). Numerics are rationals of arbitrary precision, as in the code. Numerics that hold a double are not part of the expressions in the model.
* Where the code consults floating point (roots, comparisons, signs of irrational constants, the search in the trigonometric tables), the model asks an oracle, the record `sys` (`FloatEval.v`). Theorems quantify over all oracles. `RefFloat.v` is one concrete oracle (fixed point numbers with 96 binary digits) that is used for examples and tests only.
* Undefined behaviour (`UB`), exceptions (`Throw`) and exhausted recursion (`Fuel`) are distinct outcomes of an execution (`Run.v`). Functions of the code that call each other recursively go through the record `oper`; `World.v` ties the knot, `world Y F k` allows k nested calls and F iterations per call. Theorems quantify over F and k.
* The meaning of an expression is its real value under an assignment of the symbols, a partial function into R (`Sem.v`, with powers in `RPow.v`). "The value is preserved" means: whenever the mathematical input has a value, the produced expression has the same value.
* Where the full property is false of the code, a theorem with suffix `_refuted` gives the witness, and theorems with suffix `_partial` prove what is left.

## Facts an execution relies on

An execution of the simplification code returns `Ok e facts`. The list `facts` (type `cond`, `Run.v`; meaning `holds`, `RunSpec.v`) records what the code took for granted at each place where it isn't justified by what the code has checked. `rightFacts r facts` says that all of them are true for the assignment r. They are not assumptions about the model: for a given execution they are a concrete list, and for many executions it is empty or can be decided. The kinds:

| fact | recorded where the code | true unless |
|---|---|---|
| `CNumPow p p'` | rewrites a numeric power (numpowersimpl.cpp) | the rewriting is wrong, as for 324^2 (C04) |
| `CEq e q`, `CNotInt e`, `CLt`, `CLe` | trusts a floating point number about a constant expression | rounding misleads |
| `CNonZero e` | divides by e or cancels it | e is 0 at this point |
| `CSame a b` | replaces a by b without a valid reason (tables searched with doubles, roots of quotients, log of powers) | a and b differ at this point |
| `CEven e`, `CSign e` | takes an even power for positive / a nonnegative value for positive | the value is 0 |
| `CBug s` | follows a path known to be wrong; never true | |
| `CUb s` | does something undefined that has no effect on the result (always true; listed for C40) | |
| `CIn m c` | relies on c while temporary symbols m stand for terms | |

`Certain.v` decides many facts by exact arithmetic and interval arithmetic (`certain`), and the theorems `..._checked` replace `rightFacts` by that computation, so that they have no hypothesis about facts at all.

## Plan per property

* **C01 Rational arithmetic is exact and canonical**: `NumberModel.v` models boost::rational inside Number as reduced pairs; exactness against Q2R, canonical form as an invariant. `PropNumber.v`.
* **C02 Exact rational powers and roots**: Number::toThe with the floating point root as an oracle; algebraic theorem for every oracle.
* **C03 Prime factorisation is correct**: `PrimeFacModel.v`; primality, product and order by induction over trial division.
* **C04 Numeric power simplification preserves the value**: `NumPowerModel.v`, real semantics; refuted at 324, proved for roots and for bases below 324.
* **C05 Equality**, **C06 hash**, **C07 order**, **C29 names**: `ExprModel.v`, `OrderModel.v`; structural induction, primitive hash functions as parameters, strong induction on sizes for the order; refuted for atan2 and doubles. `PropExpr.v`.
* **C08 - C13, C16, C18, C23, C37, C41, C42 (values)**: `SimplModel.v`, `TrigModel.v`, `PolyModel.v`, `NormalModel.v` as one family of functions that call each other (`World.v`). The contract `soundOps` (`SoundOps.v`) is proved for every number of nested calls by induction on it (`SumProofs.v`, `ProductProofs.v`, `PowerProofs.v`, `TrigProofs.v`, `NormalProofs.v`, `WorldProofs.v`). `PropSimpl.v`.
* **C14, C15 Differentiation**: `DiffModel.v`; derivability in the standard library's sense, with a domain of smooth points (`DiffSpec.v`). `PropDiff.v`.
* **C17 has()**: `HasProofs.v`, structural induction.
* **C19 Complexity**: structural; refuted for simplify.
* **C20 Coefficients**, **C21 division**, **C22 gcd**: `PolyModel.v`, `PolySpec.v`. `PropPoly.v`. For C22 on expanded polynomials in one symbol (`GcdPoly.v`, `GcdRun.v`, `GcdUser.v`, `PropGcd.v`) every execution that returns is followed: contents, the numbers `beta` and `psi` and the leading coefficients are nonzero numbers, each pseudo-remainder is c·u − q·v with a nonzero number c, so the common divisors are the same in each step of both loops.
* **C24 - C28 Linear systems**: `SolveModel.v` over any entry type with sound arithmetic; the LU decomposition with row swaps as matrix algebra over a field (`SolveAlg.v`), skip fields by closed forms (`SkipFacts.v`). `PropSolve.v`. `SolveExpr.v` is the solver on expressions, with the operations of the model of expressions; an execution whose facts are right is an execution on entries with exact arithmetic over the reals (`SolveEntry.v`, `RealField.v`, `SolveReal.v`), so that the value of the result solves the system at every assignment where the pivots don't vanish; skipping is reduction to the smaller system without any hypothesis (`SolveSkip.v`). Specification: `SystemSpec.v`. `PropSystem.v`.
* **C30, C31 Symbols**: `SymbolModel.v`, histories as lists of operations, invariants. `PropSymbol.v`.
* **C32, C34, C43, C44 Parsing**: `ParserModel.v` executes the grammar like Boost.Spirit, with backtracking and the stack of semantic actions; `GrammarSpec.v` is a grammar without an algorithm; sound and complete by induction. `PropText.v`.
* **C33 Printing**: `PrinterModel.v`; the text of each expression is in the grammar at the level its context demands. `PropPrint.v`.
* **C35, C36 Trigonometric values**: `TrigModel.v` with the tables of the code; real semantics; facts checked by exact arithmetic. `PropTrig.v`. For sine and cosine of multiples of pi/8 and pi/12 the loops over full turns are executed symbolically (`PiArith.v`, `PiTrig.v`), the table by computation (`PiBase.v`), the comparisons with 2*pi by error bounds for doubles (`PiDouble.v`): `PropMultiples.v` needs no facts.
* **C38, C39 Caches and options**: `CacheModel.v`: code as programs that may call memorised functions, the memory as a state; histories. `PropCache.v`.
* **C40 Defined behaviour**: refuted by tan(a)/tan(a); see the fragments below.
* **C45 Expansion of polynomials**: `LaurentSpec.v` (polynomials with integer exponents, their normal form), `LaurentOrder.v` - `LaurentMain.v`: the simplification of sums and products computes the normal form, by induction over the merge of sorted lists; `LaurentIdent.v`: the normal form is unique because different monomials are independent functions. `DoubleExact.v` (Flocq): comparison by doubles is exact for the exponents. `PropExpand.v`.
* **C46 Unique results**: `FuelMono.v`: every function of the model is monotone in its bounds. `PropExpand.v`.
* **C47 Polynomial programs**: `RingSpec.v` (programs and degrees), `RingProd.v`, `RingSum.v` (products, powers and sums of simplified, not necessarily expanded polynomials end with such a polynomial and rely on no fact but "a base of an even power isn't zero", which values don't depend on), `RingPos.v` (the normal form of a polynomial has no negative exponents), `RingTerm.v` (executions that end, operations), `RingRun.v` (powers with small numeric factors, divisions by small numbers; programs by induction). `PropRing.v`. x/324 gives x/36 (C47_large_refuted). Substitution for a symbol in an expanded polynomial and the signs of results (C16, C18 for polynomials) are in `RingRun.v`, too; sums of more than two polynomials there as well.
* **C48 Derivatives of polynomials**: `DerivSpec.v` (the formal derivative), `LaurentDiff.v` (diff of a normal form runs through numbers, symbols, powers, the product rule and sums and ends with the normal form of the formal derivative, no facts), `LaurentDiffApi.v` (calculus of polynomials, rules). `PropDeriv.v`.
* **C49 Well-formed results**: `ShapeSpec.v` (wellFormed, the symbols of a program), `ShapeProofs.v` (an invariant with separate sets of symbols for exponents and for the rest: the temporary symbols of normal never get into exponents), `ShapeProd.v`, `ShapePow.v`, `ShapeTrig.v`, `ShapePoly.v`, `ShapeNormal.v` (temporary symbols are numbered, each stands for an expression with smaller ones, so the replacement loop removes them all), `ShapeApi.v`, `ShapePrint.v`. By induction on the recursion bound and the program, for all doubles, no facts. `PropShape.v`.
* **C50 Division of polynomials**: `DivSpec.v` (ordinary polynomials, degree, multiples), `LaurentCoeff.v` and `PolyCode.v` (degree and coeff on normal forms, the degree of a product), `PolyTotal.v` (total degree of a product), `NumInt.v` and `HRuns.v` (integer powers of numbers always end; executions whose facts hold for all values), `DivExact.v`, `DivRun.v` (exact division, induction over the symbols and the degree of the quotient), `DivRem.v` (division with remainder, induction over the symbols and the degree of the remainder), `DivApi.v`, `DivUser.v`. Full statement refuted (648/324). `PropDivide.v`.
* **C51 normal and simplify of polynomials**: `NormSpec.v` (computations that end, common denominators), `NormPoly.v` (numerators for a common denominator, a polynomial times a number, the gcd of a polynomial with whole coefficients and a number), `NormRun.v` (fractions of numbers, powers and products, cancelling, toCommonDenom by induction over the terms, normal, simplify), `NormUser.v`, `PropNormal.v`. Polynomials with whole coefficients come first because toCommonDenom calls normal on them.
* **C52 LU decomposition**: `LuModel.v` (src/ludecomp.h), `LuSpec.v` (the factors stored in one matrix), `LuReal.v` (one column of the factorisation keeps "product of the finished part plus the rest is the matrix"; substitution and uniqueness by strong induction on the row), `LuProofs.v` (the loops on expressions have the values of those over the reals; nothing outside of the dimension is written), `PropLu.v`.
* **C53 Computations end** The bounds of the model (F, k, n) make non-termination visible: Fuel for all bounds. Positive: C47, C50, C51 show that executions end for all large enough bounds. Negative (DivHang.v): loop invariant of divideNonEmpty for a divisor whose inverse is wrong, the remainder is never zero and keeps its degree; lifted to normal by unfolding normalF and cancel for one expression, where all other steps have one possible result (monotonicity, C46).
* **C54 Rational functions** `RatSpec.v` (programs, expressions, what the facts say), `RatFacts.v`: a judgement `fx` on executions says which facts are recorded; by induction on the depth of calls, sums, products, powers, expansions and substitutions of rational expressions record numeric powers and wrong turns only. The value then follows from C41, small powers from C04 (`NumInt.v`). `PropRational.v`.
* **C55 Numbers made of doubles**, **C56 arithmetic with doubles**, **C57 comparisons**: `MixedModel.v` (class Number with both alternatives; doubles are the standard library's `spec_float`, std::pow is an argument), `MixedSpec.v` (values as real numbers). `DoubleOps.v` relates the operations to Flocq's rounding, `FractionProofs.v` follows tryDoubleToFraction step by step, `MixedBounds.v` adds up the errors, `MixedOrder.v` compares. `MixedPow.v`: powers and division with the comparisons of the code (also C01, C02). `MixedWitness.v`, `PropDouble.v`.
* **C58 Conversion to int**, **C59 to double**: `EvalModel.v` instantiates numericEval with IEEE doubles (functions of the C library are arguments) and adds the conversions of Var. `EvalSpec.v`: what an accurate library is, the class of expressions, the number of operations and the size of the operands. `EvalConst.v` (M_PI, M_E), `EvalPow.v` (roots: errors of radicand and exponent), `EvalProofs.v` (induction over expressions, error size*((1 + 2^-48)^steps - 1)), `EvalConv.v` (rational expressions are evaluated exactly), `EvalAmple.v` (a bound for the digits of intermediate results; an accurate library exists), `EvalWitness.v`, `PropEval.v`.
* **C60 Exact roots are found**: the candidate of tryGetBase is computed from std::pow with IEEE doubles (`l_root` in `EvalModel.v`); error bounds for std::pow with a rounded base and exponent (`EvalPow.v`), for the sum with 0.1, the truncation and the comparison with 1.e-6 (`RootFound.v`). `PropRoots.v`.
* **C61 Texts of names**: `concat` and `unicode` of `PrinterModel.v`, `tex` in `TexModel.v`; characters that don't occur in names separate the parts, which are compared one after the other; the Greek letters by a table of 48 names. `NameTextSpec.v`, `PropNames.v`.
* **C62 Type, name and operands**: `TypeModel.v` (Var::type, the table of type texts, name); the relation `alike` in `ViewSpec.v` compares what a user sees, recursively; induction on expressions, with the injectivity of number texts (digits are read back) and of names (C61). `ViewProofs.v`, `PropView.v`.

## Findings

Deviations found while modelling; those marked with a property have a machine-checked witness.

* F1 (C04, C11) primefac: `equalCountOrZero` lets 324^2 become 1296.
* F2 (C03) the prime loop doesn't end for 0.
* F3 (C31) `~Symbol` decrements the counter of temporary symbols: a new one may repeat a living name.
* F4 (C02, C05, C06, C07) Number: 0^0 = 0; comparison through doubles; equality of doubles with a tolerance is not transitive and not compatible with hashing; tiny doubles become 0.
* F5 extractPrimes: `std::prev` of `begin` after an erase is undefined behaviour.
* F6 (C18) an even power counts as positive although the base may be 0.
* F7 the error exit of the merge of operand lists returns an empty list.
* F8 (C07, C08) functions are ordered by the first operand only: atan2(x, y) and atan2(x, z) keep the order in which they are given.
* F9 (C37) log(b^e) = e*log(b) without a check of the sign of b.
* F10 (C36) atan2 of numbers drops the correction of the quadrant.
* F11 (C25) the determinant of a singular matrix is an exception (or Undefined).
* F12 (C34) the names pi and euler are matched as prefixes: "pivot" isn't parsed.
* F13 a product with a double coefficient is printed with numerator 0 if there are several factors in the denominator (doubles: not modelled).
* F14 (C33) concatenated names aren't injective; unicode names drop sub- and superscripts of Greek letters.
* F15 (C39) caches aren't keyed by the option for prime resolution.
* F16 (C40) contractConst advances an iterator past the end.
* F17 (C40) tan(x)*tan(x)^-1 reads the front of an empty list.
* F18 (C10) sqrt(tan(a))*cos(a)^(-1/2) loses the cosine.
* F19 (C21) pseudo division leaves the loop before it counts the step.
* F20 (C14, C15) diff((-2)^y, x) is Undefined.
* F21 (C23) normal of ((1-a)/(1-b))^(1/2) has a smaller domain.
* F22 (C13) expandProductOf takes the operands of a term that may not be a product.
* F23 (C11) sqrt(-x^2) is Undefined at once, also at x = 0.
* F24 (C22) Gcd: normalisation by a zero leading coefficient, unbounded recursion.
* F25 (C19) simplify may increase the complexity.
* F26 (C20, C35) sin(pi*10^-20) = 0; degrees of 2^31-1 and more count as 0.
* F27 (C44) alternatives of the parser that fail leave operands on the stack; only visible if not all of the text is matched ("2*x^(b + " yields x*b).
* F28 (C33) a constant base whose double value is a positive integer is printed without parentheses: (sqrt(3 + 2*sqrt(2)) - sqrt(2))^a as -sqrt(2) + sqrt(3 + 2*sqrt(2))^a.
* F29 (C33) the constant e is printed as e and read as a symbol; positive symbols are read as other symbols; a superscript is read as an exponent.
* F30 (C32, C43, C44) digits that begin with 0 are read as an octal number; 08 throws.
* F31 (C33) the default of PlaintextPrintEngine is unicode; pi in unicode isn't parsed.
* F32 (C40, C49) expand of a product of sums takes the operands of an intermediate result that is a number: expand((x+1)*(y+1)*(1+sqrt(2))*(1-sqrt(2))) reads the front of an empty list.
* F33 (C50) since 324^(-1) becomes 1/36 (F1), poly::divide gives 18 for 648 divided by 324; divided by 324 the remainder of 324*x becomes -2592*x and so on, its degree never gets smaller.
* F34 (C24) solve gives 18 for the solution of 324*x = 648 (F1).
* F35 (C25, C28) pivots are compared with 0 without being simplified: for the regular matrix ((x*(1+y)-x*y-x, 1), (1, 0)) solve with Algo::GAUSS throws as for a singular one and determinant gives Undefined.
* F36 (C51) since 324^(-1) becomes 1/36 (F1), normal of the number 1/324 is 1/36; simplify keeps 1/324 because 1/36 isn't less complex.
* F37 (C52) LUDecomposition has no pivoting: factorize of ((0, 1), (1, 0)) writes Undefined into the second row and computeSolution throws "Coefficient matrix is singular".
* F38 (C09) the bug of F1 reaches sums: 324^(1/5) stays as it is while the resolution of primes is below 324; with the default resolution 3*324^(1/5) + 4*324^(1/5) then becomes 7*6^(2/5).
* F39 (C53) normal, simplify, numerator and denominator of 324/(648 + 324*x) never return: the gcd 324 is found, dividing 648 + 324*x by it goes on for ever (F33).
* F40 (C54, C13) expand((1/(a + b) - 1/a)*(a + b + (y + z)*(y - z) + z^2 - y^2)*(v + w)) gives (b + 1/a - 1)*(v + w) instead of -b/a*(v + w): the product of the first two sums isn't a sum, its factors are taken for summands (F22).
* F41 (C01, C02) Number::toThe compares the base with 0 through doubles. If the double is 0 (10^-400) or NaN ((10^400 + 1)/10^400) although the number isn't, neither base > 0 nor base < 0 holds, and toThe calls itself with abs(base), which is the same number, for ever. Dividing by such a number is enough: 1/(1/10^400).
* F42 (C55) Var(4503599627370497.0) is the fraction 2814749767106560512/625: value*10000 is rounded to a double before the fraction is made.
* F43 (C56) a/a = 0 for a = 9007199254740991*2^20 (as a double): the reciprocal is less than the resolution of tryDoubleToFraction and becomes 0. A double near 1.1*10^-10 has the square 0.
* F44 (C57) Number: a == b and a < b hold both for doubles in the tolerance; two rationals as different as 4503599627370497/9007199254740991 and 4503599627370496/9007199254740989 are not equal and not ordered.
* F45 (C58, C59) numbers below 2^-53 become 0 when they are converted from double: pi/10^20 is an integer (0) for the conversion to int, and its conversion to double is 0, whereas 1/10^20 keeps its value.
* F46 (C60) the square root of (10^20 + 1)^2 as a Number is 10^20: roots beyond int are computed as doubles, and every double of this size is an integer and becomes a rational number.
* F47 (C61) unicode drops sub- and superscripts of Greek letters (as F14); tex writes \my, \ny, \omikron, \ypsilon, \Alpha and so on, which are no TeX commands.

## Tests of the model

* `Conformance.v` (generated by `conformance/gen.py`) and `TextTests.v` (by `conformance/gentext.py`) translate unit tests of /repo into the model and run them: 791 of 1409 tests about expressions and 181 of 185 about the parser and the printer. The remaining ones need doubles as numerics or use test helpers that aren't translated. These are tests of the transcription, not proofs.
* `seeded/LOG.jsonl` logs how the theorems react to wrong programs. The tool that wrote it left out edits no theorem noticed until late, so the missing lines were added afterwards from the outputs of the runs (marked "logged late"), and `tightened` was not filled in while working: an empty list there doesn't mean that no theorem was changed. `failed` names the lemma where the build stopped and the property files behind it; that a proof script broke doesn't show by itself that the property's theorem is false of the edited program (for `normalLoop`, "the result before last", it isn't). Two lines are edits that weren't accepted as definitions and tested nothing; they are marked. Edits that still pass: the order of symbols that differ in positivity only (still an order), the condition on odd denominators in `areTwoFractionExpWithOddDenom` (the theorems on values only speak of operands that have a real value, so they allow a simplification to enlarge the domain), the order of variables in `compareVars` (it doesn't change whether a division is exact).

## Trusted base

* The kernel of Coq 8.16.1 (and `coqchk`). No axioms of our own, no `Admitted`, no plugins, no switched off checks, no module types or functors.
* The transcription from C++ into Gallina and the specification files.
* Axioms of the standard library, as listed by `Print Assumptions` (classical real numbers). Theorems about solvers use mathcomp, which adds no axioms to them; the theorems about doubles (C01, C02, C07, C45, C55 to C59) use Flocq, which adds none beyond the listed ones of the standard library.

* `C01_program_exact_partial`, `C02_power_exact_partial`, `C02_throws_iff_undefined`, `C02_integer_power_exact`, `C02_power_comparisons_partial`, `C02_zero_power_zero_refuted`, `C04_numeric_power_refuted`, `C04_numeric_roots_partial`, `C04_numeric_power_partial`, `C04_numeric_power_large`, `C07_double_exact_partial`, `C07_double_sound`, `C07_double_order_partial`, `C08_sum_order_partial`, `C08_product_order_partial`, `C08_sum_order_polynomials`, `C08_product_order_monomials`, `C09_sum_value_partial`, `C09_sum_value_refuted`, `C10_product_value_partial`, `C10_product_value_refuted`, `C11_power_value_partial`, `C11_power_value_refuted`, `C11_root_of_zero_refuted`, `C13_expand_value_partial`, `C13_expand_value_refuted`, `C13_polynomials`, `C54_value_refuted`, `C14_derivative_partial`, `C14_derivative_defined_partial`, `C14_derivative_refuted`, `C14_polynomials`, `C15_absent_symbol_partial`, `C15_absent_symbol_zero_partial`, `C15_polynomials`, `C16_subst_value_partial`, `C16_subst_value_refuted`, `C16_polynomials_partial`, `C17_absent_symbol`, `C18_positive_partial`, `C18_negative_partial`, `C18_positive_refuted`, `C18_polynomials_partial`, `C51_simplify`, `C20_coefficients_partial`, `C20_coefficients_refuted`, `C21_division_partial`, `C21_pseudo_division_partial`, `C21_pseudo_division_refuted`, `C50_division_partial`, `C50_exact_partial`, `C22_univariate_gcd_partial`, `C22_gcd_divides_refuted`, `C23_normal_value_partial`, `C23_simplify_value_partial`, `C23_normal_value_refuted`, `C51_normal`, `C28_expressions_refuted`, `C32_value_partial`, `C33_text_partial`, `C33_round_trip_partial`, `C33_constant_refuted`, `C33_unicode_refuted`, `C33_superscript_refuted`, `C33_positive_refuted`, `C33_parentheses_refuted`, `C35_exact_values_partial`, `C35_exact_values_checked`, `C35_exact_values_refuted`, `C35_eighths_twelfths_partial`, `C35_tan_eighths_sixths_partial`, `C36_atan2_partial`, `C36_atan2_checked`, `C36_atan2_refuted`, `C37_log_value_partial`, `C37_log_value_refuted`, `C47_ends`, `C41_program_value_partial`, `C41_program_value_checked`, `C47_value`, `C41_program_value_refuted`, `C54_value_partial`, `C54_small_partial`, `C42_fraction_value_partial`, `C51_fraction`, `C45_double_comparison`, `C45_expand_ends`, `C45_normal_form`, `C45_decides_equality`, `C45_zero`, `C45_idempotent`, `C47_decides`, `C47_large_refuted`, `C48_ends`, `C48_formal_derivative`, `C48_derivative`, `C48_mixed_derivatives`, `C48_sum_rule`, `C48_product_rule`, `C51_large_denominator_refuted`, `C52_factorize_partial`, `C52_solve_partial`, `C52_system_partial`, `C53_division_hangs`, `C53_normal_refuted`, `C53_simplify_refuted`, `C53_fraction_refuted`, `C54_result`, `C55_decimals_exact`, `C55_value_close`, `C55_conversion_stable`, `C56_laws_partial`, `C56_sum_close`, `C56_product_close`, `C57_less_is_weak_order_partial`, `C57_less_sound`, `C57_equal_partial`, `C58_int_partial`, `C58_int_near`, `C58_int_refuted`, `C59_accurate_partial`, `C59_few_digits_partial`, `C59_relative_refuted`, `C60_roots_found_partial`, `C60_roots_found_refuted`
  axioms: `ClassicalDedekindReals.sig_forall_dec`, `ClassicalDedekindReals.sig_not_dec`, `Classical_Prop.classic`, `FunctionalExtensionality.functional_extensionality_dep`
* `C01_division_refuted`, `C01_arithmetic_exact_partial`, `C01_equality_exact`, `C01_division_by_power`, `C24_expressions_refuted`, `C50_division_refuted`, `C52_pivot_refuted`, `C55_exact_value_refuted`, `C56_opposite_exact`, `C56_associative_refuted`, `C56_zero_divisor_refuted`, `C57_exclusive_refuted`, `C57_transitive_refuted`, `C57_total_refuted`
  axioms: `ClassicalDedekindReals.sig_forall_dec`, `FunctionalExtensionality.functional_extensionality_dep`
* `C02_tiny_root_refuted`, `C03_prime_factorisation`, `C03_zero_loops`, `C05_equality_decides_identity`, `C05_equality_reflexive`, `C05_equality_symmetric`, `C05_equality_transitive`, `C05_undefined_unequal`, `C05_double_equality_refuted`, `C06_equal_hash`, `C06_double_hash_refuted`, `C07_order_total_partial`, `C07_exact_numerics`, `C07_sorted_unique_partial`, `C07_atan2_refuted`, `C07_double_comparison_refuted`, `C08_operand_order_refuted`, `C12_undefined_sum`, `C12_undefined_product`, `C12_undefined_power`, `C12_undefined_function`, `C15_absent_symbol_refuted`, `C17_has_exact`, `C17_collected_symbols`, `C19_complexity_structural`, `C19_simplify_complexity_refuted`, `C20_degree`, `C20_degree_sum`, `C50_degree`, `C22_integer_gcd_partial`, `C22_unit_partial`, `C24_solution_solves_partial`, `C24_pointwise_partial`, `C25_determinant_partial`, `C25_determinant_never_wrong`, `C25_determinant_refuted`, `C26_inverse_partial`, `C27_determinant_reduces`, `C27_skipped_unchanged`, `C27_only_active_matter`, `C28_singular_reported_partial`, `C29_names_total_order`, `C30_symbol_identity`, `C30_symbol_name`, `C30_named_not_temporary`, `C31_fresh_refuted`, `C31_fresh_partial`, `C32_parse_partial`, `C32_unambiguous`, `C32_defined`, `C32_parse_refuted`, `C34_identifier_partial`, `C34_subscript_partial`, `C34_identifier_refuted`, `C38_cache_unobservable`, `C38_cache_complete`, `C38_answer_unique`, `C39_option_refuted`, `C39_option_partial`, `C39_products_partial`, `C40_defined_behaviour_refuted`, `C49_program_behaviour`, `C49_functions`, `C49_print`, `C49_no_undefined_behaviour_refuted`, `C43_digits_partial`, `C43_digits_refuted`, `C44_no_throw_partial`, `C44_no_throw_refuted`, `C46_unique_result`, `C46_unique_derivative`, `C46_larger_bounds`, `C49_program`, `C49_no_new_symbols`, `C49_simplify`, `C49_diff`, `C49_fraction`, `C49_subst`, `C49_parse`, `C52_frame`, `C55_opposite`, `C56_inverse_refuted`, `C58_symbols`, `C61_concat_partial`, `C61_tex_partial`, `C61_unicode_partial`, `C61_greek`, `C61_refuted`, `C62_alike_partial`, `C62_equal_partial`, `C62_type`, `C62_kind`, `C62_refuted`
  axioms: none
* `C50_coefficients`
  axioms: `ClassicalDedekindReals.sig_forall_dec`, `Classical_Prop.classic`, `FunctionalExtensionality.functional_extensionality_dep`
* `C24_expressions_partial`, `C25_expressions_partial`, `C26_expressions_partial`
  axioms: `ClassicalDedekindReals.sig_forall_dec`, `ClassicalDedekindReals.sig_not_dec`, `ClassicalEpsilon.constructive_indefinite_description`, `Classical_Prop.classic`, `FunctionalExtensionality.functional_extensionality_dep`
* `C27_solve_reduces`, `C27_invert_reduces`
  axioms: `FunctionalExtensionality.functional_extensionality_dep`

### Modelled

src/number.cpp, numberfct.cpp (rational alternative inside of expressions, with exact comparisons in toThe; both alternatives with the comparisons of the code in `DoubleModel.v` and `MixedModel.v`), simpleprimepolicy.h, primefac.cpp, numpowersimpl.cpp, base.cpp, basefct.cpp, numeric.cpp, symbol.cpp, constant.cpp, undefined.cpp, sum.cpp, sumsimpl.cpp, product.cpp, productsimpl.cpp, power.cpp, powersimpl.cpp, powernormal.cpp, trigonometric.cpp, numtrigosimpl.cpp, logarithm.cpp, function.cpp, order.cpp, name.cpp, namefct.cpp, fraction.cpp, symbolmap.cpp, poly.cpp, polyinfo.cpp, gcd.cpp, subresultantgcd/primitive variants as far as `gcd` uses them, cache.h, cache.cpp, options.cpp (prime resolution), directsolve.cpp, ludecomp.h, solve.cpp, include/tsym/solve.h, parser.cpp, printer.cpp, plaintextprintengine.cpp, var.cpp, functions.cpp.

### Not modelled

* Numerics that hold a double (as data of expressions), `std::string` conversions of numbers, TeX and Fortran output of expressions, logging, boost::fusion container adapters, reference counts and memory management (the lifetime of symbols is modelled for C30, C31), threads (the library has no synchronisation).
* Arithmetic of boost::multiprecision and of Boost.Spirit's primitive parsers is taken to be that of Z and of character classes in the C locale.
* Limits of machine integers, except where the code casts exponents (C20) and sums complexities (C28).
