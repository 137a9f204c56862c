{
 "claims": [
  {
   "property": "C01",
   "status": "partial",
   "theorems": [
    "C01_program_exact_partial",
    "C01_division_refuted",
    "C01_arithmetic_exact_partial",
    "C01_equality_exact",
    "C01_division_by_power"
   ],
   "note": "exact for all divisors that are quotients of integers up to 2^1000; refuted for others: 1/(1/10^400) recurses for ever, because the divisor is compared with 0 through a double"
  },
  {
   "property": "C02",
   "status": "partial",
   "theorems": [
    "C02_power_exact_partial",
    "C02_throws_iff_undefined",
    "C02_integer_power_exact",
    "C02_power_comparisons_partial",
    "C02_tiny_root_refuted",
    "C02_zero_power_zero_refuted"
   ],
   "note": "exact for all integer root guesses and all integer exponents; fractions made of doubles (irrational roots) are refuted: sqrt(10^-33) = 0; 0^0 = 0"
  },
  {
   "property": "C03",
   "status": "proved",
   "theorems": [
    "C03_prime_factorisation",
    "C03_zero_loops"
   ],
   "note": "the double comparison with sqrt(n)+0.5 is carried out exactly in the model; n = 0 loops forever"
  },
  {
   "property": "C04",
   "status": "partial",
   "theorems": [
    "C04_numeric_power_refuted",
    "C04_numeric_roots_partial",
    "C04_numeric_power_partial",
    "C04_numeric_power_large"
   ],
   "note": "refuted at base 324 (324^2 -> 1296); proved for square/cube/fourth roots with any base and prefactor, for bases with numerator and denominator below 324, and for values above the limit"
  },
  {
   "property": "C05",
   "status": "proved",
   "theorems": [
    "C05_equality_decides_identity",
    "C05_equality_reflexive",
    "C05_equality_symmetric",
    "C05_equality_transitive",
    "C05_undefined_unequal",
    "C05_double_equality_refuted"
   ],
   "note": "expressions with rational numerics; Undefined is unequal to everything by design; for double numerics the tolerance makes equality intransitive (refuted)"
  },
  {
   "property": "C06",
   "status": "proved",
   "theorems": [
    "C06_equal_hash",
    "C06_double_hash_refuted"
   ],
   "note": "rational numerics, every choice of the primitive hash functions; refuted for doubles"
  },
  {
   "property": "C07",
   "status": "partial",
   "theorems": [
    "C07_order_total_partial",
    "C07_exact_numerics",
    "C07_sorted_unique_partial",
    "C07_atan2_refuted",
    "C07_double_comparison_refuted",
    "C07_double_exact_partial",
    "C07_double_sound",
    "C07_double_order_partial"
   ],
   "note": "strict total order on Undefined-free, atan2-free expressions when numbers are compared exactly; atan2 and the comparison through doubles refute the full statement; with doubles: a strict total order on expressions whose numbers have numerator and denominator below 2^26"
  },
  {
   "property": "C08",
   "status": "partial",
   "theorems": [
    "C08_operand_order_refuted",
    "C08_sum_order_partial",
    "C08_product_order_partial",
    "C08_sum_order_polynomials",
    "C08_product_order_monomials"
   ],
   "note": "refuted: sums of atan2 with equal first operand keep the order of the operands; the values agree; the hypothesis rightFacts r facts says that what the execution took for granted is true; it lists every known wrong turn of the code; sums of expanded polynomials and products of expanded monomials: independent of the order without facts"
  },
  {
   "property": "C09",
   "status": "partial",
   "theorems": [
    "C09_sum_value_partial",
    "C09_sum_value_refuted"
   ],
   "note": "the hypothesis rightFacts r facts says that what the execution took for granted is true; it lists every known wrong turn of the code; refuted without the facts: 324^(1/5), made with a smaller resolution of primes, is added up wrongly"
  },
  {
   "property": "C10",
   "status": "partial",
   "theorems": [
    "C10_product_value_partial",
    "C10_product_value_refuted"
   ],
   "note": "refuted: tan(a)^(1/2)*cos(a)^(-1/2) loses the cosine; the hypothesis rightFacts r facts says that what the execution took for granted is true; it lists every known wrong turn of the code"
  },
  {
   "property": "C11",
   "status": "partial",
   "theorems": [
    "C11_power_value_partial",
    "C11_power_value_refuted",
    "C11_root_of_zero_refuted"
   ],
   "note": "refuted: 324^2 = 1296 and sqrt(-x^2) at x = 0; the hypothesis rightFacts r facts says that what the execution took for granted is true; it lists every known wrong turn of the code"
  },
  {
   "property": "C12",
   "status": "proved",
   "theorems": [
    "C12_undefined_sum",
    "C12_undefined_product",
    "C12_undefined_power",
    "C12_undefined_function"
   ],
   "note": "at least one level of calls available to the model"
  },
  {
   "property": "C13",
   "status": "partial",
   "theorems": [
    "C13_expand_value_partial",
    "C13_expand_value_refuted",
    "C13_polynomials",
    "C54_value_refuted"
   ],
   "note": "refuted: products of three sums two of which combine to a single term; the hypothesis rightFacts r facts says that what the execution took for granted is true; it lists every known wrong turn of the code; no facts needed for polynomials; also refuted for an expression computed by a program of the four operations"
  },
  {
   "property": "C14",
   "status": "partial",
   "theorems": [
    "C14_derivative_partial",
    "C14_derivative_defined_partial",
    "C14_derivative_refuted",
    "C14_polynomials"
   ],
   "note": "interior points without zero bases and without atan2; refuted: diff((-2)^y, x) is Undefined; the hypothesis rightFacts r facts says that what the execution took for granted is true; it lists every known wrong turn of the code; no facts needed for expanded polynomials"
  },
  {
   "property": "C15",
   "status": "partial",
   "theorems": [
    "C15_absent_symbol_partial",
    "C15_absent_symbol_zero_partial",
    "C15_absent_symbol_refuted",
    "C15_polynomials"
   ],
   "note": "0 or Undefined, 0 where all bases have a logarithm; refuted by diff((-2)^y, x); the hypothesis rightFacts r facts says that what the execution took for granted is true; it lists every known wrong turn of the code; no facts needed and both directions for expanded polynomials"
  },
  {
   "property": "C16",
   "status": "partial",
   "theorems": [
    "C16_subst_value_partial",
    "C16_subst_value_refuted",
    "C16_polynomials_partial"
   ],
   "note": "refuted through the product bug of C10; the hypothesis rightFacts r facts says that what the execution took for granted is true; it lists every known wrong turn of the code; no facts needed for substitution in expanded polynomials, which also ends"
  },
  {
   "property": "C17",
   "status": "proved",
   "theorems": [
    "C17_has_exact",
    "C17_absent_symbol",
    "C17_collected_symbols"
   ],
   "note": ""
  },
  {
   "property": "C18",
   "status": "partial",
   "theorems": [
    "C18_positive_partial",
    "C18_negative_partial",
    "C18_positive_refuted",
    "C18_polynomials_partial"
   ],
   "note": "refuted: x^2 counts as positive but is 0 at 0; the hypothesis rightFacts r facts says that what the execution took for granted is true; it lists every known wrong turn of the code; no facts needed for polynomials, weak signs"
  },
  {
   "property": "C19",
   "status": "partial",
   "theorems": [
    "C19_complexity_structural",
    "C19_simplify_complexity_refuted",
    "C51_simplify"
   ],
   "note": "complexity depends on the structure only; simplify may increase it (63 to 118); no facts needed for expanded polynomials with small denominators, where simplify also ends"
  },
  {
   "property": "C20",
   "status": "partial",
   "theorems": [
    "C20_coefficients_partial",
    "C20_degree",
    "C20_degree_sum",
    "C20_coefficients_refuted",
    "C50_degree",
    "C50_coefficients"
   ],
   "note": "refuted: exponents of 2147483647 and more count as degree 0; the hypothesis rightFacts r facts says that what the execution took for granted is true; it lists every known wrong turn of the code; no facts needed for expanded polynomials"
  },
  {
   "property": "C21",
   "status": "partial",
   "theorems": [
    "C21_division_partial",
    "C21_pseudo_division_partial",
    "C21_pseudo_division_refuted",
    "C50_division_partial",
    "C50_exact_partial"
   ],
   "note": "the power of the leading coefficient in the pseudo division is not the one the code counts (refuted: x^2 by 2x); the hypothesis rightFacts r facts says that what the execution took for granted is true; it lists every known wrong turn of the code; no facts needed, ends and finds exact quotients for expanded polynomials with small coefficients"
  },
  {
   "property": "C22",
   "status": "partial",
   "theorems": [
    "C22_integer_gcd_partial",
    "C22_univariate_gcd_partial",
    "C22_unit_partial",
    "C22_gcd_divides_refuted"
   ],
   "note": "proved for integers, and for expanded polynomials in one symbol with both algorithms: whenever gcd returns, the result is a common divisor that every common divisor divides, with a positive leading coefficient; refuted for polynomials with huge exponents: gcd(x^2147483647, itself) = 0; missing: several symbols, and that the computation ends"
  },
  {
   "property": "C23",
   "status": "partial",
   "theorems": [
    "C23_normal_value_partial",
    "C23_simplify_value_partial",
    "C23_normal_value_refuted",
    "C51_normal"
   ],
   "note": "refuted: the root of a quotient of two negative values; the hypothesis rightFacts r facts says that what the execution took for granted is true; it lists every known wrong turn of the code; no facts needed for expanded polynomials with small denominators, where normal also ends"
  },
  {
   "property": "C24",
   "status": "partial",
   "theorems": [
    "C24_expressions_partial",
    "C24_expressions_refuted",
    "C24_solution_solves_partial",
    "C24_pointwise_partial"
   ],
   "note": "for systems of expressions of any dimension, every skip field and both algorithms: wherever the pivots aren't zero and the rewriting made no wrong turn, the result solves the system and is the only solution; refuted without that: 324*x = 648 is solved by 18 (the library's 1/324 is 1/36). The other theorems are about every field and entry type with sound arithmetic"
  },
  {
   "property": "C25",
   "status": "partial",
   "theorems": [
    "C25_expressions_partial",
    "C25_determinant_partial",
    "C25_determinant_never_wrong",
    "C25_determinant_refuted",
    "C28_expressions_refuted"
   ],
   "note": "for matrices of expressions: the value of the result is the determinant wherever the pivots aren't zero and the facts hold; for entries with exact arithmetic: proved for regular matrices, and a returned number is never wrong; refuted for singular matrices: throws (Gauss) or Undefined (least complexity pivot), and for regular ones with a pivot that vanishes without being 0"
  },
  {
   "property": "C26",
   "status": "partial",
   "theorems": [
    "C26_expressions_partial",
    "C26_inverse_partial"
   ],
   "note": "for matrices of expressions: the result is the inverse, on both sides, wherever the pivots aren't zero and the facts hold (1/324 is 1/36 for the library, see C24); the second theorem is about every field and entry type with sound arithmetic"
  },
  {
   "property": "C27",
   "status": "proved",
   "theorems": [
    "C27_solve_reduces",
    "C27_determinant_reduces",
    "C27_invert_reduces",
    "C27_skipped_unchanged",
    "C27_only_active_matter"
   ],
   "note": "without hypotheses: a call with a skip field has the outcome of the call for the reduced system, the results go to the active places in order, the others are unchanged"
  },
  {
   "property": "C28",
   "status": "partial",
   "theorems": [
    "C28_singular_reported_partial",
    "C26_inverse_partial",
    "C28_expressions_refuted"
   ],
   "note": "both algorithms, given sound arithmetic, an exact zero test and complexities below the unsigned limit; refuted for expressions, whose zero test is structural: a regular matrix with x*(1+y)-x*y-x as its first pivot is reported as singular"
  },
  {
   "property": "C29",
   "status": "proved",
   "theorems": [
    "C29_names_total_order"
   ],
   "note": ""
  },
  {
   "property": "C30",
   "status": "proved",
   "theorems": [
    "C30_symbol_identity",
    "C30_symbol_name",
    "C30_named_not_temporary"
   ],
   "note": "all histories"
  },
  {
   "property": "C31",
   "status": "partial",
   "theorems": [
    "C31_fresh_refuted",
    "C31_fresh_partial"
   ],
   "note": "refuted: destroying an older temporary lets a new one repeat a living name; proved for histories in which temporaries die in LIFO order"
  },
  {
   "property": "C32",
   "status": "partial",
   "theorems": [
    "C32_parse_partial",
    "C32_unambiguous",
    "C32_value_partial",
    "C32_defined",
    "C32_parse_refuted"
   ],
   "note": "parse is exactly the grammar of GrammarSpec.v (sound and complete, whole text); refuted for decimal numbers and all names: leading zeros mean octal, names that begin with pi or euler are rejected; out of range exponents of floating point numbers are not modelled; values: the hypothesis rightFacts r facts says that what the execution took for granted is true; it lists every known wrong turn of the code"
  },
  {
   "property": "C33",
   "status": "partial",
   "theorems": [
    "C33_text_partial",
    "C33_round_trip_partial",
    "C33_constant_refuted",
    "C33_unicode_refuted",
    "C33_superscript_refuted",
    "C33_positive_refuted",
    "C33_parentheses_refuted"
   ],
   "note": "Printed text is parsed back and into the same value, with and without fractions, for names that can be read back, provided that the facts of the execution are right (a fact that never is right is recorded where parentheses are missing and for the name of a constant that isn't read back). Refuted in general: e, pi in unicode, superscripts, positive symbols, and a constant base whose double value is an integer is printed without parentheses. the hypothesis rightFacts r facts says that what the execution took for granted is true; it lists every known wrong turn of the code"
  },
  {
   "property": "C34",
   "status": "partial",
   "theorems": [
    "C34_identifier_partial",
    "C34_subscript_partial",
    "C34_identifier_refuted"
   ],
   "note": "refuted: pivot; proved for all identifiers that don't begin with pi or euler (in upper or lower case)"
  },
  {
   "property": "C35",
   "status": "partial",
   "theorems": [
    "C35_exact_values_partial",
    "C35_exact_values_checked",
    "C35_exact_values_refuted",
    "C35_eighths_twelfths_partial",
    "C35_tan_eighths_sixths_partial"
   ],
   "note": "refuted: sin(pi*10^-20) becomes exactly 0, the table is searched with doubles; the checked version needs no assumption beyond a computation that confirms the facts; the hypothesis rightFacts r facts says that what the execution took for granted is true; it lists every known wrong turn of the codesine and cosine of a/8*pi and a/12*pi, |a| < 2^290, end with an expression without functions that has the right value, with IEEE doubles and an accurate C library: no hypothesis on facts; missing: larger athe same for tan of a/8*pi and a/6*pi, Undefined exactly where the cosine is zero; missing: a/12*pi"
  },
  {
   "property": "C36",
   "status": "partial",
   "theorems": [
    "C36_atan2_partial",
    "C36_atan2_checked",
    "C36_atan2_refuted"
   ],
   "note": "refuted: atan2(-tan(1), -1) becomes 1; the hypothesis rightFacts r facts says that what the execution took for granted is true; it lists every known wrong turn of the code"
  },
  {
   "property": "C37",
   "status": "partial",
   "theorems": [
    "C37_log_value_partial",
    "C37_log_value_refuted"
   ],
   "note": "refuted: log(x^2) = 2*log(x); the hypothesis rightFacts r facts says that what the execution took for granted is true; it lists every known wrong turn of the code"
  },
  {
   "property": "C38",
   "status": "proved",
   "theorems": [
    "C38_cache_unobservable",
    "C38_cache_complete",
    "C38_answer_unique"
   ],
   "note": "all code bodies that call memorised functions, all histories; the counter of temporary symbols is not part of the modelled memory; keys with rational numerics (doubles compare with a tolerance, see C05)"
  },
  {
   "property": "C39",
   "status": "partial",
   "theorems": [
    "C39_option_refuted",
    "C39_option_partial",
    "C39_products_partial"
   ],
   "note": "refuted: the cache of sums (and those of normal, expand, divide, gcd, and the static trigonometric tables) ignore the option; proved for histories that clear the caches after each change; without clearing where only products depend on the option"
  },
  {
   "property": "C40",
   "status": "partial",
   "theorems": [
    "C40_defined_behaviour_refuted",
    "C47_ends",
    "C49_program_behaviour",
    "C49_functions",
    "C49_print",
    "C49_no_undefined_behaviour_refuted"
   ],
   "note": "refuted: tan(x)/tan(x) reads the front of an empty list; proved for programs that compute polynomials; expand((x+1)*(y+1)*(1+sqrt(2))*(1-sqrt(2))) too; proved: only four kinds of undefined behaviour are left for well-formed expressions"
  },
  {
   "property": "C41",
   "status": "partial",
   "theorems": [
    "C41_program_value_partial",
    "C41_program_value_checked",
    "C47_value",
    "C41_program_value_refuted",
    "C54_value_partial",
    "C54_small_partial",
    "C54_value_refuted"
   ],
   "note": "the hypothesis rightFacts r facts says that what the execution took for granted is true; it lists every known wrong turn of the code; no facts needed for programs that compute polynomials; refuted without the facts: the program 324^2 computes 1296; for rational programs nothing but powers of numbers and two wrong turns need to be looked at"
  },
  {
   "property": "C42",
   "status": "partial",
   "theorems": [
    "C42_fraction_value_partial",
    "C51_normal",
    "C51_simplify",
    "C51_fraction"
   ],
   "note": "the hypothesis rightFacts r facts says that what the execution took for granted is true; it lists every known wrong turn of the code; normal and simplify do nothing to expanded polynomials with small denominators; for expanded polynomials no facts, and the denominator is the least one"
  },
  {
   "property": "C43",
   "status": "partial",
   "theorems": [
    "C43_digits_partial",
    "C43_digits_refuted"
   ],
   "note": "refuted: 010 is 8; proved for digits without a leading zero"
  },
  {
   "property": "C44",
   "status": "partial",
   "theorems": [
    "C44_no_throw_partial",
    "C44_no_throw_refuted"
   ],
   "note": "refuted: parse throws for 08; proved that the parser throws only for such digits; exceptions while expressions are built are not covered"
  },
  {
   "property": "C45",
   "status": "proved",
   "theorems": [
    "C45_double_comparison",
    "C45_expand_ends",
    "C45_normal_form",
    "C45_decides_equality",
    "C45_zero",
    "C45_idempotent"
   ],
   "note": "exponents up to the bound for which the comparison of numbers is exact (2^53 for the comparison by doubles)"
  },
  {
   "property": "C46",
   "status": "proved",
   "theorems": [
    "C46_unique_result",
    "C46_unique_derivative",
    "C46_larger_bounds"
   ],
   "note": ""
  },
  {
   "property": "C47",
   "status": "proved",
   "theorems": [
    "C47_ends",
    "C47_value",
    "C47_decides",
    "C47_large_refuted"
   ],
   "note": "degrees up to the bound for which the comparison of numbers is exact (2^53 for doubles); in powers and divisions, numerators and denominators of numeric factors must be smaller than 324 because of C04 (C47_large_refuted: x/324 gives x/36)"
  },
  {
   "property": "C48",
   "status": "proved",
   "theorems": [
    "C48_ends",
    "C48_formal_derivative",
    "C48_derivative",
    "C48_mixed_derivatives",
    "C48_sum_rule",
    "C48_product_rule",
    "C14_polynomials",
    "C15_polynomials"
   ],
   "note": "exponents up to the bound for which the comparison of numbers is exact (2^53 for doubles)"
  },
  {
   "property": "C49",
   "status": "proved",
   "theorems": [
    "C49_program",
    "C49_program_behaviour",
    "C49_no_new_symbols",
    "C49_functions",
    "C49_simplify",
    "C49_diff",
    "C49_fraction",
    "C49_subst",
    "C49_print",
    "C49_parse",
    "C49_no_undefined_behaviour_refuted"
   ],
   "note": "for all doubles, no facts; that no undefined behaviour is left at all is refuted (C49_no_undefined_behaviour_refuted)"
  },
  {
   "property": "C50",
   "status": "partial",
   "theorems": [
    "C50_degree",
    "C50_coefficients",
    "C50_division_partial",
    "C50_exact_partial",
    "C50_division_refuted"
   ],
   "note": "degree and coefficients: proved, exponents below the largest int; division: for divisors whose coefficients have numerator and denominator below 324 (refuted for all, 648/324) and degrees for which (deg u+1)*(deg v+1)^(number of symbols) is within the bound of exact comparison and below the largest int; no facts"
  },
  {
   "property": "C51",
   "status": "proved",
   "theorems": [
    "C51_normal",
    "C51_simplify",
    "C51_large_denominator_refuted",
    "C51_fraction"
   ],
   "note": "a common denominator below 324 is part of the property; refuted without it (normal of 1/324)"
  },
  {
   "property": "C52",
   "status": "partial",
   "theorems": [
    "C52_factorize_partial",
    "C52_solve_partial",
    "C52_system_partial",
    "C52_frame",
    "C52_pivot_refuted"
   ],
   "note": "missing: runs relying on wrong facts (pivots with the value zero, wrong turns of the rewriting); without pivoting a regular matrix with a zero pivot is reported as singular (refuted)"
  },
  {
   "property": "C53",
   "status": "partial",
   "theorems": [
    "C53_division_hangs",
    "C53_normal_refuted",
    "C53_simplify_refuted",
    "C53_fraction_refuted",
    "C47_ends",
    "C50_division_partial",
    "C51_normal",
    "C51_simplify",
    "C51_fraction"
   ],
   "note": "refuted: the normal form of 324/(648 + 324*x) is never found; proved for programs of polynomials, division by polynomials with small coefficients, and normal, simplify, numerator, denominator of expanded polynomials; missing: other expressions, where the inverses of numbers are right"
  },
  {
   "property": "C54",
   "status": "partial",
   "theorems": [
    "C54_result",
    "C54_value_partial",
    "C54_small_partial",
    "C54_value_refuted"
   ],
   "note": "missing: powers of numbers with a wrong value (never for numerators and denominators below 324) and the two wrong turns; refuted without them: expand((1/(a + b) - 1/a)*(a + b + (y + z)*(y - z) + z^2 - y^2)*(v + w)) is wrong"
  },
  {
   "property": "C55",
   "status": "proved",
   "theorems": [
    "C55_decimals_exact",
    "C55_value_close",
    "C55_conversion_stable",
    "C55_opposite",
    "C55_exact_value_refuted"
   ],
   "note": "IEEE binary64 with rounding to nearest even; the stronger claim that every double keeps its exact value is refuted"
  },
  {
   "property": "C56",
   "status": "partial",
   "theorems": [
    "C56_laws_partial",
    "C56_opposite_exact",
    "C56_sum_close",
    "C56_product_close",
    "C56_associative_refuted",
    "C56_zero_divisor_refuted",
    "C56_inverse_refuted"
   ],
   "note": "refuted: associativity, absence of zero divisors, a/a = 1"
  },
  {
   "property": "C57",
   "status": "partial",
   "theorems": [
    "C57_less_is_weak_order_partial",
    "C57_less_sound",
    "C57_equal_partial",
    "C57_exclusive_refuted",
    "C57_transitive_refuted",
    "C57_total_refuted"
   ],
   "note": "refuted: a == b excludes a < b; == is transitive; different numbers can be ordered. Numbers whose double is NaN (quotient of two integers above the range of double) are excluded"
  },
  {
   "property": "C58",
   "status": "partial",
   "theorems": [
    "C58_int_partial",
    "C58_int_near",
    "C58_symbols",
    "C58_int_refuted"
   ],
   "note": "refuted: pi/10^20 is converted to 0; proved for rational arithmetic, otherwise the integer is near the value; exceptions of Number::toThe count as domain_error"
  },
  {
   "property": "C59",
   "status": "partial",
   "theorems": [
    "C59_accurate_partial",
    "C59_few_digits_partial",
    "C59_relative_refuted"
   ],
   "note": "missing: tan, asin, acos, log, atan2, powers with irrational or negative bases or irrational exponents; the bound is an absolute one, a relative one is refuted (pi/10^20 is converted to 0)"
  },
  {
   "property": "C60",
   "status": "partial",
   "theorems": [
    "C60_roots_found_partial",
    "C60_roots_found_refuted"
   ],
   "note": "proved for roots t with numerator and denominator up to 10^6, t^d up to 2^400; refuted without bounds: the square root of (10^20+1)^2 is rounded to a double"
  },
  {
   "property": "C61",
   "status": "partial",
   "theorems": [
    "C61_concat_partial",
    "C61_tex_partial",
    "C61_unicode_partial",
    "C61_greek",
    "C61_refuted"
   ],
   "note": "proved for ASCII names without the characters _ ^ { } and backslash (unicode: Greek letters without indices); refuted for all names: a_b is a with the index b or the value a_b; unicode drops the indices of Greek letters"
  },
  {
   "property": "C62",
   "status": "partial",
   "theorems": [
    "C62_alike_partial",
    "C62_equal_partial",
    "C62_type",
    "C62_kind",
    "C62_refuted"
   ],
   "note": "proved for expressions with plain names (as C61) and rational numbers; refuted for all names: the symbols a_b and a with the index b look alike. Missing: numerics that hold a double"
  }
 ]
}