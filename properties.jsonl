{"id": "C01", "title": "Rational arithmetic is exact and canonical", "statement": "Sums, differences, products and quotients of rational numbers are the exact mathematical results, and every rational number value is stored in lowest terms with a positive denominator, so two rationals are equal exactly when their numerator and denominator agree. Dividing by zero is reported as an overflow_error and by nothing else.", "quantifier": "all pairs of rationals (arbitrary precision), all four operators, any number of chained operations", "why_tests_cant": "the claim ranges over unbounded integers and arbitrary operation sequences", "anchors": ["src/number.cpp: Number::operator+=,-=,*=,/=, cancel, setAndSimplify"]}
{"id": "C02", "title": "Exact rational powers and roots", "statement": "When raising a rational to a rational exponent yields a rational result, this result r satisfies r^d = b^n exactly (b base, n/d exponent), whatever the floating point root guess was; a zero base with negative exponent and a negative base with a non-integer exponent throw.", "quantifier": "all rational bases and exponents, all possible floating point guesses", "why_tests_cant": "needs every base and exponent and every rounding behaviour of std::pow", "anchors": ["src/number.cpp: Number::toThe, computeNumPower, computeNumPowerForFractionExp, tryGetBase"]}
{"id": "C03", "title": "Prime factorisation is correct", "statement": "For every positive integer below the resolution limit the computed list of prime factors is sorted, contains only primes and multiplies up to the integer.", "quantifier": "all positive integers", "why_tests_cant": "unbounded integers; a finite table of examples leaves out boundary cases such as squares of primes", "anchors": ["src/simpleprimepolicy.h: getPrimeFactors", "src/primefac.cpp: PrimeFac::PrimeFac"]}
{"id": "C04", "title": "Numeric power simplification preserves the value", "statement": "Rewriting p*b^e for rational p, b, e into p'*b'^e' (for example sqrt(8) to 2*sqrt(2)) does not change its real value.", "quantifier": "all rational prefactors, bases and exponents for which the power is defined", "why_tests_cant": "the rewriting depends on the multiplicities in the prime factorisation of unbounded integers", "anchors": ["src/numpowersimpl.cpp", "src/primefac.cpp"]}
{"id": "C05", "title": "Structural equality is an equivalence relation", "statement": "Equality of expressions is reflexive, symmetric and transitive on expressions that contain no Undefined and holds exactly when the two expressions are structurally identical; an expression that is Undefined is never equal to anything, itself included.", "quantifier": "all pairs and triples of expressions of any depth", "why_tests_cant": "relation over an infinite set of trees", "anchors": ["src/base.cpp: Base::isEqual", "src/undefined.cpp", "src/baseptrlistfct.cpp: areEqual"]}
{"id": "C06", "title": "Equal expressions have equal hashes", "statement": "Two expressions that compare equal have the same hash value, for every choice of the underlying primitive hash functions, so that every hash container finds an equal key.", "quantifier": "all pairs of expressions, all primitive hash functions", "why_tests_cant": "infinite set of trees", "anchors": ["src/baseptr.cpp: hash_value", "src/base.cpp", "src/sum.cpp, product.cpp, power.cpp, function.cpp, symbol.cpp: hash"]}
{"id": "C07", "title": "Canonical operand order is a strict total order", "statement": "The relation used to sort operands of sums and products is irreflexive, transitive and total on pairwise different expressions, so that a sorted operand list is uniquely determined.", "quantifier": "all expressions of any depth", "why_tests_cant": "order axioms quantify over all triples of trees", "anchors": ["src/order.cpp: doPermute"]}
{"id": "C08", "title": "Operand order of sums and products does not matter", "statement": "Adding or multiplying the same operands in a different order yields an equal expression.", "quantifier": "all operand lists and permutations", "why_tests_cant": "infinite set of inputs", "anchors": ["src/order.cpp", "src/sumsimpl.cpp", "src/productsimpl.cpp"]}
{"id": "C09", "title": "Adding expressions preserves the value", "statement": "For every assignment of real values to the symbols for which all summands have a value, the automatically simplified sum has a value which is the sum of the summands' values.", "quantifier": "all lists of expressions, all assignments", "why_tests_cant": "infinite set of inputs, reals", "anchors": ["src/sum.cpp: Sum::create", "src/sumsimpl.cpp"]}
{"id": "C10", "title": "Multiplying expressions preserves the value", "statement": "For every assignment of real values to the symbols for which all factors have a value, the automatically simplified product has a value which is the product of the factors' values.", "quantifier": "all lists of expressions, all assignments", "why_tests_cant": "infinite set of inputs, reals", "anchors": ["src/product.cpp: Product::create", "src/productsimpl.cpp"]}
{"id": "C11", "title": "Powers preserve the value", "statement": "For every assignment for which base^exponent has a real value, the automatically simplified power has this value.", "quantifier": "all base and exponent expressions, all assignments", "why_tests_cant": "infinite set of inputs, reals", "anchors": ["src/power.cpp: Power::create", "src/powersimpl.cpp"]}
{"id": "C12", "title": "Undefined is contagious", "statement": "A sum, product, power or function application with an Undefined operand is Undefined.", "quantifier": "all operand lists", "why_tests_cant": "infinite set of operand lists", "anchors": ["src/sum.cpp", "src/product.cpp", "src/power.cpp", "src/trigonometric.cpp", "src/logarithm.cpp"]}
{"id": "C13", "title": "Expansion preserves the value", "statement": "expand(e) has the value of e for every assignment for which e has one.", "quantifier": "all expressions, all assignments", "why_tests_cant": "infinite set of inputs, reals", "anchors": ["src/base.cpp, sum.cpp, product.cpp, power.cpp: expand", "src/baseptrlistfct.cpp: expandAsProduct"]}
{"id": "C14", "title": "Differentiation computes the derivative", "statement": "diff(e, x) evaluates to the derivative of e with respect to x wherever e is differentiable in a neighbourhood.", "quantifier": "all expressions, symbols and assignments", "why_tests_cant": "infinite set of inputs, analytic statement", "anchors": ["src/*.cpp: diffWrtSymbol", "src/base.cpp: diff"]}
{"id": "C15", "title": "The derivative with respect to an absent symbol is zero", "statement": "If x does not occur in e then diff(e,x) is 0.", "quantifier": "all expressions and symbols", "why_tests_cant": "infinite set of inputs", "anchors": ["src/*.cpp: diffWrtSymbol"]}
{"id": "C16", "title": "Substitution evaluates like an updated assignment", "statement": "The value of subst(e, x, t) is the value of e with x bound to the value of t.", "quantifier": "all expressions e, t, symbols x, assignments", "why_tests_cant": "infinite set of inputs", "anchors": ["src/*.cpp: subst"]}
{"id": "C17", "title": "has() is exact for substitution and evaluation", "statement": "If has(e,x) is false then e does not depend on x: its value is the same for all values of x, and collectSymbols does not list it; if it is true x is a subexpression.", "quantifier": "all expressions", "why_tests_cant": "infinite set of inputs", "anchors": ["src/base.cpp: has", "src/basefct.cpp: collectSymbols"]}
{"id": "C18", "title": "Sign predicates are sound", "statement": "If isPositive (isNegative) is true then the value is positive (negative) for every assignment which respects the positivity flags.", "quantifier": "all expressions and assignments", "why_tests_cant": "infinite set of inputs, reals", "anchors": ["src/*.cpp: isPositive, isNegative"]}
{"id": "C19", "title": "Complexity is structural and simplify never increases it", "statement": "complexity(e) depends only on the structure; simplify returns an expression that is not more complex than the input.", "quantifier": "all expressions", "why_tests_cant": "infinite set of inputs", "anchors": ["src/*.cpp: complexity", "src/functions.cpp: simplify"]}
{"id": "C20", "title": "Degree and coefficients reconstruct a polynomial", "statement": "For an expanded polynomial e in x, the sum of coeff(e,x,k)*x^k for k up to degree(e,x) has the value of e.", "quantifier": "all expanded polynomials, all variables", "why_tests_cant": "unbounded degrees and numbers of terms", "anchors": ["src/*.cpp: degree, coeff", "src/polyinfo.cpp"]}
{"id": "C21", "title": "Polynomial division identity", "statement": "For polynomials u, v in x with v nonzero, divide returns q, r with u = q*v + r; pseudo division satisfies lcoeff(v)^k * u = q*v + r with deg r < deg v.", "quantifier": "all pairs of polynomials", "why_tests_cant": "unbounded degree", "anchors": ["src/poly.cpp: divide, pseudoDivide"]}
{"id": "C22", "title": "gcd divides both arguments", "statement": "The polynomial returned by gcd divides both of its arguments.", "quantifier": "all pairs of polynomials", "why_tests_cant": "unbounded degree", "anchors": ["src/gcd.cpp", "src/primitivegcd.cpp", "src/subresultantgcd.cpp"]}
{"id": "C23", "title": "Normalisation preserves the value", "statement": "normal(e) has the value of e for every assignment for which both the expression and its subterms have a value.", "quantifier": "all expressions", "why_tests_cant": "infinite set of inputs", "anchors": ["src/base.cpp: normal", "src/fraction.cpp", "src/symbolmap.cpp"]}
{"id": "C24", "title": "A returned solution solves the linear system", "statement": "If solve returns x (Gauss pivoting) then A*x = b holds, entry by entry.", "quantifier": "all square matrices and right hand sides of any dimension", "why_tests_cant": "unbounded dimension", "anchors": ["src/solve.cpp", "src/ludecomp.h", "src/directsolve.cpp"]}
{"id": "C25", "title": "determinant is the determinant", "statement": "determinant returns the determinant of the matrix (0 for a singular one).", "quantifier": "all square matrices of any dimension", "why_tests_cant": "unbounded dimension", "anchors": ["src/solve.cpp: determinant", "src/ludecomp.h"]}
{"id": "C26", "title": "invert computes the inverse", "statement": "After invert, A_old*A_new is the identity.", "quantifier": "all regular matrices of any dimension", "why_tests_cant": "unbounded dimension", "anchors": ["src/solve.cpp: invert"]}
{"id": "C27", "title": "Skip fields select exactly the active rows and columns", "statement": "Solving with a skip field solves the system restricted to the unskipped rows and columns, writes the solution to unskipped positions in order and leaves the skipped entries of the output unchanged.", "quantifier": "all dimensions and skip patterns", "why_tests_cant": "2^n skip patterns for every n", "anchors": ["include/tsym/solve.h: toStdVec, fromStdVec"]}
{"id": "C28", "title": "Singular systems are reported", "statement": "For a singular coefficient matrix solve and invert throw invalid_argument instead of returning, for each of the pivoting algorithms; they do not throw for regular matrices.", "quantifier": "all singular matrices", "why_tests_cant": "unbounded dimension", "anchors": ["src/directsolve.cpp", "src/ludecomp.h"]}
{"id": "C29", "title": "Names are ordered totally and split consistently", "statement": "Comparison of symbol names is a strict total order whose incomparability is equality.", "quantifier": "all names (base, subscript, superscript)", "why_tests_cant": "infinite set of strings", "anchors": ["src/name.cpp"]}
{"id": "C30", "title": "Symbol identity depends on name and positivity only", "statement": "Whatever symbols have been created and destroyed before, two symbol handles compare equal exactly if they have the same name and the same positivity flag.", "quantifier": "all creation/destruction histories", "why_tests_cant": "unbounded histories", "anchors": ["src/symbol.cpp"]}
{"id": "C31", "title": "Temporary symbols are fresh", "statement": "A newly created temporary symbol differs from all temporary symbols that are still alive.", "quantifier": "all creation/destruction histories", "why_tests_cant": "unbounded histories", "anchors": ["src/symbol.cpp: createTmpSymbol, ~Symbol"]}
{"id": "C32", "title": "Parsing follows the documented precedence", "statement": "A successfully parsed text yields the value of its derivation: ^ is right associative and binds strongest, then unary minus, then * and / from left to right, then + and -; nothing is accepted unless the whole text is consumed.", "quantifier": "all texts", "why_tests_cant": "infinite set of strings", "anchors": ["src/parser.cpp"]}
{"id": "C33", "title": "Printing and parsing round trip", "statement": "Parsing the plain text representation of an expression gives back an expression of equal value.", "quantifier": "all expressions", "why_tests_cant": "infinite set of trees", "anchors": ["src/printer.cpp", "src/plaintextprintengine.cpp", "src/parser.cpp"]}
{"id": "C34", "title": "Every identifier is parsed as a symbol of this name", "statement": "A text consisting of a letter followed by letters and digits that is not a constant's name parses as the symbol with this name.", "quantifier": "all identifiers", "why_tests_cant": "infinite set of strings", "anchors": ["src/parser.cpp"]}
{"id": "C35", "title": "Exact trigonometric values", "statement": "sin, cos and tan of every rational multiple of pi that is rewritten to a closed form have this closed form as their value, in every quadrant and for every number of full turns.", "quantifier": "all rational multiples of pi", "why_tests_cant": "infinitely many multiples", "anchors": ["src/numtrigosimpl.cpp", "src/trigonometric.cpp"]}
{"id": "C36", "title": "atan2 respects the quadrant", "statement": "The value of the created atan2(y,x) is the angle of the point (x,y).", "quantifier": "all numeric coordinates", "why_tests_cant": "infinite set", "anchors": ["src/trigonometric.cpp: createAtan2"]}
{"id": "C37", "title": "Logarithm rules preserve the value", "statement": "The automatically simplified log(e) has the value of the logarithm of e wherever e is positive.", "quantifier": "all expressions and assignments", "why_tests_cant": "infinite set of inputs", "anchors": ["src/logarithm.cpp"]}
{"id": "C38", "title": "Caching is unobservable", "statement": "Interleaving any sequence of cached computations and cache clears returns for each call what the uncached computation returns, as long as the prime resolution option is not changed.", "quantifier": "all call sequences, all cached functions", "why_tests_cant": "unbounded histories", "anchors": ["src/cache.h", "src/cache.cpp", "src/productsimpl.cpp: simplifyProduct", "src/sumsimpl.cpp: simplifySum"]}
{"id": "C39", "title": "Option changes take effect", "statement": "After changing the prime resolution option, the result of each operation is the one of a fresh process with this option.", "quantifier": "all histories", "why_tests_cant": "unbounded histories", "anchors": ["src/options.cpp", "src/productsimpl.cpp, sumsimpl.cpp, basefct.cpp: caches"]}
{"id": "C40", "title": "Arithmetic on expressions never leaves defined behaviour", "statement": "No arithmetic operation on valid expressions accesses an empty operand list or advances an iterator past the end.", "quantifier": "all expressions", "why_tests_cant": "infinite set of inputs", "anchors": ["src/productsimpl.cpp: contractTrigFctPowers, contractConst, contractTwoConst"]}
{"id": "C41", "title": "Programs compute the value they stand for", "statement": "Any composition of constructors, arithmetic operators, power, sqrt, log, trigonometric functions, subst, expand, normal and simplify yields an expression whose value is the one of the corresponding real arithmetic, for every assignment for which the latter is defined.", "quantifier": "all programs over the public interface, all assignments", "why_tests_cant": "unbounded composition of operations", "anchors": ["include/var.h", "include/functions.h", "src/var.cpp", "src/functions.cpp"]}
{"id": "C42", "title": "numerator and denominator represent the expression", "statement": "numerator(e)/denominator(e) has the value of e, with a nonzero denominator, for every assignment for which e has a value.", "quantifier": "all expressions, all assignments", "why_tests_cant": "infinite set of inputs", "anchors": ["src/functions.cpp: numerator, denominator, normalToFraction"]}
{"id": "C43", "title": "Digits denote the decimal number", "statement": "A text that consists of digits parses as (and constructs) the integer with these decimal digits.", "quantifier": "all digit sequences", "why_tests_cant": "infinite set of strings, arbitrary length", "anchors": ["src/parser.cpp", "src/var.cpp: Var(std::string_view)"]}
{"id": "C44", "title": "Malformed text is reported by an empty result", "statement": "parse of any text returns an empty optional or an expression; it does not throw.", "quantifier": "all texts", "why_tests_cant": "infinite set of strings", "anchors": ["src/functions.cpp: parse", "src/parser.cpp"]}
{"id": "C45", "title": "Expansion decides equality of polynomials", "statement": "For an expression made of rational numbers, symbols, integer powers of symbols, sums, products and nonnegative integer powers of sums, expand returns a result; two such expressions have the same values if and only if their expansions are equal expressions; in particular the expansion is 0 exactly if the polynomial vanishes, and expanding again changes nothing.", "quantifier": "all such expressions of any size (with exponents that the comparison of numbers orders correctly: up to 2^53 for doubles), all assignments", "why_tests_cant": "infinite set of pairs of expressions and an equivalence that ranges over all assignments", "anchors": ["src/functions.cpp: expand", "src/sum.cpp, src/product.cpp, src/power.cpp: expand", "src/sumsimpl.cpp", "src/productsimpl.cpp", "src/order.cpp"]}
{"id": "C46", "title": "A computation has at most one result", "statement": "A program of arithmetic, functions, expand, subst, simplify, normal or diff that ends does so in one way only: the model's bounds for loops and recursion influence whether a result is found, but not which one.", "quantifier": "all programs, all bounds, all behaviours of the floating point library", "why_tests_cant": "ranges over all programs and all bounds", "anchors": ["src/sumsimpl.cpp", "src/productsimpl.cpp", "src/powersimpl.cpp", "src/fraction.cpp", "src/functions.cpp"]}
{"id": "C47", "title": "Programs that compute polynomials end with the right polynomial", "statement": "A program made of integers, fractions, symbols, +, -, *, powers with positive integer exponents (of expressions whose numeric factor is small), divisions by small numbers and expand ends without exception and undefined behaviour; its result is a polynomial of at most the expected degree that is defined and has the value of the program for every assignment; expanding the results of two such programs gives equal expressions if and only if they compute the same polynomial.", "quantifier": "all such programs of any size whose degree is within the range in which numbers are compared correctly (2^53 for doubles), all assignments, all behaviours of the rest of the floating point library", "why_tests_cant": "infinite set of programs and of assignments; termination for every input", "anchors": ["src/var.cpp: operators", "src/functions.cpp: pow, expand", "src/sumsimpl.cpp", "src/productsimpl.cpp", "src/powersimpl.cpp", "src/product.cpp: create, expand"]}
{"id": "C48", "title": "Derivatives of polynomials are exact", "statement": "diff of an expanded polynomial (integer exponents, also negative ones) ends; its result is the expanded formal derivative and its value is the derivative; it is the number zero if and only if the symbol doesn't occur; mixed derivatives are equal expressions whatever the order, the derivative of a sum is the sum of the derivatives and the one of a product the expansion of the product rule.", "quantifier": "all polynomials in any number of symbols, all symbols, all assignments, exponents within the range in which numbers are compared correctly (2^53 for doubles), all behaviours of the rest of the floating point library", "why_tests_cant": "infinite set of polynomials and assignments; the derivative is a limit", "anchors": ["src/base.cpp: diff", "src/sum.cpp: diffWrtSymbol", "src/product.cpp: diffWrtSymbol", "src/power.cpp: diffWrtSymbol", "src/symbol.cpp: diffWrtSymbol", "src/numeric.cpp: diffWrtSymbol"]}
{"id": "C49", "title": "Results are well formed and have only the symbols of their operands", "statement": "Every expression the library returns, for every program of API calls and for every function applied to well-formed operands (sums, products, powers, functions, expand, normal, simplify, diff, subst, numerator and denominator, parsed text), has numbers in lowest terms, sums and products of at least two operands, functions with the right number of arguments, no power with base or exponent one, and only symbols that occur in the operands (subst removes the symbol; no temporary symbol of normal is left). The undefined behaviour that remains on the way, also when printing, is only one of four kinds (two empty lists, an erased element, a missing numeric value).", "quantifier": "all programs and all well-formed operands, all behaviours of the floating point library, all recursion bounds, all printer settings", "why_tests_cant": "infinite set of programs and expressions; the internal temporary symbols and empty lists only show up for particular combinations", "anchors": ["src/sumsimpl.cpp", "src/productsimpl.cpp", "src/powersimpl.cpp", "src/baseptrlistfct.cpp: expandAsProduct", "src/symbolmap.cpp: getTmpSymbolAndStore, replaceTmpSymbolsBackFrom", "src/base.cpp: normal, subst, diff", "src/printer.cpp", "src/var.cpp"]}
{"id": "C50", "title": "Division of expanded polynomials ends and finds exact quotients", "statement": "For expanded polynomials with nonnegative exponents the degree in a symbol is its largest exponent; the coefficients are expanded polynomials without the symbol, the leading one isn't zero and the sum of the coefficients times the powers is the polynomial. Division of u by v ends with one result (q, s) of expanded polynomials with u = q*v + s; s is zero if and only if u is a multiple of v, and has a smaller degree than v if there is one symbol. In particular dividing the expanded product of two programs by one of them gives the other one.", "quantifier": "all polynomials in any number of symbols, all assignments, all behaviours of the rest of the floating point library, exponents within the range in which numbers are compared correctly", "why_tests_cant": "infinite set of polynomials; the loop of the division recurses over the symbols and its end depends on the leading coefficients", "anchors": ["src/poly.cpp: divide, divideNonEmpty, divideEmptyList", "src/base.cpp: degree, coeff, leadingCoeff", "src/sum.cpp: degree, coeff", "src/product.cpp: degree, coeff", "src/power.cpp: degree, coeff", "src/polyinfo.cpp: isInputValid, listOfSymbols"]}
{"id": "C51", "title": "normal and simplify leave expanded polynomials alone", "statement": "For an expanded polynomial with nonnegative exponents whose coefficients have a common denominator below 324, normal and simplify end without exception and undefined behaviour and return the polynomial itself. numerator and denominator end as well: the denominator is the least common denominator D of the coefficients, the numerator D times the polynomial, with whole coefficients.", "quantifier": "all polynomials in any number of symbols, of any number of terms and any degree that the comparison of numbers orders correctly and that is below the largest int, all behaviours of the floating point library within this", "why_tests_cant": "ranges over all polynomials; on the way the terms are converted to fractions, brought to a common denominator, cancelled by a gcd and multiplied out again", "anchors": ["src/base.cpp: Base::normal", "src/fraction.cpp", "src/sum.cpp: Sum::normal, toCommonDenom", "src/product.cpp: Product::normal", "src/powernormal.cpp", "src/gcd.cpp", "src/functions.cpp: simplify"]}
{"id": "C52", "title": "The LU decomposition factorises and solves", "statement": "factorize replaces a matrix by its triangular factors: the product of the unit lower triangular part and the upper triangular part is the original matrix. computeSolution then gives the only solution of the system. Entries outside of the given dimension aren't touched.", "quantifier": "all square matrices of expressions and right hand sides of any dimension, all values of the symbols for which no pivot is zero", "why_tests_cant": "unbounded dimension, entries are arbitrary expressions", "anchors": ["src/ludecomp.h: LUDecomposition::factorize, LUDecomposition::computeSolution"]}
{"id": "C53", "title": "Computations end", "statement": "Whenever a program returns an expression, computing its normal form, its simplification, its numerator and denominator, or dividing polynomials, returns as well after finitely many steps, by a result or an exception.", "quantifier": "all programs and expressions; all numbers of iterations and depths of recursion", "why_tests_cant": "a test can only run for a limited time and can't tell a long computation from an endless one; the loops have no explicit bound, whether they end depends on the arithmetic inside", "anchors": ["src/poly.cpp: divide, divideNonEmpty", "src/fraction.cpp: cancel", "src/base.cpp: normal", "src/functions.cpp: simplify, numerator, denominator"]}
{"id": "C54", "title": "Rational functions: exact values", "statement": "A program that uses numbers, symbols, +, -, *, /, powers with integer exponents, expand and subst computes an expression without functions, constants and roots, and this expression has the value of the program wherever the program has one. This holds for every precision of the floating point numbers, every sign of the symbols and every zero of cancelled factors.", "quantifier": "all such programs; all values of the symbols for which the program has a value; all C++ libraries", "why_tests_cant": "programs and values are unbounded; tests compare expressions or try a few values, whereas a rewriting step may be wrong for some values only or depend on the order in which operands meet", "anchors": ["src/var.cpp: operator+=, operator-=, operator*=, operator/=", "src/functions.cpp: pow, expand, subst", "src/sumsimpl.cpp", "src/productsimpl.cpp", "src/powersimpl.cpp", "src/baseptrlistfct.cpp: expandAsProduct, expandProductOf"]}
{"id": "C55", "title": "Numbers made of doubles", "statement": "A number constructed from a double that is the nearest to a decimal number with at most four digits after the point is exactly that decimal number, in lowest terms. Any other finite double keeps its value up to an error of 2^-52*(1 + |value|). Converting such a number back to double and constructing a number again gives the same number, and the opposite double gives the opposite number.", "quantifier": "all finite doubles; decimals n/10000 with |n| up to 2^50; stability for doubles up to 2^36", "why_tests_cant": "there are 2^64 doubles and each conversion rounds several times; tests use a handful of short decimals", "anchors": ["src/number.cpp: Number(double), tryDoubleToFraction, toDouble", "src/var.cpp: Var(double)"]}
{"id": "C56", "title": "Arithmetic with doubles", "statement": "Sums, differences, products and quotients of numbers obey the laws of arithmetic also if some of the numbers are doubles: commutativity, associativity, neutral elements, opposites, no zero divisors, inverses; and the result is the exact one up to a few units in the last place.", "quantifier": "all numbers, rationals and doubles", "why_tests_cant": "floating point errors depend on all bits of the operands; laws quantify over all of them", "anchors": ["src/number.cpp: operator+=, operator-=, operator*=, operator/=, operator-", "src/number.h: Operate"]}
{"id": "C57", "title": "Comparisons of numbers", "statement": "For two numbers exactly one of a < b, a == b, b < a holds, < is transitive, == is an equivalence relation, and both agree with the values.", "quantifier": "all numbers, rationals and doubles", "why_tests_cant": "a tolerance or a rounded conversion violates the laws only for particular pairs and triples of values", "anchors": ["src/number.cpp: operator<, equal", "src/numberfct.cpp: abs"]}
{"id": "C58", "title": "Conversion to int", "statement": "Converting an expression to int returns n if and only if the expression has the integer value n and n fits into an int. For other integers std::overflow_error is thrown, for all other expressions, in particular those with symbols, std::domain_error.", "quantifier": "all expressions; all C++ libraries", "why_tests_cant": "values are unbounded, the conversion goes through floating point numbers unless everything is rational, and whether a rounded value happens to be an integer depends on all digits", "anchors": ["src/var.cpp: operator int, operator double", "src/basefct.cpp: isInteger", "src/int.h: fitsInto", "numericEval in src/sum.cpp, product.cpp, power.cpp, trigonometric.cpp, constant.cpp"]}
{"id": "C59", "title": "Conversion to double", "statement": "Converting an expression without symbols to double returns its value up to an error of a few units in the last place for each operation the expression consists of, relative to the size of the operands, if the functions of the C library are accurate. The conversion doesn't throw if the expression has a value.", "quantifier": "all expressions without symbols; all C libraries with errors of about one unit in the last place", "why_tests_cant": "rounding errors depend on all digits of all intermediate results; tests compare a few expressions with a tolerance", "anchors": ["src/var.cpp: operator double", "src/number.cpp: operator+=, operator*=, toThe, tryDoubleToFraction, toDouble", "numericEval in src/numeric.cpp, constant.cpp, sum.cpp, product.cpp, power.cpp, trigonometric.cpp, logarithm.cpp"]}
{"id": "C60", "title": "Exact roots are found", "statement": "Raising a positive rational number b to the exponent m/d returns the rational number t whenever t^d = b^m, although the candidate for the root is computed with floating point numbers.", "quantifier": "all positive rational bases, all rational exponents, all C libraries with errors of about one unit in the last place", "why_tests_cant": "whether the rounded result of std::pow leads to the right integer depends on all digits of base and exponent and on the C library", "anchors": ["src/number.cpp: toThe, computeRationalPower, computeDenomPower, tryGetBase"]}
{"id": "C61", "title": "Texts of names are unambiguous", "statement": "The plain text, the TeX text and the unicode text of a name (value, subscript, superscript) belong to no other name, and exactly the names of Greek letters, with a small or capital first letter, are shown in a special way.", "quantifier": "all pairs of names", "why_tests_cant": "ambiguities concern pairs of arbitrary strings in three parts", "anchors": ["src/namefct.cpp: concat, tex, unicode, delimCurlyBracesOrPlain, isGreekLetter, getGreekTexLetter", "src/name.cpp: operator<<"]}
{"id": "C62", "title": "Type, name and operands describe an expression", "statement": "Two expressions are equal exactly if they have the same type and name, equal operands in the same order and, for numbers, the same text, for symbols, the same positivity. Every expression has a type, the type tells its kind, and types have different texts.", "quantifier": "all pairs of expressions", "why_tests_cant": "ranges over all expressions of any depth and all names", "anchors": ["src/var.cpp: Var::type, numericType, typeStringMap, operator<<", "src/functions.cpp: name, operands", "src/base.cpp: Base::name", "src/base.cpp: isEqual"]}
