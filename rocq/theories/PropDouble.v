(** Properties C55 to C57, and C01 and C02 with the comparisons of the code.  The notions used in the statements
    are in NumberSpec.v (canon, aexp, ameans) and MixedSpec.v (isDouble, doubleValue, roundsTo, numberValue, proper,
    moderate, ample, arunN, moderateDivisors, strictWeak). *)
From Verif Require Import DoubleModel MixedModel MixedSpec NumberSpec NumberProofs MixedProofs MixedBounds MixedOrder MixedPow MixedAmple MixedWitness.
Require Import Flocq.Core.Core.
From Coq Require Import Reals Qreals.
Open Scope R_scope.

(** ** C01 once more: programs run with Number's own comparisons, which go through doubles *)

(** Full statement: every chain of operators yields the exact value, or an exception if a divisor is zero.  Missing:
    divisors that aren't quotients of integers up to 2^1000.  Refuted below for one of these. *)
Theorem C01_program_exact_partial : forall pw root n x, moderateDivisors x ->
  match arunN pw root (S (S n)) x with
  | Returns r => exists q, r = NRat q /\ canon q /\ ameans x = Some (Q2R q)
  | Throws => ameans x = None
  | Running => False
  end.
Proof. exact arunN_spec. Qed.
Print Assumptions C01_program_exact_partial.

(** 1/(1/10^400) never ends, although its value is 10^400. *)
Theorem C01_division_refuted : forall pw root n,
  arunN pw root n (ADiv (AInt 1) (AFrac 1 (10 ^ 400))) = Running /\
  ameans (ADiv (AInt 1) (AFrac 1 (10 ^ 400))) = Some (IZR (10 ^ 400)).
Proof. exact tiny_division. Qed.
Print Assumptions C01_division_refuted.

Example C01_program_case : moderateDivisors (ADiv (AAdd (AFrac 1 6) (AFrac (-3) 4)) (ASub (AInt 2) (AFrac 5 (-10)))) /\
  forall pw root, arunN pw root 2 (ADiv (AAdd (AFrac 1 6) (AFrac (-3) 4)) (ASub (AInt 2) (AFrac 5 (-10)))) = Returns (NRat (-7 # 30)).
Proof. exact program_case. Qed.

(** ** C02 once more *)

(** The powers of C02 are those that Number computes, if the base is a quotient of integers up to 2^1000. *)
Theorem C02_power_comparisons_partial : forall pw root n b e, canon b ->
  (Z.abs (Qnum b) <= 2 ^ 1000)%Z /\ (Zpos (Qden b) <= 2 ^ 1000)%Z -> toThe (powFloats pw root) b e <> PDbl ->
  numberPow pw root (S (S n)) (NRat b) (NRat e) =
    match toThe (powFloats pw root) b e with PRat q => Returns (NRat q) | _ => Throws end.
Proof. exact pow_seen. Qed.
Print Assumptions C02_power_comparisons_partial.
Example C02_power_case : canon (-2 # 3) /\ forall pw root,
  toThe (powFloats pw root) (-2 # 3) (-3 # 1) = PRat (-27 # 8) /\ numberPow pw root 2 (NRat (-2 # 3)) (NRat (-3 # 1)) = Returns (NRat (-27 # 8)).
Proof. exact power_case. Qed.

(** ** C55: numbers made of doubles *)

(** A decimal number with up to four digits after the point becomes exactly that fraction. *)
Theorem C55_decimals_exact : forall n v, (Z.abs n <= 2 ^ 50)%Z -> roundsTo (IZR n / 10000) v ->
  exists q, ofDouble v = NRat q /\ canon q /\ Q2R q = IZR n / 10000.
Proof. exact decimals_exact. Qed.
Print Assumptions C55_decimals_exact.
(** Every other double keeps its value up to an error near that of doubles. *)
Theorem C55_value_close : forall v, isDouble v ->
  proper (ofDouble v) /\ Rabs (numberValue (ofDouble v) - doubleValue v) <= bpow radix2 (-52) * (1 + Rabs (doubleValue v)).
Proof. exact ofDouble_close. Qed.
Print Assumptions C55_value_close.
(** Converting back and forth changes nothing more. *)
Theorem C55_conversion_stable : forall v, isDouble v -> Rabs (doubleValue v) <= bpow radix2 36 ->
  ofDouble (toDouble (ofDouble v)) = ofDouble v.
Proof. exact ofDouble_stable. Qed.
Print Assumptions C55_conversion_stable.
Theorem C55_opposite : forall v, ofDouble (SFopp v) = numberNeg (ofDouble v).
Proof. exact ofDouble_neg. Qed.
Print Assumptions C55_opposite.
(** Exactness is false: the double next to 10^-17 becomes zero, and an integer becomes a fraction. *)
Theorem C55_exact_value_refuted :
  (exists v, isDouble v /\ 0 < doubleValue v /\ ofDouble v = ofInt 0) /\
  (exists v, isDouble v /\ doubleValue v = 4503599627370497 /\ exists q, ofDouble v = NRat q /\ qIsInt q = false).
Proof. exact (conj (ex_intro _ _ small_becomes_zero) (ex_intro _ _ integral_becomes_fraction)). Qed.
Print Assumptions C55_exact_value_refuted.
Example C55_case : roundsTo (IZR 12345 / 10000) (SFdiv 53 1024 (dOfZ 12345) (dOfZ 10000)) /\
  ofDouble (SFdiv 53 1024 (dOfZ 12345) (dOfZ 10000)) = NRat (2469 # 2000).
Proof. exact decimal_case. Qed.

(** ** C56: arithmetic with doubles *)

(** Full statement: numbers are a commutative ring without zero divisors, with inverses.  Proved: the laws below;
    the others are refuted below. *)
Theorem C56_laws_partial : forall a b, proper a ->
  numberAdd a b = numberAdd b a /\ numberMul a b = numberMul b a /\
  numberAdd a (ofInt 0) = a /\ numberMul a (ofInt 1) = a /\ numberMul a (ofInt 0) = ofInt 0 /\
  numberSub a a = ofInt 0 /\ numberNeg (numberNeg a) = a.
Proof. exact laws. Qed.
Print Assumptions C56_laws_partial.
Theorem C56_opposite_exact : forall a, proper a -> proper (numberNeg a) /\ numberValue (numberNeg a) = - numberValue a.
Proof. exact numberNeg_proper. Qed.
Print Assumptions C56_opposite_exact.
(** Sums and products are as close as doubles allow, up to a few bits. *)
Theorem C56_sum_close : forall a b, proper a -> proper b -> ample a -> ample b ->
  proper (numberAdd a b) /\
  Rabs (numberValue (numberAdd a b) - (numberValue a + numberValue b)) <= bpow radix2 (-50) * (1 + Rabs (numberValue a) + Rabs (numberValue b)).
Proof. exact add_ample. Qed.
Print Assumptions C56_sum_close.
Theorem C56_product_close : forall a b, proper a -> proper b -> ample a -> ample b ->
  proper (numberMul a b) /\
  Rabs (numberValue (numberMul a b) - numberValue a * numberValue b) <= bpow radix2 (-49) * (1 + Rabs (numberValue a * numberValue b)).
Proof. exact mul_ample. Qed.
Print Assumptions C56_product_close.
Theorem C56_associative_refuted : exists a b c, (proper a /\ moderate a) /\ (proper b /\ moderate b) /\ (proper c /\ moderate c) /\
  numberAdd (numberAdd a b) c = ofInt 1 /\ numberAdd a (numberAdd b c) = ofInt 0.
Proof. exact not_associative. Qed.
Print Assumptions C56_associative_refuted.
Theorem C56_zero_divisor_refuted : exists a, proper a /\ moderate a /\ 0 < numberValue a /\
  numberEq a (ofInt 0) = false /\ numberMul a a = ofInt 0.
Proof. exact zero_divisor. Qed.
Print Assumptions C56_zero_divisor_refuted.
(** a/a is 0 for a double near 9.4*10^21, if std::pow(a, -1) is correctly rounded. *)
Theorem C56_inverse_refuted : proper (NDbl big) /\ forall pw root n, pw big (dOfZ (-1)) = SFdiv 53 1024 (dOfZ 1) big ->
  numberDiv pw root (S n) (NDbl big) (NDbl big) = Returns (ofInt 0).
Proof. exact (conj bigProper no_inverse). Qed.
Print Assumptions C56_inverse_refuted.
Example C56_case : (proper (NDbl big) /\ ample (NDbl big)) /\ (proper (NDbl little) /\ ample (NDbl little)).
Proof. exact (conj (conj bigProper bigModerate) (conj littleProper littleModerate)). Qed.

(** ** C57: comparisons of numbers *)

(** Full statement: a < b, a == b and b < a exclude each other, one of them holds, and they compare the values.
    Proved: < is a strict weak order and implies the order of the values, == is reflexive and symmetric and implies nearly
    equal values. *)
Theorem C57_less_is_weak_order_partial :
  strictWeak (fun n => proper n /\ toDouble n <> S754_nan) (fun a b => numberLt a b = true).
Proof. exact numberLt_weak. Qed.
Print Assumptions C57_less_is_weak_order_partial.
Theorem C57_less_sound : forall a b, proper a -> proper b -> moderate a -> moderate b ->
  numberLt a b = true -> numberValue a < numberValue b.
Proof. exact numberLt_sound. Qed.
Print Assumptions C57_less_sound.
Theorem C57_equal_partial : forall a b, proper a -> proper b -> moderate a -> moderate b ->
  numberEq a a = true /\ numberEq a b = numberEq b a /\
  (numberEq a b = true -> Rabs (numberValue a - numberValue b) <= bpow radix2 (-45) * (1 + Rabs (numberValue a) + Rabs (numberValue b))).
Proof. exact equal_laws. Qed.
Print Assumptions C57_equal_partial.
Theorem C57_exclusive_refuted : exists a b, (proper a /\ moderate a) /\ (proper b /\ moderate b) /\
  numberEq a b = true /\ numberLt a b = true.
Proof. exact less_and_equal. Qed.
Print Assumptions C57_exclusive_refuted.
Theorem C57_transitive_refuted : exists a b c, (proper a /\ moderate a) /\ (proper b /\ moderate b) /\ (proper c /\ moderate c) /\
  numberEq a b = true /\ numberEq b c = true /\ numberEq a c = false.
Proof. exact equal_not_transitive. Qed.
Print Assumptions C57_transitive_refuted.
(** Even of two rationals in lowest terms: different, and neither less than the other. *)
Theorem C57_total_refuted : exists a b, (proper a /\ moderate a) /\ (proper b /\ moderate b) /\
  numberEq a b = false /\ numberLt a b = false /\ numberLt b a = false.
Proof. exact incomparable. Qed.
Print Assumptions C57_total_refuted.
Example C57_case : (proper (NDbl little) /\ moderate (NDbl little)) /\ numberLt (ofInt 0) (NDbl little) = true /\ toDouble (NDbl little) <> S754_nan.
Proof. exact less_case. Qed.
