(** Properties C01 to C04.  The notions used in the statements are in NumberSpec.v (canon,
    aexp, ameans, payVal, exactDoubles) and RPow.v (rpow, the real power). *)
From Verif Require Import NumberSpec NumberProofs PrimeFacProofs PrimeListProofs NumPowerProofs DoubleModel NumberWitness.
From Coq Require Import Znumtheory Sorted.
Local Open Scope Z_scope.

(** ** C01: rational arithmetic is exact and canonical *)

(** Every chain of operators yields the exact value in lowest terms, and an exception exactly
    if a divisor is zero.  Here a divisor is compared with 0 exactly.  The comparison of the code, which goes through doubles,
    is in PropDouble.v: it agrees for divisors that are quotients of integers up to 2^1000, and not for all others. *)
Theorem C01_arithmetic_exact_partial : forall x : aexp,
  match arun x with
  | Some q => canon q /\ ameans x = Some (Q2R q)
  | None => ameans x = None
  end.
Proof. exact arun_spec. Qed.
Print Assumptions C01_arithmetic_exact_partial.

(** Equality compares numerators and denominators and agrees with equality of the values. *)
Theorem C01_equality_exact : forall a b, canon a -> canon b ->
  (qeqb a b = true <-> Q2R a = Q2R b).
Proof. exact qeqb_value. Qed.
Print Assumptions C01_equality_exact.

(** Division is multiplication by toThe(-1), for every behaviour of the floating point layer. *)
Theorem C01_division_by_power : forall fl b, canon b ->
  toThe fl b (-1 # 1) = match qinv b with Some r => PRat r | None => PThrow end.
Proof. exact toThe_minus_one. Qed.
Print Assumptions C01_division_by_power.

Example C01_example :
  arun (ADiv (AAdd (AFrac 1 6) (AFrac (-3) 4)) (ASub (AInt 2) (AFrac 5 (-10)))) = Some (-7 # 30)
  /\ arun (ADiv (AInt 1) (ASub (AFrac 2 4) (AFrac 1 2))) = None /\ canon (-7 # 30).
Proof. repeat split; reflexivity. Qed.

(** ** C02: rational powers *)

(** Full statement: a rational result of b^e is the real power b^e.  Proved for every floating
    point guess of integer roots; missing: results that are fractions made of doubles (premise
    exactDoubles), and 0^0.  Both are refuted below. *)
Theorem C02_power_exact_partial : forall fl b e r,
  rootsNonneg fl -> exactDoubles fl -> canon b -> canon e -> ~ (b = 0%Q /\ e = 0%Q) ->
  toThe fl b e = PRat r -> canon r /\ rpow (Q2R b) (Q2R e) = Some (Q2R r).
Proof. exact toThe_R. Qed.
Print Assumptions C02_power_exact_partial.

(** An exception is thrown exactly for powers without a real value. *)
Theorem C02_throws_iff_undefined : forall fl b e,
  rootsNonneg fl -> canon b -> canon e ->
  (toThe fl b e = PThrow <-> rpow (Q2R b) (Q2R e) = None).
Proof. exact toThe_throw. Qed.
Print Assumptions C02_throws_iff_undefined.

(** Integer exponents are exact without any premise on floating point numbers. *)
Theorem C02_integer_power_exact : forall fl b e r, canon b -> canon e -> qIsInt e = true -> Q2R b <> 0%R ->
  toThe fl b e = PRat r -> canon r /\ Q2R r = powerRZ (Q2R b) (qnum e).
Proof. exact toThe_int_exact. Qed.
Print Assumptions C02_integer_power_exact.

(** The full statement is false: the square root of 10^-33 is the rational zero although std::pow
    returns a double with a relative error below 2^-52. *)
Theorem C02_tiny_root_refuted : exists v q : _, dVal v = Some q /\
  (0 < q)%Q /\ (q * q * (1 - (1 # 1125899906842624)) < (1 # 1000000000000000000000000000000000) < q * q * (1 + (1 # 1125899906842624)))%Q /\
  forall fl, fl_pow fl (1 # 1000000000000000000000000000000000) 2 = doubleToFraction v ->
    toThe fl (1 # 1000000000000000000000000000000000) (1 # 2) = PRat 0%Q.
Proof. exact tiny_root_refuted. Qed.
Print Assumptions C02_tiny_root_refuted.

(** 0^0 is 0 here, but 1 as a power expression (and as a limit of x^0). *)
Theorem C02_zero_power_zero_refuted : forall fl, toThe fl 0 0 = PRat 0%Q /\ rpow (Q2R 0) (Q2R 0) = Some 1%R.
Proof. exact zero_power_zero. Qed.
Print Assumptions C02_zero_power_zero_refuted.

Example C02_example : forall fl, fl_root fl 64 3 = Some 4 -> fl_root fl 729 3 = Some 9 ->
  toThe fl (27 # 8) (-2 # 3) = PRat (4 # 9).
Proof. exact root_example. Qed.

(** ** C03: prime factorisation *)

Theorem C03_prime_factorisation : forall n, 0 < n ->
  exists l, primeFactors n = Some l /\ Forall prime l /\ Sorted Z.le l /\ fold_right Z.mul 1 l = n.
Proof. exact prime_factorisation. Qed.
Print Assumptions C03_prime_factorisation.

(** Zero is not a valid input: the loop does not end, for any number of steps. *)
Theorem C03_zero_loops : forall fuel, divOut fuel 2 0 = None.
Proof. exact zero_loops. Qed.
Print Assumptions C03_zero_loops.

Example C03_example : primeFactors 5929 = Some [7; 7; 11; 11] /\ primeFactors 49 = Some [7; 7].
Proof. split; vm_compute; reflexivity. Qed.

(** ** C04: numeric powers *)

(** Full statement: p*b^e keeps its value.  False: 324^2 becomes 1296 and 324^(-1) becomes 1/36. *)
Theorem C04_numeric_power_refuted : forall fl limit, 324 <= limit ->
  (exists p', numPowerSimpl fl limit (mkPay 324 2 1) = NOk p' /\
     payVal (mkPay 324 2 1) = Some 104976%R /\ payVal p' = Some 1296%R) /\
  (exists p', numPowerSimpl fl limit (mkPay 324 (-1 # 1) 1) = NOk p' /\
     payVal (mkPay 324 (-1 # 1) 1) = Some (1 / 324)%R /\ payVal p' = Some (1 / 36)%R).
Proof. exact power_324. Qed.
Print Assumptions C04_numeric_power_refuted.

(** Proved parts.  First: square, cube and fourth roots (and powers of these) with any base and
    any prefactor. *)
Theorem C04_numeric_roots_partial : forall fl limit p p',
  rootsNonneg fl -> exactDoubles fl -> payCanon p ->
  (Q2R (pBase p) <> 0)%R -> (Q2R (pPre p) <> 0)%R -> 2 <= qden (pExp p) <= 4 ->
  numPowerSimpl fl limit p = NOk p' -> payVal p' = payVal p /\ payCanon p'.
Proof. exact numPowerSimpl_roots. Qed.
Print Assumptions C04_numeric_roots_partial.

(** Second: any exponent, the base having a numerator and denominator below 324, prefactor 1 or -1.
    By the refutation above, 324 can't be replaced by 325. *)
Theorem C04_numeric_power_partial : forall fl limit p p',
  rootsNonneg fl -> exactDoubles fl -> payCanon p ->
  (Q2R (pBase p) <> 0)%R -> (Q2R (pExp p) <> 0)%R -> pPre p = 1%Q \/ pPre p = (-1 # 1) ->
  Z.abs (qnum (pBase p)) < 324 -> qden (pBase p) < 324 ->
  numPowerSimpl fl limit p = NOk p' -> payVal p' = payVal p /\ payCanon p'.
Proof. exact numPowerSimpl_small. Qed.
Print Assumptions C04_numeric_power_partial.

(** Third: values above the limit are never changed by the prime factor part, whatever they are. *)
Theorem C04_numeric_power_large : forall fl limit p p',
  rootsNonneg fl -> exactDoubles fl -> payCanon p ->
  (Q2R (pBase p) <> 0)%R -> (Q2R (pPre p) <> 0)%R -> (Q2R (pExp p) <> 0)%R ->
  limit < Z.abs (qnum (pBase p)) \/ limit < qden (pBase p) ->
  numPowerSimpl fl limit p = NOk p' -> payVal p' = payVal p /\ payCanon p'.
Proof. exact numPowerSimpl_large. Qed.
Print Assumptions C04_numeric_power_large.

Example C04_example :
  numPowerSimpl noFloats 1000 (mkPay 8 (1 # 2) 1) = NOk (mkPay 2 (1 # 2) 2) /\
  numPowerSimpl noFloats 1000 (mkPay (-2 # 3) (-3 # 1) 1) = NOk (mkPay (2 # 3) 0 (-27 # 8)) /\
  numPowerSimpl noFloats 1000 (mkPay (1 # 32) (2 # 5) 1) = NOk (mkPay (1 # 4) 1 1) /\
  rootsNonneg noFloats /\ exactDoubles noFloats.
Proof. exact numpow_examples. Qed.
