(** Properties C58 and C59.  The notions used in the statements are in EvalSpec.v (accurate, constExpr, ampleRun, bits, steps,
    size, ratExpr, hasSymbol, isInt32), MixedSpec.v (isDouble, doubleValue) and Sem.v (eval). *)
From Verif Require Import DoubleModel MixedModel MixedSpec NumberSpec EvalModel EvalSpec EvalProofs EvalConv EvalAmple EvalWitness.
Require Import Flocq.Core.Core.
From Coq Require Import Reals Qreals.
Open Scope R_scope.

(** ** C58: conversions to int *)

(** Full statement: the conversion returns n if and only if the value is the integer n, in the range of int; it throws
    overflow_error for other integers, and domain_error otherwise.  Proved for rational arithmetic, where doubles never matter. *)
Theorem C58_int_partial : forall Y r e, ratExpr e ->
  match varToInt Y e with
  | Gives n => eval r e = Some (IZR n) /\ isInt32 n
  | OverflowError => exists n, eval r e = Some (IZR n) /\ ~ isInt32 n
  | DomainError => forall n, eval r e <> Some (IZR n)
  end.
Proof. exact toInt_rational. Qed.
Print Assumptions C58_int_partial.
(** With roots, functions and constants the integer is near the value. *)
Theorem C58_int_near : forall lib limit r e n, accurate lib -> constExpr e -> ampleRun lib limit e -> (Z.of_nat (steps e) < 2 ^ 47)%Z ->
  varToInt (doubleSys lib limit) e = Gives n ->
  isInt32 n /\ exists v, eval r e = Some v /\ Rabs (IZR n - v) <= size e * INR (S (steps e)) * bpow radix2 (-47).
Proof. exact toInt_close. Qed.
Print Assumptions C58_int_near.
(** pi/10^20 is converted to 0. *)
Theorem C58_int_refuted : exists e, constExpr e /\ (forall lib limit, varToInt (doubleSys lib limit) e = Gives 0%Z) /\
  forall r, exists v, eval r e = Some v /\ 0 < v < 1.
Proof. exact (ex_intro _ smallPi (conj (proj1 smallPi_const) (conj smallPi_int smallPi_value))). Qed.
Print Assumptions C58_int_refuted.
(** Expressions with symbols aren't converted. *)
Theorem C58_symbols : forall lib limit e, hasSymbol e ->
  varToDouble lib limit e = DomainError /\ varToInt (doubleSys lib limit) e = DomainError.
Proof. exact symbol_throws. Qed.
Print Assumptions C58_symbols.
Example C58_case : ratExpr rational_sample /\ forall Y, varToInt Y rational_sample = Gives 1%Z.
Proof. exact rational_sample_ok. Qed.

(** ** C59: conversions to double *)

(** Full statement: the conversion of every constant expression is the value up to a small multiple of the rounding error
    of double.  Proved for sums, products, sin, cos, atan and powers of positive numbers, as long as no intermediate
    result is near the limits of double.  Missing: the other functions, and powers with other bases or exponents. *)
Theorem C59_accurate_partial : forall lib limit r e, accurate lib -> constExpr e -> ampleRun lib limit e -> (Z.of_nat (steps e) < 2 ^ 47)%Z ->
  exists x v, varToDouble lib limit e = Gives x /\ isDouble x /\ eval r e = Some v /\
    Rabs (doubleValue x - v) <= size e * INR (S (steps e)) * bpow radix2 (-47).
Proof. exact toDouble_accurate. Qed.
Print Assumptions C59_accurate_partial.
(** The intermediate results needn't be looked at if there are few digits. *)
Theorem C59_few_digits_partial : forall lib limit r e, accurate lib -> constExpr e -> (bits e <= 400)%Z ->
  exists x v, varToDouble lib limit e = Gives x /\ isDouble x /\ eval r e = Some v /\
    Rabs (doubleValue x - v) <= size e * INR (S (steps e)) * bpow radix2 (-47).
Proof. exact few_digits. Qed.
Print Assumptions C59_few_digits_partial.
(** The error is absolute: the relative one isn't bounded. *)
Theorem C59_relative_refuted : exists e, constExpr e /\ (bits e <= 400)%Z /\
  (forall lib limit, exists x, varToDouble lib limit e = Gives x /\ isDouble x /\ doubleValue x = 0) /\
  forall r, exists v, eval r e = Some v /\ 0 < v < 1.
Proof. exact (ex_intro _ smallPi (conj (proj1 smallPi_const) (conj (proj2 smallPi_const) (conj smallPi_double smallPi_value)))). Qed.
Print Assumptions C59_relative_refuted.
Example C59_library_case : exists lib, accurate lib.
Proof. exact (ex_intro _ realLibrary library_exists). Qed.
Example C59_case : constExpr sample /\ (bits sample <= 400)%Z.
Proof. exact sample_ok. Qed.
