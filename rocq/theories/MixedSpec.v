(** Specifications for numbers that may hold a double. *)
From Verif Require Import DoubleModel NumberSpec MixedModel.
Require Import Flocq.Core.Core Flocq.IEEE754.BinarySingleNaN.
From Coq Require Import List Reals Qreals.
Import ListNotations.
Open Scope R_scope.

(** A datum of type double (IEEE binary64) that is neither infinite nor NaN, and its value. *)
Definition isDouble (x : spec_float) : Prop := valid_binary 53 1024 x = true /\ is_finite_SF x = true.
Definition doubleValue (x : spec_float) : R := SF2R radix2 x.
(** x is the double that the real number r is rounded to: to nearest, ties to even. *)
Definition roundsTo (r : R) (x : spec_float) : Prop :=
  isDouble x /\ doubleValue x = round radix2 (FLT_exp (-1074) 53) ZnearestE r.

(** The value of a number. *)
Definition numberValue (n : number) : R := match n with NRat q => Q2R q | NDbl x => doubleValue x end.
(** The numbers the constructors make: rationals in lowest terms, and finite doubles that no conversion turned into a
    fraction. *)
Definition proper (n : number) : Prop :=
  match n with NRat q => canon q | NDbl x => isDouble x /\ doubleToFraction x = None end.
(** Numbers of moderate size: rationals with numerator and denominator up to 2^53, doubles up to 2^400. *)
Definition moderate (n : number) : Prop :=
  match n with
  | NRat q => (Z.abs (Qnum q) <= 2 ^ 53)%Z /\ (Zpos (Qden q) <= 2 ^ 53)%Z
  | NDbl x => Rabs (doubleValue x) <= bpow radix2 400
  end.
(** Numbers far from the limits of double: rationals with numerator and denominator up to 2^400, doubles up to 2^400. *)
Definition ample (n : number) : Prop :=
  match n with
  | NRat q => (Z.abs (Qnum q) <= 2 ^ 400)%Z /\ (Zpos (Qden q) <= 2 ^ 400)%Z
  | NDbl x => Rabs (doubleValue x) <= bpow radix2 400
  end.
(** The program of an arithmetic term, as [arun] but with the outcomes of Number itself. *)
Fixpoint arunN (pw : spec_float -> spec_float -> spec_float) (root : Z -> Z -> option Z) (n : nat) (x : aexp) : outcome number :=
  let bin f a b :=
    match arunN pw root n a with
    | Returns u => match arunN pw root n b with Returns v => f u v | r => r end
    | r => r
    end in
  match x with
  | AInt z => Returns (ofInt z)
  | AFrac a b => match mkRat a b with Some q => Returns (NRat q) | None => Throws end
  | AAdd a b => bin (fun u v => Returns (numberAdd u v)) a b
  | ASub a b => bin (fun u v => Returns (numberSub u v)) a b
  | AMul a b => bin (fun u v => Returns (numberMul u v)) a b
  | ADiv a b => bin (numberDiv pw root n) a b
  | ANeg a => match arunN pw root n a with Returns u => Returns (numberNeg u) | r => r end
  end.
(** The divisors of a term; all of them are quotients of integers up to 2^1000. *)
Fixpoint divisors (x : aexp) : list aexp :=
  match x with
  | AInt _ | AFrac _ _ => nil
  | AAdd a b | ASub a b | AMul a b => divisors a ++ divisors b
  | ADiv a b => divisors a ++ b :: divisors b
  | ANeg a => divisors a
  end.
Definition moderateDivisors (x : aexp) : Prop :=
  forall y v, In y (divisors x) -> ameans y = Some v ->
    exists n d, (Z.abs n <= 2 ^ 1000)%Z /\ (0 < d <= 2 ^ 1000)%Z /\ v = IZR n / IZR d.
(** A strict weak order on the members of a set. *)
Definition strictWeak {A} (inSet : A -> Prop) (lt : A -> A -> Prop) : Prop :=
  (forall a, inSet a -> ~ lt a a) /\
  (forall a b c, inSet a -> inSet b -> inSet c -> lt a b -> lt b c -> lt a c) /\
  (forall a b c, inSet a -> inSet b -> inSet c -> lt a c -> lt a b \/ lt b c).
