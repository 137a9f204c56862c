(** Model of src/number.cpp, src/numberfct.cpp: the rational part of class Number.

    Number (src/number.h:14-83) holds either a boost::rational of arbitrary
    precision integers or a double.  Only the rational alternative is modelled as
    data.  Doubles appear as the outcome [PDbl] of a root that isn't rational.
    Simplification: the comparisons <, > of the code convert to double
    (src/number.cpp:325-328); here they are exact on rationals. *)
From Coq Require Export ZArith QArith Qreduction Lia List Bool.
Export ListNotations.
Open Scope Z_scope.

(** boost::rational keeps the fraction reduced with positive denominator;
    src/number.cpp:35-40, constructor from two integers.  A zero denominator
    throws boost::bad_rational: [None]. *)
Definition mkRat (n d : Z) : option Q :=
  match d with
  | Z0 => None
  | Zpos p => Some (Qred (n # p))
  | Zneg p => Some (Qred (- n # p))
  end.

(** An integer as a number, src/number.cpp:16-18, 31-33. *)
Definition ofZ (n : Z) : Q := n # 1.

(** operator+=, src/number.cpp:81-91, rational case. *)
Definition qadd (a b : Q) : Q := Qred (a + b).
(** unary operator-, src/number.cpp:122-128, rational case. *)
Definition qneg (a : Q) : Q := Qred (- Qnum a # Qden a).
(** operator-=, src/number.cpp:93-96. *)
Definition qsub (a b : Q) : Q := qadd a (qneg b).
(** operator*=, src/number.cpp:98-108, rational case. *)
Definition qmul (a b : Q) : Q := Qred (a * b).

(** operator==, src/number.cpp:317-323, rational case: numerators and
    denominators agree. *)
Definition qeqb (a b : Q) : bool := (Qnum a =? Qnum b) && (Pos.eqb (Qden a) (Qden b)).
(** operator<, src/number.cpp:325-328 (exact, see header). *)
Definition qltb (a b : Q) : bool := Qnum a * Zpos (Qden b) <? Qnum b * Zpos (Qden a).
Definition qgtb (a b : Q) : bool := qltb b a.

(** numerator(), denominator(), src/number.cpp:270-289. *)
Definition qnum (a : Q) : Z := Qnum a.
Definition qden (a : Q) : Z := Zpos (Qden a).

(** isInt, isOddInt, isEvenInt, isFraction, abs, sign: src/numberfct.cpp:8-43. *)
Definition qIsInt (a : Q) : bool := qden a =? 1.
Definition qIsOddInt (a : Q) : bool := qIsInt a && negb (Z.rem (qnum a) 2 =? 0).
Definition qIsEvenInt (a : Q) : bool := qIsInt a && (Z.rem (qnum a) 2 =? 0).
Definition qIsFraction (a : Q) : bool := negb (qden a =? 1).
Definition qabs (a : Q) : Q := if qltb a 0 then qneg a else a.
Definition qsign (a : Q) : Z := if qltb a 0 then -1 else if qgtb a 0 then 1 else 0.

(** The floating point layer of Number::toThe.
    [fl_root n d]: the integer candidate that tryGetBase (src/number.cpp:214-240)
    obtains from std::pow before the exact check, [None] if one of the two early
    returns (lines 227-235) is taken.
    [fl_pow x d]: the fraction that the constructor Number(double)
    (src/number.cpp:24-29, 54-74) makes of std::pow(x, 1/d) (line 255), [None]
    if the value stays a double. *)
Record floats := mkFloats {
  fl_root : Z -> Z -> option Z;
  fl_pow : Q -> Z -> option Q
}.

(** Outcome of toThe: a rational, an irrational double or an exception. *)
Inductive powres := PRat (q : Q) | PDbl | PThrow.

(** tryGetBase, src/number.cpp:214-240; 0 means "no exact root". *)
Definition tryGetBase (fl : floats) (n d : Z) : Z :=
  match fl_root fl n d with
  | None => 0
  | Some b => if b ^ d =? n then b else 0
  end.

(** computeNumPower, src/number.cpp:197-210 (the base isn't zero here). *)
Definition computeNumPower (b : Q) (e : Z) : option Q :=
  let newDenom := qden b ^ Z.abs e in
  let newNum := qnum b ^ Z.abs e in
  if e <? 0 then mkRat newDenom newNum else mkRat newNum newDenom.

(** computeDenomPower, src/number.cpp:244-258. *)
Definition computeDenomPower (fl : floats) (d : Z) (r : Q) : powres :=
  let numTest := tryGetBase fl (qnum r) d in
  let denomTest := tryGetBase fl (qden r) d in
  if d =? 1 then PRat r
  else if (numTest =? 0) || (denomTest =? 0) then
    match fl_pow fl r d with Some q => PRat q | None => PDbl end
  else match mkRat numTest denomTest with Some q => PRat q | None => PThrow end.

(** computeRationalPower, src/number.cpp:188-195. *)
Definition computeRationalPower (fl : floats) (b e : Q) : powres :=
  match computeNumPower b (qnum e) with
  | None => PThrow
  | Some r => computeDenomPower fl (qden e) r
  end.

(** computeMinusOneToThe, src/number.cpp:159-164. *)
Definition minusOneToThe (e : Q) : Q := if Z.rem (qnum e) 2 =? 0 then ofZ 1 else ofZ (-1).

(** toThe for a base that isn't negative: src/number.cpp:130-157 without the
    branches for negative bases. *)
Definition toThePos (fl : floats) (b e : Q) : powres :=
  if qeqb b 0 && (qnum e <? 0) then PThrow
  else if qeqb b 0 || qeqb b 1 || qeqb e 1 then PRat b
  else if qeqb e 0 then PRat 1
  else computeRationalPower fl b e.

(** toThe, src/number.cpp:130-178. *)
Definition toThe (fl : floats) (b e : Q) : powres :=
  if qltb b 0 then
    if qeqb e 1 then PRat b
    else if qeqb e 0 then PRat 1
    else if negb (qIsInt e) then PThrow
    else if qeqb b (-1 # 1) then PRat (minusOneToThe e)
    else match toThePos fl (qabs b) e with
         | PRat r => PRat (qmul r (minusOneToThe e))
         | x => x
         end
  else toThePos fl b e.

(** The reciprocal, toThe(-1): the only way the code divides
    (operator/=, src/number.cpp:110-115).  [None]: overflow_error. *)
Definition qinv (b : Q) : option Q := mkRat (qden b) (qnum b).

(** operator/=, src/number.cpp:110-115. *)
Definition qdiv (a b : Q) : option Q :=
  match qinv b with None => None | Some i => Some (qmul a i) end.
