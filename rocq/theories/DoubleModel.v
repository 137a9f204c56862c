(** Model of Number(double) and Number::tryDoubleToFraction, src/number.cpp:24-29, 54-74,
    with IEEE binary64 arithmetic taken from the standard library's SpecFloat (round to
    nearest, ties to even). *)
From Verif Require Export NumberModel.
From Coq Require Export SpecFloat.
Open Scope Z_scope.

Definition dOfZ (z : Z) : spec_float := binary_normalize 53 1024 z 0 false.
Definition dHalf : spec_float := SFdiv 53 1024 (dOfZ 1) (dOfZ 2).
(** std::numeric_limits<double>::max(), lowest(), epsilon(). *)
Definition dMax : spec_float := S754_finite false (2 ^ 53 - 1) 971.
Definition dEps : spec_float := S754_finite false (2 ^ 52) (-104).
(** static_cast<Int>(double): truncation towards zero; 0 for values that aren't finite (never
    reached because of the two range checks). *)
Definition dTrunc (x : spec_float) : Z :=
  match x with
  | S754_finite s m e =>
      let a := if 0 <=? e then Zpos m * 2 ^ e else Zpos m / 2 ^ (- e) in
      if s then - a else a
  | _ => 0
  end.

(** tryDoubleToFraction, src/number.cpp:54-74; [None]: the value stays a double. *)
Definition doubleToFraction (v : spec_float) : option Q :=
  let n := dOfZ 10000 in
  let inc := if SFltb (dOfZ 0) v then dHalf else SFopp dHalf in
  let shift := SFdiv 53 1024 inc n in
  if SFltb (SFsub 53 1024 (SFdiv 53 1024 dMax n) shift) v then None
  else if SFltb v (SFsub 53 1024 (SFdiv 53 1024 (SFopp dMax) n) shift) then None
  else
    let truncated := dTrunc (SFadd 53 1024 (SFmul 53 1024 v n) inc) in
    let diff := SFabs (SFsub 53 1024 (SFdiv 53 1024 (dOfZ truncated) n) v) in
    if SFltb diff dEps then mkRat truncated 10000 else None.

(** Exact value of a finite double. *)
Definition dVal (x : spec_float) : option Q :=
  match x with
  | S754_zero _ => Some 0%Q
  | S754_finite s m e =>
      let z := if s then Zneg m else Zpos m in
      if 0 <=? e then Some (ofZ (z * 2 ^ e)) else mkRat z (2 ^ (- e))
  | _ => None
  end.

(** Number::toDouble of a rational, src/number.cpp:290-296: boost::rational_cast divides the
    converted numerator by the converted denominator. *)
Definition dRat (q : Q) : spec_float := SFdiv 53 1024 (dOfZ (Qnum q)) (dOfZ (Zpos (Qden q))).

(** operator<, src/number.cpp:325-328, for two rationals: both are converted to double. *)
Definition dLt (p q : Q) : bool := SFltb (dRat p) (dRat q).

(** A Number with both alternatives, src/number.h:44: std::variant<Rational, double>. *)
Inductive number := NRat (q : Q) | NDbl (x : spec_float).

(** toDouble, src/number.cpp:290-296. *)
Definition toDouble (n : number) : spec_float := match n with NRat q => dRat q | NDbl x => x end.

(** areEqual, src/number.cpp:301-313. *)
Definition dAreEqual (l r : spec_float) : bool :=
  let diff := SFabs (SFsub 53 1024 l r) in
  let al := SFabs l in
  let ar := SFabs r in
  let m1 := if SFltb (dOfZ 1) al then al else dOfZ 1 in
  let m2 := if SFltb m1 ar then ar else m1 in
  SFltb diff (SFmul 53 1024 (SFmul 53 1024 (dOfZ 100) dEps) m2).

(** operator==, src/number.cpp:317-323. *)
Definition numberEq (a b : number) : bool :=
  match a, b with
  | NRat p, NRat q => qeqb p q
  | _, _ => dAreEqual (toDouble a) (toDouble b)
  end.

(** numerator(), denominator(), src/number.cpp:270-289. *)
Definition numberNum (n : number) : Z := match n with NRat q => Qnum q | NDbl _ => 0 end.
Definition numberDen (n : number) : Z := match n with NRat q => Zpos (Qden q) | NDbl _ => 1 end.

(** std::hash<Number>, src/number.cpp:339-348; the primitive hashes are arguments. *)
Definition numberHash {h} (comb : h -> h -> h) (seed : h) (hd : spec_float -> h) (hi : Z -> h) (n : number) : h :=
  comb (comb (comb seed (hd (toDouble n))) (hi (numberDen n))) (hi (numberNum n)).
