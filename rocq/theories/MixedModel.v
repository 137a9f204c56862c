(** Model of class Number with both alternatives, rationals and doubles: src/number.cpp, src/number.h:14-83.
    The comparisons go through doubles, as in the code.  std::pow is an argument. *)
From Verif Require Export DoubleModel.
Open Scope Z_scope.

(** What a call does: it returns, throws, or has used up the steps given to the model. *)
Inductive outcome (A : Type) := Returns (a : A) | Throws | Running.
Arguments Returns {A} a.
Arguments Throws {A}.
Arguments Running {A}.

(** Number(double), src/number.cpp:24-29. *)
Definition ofDouble (x : spec_float) : number :=
  match doubleToFraction x with Some q => NRat q | None => NDbl x end.
(** Number(int), src/number.cpp:16-18. *)
Definition ofInt (n : Z) : number := NRat (ofZ n).

(** Operate, src/number.h:48-64: two rationals are combined exactly, otherwise rationals are converted to double;
    operator+=, src/number.cpp:81-91. *)
Definition numberAdd (a b : number) : number :=
  match a, b with
  | NRat p, NRat q => NRat (qadd p q)
  | _, _ => ofDouble (SFadd 53 1024 (toDouble a) (toDouble b))
  end.
(** operator*=, src/number.cpp:98-108. *)
Definition numberMul (a b : number) : number :=
  match a, b with
  | NRat p, NRat q => NRat (qmul p q)
  | _, _ => ofDouble (SFmul 53 1024 (toDouble a) (toDouble b))
  end.
(** operator-, src/number.cpp:122-128. *)
Definition numberNeg (a : number) : number :=
  match a with NRat q => NRat (qneg q) | NDbl x => ofDouble (SFopp x) end.
(** operator-=, src/number.cpp:93-96. *)
Definition numberSub (a b : number) : number := numberAdd a (numberNeg b).

(** operator<, src/number.cpp:325-328. *)
Definition numberLt (a b : number) : bool := SFltb (toDouble a) (toDouble b).
(** isInt, src/numberfct.cpp:8-11; abs, src/numberfct.cpp:28-31. *)
Definition numberIsInt (a : number) : bool := match a with NRat q => qIsInt q | NDbl _ => false end.
Definition numberAbs (a : number) : number := if numberLt a (ofInt 0) then numberNeg a else a.

Section Pow.
  (** std::pow; the first guess of tryGetBase (src/number.cpp:214-240), see [floats] in NumberModel.v. *)
  Variables (pw : spec_float -> spec_float -> spec_float) (root : Z -> Z -> option Z).

  (** The fraction that Number(double) makes of std::pow(x, 1/d), src/number.cpp:255. *)
  Definition powFloats : floats :=
    mkFloats root (fun x d => doubleToFraction (pw (dRat x) (SFdiv 53 1024 (dOfZ 1) (dOfZ d)))).

  (** computeRationalPower, src/number.cpp:188-258, for rationals. *)
  Definition rationalPower (b e : Q) : outcome number :=
    match computeRationalPower powFloats b e with
    | PRat q => Returns (NRat q)
    | PDbl => match computeNumPower b (qnum e) with
              | Some r => Returns (NDbl (pw (dRat r) (SFdiv 53 1024 (dOfZ 1) (dOfZ (qden e)))))
              | None => Throws
              end
    | PThrow => Throws
    end.

  (** toThe, src/number.cpp:130-195; computeMinusOneToThe, src/number.cpp:159-164.  [n]: how many nested calls. *)
  Fixpoint numberPow (n : nat) (b e : number) : outcome number :=
    match n with O => Running | S n' =>
    if numberEq b (ofInt 0) && (numberNum e <? 0) then Throws
    else if numberEq b (ofInt 0) || numberEq b (ofInt 1) || numberEq e (ofInt 1) then Returns b
    else if numberEq e (ofInt 0) then Returns (ofInt 1)
    else if numberLt b (ofInt 0) && negb (numberIsInt e) then Throws
    else if numberEq b (ofInt (-1)) then Returns (ofInt (if Z.rem (numberNum e) 2 =? 0 then 1 else -1))
    else if numberLt (ofInt 0) b then
      match b, e with
      | NRat p, NRat q => rationalPower p q
      | _, _ => Returns (ofDouble (pw (toDouble b) (toDouble e)))
      end
    else
      match numberPow n' (ofInt (-1)) e with
      | Returns f =>
          match numberPow n' (numberAbs b) e with
          | Returns x => Returns (numberMul x f)
          | Throws => Throws
          | Running => Running
          end
      | Throws => Throws
      | Running => Running
      end
    end.

  (** operator/=, src/number.cpp:110-115. *)
  Definition numberDiv (n : nat) (a b : number) : outcome number :=
    match numberPow n b (ofInt (-1)) with
    | Returns x => Returns (numberMul a x)
    | Throws => Throws
    | Running => Running
    end.
End Pow.
