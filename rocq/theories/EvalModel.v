(** Numeric evaluation with IEEE doubles, and the conversions of Var: src/var.cpp:164-190.  The functions of the
    C library are arguments. *)
From Verif Require Export MixedModel FloatEval.
Open Scope Z_scope.

(** std::pow, std::sin, ..., std::log, std::atan2. *)
Record library := mkLibrary {
  l_pow : spec_float -> spec_float -> spec_float;
  l_fct : fct -> spec_float -> spec_float;
  l_atan2 : spec_float -> spec_float -> spec_float
}.

(** The candidate of tryGetBase (see [floats] in NumberModel.v), src/number.cpp:214-235, for positive n and d: the largest int,
    0.1 and 1.e-6 are doubles here.  Simplification: nothing is returned if std::pow gives NaN (the cast is undefined then). *)
Definition dIntMax : spec_float := S754_finite false 9007199250546688 (-22).
Definition dTenth : spec_float := S754_finite false 7205759403792794 (-56).
Definition dMicro : spec_float := S754_finite false 4722366482869645 (-72).
Definition l_root (lib : library) (n d : Z) : option Z :=
  if (n <=? 0) || (d <=? 0) then None
  else
    let exact := l_pow lib (dOfZ n) (SFdiv 53 1024 (dOfZ 1) (dOfZ d)) in
    match exact with
    | S754_nan => None
    | _ =>
        if SFltb dIntMax exact then None
        else
          let base := dTrunc (SFadd 53 1024 exact dTenth) in
          if SFltb dMicro (SFabs (SFsub 53 1024 exact (dOfZ base))) then None else Some base
    end.

(** M_PI and M_E, src/constant.cpp:45-55. *)
Definition mPi : spec_float := S754_finite false 7074237752028440 (-51).
Definition mE : spec_float := S754_finite false 6121026514868073 (-51).

(** A number of FloatEval.v as one of MixedModel.v and back. *)
Definition toNumber (n : num spec_float) : number := match n with NQ q => NRat q | ND x => NDbl x end.
Definition ofNumber (n : number) : num spec_float := match n with NRat q => NQ q | NDbl x => ND x end.
Definition numToDouble (n : num spec_float) : spec_float := toDouble (toNumber n).

(** The operations of Number (MixedModel.v), the constants (src/constant.cpp:45-55), the functions
    (src/trigonometric.cpp:392-420, src/logarithm.cpp:91-97).  The nested calls of toThe are bounded by 3; two are enough if the
    base isn't NaN. *)
Definition doubleSys (lib : library) (limit : Z) : sys := {|
  sD := spec_float;
  s_fl := powFloats (l_pow lib) (l_root lib);
  s_limit := limit;
  s_nlt := dLt;
  s_cst c := ofNumber (ofDouble match c with CPi => mPi | CE => mE end);
  s_add a b := ofNumber (numberAdd (toNumber a) (toNumber b));
  s_mul a b := ofNumber (numberMul (toNumber a) (toNumber b));
  s_pow a b := match numberPow (l_pow lib) (l_root lib) 3 (toNumber a) (toNumber b) with
               | Returns x => Some (ofNumber x)
               | _ => None
               end;
  s_fct f a := ofNumber (ofDouble (l_fct lib f (numToDouble a)));
  s_atan2 a b := ofNumber (ofDouble (l_atan2 lib (numToDouble a) (numToDouble b)));
  s_lt a b := numberLt (toNumber a) (toNumber b);
  s_eq a b := numberEq (toNumber a) (toNumber b)
|}.

(** The result of a conversion: a value, std::domain_error or std::overflow_error. *)
Inductive converted (A : Type) := Gives (a : A) | DomainError | OverflowError.
Arguments Gives {A} a.
Arguments DomainError {A}.
Arguments OverflowError {A}.

(** Var::operator double, src/var.cpp:184-190.  Simplification: an exception of toThe is a domain_error here. *)
Definition varToDouble (lib : library) (limit : Z) (e : expr) : converted spec_float :=
  match numericEval (doubleSys lib limit) e with Some n => Gives (numToDouble n) | None => DomainError end.

(** Var::operator int, src/var.cpp:164-182; isInteger, src/basefct.cpp:7-13; fitsInto, src/int.h:15-21.  Simplification: the
    conversion of an integer in the range of int doesn't throw, the try block is left out. *)
Definition varToInt (Y : sys) (e : expr) : converted Z :=
  match numericEval Y e with
  | Some n =>
      if nIsInt Y n then
        match n with
        | NQ q => if (-2147483648 <=? qnum q) && (qnum q <=? 2147483647) then Gives (qnum q) else OverflowError
        | ND _ => DomainError
        end
      else DomainError
  | None => DomainError
  end.
