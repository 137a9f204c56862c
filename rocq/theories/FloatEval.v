(** numericEval: numbers that an expression without symbols is evaluated to.  A Number is a rational
    or a double (src/number.h:14-83).  Doubles are an abstract type: all operations that produce or
    inspect doubles are parameters, so that theorems hold for each behaviour of the floating point
    unit.  Rational operands are computed exactly. *)
From Verif Require Export ExprModel NumberModel NumPowerModel.
Open Scope Z_scope.

(** Number, src/number.h:74-75: std::variant<Rational, double>. *)
Inductive num (D : Type) := NQ (q : Q) | ND (d : D).
Arguments NQ {D}. Arguments ND {D}.

(** What the code takes from the C++ library and the options: the floating point operations (each
    result has passed the constructor Number(double), src/number.cpp:24-29), the comparison of
    rationals that src/order.cpp uses, the constants M_PI and M_E, and the prime resolution limit
    (src/options.cpp). *)
Record sys := mkSys {
  sD : Type;
  s_fl : floats;
  s_limit : Z;
  s_nlt : Q -> Q -> bool;
  s_cst : cst -> num sD;
  s_add : num sD -> num sD -> num sD;
  s_mul : num sD -> num sD -> num sD;
  s_pow : num sD -> num sD -> option (num sD);
  s_fct : fct -> num sD -> num sD;
  s_atan2 : num sD -> num sD -> num sD;
  s_lt : num sD -> num sD -> bool;
  s_eq : num sD -> num sD -> bool
}.

Section Eval.
  Variable S : sys.
  Notation N := (num (sD S)).

  (** operator+=, src/number.cpp:81-91. *)
  Definition nadd (a b : N) : N :=
    match a, b with NQ p, NQ q => NQ (qadd p q) | _, _ => s_add S a b end.
  (** operator*=, src/number.cpp:98-108. *)
  Definition nmul (a b : N) : N :=
    match a, b with NQ p, NQ q => NQ (qmul p q) | _, _ => s_mul S a b end.
  (** toThe, src/number.cpp:130-178; an exception is [None]. *)
  Definition npow (a b : N) : option N :=
    match a, b with
    | NQ p, NQ q => match toThe (s_fl S) p q with
                    | PRat r => Some (NQ r) | PDbl => s_pow S a b | PThrow => None end
    | _, _ => s_pow S a b
    end.
  (** operator<, operator==, src/number.cpp:317-328; exact on rationals. *)
  Definition nlt (a b : N) : bool := match a, b with NQ p, NQ q => qltb p q | _, _ => s_lt S a b end.
  Definition neq (a b : N) : bool := match a, b with NQ p, NQ q => qeqb p q | _, _ => s_eq S a b end.
  Definition nge (a b : N) : bool := negb (nlt a b).
  (** isInt, isOddInt, isEvenInt, isFraction: src/numberfct.cpp:8-26; a double has denominator 1
      (src/number.cpp:283-289). *)
  Definition nIsInt (a : N) : bool := match a with NQ q => qIsInt q | ND _ => false end.
  Definition nIsFraction (a : N) : bool := match a with NQ q => qIsFraction q | ND _ => false end.

  (** numericEval: src/numeric.cpp:85-88, symbol.cpp:108-111, constant.cpp:45-55,
      undefined.cpp:37-40, trigonometric.cpp:392-420, logarithm.cpp:91-97, sum.cpp:51-62,
      product.cpp:69-80, power.cpp:87-96.  Simplification: an exception of toThe is treated as
      "no value". *)
  Fixpoint numericEval (e : expr) : option N :=
    match e with
    | Num q => Some (NQ q)
    | Sym _ _ | Undef => None
    | Cst c => Some (s_cst S c)
    | Fct FAtan2 [y; x] =>
        match numericEval y, numericEval x with Some a, Some b => Some (s_atan2 S a b) | _, _ => None end
    | Fct f [x] => match numericEval x with Some a => Some (s_fct S f a) | None => None end
    | Fct _ _ => None
    | Sum l => fold_left (fun a x => match a, numericEval x with Some s, Some v => Some (nadd s v) | _, _ => None end)
                 l (Some (NQ 0%Q))
    | Prod l => fold_left (fun a x => match a, numericEval x with Some s, Some v => Some (nmul s v) | _, _ => None end)
                 l (Some (NQ 1%Q))
    | Pow b x => match numericEval b, numericEval x with Some v, Some w => npow v w | _, _ => None end
    end.
End Eval.
