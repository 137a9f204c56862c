(** Specifications for the numeric evaluation of constant expressions. *)
From Verif Require Export MixedSpec Sem NumberSpec EvalModel.
Require Import Flocq.Core.Core Flocq.IEEE754.BinarySingleNaN.
From Coq Require Import List Reals Qreals.
Import ListNotations.
Open Scope R_scope.

(** A C library with errors of about one unit in the last place: sin, cos and atan up to 2^-52, roots with a relative error
    of 2^-52, unless the radicand is very large or small.  A power is a negative number only if the base is. *)
Definition fctR (f : fct) : R -> R := match f with FSin => sin | FCos => cos | _ => atan end.
Definition notNegative (x : spec_float) : Prop := match x with S754_finite true _ _ => False | _ => True end.
Definition accurate (lib : library) : Prop :=
  (forall f x, In f [FSin; FCos; FAtan] -> isDouble x ->
     isDouble (l_fct lib f x) /\ Rabs (doubleValue (l_fct lib f x) - fctR f (doubleValue x)) <= bpow radix2 (-52)) /\
  (forall x y, isDouble x -> isDouble y -> bpow radix2 (-500) <= doubleValue x <= bpow radix2 500 -> 0 < doubleValue y <= 1 ->
     isDouble (l_pow lib x y) /\
     Rabs (doubleValue (l_pow lib x y) - Rpower (doubleValue x) (doubleValue y)) <= bpow radix2 (-52) * Rpower (doubleValue x) (doubleValue y)) /\
  (forall x y, notNegative x -> notNegative (l_pow lib x y)).

(** Constant expressions of numbers, pi, e, sums, products, sin, cos, atan and powers of positive numbers. *)
Fixpoint constExpr (e : expr) : Prop :=
  match e with
  | Num q => canon q
  | Cst _ => True
  | Sum l | Prod l => fold_right (fun x P => constExpr x /\ P) True l
  | Fct f [x] => In f [FSin; FCos; FAtan] /\ constExpr x
  | Pow (Num b) (Num x) => canon b /\ canon x /\ (0 < Qnum b)%Z
  | _ => False
  end.

(** All subexpressions, the partial sums and products, and of a power b^(n/d) the power b^n. *)
Fixpoint stages (e : expr) : list expr :=
  e :: match e with
       | Sum l => flat_map stages l ++ map (fun k => Sum (firstn k l)) (seq 0 (length l))
       | Prod l => flat_map stages l ++ map (fun k => Prod (firstn k l)) (seq 0 (length l))
       | Fct _ l => flat_map stages l
       | Pow b x => stages b ++ stages x ++ match x with Num q => [Pow b (Num (ofZ (Qnum q)))] | _ => [] end
       | _ => []
       end.
(** No intermediate result is near the limits of double. *)
Definition ampleRun (Y : library) (limit : Z) (e : expr) : Prop :=
  forall s n, In s (stages e) -> numericEval (doubleSys Y limit) s = Some n -> ample (toNumber n).

(** The number of operations (64 for a power), and the value if every number and intermediate result were positive, plus
    one for each operation that adds. *)
Fixpoint steps (e : expr) : nat :=
  match e with
  | Sum l | Prod l => fold_right (fun x n => S (steps x + n)) 0%nat l
  | Fct _ [x] => S (steps x)
  | Pow _ _ => 64
  | _ => 1
  end.
Fixpoint size (e : expr) : R :=
  match e with
  | Num q => 1 + Rabs (Q2R q)
  | Sum l => fold_right (fun x m => size x + m) 1 l
  | Prod l => fold_right (fun x m => size x * m) 1 l
  | Fct _ [x] => size x + 2
  | Pow (Num b) (Num x) => 1 + Rpower (Q2R b) (Q2R x)
  | _ => 4
  end.

(** A symbol occurs. *)
Fixpoint hasSymbol (e : expr) : Prop :=
  match e with
  | Sym _ _ => True
  | Fct _ l | Sum l | Prod l => fold_right (fun x P => hasSymbol x \/ P) False l
  | Pow b x => hasSymbol b \/ hasSymbol x
  | _ => False
  end.
(** Sums, products and powers of rational numbers; the exponents are integers other than zero. *)
Fixpoint ratExpr (e : expr) : Prop :=
  match e with
  | Num q => canon q
  | Sum l | Prod l => fold_right (fun x P => ratExpr x /\ P) True l
  | Pow b (Num x) => ratExpr b /\ canon x /\ Qden x = 1%positive /\ Qnum x <> 0%Z
  | _ => False
  end.
(** The range of int. *)
Definition isInt32 (n : Z) : Prop := (- 2 ^ 31 <= n < 2 ^ 31)%Z.

(** A bound for the binary digits of every intermediate result. *)
Definition bitsQ (q : Q) : Z := (Z.max (Z.log2 (Z.abs (Qnum q))) (Z.log2 (Zpos (Qden q))) + 1)%Z.
Fixpoint bits (e : expr) : Z :=
  match e with
  | Num q => bitsQ q
  | Sum l | Prod l => fold_right (fun x k => bits x + k + 20)%Z 1%Z l
  | Fct _ [x] => bits x + 20
  | Pow (Num b) (Num x) => (Z.abs (Qnum x) + 1) * bitsQ b + bitsQ x + 20
  | _ => 3
  end.
