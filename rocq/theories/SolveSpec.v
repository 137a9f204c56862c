(** What the entries of a linear system stand for.  Nothing here mentions the solver's loops. *)
From mathcomp Require Import all_ssreflect all_fingroup all_algebra.
From Verif Require Import SolveModel.
Set Implicit Arguments.
Unset Strict Implicit.
Import GRing.Theory.
Local Open Scope ring_scope.

Section Spec.
  Variables (F : fieldType) (T : Type) (o : entryOps T).
  (** The value of an entry in the field [F]; None: undefined. *)
  Variable v : T -> option F.

  (** The arithmetic on entries is that of the field, simplification keeps the value. *)
  Record soundEntries : Prop := SoundEntries {
    s_zero : v (e_zero o) = Some 0;
    s_one : v (e_one o) = Some 1;
    s_mone : v (e_mone o) = Some (-1);
    s_add : forall a b x y, v a = Some x -> v b = Some y -> v (e_add o a b) = Some (x + y);
    s_sub : forall a b x y, v a = Some x -> v b = Some y -> v (e_sub o a b) = Some (x - y);
    s_mul : forall a b x y, v a = Some x -> v b = Some y -> v (e_mul o a b) = Some (x * y);
    s_div : forall a b x y, v a = Some x -> v b = Some y -> y != 0 -> v (e_div o a b) = Some (x / y);
    s_simp : forall a x, v a = Some x -> v (e_simp o a) = Some x;
    s_zeroSound : forall a x, v a = Some x -> e_isZero o a -> x = 0
  }.

  (** Comparison with zero recognises every entry of value zero. *)
  Definition decidesZero : Prop := forall a, v a = Some 0 -> e_isZero o a.

  (** Undefined entries are contagious. *)
  Record strictEntries : Prop := StrictEntries {
    t_subl : forall a b, v a = None -> v (e_sub o a b) = None;
    t_subr : forall a b, v b = None -> v (e_sub o a b) = None;
    t_mull : forall a b, v a = None -> v (e_mul o a b) = None;
    t_mulr : forall a b, v b = None -> v (e_mul o a b) = None;
    t_divl : forall a b, v a = None -> v (e_div o a b) = None;
    t_div0 : forall a b, v b = Some 0 -> v (e_div o a b) = None;
    t_simp : forall a, v a = None -> v (e_simp o a) = None
  }.

  (** Entries of the matrix and vector have the given values. *)
  Definition hasValues (dim : nat) (M : nat -> nat -> T) (a : nat -> nat -> F) : Prop :=
    forall i k, (i < dim)%N -> (k < dim)%N -> v (M i k) = Some (a i k).
  Definition hasValuesV (dim : nat) (B : nat -> T) (b : nat -> F) : Prop :=
    forall i, (i < dim)%N -> v (B i) = Some (b i).

  (** The rows and columns that take part. *)
  Definition active (skip : nat -> bool) (dim : nat) : seq nat := [seq i <- iota 0 dim | ~~ skip i].

  (** The system restricted to the active rows and columns. *)
  Definition solves (act : seq nat) (a : nat -> nat -> F) (x b : nat -> F) : Prop :=
    forall i, i \in act -> \sum_(k <- act) a i k * x k = b i.

  Definition reduced (act : seq nat) (a : nat -> nat -> F) : 'M[F]_(size act) :=
    \matrix_(i, k) a (nth 0%N act i) (nth 0%N act k).

  (** Every complexity fits into an unsigned int. *)
  Definition complexityBelow (maxU : nat) : Prop := forall t, (e_comp o t < maxU)%N.
End Spec.
