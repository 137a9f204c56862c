(** Linear systems over the reals: what a solution and an inverse are.  Nothing here mentions the solver. *)
From Coq Require Import Reals List.
Import ListNotations.
Open Scope R_scope.

(** The rows and columns below [dim] that aren't skipped. *)
Definition activeRows (skip : nat -> bool) (dim : nat) : list nat := filter (fun i => negb (skip i)) (seq 0 dim).
(** One row of the system, applied to the unknowns: the sum of row k * x k. *)
Definition rowSum (act : list nat) (row x : nat -> R) : R := fold_right (fun k s => row k * x k + s) 0 act.
Definition solution (act : list nat) (a : nat -> nat -> R) (b x : nat -> R) : Prop := forall i, In i act -> rowSum act (a i) x = b i.
Definition inverseOf (act : list nat) (a m : nat -> nat -> R) : Prop :=
  forall i j, In i act -> In j act -> rowSum act (a i) (fun k => m k j) = if Nat.eqb i j then 1 else 0.

(** The determinant of the rows and columns in the lists, by expansion along the first row. *)
Definition sumOver {A} (f : A -> R) (l : list A) : R := fold_right (fun x s => f x + s) 0 l.
Definition withoutNth {A} (p : nat) (l : list A) : list A := firstn p l ++ skipn (S p) l.
Fixpoint laplace (a : nat -> nat -> R) (rows cols : list nat) : R :=
  match rows with
  | [] => 1
  | i :: rest => sumOver (fun p => (-1) ^ p * a i (nth p cols O) * laplace a rest (withoutNth p cols)) (seq 0 (length cols))
  end.
