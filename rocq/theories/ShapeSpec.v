(** Structure of expressions: what every expression the library hands out looks like. *)
From Verif Require Export ApiModel.
From Verif Require Import Run.
From Coq Require Import Lia.
Open Scope Z_scope.

Definition arity (f : fct) : nat := match f with FAtan2 => 2 | _ => 1 end.

(** Numbers are in lowest terms, sums and products have at least two operands, functions have as many
    arguments as they need, a power has neither the base one nor the exponent one, and symbols satisfy
    [P]. *)
Fixpoint wellFormed (P : name -> bool -> Prop) (e : expr) : Prop :=
  let all := fix all l := match l with [] => True | x :: r => wellFormed P x /\ all r end in
  match e with
  | Num q => Z.gcd (Qnum q) (Zpos (Qden q)) = 1
  | Sym n p => P n p
  | Cst _ | Undef => True
  | Fct f l => length l = arity f /\ all l
  | Sum l | Prod l => (2 <= length l)%nat /\ all l
  | Pow b x => wellFormed P b /\ wellFormed P x /\ b <> Num 1 /\ x <> Num 1
  end.

(** The undefined behaviour that the structure of expressions doesn't rule out. *)
Definition remainingUB (s : string) : Prop :=
  In s ["front of empty list of summands"; "front of empty list of factors"; "iterator to erased element";
        "no numeric value"]%string.
Definition endsWell {A} (Q : A -> Prop) (m : res A) : Prop :=
  match m with Ok a _ => Q a | UB s => remainingUB s | Fuel | Throw => True end.

(** The symbols that the value of a program depends on. *)
Fixpoint mentions (t : term) (n : name) (p : bool) : Prop :=
  match t with
  | TInt _ | TFrac _ _ | TConst _ => False
  | TSym m q => n = m /\ p = q
  | TAdd a b | TSub a b | TMul a b | TDiv a b | TPow a b | TAtan2 a b => mentions a n p \/ mentions b n p
  | TNeg a | TSqrt a | TLog a | TTrig _ a | TExpand a | TNormal a | TSimplify a => mentions a n p
  | TSubst a m q b => mentions a n p /\ ~ (n = m /\ p = q) \/ mentions b n p
  end.
(** [TTrig] stands for sin, cos, tan, asin, acos and atan. *)
Fixpoint proper (t : term) : Prop :=
  match t with
  | TInt _ | TFrac _ _ | TConst _ | TSym _ _ => True
  | TAdd a b | TSub a b | TMul a b | TDiv a b | TPow a b | TAtan2 a b | TSubst a _ _ b => proper a /\ proper b
  | TNeg a | TSqrt a | TLog a | TExpand a | TNormal a | TSimplify a => proper a
  | TTrig f a => match f with FLog | FAtan2 => False | _ => True end /\ proper a
  end.
