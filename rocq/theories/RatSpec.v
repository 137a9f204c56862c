(** Programs that compute with numbers, symbols, the four operations and integer powers. *)
From Verif Require Export ApiSpec.
From Verif Require Import Run NumPowerModel.
Open Scope Z_scope.

(** No functions, no constants, no exponents but integers; no powers of numbers. *)
Fixpoint rational (e : expr) : Prop :=
  let all := fix all l := match l with [] => True | x :: r => rational x /\ all r end in
  match e with
  | Num q => Z.gcd (Qnum q) (Zpos (Qden q)) = 1
  | Sym _ _ | Undef => True
  | Cst _ | Fct _ _ => False
  | Sum l | Prod l => all l
  | Pow b x => rational b /\ match b with Num _ => False | _ => True end /\ exists z, x = numZ z
  end.

(** Numbers, symbols, +, -, *, /, powers with integer exponents, expand and subst. *)
Fixpoint rationalProgram (t : term) : Prop :=
  match t with
  | TInt _ | TFrac _ _ | TSym _ _ => True
  | TAdd a b | TSub a b | TMul a b | TDiv a b | TSubst a _ _ b => rationalProgram a /\ rationalProgram b
  | TNeg a | TExpand a => rationalProgram a
  | TPow a b => rationalProgram a /\ exists z, b = TInt z
  | _ => False
  end.

(** What a run relies on: the fact itself, whatever the symbols stand for. *)
Fixpoint inner (c : cond) : cond := match c with CIn _ c' => inner c' | _ => c end.
(** No sum or product lost operands, and no operands were taken from something else than a sum. *)
Definition noWrongTurn (facts : list cond) : Prop := forall c s, In c facts -> inner c <> CBug s.
(** The powers of numbers that a run computed kept their values. *)
Definition powersRight (facts : list cond) : Prop := forall c p p', In c facts -> inner c = CNumPow p p' -> payVal p' = payVal p.
(** Numerators and denominators of their bases were less than 324. *)
Definition powersSmall (facts : list cond) : Prop :=
  forall c p p', In c facts -> inner c = CNumPow p p' -> Z.abs (Qnum (pBase p)) < 324 /\ Zpos (Qden (pBase p)) < 324.
