(** What is claimed about numbers: definitions used in the statements of C01 to C04, none of
    which refers to the algorithms of the model. *)
From Verif Require Export NumberModel NumPowerModel RPow.
From Coq Require Export Reals Qreals.
Local Open Scope Z_scope.

(** Lowest terms (the denominator of a Q is positive by construction). *)
Definition canon (q : Q) : Prop := Z.gcd (Qnum q) (Zpos (Qden q)) = 1.

(** Arithmetic terms over the operators of Number. *)
Inductive aexp := AInt (n : Z) | AFrac (n d : Z) | AAdd (a b : aexp) | ASub (a b : aexp) | AMul (a b : aexp)
  | ADiv (a b : aexp) | ANeg (a : aexp).

(** The program: operators of Number, [None] is an exception. *)
Fixpoint arun (x : aexp) : option Q :=
  let bin f a b := match arun a, arun b with Some u, Some v => f u v | _, _ => None end in
  match x with
  | AInt n => Some (ofZ n)
  | AFrac n d => mkRat n d
  | AAdd a b => bin (fun u v => Some (qadd u v)) a b
  | ASub a b => bin (fun u v => Some (qsub u v)) a b
  | AMul a b => bin (fun u v => Some (qmul u v)) a b
  | ADiv a b => bin qdiv a b
  | ANeg a => match arun a with Some u => Some (qneg u) | None => None end
  end.

(** The meaning: real numbers, [None] is a division by zero. *)
Fixpoint ameans (x : aexp) : option R :=
  let bin f a b := match ameans a, ameans b with Some u, Some v => f u v | _, _ => None end in
  (match x with
  | AInt n => Some (IZR n)
  | AFrac n d => if Req_EM_T (IZR d) 0 then None else Some (IZR n / IZR d)
  | AAdd a b => bin (fun u v => Some (u + v)) a b
  | ASub a b => bin (fun u v => Some (u - v)) a b
  | AMul a b => bin (fun u v => Some (u * v)) a b
  | ADiv a b => bin (fun u v => if Req_EM_T v 0 then None else Some (u / v)) a b
  | ANeg a => match ameans a with Some u => Some (- u) | None => None end
  end)%R.

(** The integer candidates for roots are casts of nonnegative doubles. *)
Definition rootsNonneg (fl : floats) : Prop := forall n d b, fl_root fl n d = Some b -> 0 <= b.
(** The fractions that are made of doubles are exact roots. *)
Definition exactDoubles (fl : floats) : Prop :=
  forall r d q, fl_pow fl r d = Some q ->
    canon q /\ (0 <= q)%Q /\ powerRZ (Q2R q) d = Q2R r.

(** The real number denoted by prefactor * base^exponent. *)
Definition payVal (p : payload) : option R :=
  match rpow (Q2R (pBase p)) (Q2R (pExp p)) with
  | Some v => Some (Q2R (pPre p) * v)%R
  | None => None
  end.
Definition payCanon (p : payload) : Prop := canon (pBase p) /\ canon (pExp p) /\ canon (pPre p).
