(** What it means that an execution is right: specification used in the statements about
    simplification, differentiation, polynomials and normalisation. *)
From Verif Require Export Sem NumberSpec Run.
Open Scope R_scope.

(** Expressions the library can hold: numbers in lowest terms, functions with the right number of
    arguments and only the symbols [P]. *)
Fixpoint wf (P : name -> bool -> Prop) (e : expr) : Prop :=
  let all := fix all l := match l with [] => True | x :: r => wf P x /\ all r end in
  match e with
  | Num q => canon q
  | Sym n p => P n p
  | Cst _ | Undef => True
  | Fct f l => length l = (match f with FAtan2 => 2 | _ => 1 end)%nat /\ all l
  | Sum l | Prod l => all l
  | Pow b x => wf P b /\ wf P x
  end.
Definition anySym : name -> bool -> Prop := fun _ _ => True.

(** [ole a b]: where a has a value, b has the same. *)
Definition ole (a b : option R) : Prop := match a with Some v => b = Some v | None => True end.
Definition opow (a b : option R) : option R := match a, b with Some v, Some w => rpow v w | _, _ => None end.

(** Positive symbols are positive ([st]) or at least nonnegative. *)
Definition sgnOK (st : bool) (v : R) : Prop := if st then 0 < v else 0 <= v.
Definition wgood (st : bool) (r : env) : Prop := forall n, sgnOK st (r n true).

(** Temporary symbols get the values of the terms they stand for. *)
Definition ext1 (r : env) (s : name * bool * expr) : env :=
  let '(n, p, e) := s in upd r n p (match eval r e with Some v => v | None => 1 end).
Definition ext (r : env) (m : list (name * bool * expr)) : env := fold_left ext1 m r.

(** The facts an execution relies on. *)
Fixpoint holds (st : bool) (r : env) (c : cond) : Prop :=
  match c with
  | CNumPow p p' => ole (payVal p) (payVal p') /\ payCanon p'
  | CEq e q => canon q /\ forall v, eval r e = Some v -> v = Q2R q
  | CNotInt e => forall v z, eval r e = Some v -> v <> IZR z
  | CNonZero e => eval r e <> Some 0
  | CLt a b => forall v w, eval r a = Some v -> eval r b = Some w -> v < w
  | CLe a b => forall v w, eval r a = Some v -> eval r b = Some w -> v <= w
  | CSame a b => ole (eval r a) (eval r b)
  | CEven e => st = true -> eval r e <> Some 0
  | CSign e => st = false -> eval r e <> Some 0
  | CBug _ => False
  | CUb _ => True
  | CIn m c => holds st (ext r m) c
  end.

(** The result of an execution that relies on valid facts only satisfies Q. *)
Definition spec {A} (H : cond -> Prop) (m : res A) (Q : A -> Prop) : Prop :=
  match m with Ok a l => Forall H l -> Q a | _ => True end.
