(** What differentiation means: specification for C14 and C15. *)
From Verif Require Export Sem.
Open Scope R_scope.

(** The symbol (n, p) occurs in e. *)
Fixpoint mentions (n : name) (p : bool) (e : expr) : bool :=
  match e with
  | Sym m q => nameEq n m && Bool.eqb p q
  | Fct _ l | Sum l | Prod l => existsb (mentions n p) l
  | Pow b x => mentions n p b || mentions n p x
  | _ => false
  end.

(** [hasDeriv g t d]: the partial function g has a value in a neighbourhood of t and derivative d at t. *)
Definition near (t : R) (P : R -> Prop) : Prop := exists delta, 0 < delta /\ forall s, Rabs (s - t) < delta -> P s.
Definition hasDeriv (g : R -> option R) (t d : R) : Prop :=
  exists h, near t (fun s => g s = Some (h s)) /\ derivable_pt_lim h t d.

(** Points in the interior of a function's domain. *)
Definition inside (f : fct) (v : R) : Prop :=
  match f with
  | FSin | FCos | FAtan => True
  | FTan => cos v <> 0
  | FAsin | FAcos => -1 < v < 1
  | FLog => 0 < v
  | FAtan2 => False
  end.

(** Points where the rules of differentiation apply: no base is zero, a negative base has an exponent
    without the symbol, and atan2 is not differentiated. *)
Fixpoint regular (r : env) (n : name) (p : bool) (e : expr) : Prop :=
  let all := fix all l := match l with [] => True | x :: s => regular r n p x /\ all s end in
  mentions n p e = false /\ eval r e <> None \/
  match e with
  | Num _ | Cst _ | Sym _ _ => True
  | Undef => False
  | Sum l | Prod l => all l
  | Pow b y =>
      regular r n p b /\ regular r n p y /\
      exists v, eval r b = Some v /\ (0 < v \/ v < 0 /\ mentions n p y = false /\ eval r e <> None)
  | Fct f [a] => regular r n p a /\ exists v, eval r a = Some v /\ inside f v
  | Fct _ _ => False
  end.

(** Points where the derivative is never Undefined: as [regular], but a subexpression without the symbol
    isn't exempt, and a base with a negative value must have a logarithm that isn't Undefined. *)
Fixpoint smooth (logDefined : expr -> Prop) (r : env) (n : name) (p : bool) (e : expr) : Prop :=
  let all := fix all l := match l with [] => True | x :: s => smooth logDefined r n p x /\ all s end in
  match e with
  | Num _ | Cst _ | Sym _ _ => True
  | Undef => False
  | Sum l | Prod l => all l
  | Pow b y =>
      smooth logDefined r n p b /\ smooth logDefined r n p y /\
      exists v, eval r b = Some v /\ (0 < v \/ v < 0 /\ mentions n p y = false /\ eval r e <> None /\ logDefined b)
  | Fct f [a] => smooth logDefined r n p a /\ exists v, eval r a = Some v /\ inside f v
  | Fct _ _ => False
  end.
