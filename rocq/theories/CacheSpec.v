(** What calls return without any memory. *)
From Verif Require Export CacheModel.

Section Spec.
  Variable body : Z -> fid -> list expr -> prog.

  (** [computes o p v]: the code p ends with the result v ([None]: an exception) if nothing is ever stored. *)
  Inductive computes (o : Z) : prog -> option (list expr) -> Prop :=
  | c_ret v : computes o (Ret v) (Some v)
  | c_raise : computes o Raise None
  | c_call f args next v w : computes o (body o f args) (Some v) -> computes o (next v) w -> computes o (Call f args next) w
  | c_fail f args next : computes o (body o f args) None -> computes o (Call f args next) None.

  (** The answers that a process without memory gives. *)
  Fixpoint answers (o : Z) (l : list event) (vs : list (option (list expr))) : Prop :=
    match l, vs with
    | [], [] => True
    | Ask f args :: l', v :: vs' => computes o (body o f args) v /\ answers o l' vs'
    | Clear :: l', _ => answers o l' vs
    | SetOption o' :: l', _ => answers o' l' vs
    | _, _ => False
    end.
End Spec.

(** Histories that never change the option; histories that clear the caches after each change. *)
Definition sameOption (l : list event) : Prop := forall o, ~ In (SetOption o) l.
Fixpoint clearing (l : list event) : Prop :=
  match l with
  | SetOption _ :: Clear :: l' => clearing l'
  | SetOption _ :: _ => False
  | _ :: l' => clearing l'
  | [] => True
  end.
