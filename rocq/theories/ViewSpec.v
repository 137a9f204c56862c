(** What a user sees of an expression. *)
From Coq Require Import List.
From Verif Require Export TypeModel NameTextSpec RunSpec.
Import ListNotations.

(** Two expressions look alike if their types, names and operands do; numbers if they are printed alike, symbols if isPositive
    gives the same answer, too. *)
Inductive alike (a b : expr) : Prop :=
| Alike : varType a = varType b -> varName a = varName b -> Forall2 alike (ops a) (ops b) ->
    (forall p q, a = Num p -> b = Num q -> numberText p = numberText q) ->
    (forall n p m q, a = Sym n p -> b = Sym m q -> p = q) -> alike a b.
(** Numbers in lowest terms, plain names. *)
Definition plainExpr : expr -> Prop := wf (fun n _ => plainName n).
