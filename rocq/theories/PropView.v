(** C62: what type, name and operands tell.  alike and plainExpr are in ViewSpec.v. *)
From Coq Require Import ZArith String Ascii List Lia.
From Verif Require Import ExprSpec ExprProofs ExprWitness ViewSpec ViewProofs.
Import ListNotations.
Open Scope string_scope.

(** Full statement: expressions are the same exactly if they look alike, all the way down their operands. *)
Theorem C62_alike_partial : forall a b, plainExpr a -> plainExpr b -> (alike a b <-> a = b).
Proof. intros a b Ha Hb. split; [intros H; now apply alike_same|intros <-; apply alike_refl]. Qed.
Print Assumptions C62_alike_partial.

(** So that is what operator == compares. *)
Theorem C62_equal_partial : forall a b, plainExpr a -> plainExpr b -> defined a -> (isEqual a b = true <-> alike a b).
Proof. intros a b Ha Hb Hd. rewrite (equality_decides a b Hd), C62_alike_partial by assumption. reflexivity. Qed.
Print Assumptions C62_equal_partial.

(** Every expression has a type, and the type has a text, which no other type has. *)
Theorem C62_type : (forall a, exists t s, varType a = Some t /\ typeName t = Some s) /\
  (forall t u, typeName t = typeName u -> t = u).
Proof. split; [exact type_listed|]. intros [] []; reflexivity || (intros H; vm_compute in H; discriminate H). Qed.
Print Assumptions C62_type.

(** The type tells the kind of an expression. *)
Theorem C62_kind : forall a,
  (varType a = Some TyInt <-> exists q, a = Num q /\ Zpos (Qden q) = 1%Z) /\
  (varType a = Some TyFraction <-> exists q, a = Num q /\ Zpos (Qden q) <> 1%Z) /\
  (varType a = Some TySymbol <-> exists n p, a = Sym n p) /\ (varType a = Some TyConstant <-> exists c, a = Cst c) /\
  (varType a = Some TyFunction <-> exists f l, a = Fct f l) /\ (varType a = Some TySum <-> exists l, a = Sum l) /\
  (varType a = Some TyProduct <-> exists l, a = Prod l) /\ (varType a = Some TyPower <-> exists b x, a = Pow b x) /\
  (varType a = Some TyUndefined <-> a = Undef) /\ varType a <> Some TyDouble.
Proof. exact type_kind. Qed.
Print Assumptions C62_kind.

(** a_b without an index and a with the index b look alike. *)
Theorem C62_refuted : exists a b, alike a b /\ isEqual a b = false.
Proof.
  exists (Sym (mkName "a_b" "" "") false), (Sym (mkName "a" "b" "") false). split; [|reflexivity].
  constructor; [reflexivity|reflexivity|constructor|discriminate|congruence].
Qed.
Print Assumptions C62_refuted.

Definition someView := Sum [Num (3 # 2); Prod [Num 2; Fct FSin [Sym (mkName "a" "b" "") true]]].
Example C62_case : plainExpr someView /\ varType someView = Some TySum /\ map varType (ops someView) = [Some TyFraction; Some TyProduct] /\
  varName (Fct FSin [Sym (mkName "a" "b" "") true]) = list_ascii_of_string "sin" /\ typeName TyFraction = Some "Fraction".
Proof.
  split; [|repeat split]. repeat split; try (repeat constructor; fail); repeat constructor; cbn; try lia;
    intros H; repeat (destruct H as [H|H]; [discriminate H|]); destruct H.
Qed.
