(** The real numbers of the standard library as a field of the mathcomp library.  Choice needs the axiom of
    the standard library's ClassicalEpsilon. *)
From mathcomp Require Import all_ssreflect all_algebra.
From Coq Require Import Reals ClassicalEpsilon FunctionalExtensionality.
Set Implicit Arguments.
Unset Strict Implicit.
Local Open Scope R_scope.

Definition reqb (x y : R) : bool := if Req_EM_T x y then true else false.
Lemma reqbP : Equality.axiom reqb.
Proof. move=> x y; rewrite /reqb; case: Req_EM_T => H; by constructor. Qed.
Canonical R_eqType := EqType R (EqMixin reqbP).

Definition pick_R (P : pred R) (n : nat) : option R :=
  match excluded_middle_informative (exists x, P x) with
  | left H => Some (proj1_sig (constructive_indefinite_description _ H))
  | right _ => None
  end.
Lemma pick_some (P : pred R) n x : pick_R P n = Some x -> P x.
Proof.
  rewrite /pick_R; case: excluded_middle_informative => // H [<-].
  by case: constructive_indefinite_description.
Qed.
Lemma pick_ex (P : pred R) : (exists x : R, P x) -> exists n, pick_R P n.
Proof. by move=> H; exists 0%N; rewrite /pick_R; case: excluded_middle_informative. Qed.
Lemma pick_ext (P Q : pred R) : P =1 Q -> pick_R P =1 pick_R Q.
Proof. by move=> H n; have -> : P = Q by apply: functional_extensionality. Qed.
Definition R_choiceMixin := Choice.Mixin pick_some pick_ex pick_ext.
Canonical R_choiceType := ChoiceType R R_choiceMixin.

Lemma R_addA : associative Rplus. Proof. by move=> x y z; rewrite Rplus_assoc. Qed.
Lemma R_addC : commutative Rplus. Proof. exact: Rplus_comm. Qed.
Lemma R_add0 : left_id 0 Rplus. Proof. exact: Rplus_0_l. Qed.
Lemma R_addN : left_inverse 0 Ropp Rplus. Proof. exact: Rplus_opp_l. Qed.
Definition R_zmodMixin := ZmodMixin R_addA R_addC R_add0 R_addN.
Canonical R_zmodType := ZmodType R R_zmodMixin.

Lemma R_mulA : associative Rmult. Proof. by move=> x y z; rewrite Rmult_assoc. Qed.
Lemma R_mul1 : left_id 1 Rmult. Proof. exact: Rmult_1_l. Qed.
Lemma R_mulDl : left_distributive Rmult Rplus. Proof. exact: Rmult_plus_distr_r. Qed.
Lemma R_mulC : commutative Rmult. Proof. exact: Rmult_comm. Qed.
Lemma R_1n0 : (1 : R) != 0. Proof. by apply/eqP; apply: R1_neq_R0. Qed.
Definition R_ringMixin := ComRingMixin R_mulA R_mulC R_mul1 R_mulDl R_1n0.
Canonical R_ringType := RingType R R_ringMixin.
Canonical R_comRingType := ComRingType R R_mulC.

Definition R_inv (x : R) : R := if Req_EM_T x 0 then 0 else / x.
Lemma R_mulV (x : R) : x != 0 -> R_inv x * x = 1.
Proof. by move=> /eqP H; unfold R_inv; destruct (Req_EM_T x 0) as [E|E]; [case: (H E) | apply: Rinv_l]. Qed.
Lemma R_inv0 : R_inv 0 = 0.
Proof. by unfold R_inv; destruct (Req_EM_T 0 0). Qed.
Definition R_unitRingMixin := FieldUnitMixin R_mulV R_inv0.
Canonical R_unitRingType := UnitRingType R R_unitRingMixin.
Canonical R_comUnitRingType := [comUnitRingType of R].
Lemma R_fieldMixin : GRing.Field.mixin_of R_unitRingType. Proof. by []. Qed.
Canonical R_idomainType := IdomainType R (FieldIdomainMixin R_fieldMixin).
Canonical R_fieldType := FieldType R R_fieldMixin.
