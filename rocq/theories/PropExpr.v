(** Theorems for C05 (equality), C06 (hash), C07 (order), C29 (names). *)
From Coq Require Import Permutation Sorted.
From Verif Require Import ExprModel ExprSpec ExprProofs OrderModel OrderProofs DoubleModel ExprWitness.
Open Scope Z_scope.

(** ** C05: structural equality *)

(** The boolean comparison of the library decides structural identity of expressions in
    which Undefined does not occur. *)
Theorem C05_equality_decides_identity : forall a b, defined a -> (isEqual a b = true <-> a = b).
Proof. exact equality_decides. Qed.
Print Assumptions C05_equality_decides_identity.

Theorem C05_equality_reflexive : forall a, isEqual a a = true <-> defined a.
Proof. exact equality_reflexive. Qed.
Print Assumptions C05_equality_reflexive.

Theorem C05_equality_symmetric : forall a b, isEqual a b = isEqual b a.
Proof. exact isEqual_sym. Qed.
Print Assumptions C05_equality_symmetric.

Theorem C05_equality_transitive : forall a b c, isEqual a b = true -> isEqual b c = true -> isEqual a c = true.
Proof. exact equality_transitive. Qed.
Print Assumptions C05_equality_transitive.

Theorem C05_undefined_unequal : forall a, isEqual Undef a = false /\ isEqual a Undef = false.
Proof. exact undefined_unequal. Qed.
Print Assumptions C05_undefined_unequal.

(** With floating point numerics the comparison isn't transitive. *)
Theorem C05_double_equality_refuted : exists a b c, numberEq a b = true /\ numberEq b c = true /\ numberEq a c = false /\
  exists x y z, a = NDbl x /\ b = NDbl y /\ c = NDbl z /\
    doubleToFraction x = None /\ doubleToFraction y = None /\ doubleToFraction z = None.
Proof. exact double_equality_refuted. Qed.
Print Assumptions C05_double_equality_refuted.

Example C05_example : isEqual (Prod [Num 2; Pow xA (Num 3)]) (Prod [Num 2; Pow xA (Num 3)]) = true /\
  isEqual (Prod [Num 2; Pow xA (Num 3)]) (Prod [Num 2; Pow xB (Num 3)]) = false /\
  isEqual (Sym (nm "a") true) (Sym (nm "a") false) = false.
Proof. now cbv. Qed.

(** ** C06: hash values *)

Theorem C06_equal_hash : forall (h : Type) (H : hashes h) a b, isEqual a b = true -> hashPtr H a = hashPtr H b.
Proof. exact equal_hash. Qed.
Print Assumptions C06_equal_hash.

(** A double numeric equal to a rational one has another hash. *)
Theorem C06_double_hash_refuted : exists x, doubleToFraction x = None /\ numberEq (NRat (1 # 3)) (NDbl x) = true /\
  numberHash (fun a b : list Z => a ++ b) [] (fun _ => []) (fun z => [z]) (NRat (1 # 3)) <>
  numberHash (fun a b : list Z => a ++ b) [] (fun _ => []) (fun z => [z]) (NDbl x).
Proof. exact double_hash_refuted. Qed.
Print Assumptions C06_double_hash_refuted.

Example C06_example : forall H : hashes Z,
  hashPtr H (Sum [xA; Fct FSin [xB]]) = hashPtr H (Sum [xA; Fct FSin [xB]]).
Proof. intros; apply C06_equal_hash; now cbv. Qed.

(** ** C07: the canonical order *)

(** If the numerics that occur are totally ordered by operator<, the relation "different and
    in correct order" is a strict total order.  [qltb] (exact comparison) is such an order on
    all reduced rationals. *)
Theorem C07_order_total_partial : forall (N : Q -> Prop) (nlt : Q -> Q -> bool),
  N 1%Q -> strictTotal N (fun p q => nlt p q = true) ->
  strictTotal (orderable N) (fun a b => a <> b /\ isCorrect nlt a b = true).
Proof. exact order_total. Qed.
Print Assumptions C07_order_total_partial.

Theorem C07_exact_numerics : strictTotal (fun q => Qred q = q) (fun p q => qltb p q = true).
Proof. exact exact_numerics. Qed.
Print Assumptions C07_exact_numerics.

(** A sorted operand list is determined by its elements. *)
Theorem C07_sorted_unique_partial : forall (N : Q -> Prop) (nlt : Q -> Q -> bool) l m,
  N 1%Q -> strictTotal N (fun p q => nlt p q = true) ->
  (forall x, In x l -> orderable N x) -> Permutation l m ->
  StronglySorted (fun a b => a <> b /\ isCorrect nlt a b = true) l ->
  StronglySorted (fun a b => a <> b /\ isCorrect nlt a b = true) m -> l = m.
Proof. exact sorted_unique. Qed.
Print Assumptions C07_sorted_unique_partial.

(** The full statement is false: atan2 is ordered by its first operand only ... *)
Theorem C07_atan2_refuted : forall nlt,
  let a := Fct FAtan2 [xA; xB] in let b := Fct FAtan2 [xA; xC] in
  a <> b /\ isCorrect nlt a b = true /\ isCorrect nlt b a = true /\
  (** ... and for products that contain them none of the two orders is correct. *)
  let p := Prod [xA; a] in let q := Prod [xA; b] in
  p <> q /\ isCorrect nlt p q = false /\ isCorrect nlt q p = false.
Proof. exact atan2_order. Qed.
Print Assumptions C07_atan2_refuted.

(** ... and the comparison of numbers goes through doubles: large integers are incomparable. *)
Theorem C07_double_comparison_refuted :
  let a := Num (9007199254740992 # 1) in let b := Num (9007199254740993 # 1) in
  a <> b /\ isCorrect dLt a b = true /\ isCorrect dLt b a = true.
Proof. exact double_order. Qed.
Print Assumptions C07_double_comparison_refuted.

Example C07_example :
  orderable (fun q => Qred q = q) (Sum [Num 2; xA; Prod [Num (1 # 2); Pow xB (Num 2); Fct FSin [xA]]]) /\
  isCorrect qltb (Pow xA (Num 2)) (Prod [xA; xB]) = true /\ isCorrect qltb (Prod [xA; xB]) (Pow xA (Num 2)) = false.
Proof. exact order_example. Qed.

(** ** C29: names *)

Theorem C29_names_total_order : strictTotal (fun _ => True) (fun a b => nameLt a b = true) /\
  (forall a b, nameEq a b = true <-> a = b) /\
  (forall a b, nameGt a b = true <-> nameLt b a = true) /\
  (forall a b, nameLe a b = true <-> nameLt a b = true \/ a = b) /\
  (forall a b, nameGe a b = true <-> nameLt b a = true \/ a = b) /\
  (forall a b, nameNe a b = true <-> a <> b).
Proof. exact names_total. Qed.
Print Assumptions C29_names_total_order.

Example C29_example : nameLt (mkName "a" "2" "") (mkName "a" "2" "b") = true /\
  nameLt (mkName "a" "3" "") (mkName "a" "2" "b") = false /\ nameLt (nm "Z") (nm "a") = true.
Proof. now cbv. Qed.
