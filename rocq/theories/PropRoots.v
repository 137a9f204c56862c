(** Property C60.  The notions used in the statements are in EvalSpec.v (accurate), NumberSpec.v (canon: a fraction in lowest
    terms). *)
From Verif Require Import MixedModel NumberSpec EvalSpec EvalAmple RootFound.
From Coq Require Import Reals Qreals Lra.
Open Scope R_scope.

(** b to the power of m/d is t if t^d = b^m.  Full statement: without the bounds. *)
Theorem C60_roots_found_partial : forall lib b e t, accurate lib -> canon b -> canon e -> canon t ->
  (0 < Qnum b <= 2 ^ 1000)%Z -> (Zpos (Qden b) <= 2 ^ 1000)%Z -> (0 < Qnum t <= 1000000)%Z -> (Zpos (Qden t) <= 1000000)%Z ->
  (Zpos (Qden e) <= 2 ^ 400)%Z -> (Qnum t ^ Zpos (Qden e) <= 2 ^ 400)%Z -> (Zpos (Qden t) ^ Zpos (Qden e) <= 2 ^ 400)%Z ->
  powerRZ (Q2R t) (Zpos (Qden e)) = powerRZ (Q2R b) (Qnum e) ->
  forall n, numberPow (l_pow lib) (l_root lib) (S (S n)) (NRat b) (NRat e) = Returns (NRat t).
Proof. intros lib b e t H. exact (found lib H b e t). Qed.
Print Assumptions C60_roots_found_partial.

(** The square root of (10^20 + 1)^2 isn't found. *)
Theorem C60_roots_found_refuted : exists lib b e t, accurate lib /\ canon b /\ canon e /\ canon t /\ (0 < Qnum b)%Z /\ (0 < Qnum t)%Z /\
  powerRZ (Q2R t) (Zpos (Qden e)) = powerRZ (Q2R b) (Qnum e) /\
  forall n, numberPow (l_pow lib) (l_root lib) (S n) (NRat b) (NRat e) <> Returns (NRat t).
Proof.
  exists realLibrary, (bigRoot ^ 2 # 1)%Q, (1 # 2)%Q, (bigRoot # 1)%Q. split; [exact library_exists|]. do 5 (split; [vm_compute; reflexivity|]). split.
  - unfold Q2R. cbn [Qnum Qden]. change (bigRoot ^ 2)%Z with (bigRoot * bigRoot)%Z. rewrite mult_IZR. generalize (IZR bigRoot). intros x. rewrite Rinv_1, !Rmult_1_r. change (x * (x * 1) = x * x * 1). ring.
  - intros n. exact (big_root realLibrary n library_exists).
Qed.
Print Assumptions C60_roots_found_refuted.

(** (8/27)^(-2/3) = 9/4. *)
Example C60_case : forall lib, accurate lib -> numberPow (l_pow lib) (l_root lib) 2 (NRat (8 # 27)) (NRat (-2 # 3)) = Returns (NRat (9 # 4)).
Proof.
  intros lib H. assert (V : powerRZ (Q2R (9 # 4)) 3 = powerRZ (Q2R (8 # 27)) (-2)) by (unfold Q2R; cbn [Qnum Qden]; change (powerRZ ?a 3) with (a * (a * (a * 1))); change (powerRZ ?a (-2)) with (/ (a * (a * 1))); lra).
  apply (C60_roots_found_partial lib (8 # 27) (-2 # 3) (9 # 4) H); try exact V; cbn [Qnum Qden]; try reflexivity; try (split; [reflexivity|]); intros E; vm_compute in E; discriminate E.
Qed.
