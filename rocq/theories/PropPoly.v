(** Theorems for C20 (coefficients), C21 (polynomial division) and C22 (gcd). *)
From Verif Require Import SimplWitness GcdProofs UnitProofs.
From Coq Require Import Lra Lia Reals.
From Verif Require Import Run.
Open Scope R_scope.

(** ** C20: degree and coefficients *)

(** [polynomial n p e] (PolySpec.v): e is an expanded polynomial in the symbol x with name n. *)
Theorem C20_coefficients_partial : forall Y F k r n p e v (c : nat -> expr) facts, posEnv r -> wf anySym e -> polynomial n p e ->
  (forall i, (i <= Z.to_nat (degree Y e (Sym n p)))%nat ->
    coeff (world Y F k) e (Sym n p) (Z.of_nat i) = Ok (c i) (facts i) /\ rightFacts r (facts i)) ->
  eval r e = Some v ->
  exists a : nat -> R, (forall i, (i <= Z.to_nat (degree Y e (Sym n p)))%nat -> eval r (c i) = Some (a i)) /\
    v = sum_f_R0 (fun i => a i * r n p ^ i) (Z.to_nat (degree Y e (Sym n p))).
Proof. intros Y F k r n p e v c facts Hr. exact (reconstruct Y F k r Hr n p e v c facts). Qed.
Print Assumptions C20_coefficients_partial.

(** The degree of c*x^k is k and the degree of a sum is the largest one. *)
Theorem C20_degree : forall Y n p k e, monom n p k e -> degree Y e (Sym n p) = Z.of_nat k.
Proof. exact degree_term. Qed.
Print Assumptions C20_degree.
Theorem C20_degree_sum : forall Y n p l, l <> [] -> Forall (fun t => exists k, monom n p k t) l ->
  exists k e, In e l /\ monom n p k e /\ degree Y (Sum l) (Sym n p) = Z.of_nat k /\
    forall k' e', In e' l -> monom n p k' e' -> (k' <= k)%nat.
Proof. exact degree_sum. Qed.
Print Assumptions C20_degree_sum.

(** 3 + 2*y*x + x^3 *)
Definition exPoly : expr := Sum [Num 3; Prod [Num 2; sx; sy]; Pow sx (Num 3)].
Example C20_case : polynomial (nm "x"%string) false exPoly /\ degree refSys exPoly sx = 3%Z /\
  map (fun i => coeff W0 exPoly sx i) [0; 1; 2; 3]%Z =
    [Ok (Num 3) []; Ok (Prod [Num 2; sy]) []; Ok (Num 0) []; Ok (Num 1) []].
Proof.
  split; [|split; [reflexivity|lazy; reflexivity]]. right. exists [Num 3; Prod [Num 2; sx; sy]; Pow sx (Num 3)].
  split; [reflexivity|]. split; [discriminate|]. repeat constructor.
  - exists 0%nat. apply t_atom. repeat split; discriminate.
  - exists 1%nat. apply (t_prod _ _ 1 [Num 2] sx [sy]); [|constructor|]; repeat constructor; discriminate.
  - exists 3%nat. apply t_power. apply (xp_pow _ _ 3); lia.
Qed.

(** Full statement: for every exponent.  x^2147483647 has degree 0 and the coefficient 0. *)
Theorem C20_coefficients_refuted : ~ forall Y F k r n p e v (c : nat -> expr), posEnv r ->
  polyExpr e -> (forall i, (i <= Z.to_nat (degree Y e (Sym n p)))%nat -> coeff (world Y F k) e (Sym n p) (Z.of_nat i) = Ok (c i) []) ->
  eval r e = Some v ->
  exists a : nat -> R, (forall i, (i <= Z.to_nat (degree Y e (Sym n p)))%nat -> eval r (c i) = Some (a i)) /\
    v = sum_f_R0 (fun i => a i * r n p ^ i) (Z.to_nat (degree Y e (Sym n p))).
Proof.
  intros H. specialize (H refSys 40%nat 40%nat (oth 1) (nm "x"%string) false (Pow sx (numZ 2147483647)) 1 (fun _ => Num 0) (oth_pos 1)).
  assert (D : Z.to_nat (degree refSys (Pow sx (numZ 2147483647)) (Sym (nm "x"%string) false)) = 0%nat) by reflexivity. rewrite D in H.
  destruct H as (a & H1 & H2).
  - apply (pe_pow sx 2147483647); [constructor|lia].
  - intros i Hi. assert (i = 0)%nat as -> by lia. lazy. reflexivity.
  - cbn [eval]. change (Num (ofZ 2147483647)) with (numZ 2147483647). apply rpow_1.
  - specialize (H1 0%nat (le_n 0)). cbn in H1, H2. injection H1 as H1. rewrite <- H1 in H2. unfold Q2R in H2. cbn in H2. lra.
Qed.
Print Assumptions C20_coefficients_refuted.

(** ** C21: division *)
Theorem C21_division_partial : forall Y F k r n u v q s facts a b, posEnv r -> wf anySym u -> wf anySym v ->
  polyExpr u -> polyExpr v -> (u <> Num 0 \/ v <> Num 0) ->
  polyDivide Y (world Y F k) n u v = Ok (q, s) facts -> rightFacts r facts ->
  eval r u = Some a -> eval r v = Some b ->
  exists c d, eval r q = Some c /\ eval r s = Some d /\ a = c * b + d.
Proof. intros Y F k r n u v q s facts a b Hr. exact (division_value Y F k r Hr n u v q s facts a b). Qed.
Print Assumptions C21_division_partial.
Example C21_case : polyDivide refSys W0 40 (Sum [Num 1; Pow sx (Num 2)]) (Sum [Num 2; sx]) =
  Ok (Sum [Num (-2); sx], Num 5) [] /\ polyExpr (Sum [Num 1; Pow sx (Num 2)]).
Proof.
  split; [lazy; reflexivity|]. constructor. intros e [<-|[<-|[]]]; [constructor|]. apply (pe_pow sx 2); [constructor|lia].
Qed.

(** The leading coefficient's exponent: deg u - deg v + 1, or one more when the remainder vanishes. *)
Theorem C21_pseudo_division_partial : forall Y F k r m u v n p q s facts, posEnv r -> wf anySym u -> wf anySym v ->
  polyExpr u -> polyExpr v -> (u <> Num 0 \/ v <> Num 0) ->
  pseudoDivide Y (world Y F k) true m u v (Sym n p) = Ok (q, s) facts -> rightFacts r facts ->
  exists l fl i, leadingCoeff Y (world Y F k) v (Sym n p) = Ok l fl /\
    (let d := Z.max (degree Y u (Sym n p) - degree Y v (Sym n p) + 1) 0 in i = d \/ i = d + 1)%Z /\
    forall a b c, eval r u = Some a -> eval r v = Some b -> eval r l = Some c ->
      exists x y, eval r q = Some x /\ eval r s = Some y /\ powerRZ c i * a = x * b + y.
Proof. intros Y F k r m u v n p q s facts Hr. exact (pseudo_value Y F k r Hr m u v n p q s facts). Qed.
Print Assumptions C21_pseudo_division_partial.
Example C21_pseudo_case : exists facts, pseudoDivide refSys W0 true 40 (Sum [Num 1; Pow sx (Num 2)]) (Sum [Num 1; Prod [Num 2; sx]]) sx =
  Ok (Sum [Num (-1); Prod [Num 2; sx]], Num 5) facts /\ rightFacts (oth 3) facts.
Proof. eexists. split; [lazy; reflexivity|]. exists true. repeat constructor. Qed.

(** Full statement: the exponent is deg u - deg v + 1.  For u = x^2, v = 2*x the quotient is 4*x, but
    2^2*x^2 isn't 4*x*2*x: the loop ends before it counts the last step. *)
Theorem C21_pseudo_division_refuted : ~ forall Y F k r m u v n p q s facts l fl a b c, posEnv r -> wf anySym u -> wf anySym v ->
  polyExpr u -> polyExpr v ->
  pseudoDivide Y (world Y F k) true m u v (Sym n p) = Ok (q, s) facts -> rightFacts r facts ->
  leadingCoeff Y (world Y F k) v (Sym n p) = Ok l fl ->
  eval r u = Some a -> eval r v = Some b -> eval r l = Some c ->
  exists x y, eval r q = Some x /\ eval r s = Some y /\
    powerRZ c (degree Y u (Sym n p) - degree Y v (Sym n p) + 1) * a = x * b + y.
Proof.
  intros H. destruct pseudo_short as (facts & E & Hf).
  specialize (H refSys 40%nat 40%nat (oth 1) 40%nat (Pow sx (Num 2)) (Prod [Num 2; sx]) (nm "x"%string) false
    (Prod [Num 4; sx]) (Num 0) facts (Num 2) [] 1 2 2 (oth_pos 1)).
  destruct H as (x & y & Ex & Ey & E2).
  - split; [exact I|reflexivity].
  - split; [reflexivity|split; exact I].
  - apply (pe_pow sx 2); [constructor|lia].
  - constructor. intros e [<-|[<-|[]]]; constructor.
  - exact E.
  - exact Hf.
  - lazy. reflexivity.
  - cbn [eval]. q2r. apply rpow_1.
  - cbn. q2r. f_equal. lra.
  - cbn. q2r. reflexivity.
  - change (degree refSys (Pow sx (Num 2)) (Sym (nm "x"%string) false) - degree refSys (Prod [Num 2; sx]) (Sym (nm "x"%string) false) + 1)%Z with 2%Z in E2.
    cbn in Ex, Ey. injection Ex as <-. injection Ey as <-. change (powerRZ 2 2) with (2 * (2 * 1)) in E2. unfold Q2R in E2. cbn in E2. lra.
Qed.
Print Assumptions C21_pseudo_division_refuted.

(** ** C22: gcd *)

(** Of integers: the greatest common divisor.  Missing: polynomials. *)
Theorem C22_integer_gcd_partial : forall Y F k sub a b g facts, (a <> 0 \/ b <> 0)%Z ->
  gcdCompute Y (world Y F k) sub (Num (inject_Z a)) (Num (inject_Z b)) = Ok g facts ->
  g = Num (inject_Z (Z.gcd a b)).
Proof. intros Y F k sub a b g facts H. exact (gives_eq _ _ _ _ (gcd_ints Y F k sub a b H)). Qed.
Print Assumptions C22_integer_gcd_partial.
Example C22_case : gcdCompute refSys W0 true (Num 12) (Num (-18)) = Ok (Num 6) [].
Proof. lazy. reflexivity. Qed.

(** The gcd of a polynomial with itself can be 0, which divides nothing. *)
Theorem C22_gcd_divides_refuted : ~ forall Y F k sub u v g facts r a, posEnv r -> wf anySym u -> wf anySym v ->
  polyExpr u -> polyExpr v -> gcdCompute Y (world Y F k) sub u v = Ok g facts -> rightFacts r facts ->
  eval r u = Some a -> exists c d, eval r g = Some c /\ a = d * c.
Proof.
  intros H. pose (u := Pow sx (numZ 2147483647)).
  assert (Hp : polyExpr u) by (apply (pe_pow sx 2147483647); [constructor|lia]).
  assert (Hw : wf anySym u) by (split; [exact I|reflexivity]).
  specialize (H refSys 40%nat 40%nat true u u (Num 0) [] (oth 1) 1 (oth_pos 1) Hw Hw Hp Hp).
  destruct H as (c & d & E1 & E2).
  - lazy. reflexivity.
  - apply right_nil.
  - unfold u. cbn [eval]. change (Num (ofZ 2147483647)) with (numZ 2147483647). apply rpow_1.
  - cbn in E1. injection E1 as <-. unfold Q2R in E2. cbn in E2. lra.
Qed.
Print Assumptions C22_gcd_divides_refuted.

(** ** C22: unit *)

(** unit isn't larger than one in absolute value; times a numeric leading coefficient of the expanded polynomial it is positive. Partial: for leading
    coefficients with further symbols only the bound. *)
Theorem C22_unit_partial : forall Y F k n e x s facts, unit Y (world Y F k) n e x = Ok s facts ->
  (-1 <= s <= 1)%Z /\
  forall p f q g, w_expand (world Y F k) e = Ok p f -> leadingCoeff Y (world Y F k) p x = Ok (Num q) g -> ~ (q == 0)%Q -> (0 < inject_Z s * q)%Q.
Proof. intros Y F k. exact (unit_sign Y (world Y F k)). Qed.
Print Assumptions C22_unit_partial.
(** x^2 - 2*x^3 *)
Example C22_unit_case : unit refSys W0 5 (Sum [Pow sx (Num 2); Prod [Num (-2); Pow sx (Num 3)]]) sx = Ok (-1)%Z [] /\
  leadingCoeff refSys W0 (Sum [Pow sx (Num 2); Prod [Num (-2); Pow sx (Num 3)]]) sx = Ok (Num (-2)) [].
Proof. split; lazy; reflexivity. Qed.
