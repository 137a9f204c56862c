(** Theorems for C45 (expansion of polynomials), C46 (results don't depend on bounds) and parts of C07 - C10,
    C13, C40 that need no facts for polynomials.

    [expandsTo Y e x]: expand of e returns x; [sumsTo], [multipliesTo]: Sum::create and Product::create for a
    list of operands return x (LaurentApi.v).  [laurent e]: e is made of rational numbers, symbols, integer
    powers of symbols, sums, products and nonnegative integer powers of sums; [degreeBound e] bounds its
    exponents; [exactUpTo B nlt]: the comparison of numbers is right for integers up to B (LaurentSpec.v). *)
From Coq Require Import Permutation.
From Verif Require Import SimplWitness LaurentSpec LaurentApi FuelMono FuelApi DoubleModel DoubleExact ExprSpec OrderModel OrderProofs ExprProofs.
From Coq Require Import Lra Lia.
From Verif Require Import Run LaurentSpec.
Open Scope R_scope.

(** The comparison by doubles is right up to 2^53. *)
Theorem C45_double_comparison : exactUpTo (2 ^ 53) dLt.
Proof. exact dLt_int. Qed.
Print Assumptions C45_double_comparison.

(** ** C45: expansion of polynomials *)

(** expand ends with a result and without undefined behaviour or exception. *)
Theorem C45_expand_ends : forall Y B e, exactUpTo B (s_nlt Y) -> laurent e -> (degreeBound e <= B)%Z ->
  exists x, expandsTo Y e x /\
    forall F k, w_expand (world Y F k) e = Fuel \/ exists facts, w_expand (world Y F k) e = Ok x facts.
Proof. intros. eapply expand_ends; eauto. Qed.
Print Assumptions C45_expand_ends.

(** The result is the normal form: a sorted sum of sorted products of powers of different symbols. *)
Theorem C45_normal_form : forall Y B e x, exactUpTo B (s_nlt Y) -> laurent e -> (degreeBound e <= B)%Z ->
  expandsTo Y e x ->
  exists p, x = polyE p /\ polyOK p /\ forall r, allPos r -> eval r x = eval r e /\ eval r e = Some (polyV r p).
Proof. intros. eapply expand_normal_form; eauto. Qed.
Print Assumptions C45_normal_form.

(** Two polynomials have the same values if and only if their expansions are equal expressions. *)
Theorem C45_decides_equality : forall Y B e1 e2 x1 x2, exactUpTo B (s_nlt Y) -> laurent e1 -> laurent e2 ->
  (degreeBound e1 <= B)%Z -> (degreeBound e2 <= B)%Z -> expandsTo Y e1 x1 -> expandsTo Y e2 x2 ->
  (isEqual x1 x2 = true <-> forall r, allPos r -> eval r e1 = eval r e2).
Proof. intros. eapply expand_decides; eauto. Qed.
Print Assumptions C45_decides_equality.

(** A polynomial that is zero everywhere expands to the number zero and no other does. *)
Theorem C45_zero : forall Y B e x, exactUpTo B (s_nlt Y) -> laurent e -> (degreeBound e <= B)%Z ->
  expandsTo Y e x -> (x = zero <-> forall r, allPos r -> eval r e = Some 0).
Proof. intros. eapply expand_zero; eauto. Qed.
Print Assumptions C45_zero.

Theorem C45_idempotent : forall Y B e x, exactUpTo B (s_nlt Y) -> laurent e -> (degreeBound e <= B)%Z ->
  expandsTo Y e x -> expandsTo Y x x.
Proof. intros. eapply expand_idempotent; eauto. Qed.
Print Assumptions C45_idempotent.

(** C13 without facts: the value is kept for all assignments, also negative ones and zero. *)
Theorem C13_polynomials : forall Y B e x r v, exactUpTo B (s_nlt Y) -> laurent e -> (degreeBound e <= B)%Z ->
  expandsTo Y e x -> posEnv r -> eval r e = Some v -> eval r x = Some v.
Proof. intros. eapply expand_all_values; eauto. Qed.
Print Assumptions C13_polynomials.

(** (x + y)^2 - x^2 - 2*x*y - y^2 and (x + y + 1)*(x - y)^3*x^(-2). *)
Definition exZero : expr := Sum [Pow (Sum [sx; sy]) (Num 2); Prod [Num (-1 # 1); Pow sx (Num 2)];
  Prod [Num (-2 # 1); sx; sy]; Prod [Num (-1 # 1); Pow sy (Num 2)]].
Definition exPoly : expr := Prod [Sum [sx; sy; Num 1]; Pow (Sum [sx; Prod [Num (-1 # 1); sy]]) (Num 3); Pow sx (Num (-2 # 1))].
Lemma laurent_all l : Forall laurent l -> forall x, In x l -> laurent x.
Proof. intros H. now apply Forall_forall. Qed.
Lemma canon_m1 : canon (-1 # 1). Proof. reflexivity. Qed.
Lemma canon_m2 : canon (-2 # 1). Proof. reflexivity. Qed.
Ltac laur := repeat first
  [ apply Forall_cons | apply Forall_nil | apply l_sum; [discriminate|apply laurent_all] | apply l_prod; [discriminate|apply laurent_all]
  | apply (l_sumPow _ 2); [lia|] | apply (l_sumPow _ 3); [lia|]
  | apply (l_symPow _ _ 2) | apply (l_symPow _ _ (-2)) | apply l_sym | apply l_num; reflexivity ].
Lemma exact_ref B : exactUpTo B (s_nlt refSys).
Proof. intros a b _ _. cbn. unfold qltb. cbn. now rewrite !Z.mul_1_r. Qed.
Example C45_case : exactUpTo 10 (s_nlt refSys) /\ laurent exZero /\ (degreeBound exZero <= 10)%Z /\ expandsTo refSys exZero zero.
Proof.
  split; [apply exact_ref|]. split; [unfold exZero, sx, sy; laur|]. split; [cbn; lia|]. exists 40%nat, 40%nat, []. lazy. reflexivity.
Qed.
Example C45_case2 : laurent exPoly /\ (degreeBound exPoly = 6)%Z.
Proof. split; [unfold exPoly, sx, sy; laur | reflexivity]. Qed.

(** ** C08 - C10: sums of expanded polynomials and products of expanded monomials *)

(** The order of the operands doesn't matter, the result is in normal form and has the value of the sum. *)
Theorem C08_sum_order_polynomials : forall Y B l l', exactUpTo B (s_nlt Y) -> l <> [] ->
  Forall (fun x => exists e, laurent e /\ (degreeBound e <= B)%Z /\ expandsTo Y e x) l -> Permutation l l' ->
  exists x, sumsTo Y l x /\ sumsTo Y l' x /\ expandsTo Y x x /\ forall r, allPos r -> eval r x = sumVal r l.
Proof. intros. eapply sum_any_order; eauto. Qed.
Print Assumptions C08_sum_order_polynomials.
Theorem C08_product_order_monomials : forall Y B l l', exactUpTo B (s_nlt Y) -> l <> [] ->
  Forall (fun x => exists e, laurent e /\ (degreeBound e <= B)%Z /\ expandsTo Y e x) l ->
  Forall (fun x => isSum x = false) l -> ~ In zero l -> Permutation l l' ->
  exists x, multipliesTo Y l x /\ multipliesTo Y l' x /\ isSum x = false /\ forall r, allPos r -> eval r x = prodVal r l.
Proof. intros. eapply prod_any_order; eauto. Qed.
Print Assumptions C08_product_order_monomials.
(** The operand is the expansion of itself. *)
Example C08_polynomials_case : Forall (fun x => exists e, laurent e /\ (degreeBound e <= 10)%Z /\ expandsTo refSys e x)
  [sx; Sum [sx; Prod [Num 2; sy]]] /\ Permutation [sx; Sum [sx; Prod [Num 2; sy]]] [Sum [sx; Prod [Num 2; sy]]; sx].
Proof.
  split; [|apply perm_swap]. repeat apply Forall_cons; [..|apply Forall_nil].
  - exists sx. split; [unfold sx; laur|]. split; [cbn; lia|]. exists 20%nat, 20%nat, []. lazy. reflexivity.
  - exists (Sum [sx; Prod [Num 2; sy]]). split; [unfold sx, sy; laur|]. split; [cbn; lia|]. exists 20%nat, 20%nat, []. lazy. reflexivity.
Qed.

(** ** C07: the order with numbers compared by way of doubles *)

(** Comparison is right for rationals whose cross products are small ... *)
Theorem C07_double_exact_partial : forall p q, (Z.abs (Qnum p) <= 2 ^ 53)%Z -> (Zpos (Qden p) <= 2 ^ 53)%Z ->
  (Z.abs (Qnum q) <= 2 ^ 53)%Z -> (Zpos (Qden q) <= 2 ^ 53)%Z ->
  (Z.abs (Qnum p) * Zpos (Qden q) + Z.abs (Qnum q) * Zpos (Qden p) < 2 ^ 53)%Z -> dLt p q = true <-> (p < q)%Q.
Proof. exact double_exact. Qed.
Print Assumptions C07_double_exact_partial.
(** ... and never says "smaller" when this isn't so, for numerators and denominators up to 2^53. *)
Theorem C07_double_sound : forall p q, (Z.abs (Qnum p) <= 2 ^ 53)%Z -> (Zpos (Qden p) <= 2 ^ 53)%Z ->
  (Z.abs (Qnum q) <= 2 ^ 53)%Z -> (Zpos (Qden q) <= 2 ^ 53)%Z -> dLt p q = true -> (p < q)%Q.
Proof. intros p q ? ? ? ?. now apply dLt_sound. Qed.
Print Assumptions C07_double_sound.
(** So the order of the code is a strict total order on expressions with numbers up to 2^26. *)
Theorem C07_double_order_partial :
  strictTotal (orderable (fun q => Qred q = q /\ (Z.abs (Qnum q) < 2 ^ 26)%Z /\ (Zpos (Qden q) <= 2 ^ 26)%Z))
    (fun a b => a <> b /\ isCorrect dLt a b = true).
Proof. exact double_order_total. Qed.
Print Assumptions C07_double_order_partial.
Example C07_double_case : orderable (fun q => Qred q = q /\ (Z.abs (Qnum q) < 2 ^ 26)%Z /\ (Zpos (Qden q) <= 2 ^ 26)%Z)
  (Sum [Num (-7 # 12); sx; Prod [Num 100; Pow sy (Num (5 # 3))]]).
Proof.
  unfold sx, sy. repeat (apply or_sum || apply or_prod || apply or_pow || apply or_num || apply or_sym ||
    (intros z Hz; repeat destruct Hz as [<-|Hz]; [..|destruct Hz])); try discriminate; (split; [reflexivity|split; cbn; lia]).
Qed.

(** ** C46: the result of a computation is unique *)

(** Two executions of the same program that end, whatever the bounds for loops and nested calls, end in the same way: with the
    same expression, an exception or undefined behaviour. *)
Theorem C46_unique_result : forall Y F F' k k' n n' t,
  build (world Y F k) n t <> Fuel -> build (world Y F' k') n' t <> Fuel ->
  sameEnd (build (world Y F k) n t) (build (world Y F' k') n' t).
Proof. exact build_unique. Qed.
Print Assumptions C46_unique_result.
Theorem C46_unique_derivative : forall Y F F' k k' n n' e x,
  diffTop (world Y F k) n e x <> Fuel -> diffTop (world Y F' k') n' e x <> Fuel ->
  sameEnd (diffTop (world Y F k) n e x) (diffTop (world Y F' k') n' e x).
Proof. exact diff_unique. Qed.
Print Assumptions C46_unique_derivative.
(** Larger bounds don't change a result. *)
Theorem C46_larger_bounds : forall Y F F' k k' n n' t e facts, (F <= F')%nat -> (k <= k')%nat -> (n <= n')%nat ->
  build (world Y F k) n t = Ok e facts -> exists facts', build (world Y F' k') n' t = Ok e facts'.
Proof. exact build_larger. Qed.
Print Assumptions C46_larger_bounds.
Example C46_case : exists facts, build (world refSys 40 40) 5 (TExpand (TPow (TAdd tx ty) (TInt 2))) =
  Ok (Sum [Pow sx (Num 2); Prod [Num 2; sx; sy]; Pow sy (Num 2)]) facts.
Proof. eexists. lazy. reflexivity. Qed.
