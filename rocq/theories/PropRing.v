(** Theorems for C47: programs that compute polynomials.

    [polyTerm Y t d] (RingSpec.v): the program t uses integers, fractions, symbols, +, -, *, powers with
    positive integer exponents, divisions by numbers, expand and subst; d bounds the degree of the polynomial it computes.
    [returns Y t e]: running it gives the expression e.  [tval r t] is the value of the program by the rules of arithmetic when
    the symbols have the values r, [eval r e] the value of the expression. *)
From Verif Require Import SimplWitness LaurentSpec RingSpec RingProd RingTerm RingRun PropExpand ExprProofs.
From Coq Require Import Lia Lra.
From Verif Require Import Run LaurentSpec.
Open Scope Z_scope.

(** The program ends with one result, without exception and undefined behaviour. *)
Theorem C47_ends : forall Y B t d, exactUpTo B (s_nlt Y) -> polyTerm Y t d -> d <= B ->
  exists e, returns Y t e /\
    (exists F0 k0, forall F k n, (F0 <= F)%nat -> (k0 <= k)%nat -> exists facts, build (world Y F k) n t = Ok e facts) /\
    (forall F k n, build (world Y F k) n t = Fuel \/ exists facts, build (world Y F k) n t = Ok e facts).
Proof. intros Y B t d H P D. destruct (term_result Y B H t d P D) as (e & A1 & _ & _ & A2 & A3 & _). exists e. auto. Qed.
Print Assumptions C47_ends.

(** The result is a polynomial of at most this degree, it is defined everywhere and has the right value everywhere: no facts need to be
    checked. *)
Theorem C47_value : forall Y B t d e r, exactUpTo B (s_nlt Y) -> polyTerm Y t d -> d <= B -> returns Y t e -> posEnv r ->
  laurent e /\ degreeBound e <= d /\ exists v, tval r t = Some v /\ eval r e = Some v.
Proof.
  intros Y B t d e r H P D E Hr. destruct (term_result Y B H t d P D) as (e' & A1 & A2 & A3 & _ & _ & A4).
  rewrite (returns_unique Y t e e' E A1). split; [now apply ring_laurent|]. split; [exact A3 | now apply A4].
Qed.
Print Assumptions C47_value.

(** Two programs compute the same polynomial if and only if the expansions of their results are equal. *)
Theorem C47_decides : forall Y B t1 t2 d1 d2 e1 e2, exactUpTo B (s_nlt Y) -> polyTerm Y t1 d1 -> polyTerm Y t2 d2 -> d1 <= B -> d2 <= B ->
  returns Y (TExpand t1) e1 -> returns Y (TExpand t2) e2 ->
  (e1 = e2 <-> forall r, allPos r -> tval r t1 = tval r t2).
Proof. intros. eapply same_polynomial; eauto. Qed.
Print Assumptions C47_decides.

(** (x + y)^2*(x - 1/2) - x^3 + expand((2*x*y)^2/3). *)
Definition exProg : term := TAdd (TSub (TMul (TPow (TAdd tx ty) (TInt 2)) (TSub tx (TFrac 1 2))) (TPow tx (TInt 3)))
  (TExpand (TDiv (TPow (TMul (TMul (TInt 2) tx) ty) (TInt 2)) (TInt 3))).
Lemma base_case t x : returns refSys t x -> smallFactor x -> forall F k m e facts, build (world refSys F k) m t = Ok e facts -> smallFactor e.
Proof. intros R N F k m e facts E. rewrite (returns_unique refSys t e x); [exact N | now exists F, k, m, facts | exact R]. Qed.
Example C47_case : exactUpTo 10 (s_nlt refSys) /\ polyTerm refSys exProg 4 /\ exists e, returns refSys exProg e.
Proof.
  split; [apply exact_ref|]. assert (P : polyTerm refSys exProg 4).
  { apply (p_add refSys _ _ 3 4).
    - apply (p_sub refSys _ _ 3 3).
      + apply (p_mul refSys _ _ 2 1); [|apply (p_sub refSys _ _ 1 0); [apply p_sym | now apply p_frac]].
        apply (p_pow refSys _ 1 2); [apply (p_add refSys _ _ 1 1); apply p_sym | lia|].
        apply (base_case _ (Sum [sx; sy])); [exists 20%nat, 20%nat, 0%nat, []; lazy; reflexivity | exact I].
      + apply (p_pow refSys _ 1 3); [apply p_sym | lia|]. apply (base_case _ sx); [exists 20%nat, 20%nat, 0%nat, []; reflexivity | exact I].
    - apply p_expand. apply (p_div refSys _ _ 4 0); [|apply p_int|].
      + apply (p_pow refSys _ 2 2); [apply (p_mul refSys _ _ 1 1); [apply (p_mul refSys _ _ 0 1); [apply p_int|]|]; apply p_sym | lia|].
        apply (base_case _ (Prod [Num 2; sx; sy])); [exists 20%nat, 20%nat, 0%nat, []; lazy; reflexivity|].
        intros q [E|[E|[E|[]]]]; inversion E; split; reflexivity.
      + intros F k m e facts E. injection E as <- _. exists 3%Q. split; [reflexivity|]. split; [discriminate | split; reflexivity]. }
  split; [exact P|]. destruct (C47_ends refSys 10 exProg 4 (exact_ref 10) P) as (e & E & _); [lia | now exists e].
Qed.

(** ** C16 for polynomials: subst on an expanded polynomial ends, and its result has the value of the polynomial in the
    assignment in which the symbol has the value of the replacement, everywhere and without facts to be checked. *)
Theorem C16_polynomials_partial : forall Y B a b n d d' x y, exactUpTo B (s_nlt Y) -> polyTerm Y a d -> polyTerm Y b d' ->
  Z.max d' (Z.max 1 d' * d) <= B -> returns Y (TExpand a) x -> returns Y b y -> smallFactor y -> exists e,
    (exists F0 k0, forall F k, (F0 <= F)%nat -> (k0 <= k)%nat -> exists facts, w_subst (world Y F k) x (Sym n false) y = Ok e facts) /\
    (forall F k, w_subst (world Y F k) x (Sym n false) y = Fuel \/ exists facts, w_subst (world Y F k) x (Sym n false) y = Ok e facts) /\
    laurent e /\ degreeBound e <= Z.max d' (Z.max 1 d' * d) /\
    (forall r, posEnv r -> exists v w, eval r y = Some v /\ eval (upd r n false v) x = Some w /\ eval r e = Some w).
Proof. intros Y B a b n d d' x y H. exact (subst_result Y B H a b n d d' x y). Qed.
Print Assumptions C16_polynomials_partial.
(** expand((x + y)^2) with 2*y - 1 for x. *)
Definition exInner : term := TPow (TAdd tx ty) (TInt 2).
Definition exRepl : term := TSub (TMul (TInt 2) ty) (TInt 1).
Definition exSquare : expr := Sum [Pow sx (Num 2); Prod [Num 2; sx; sy]; Pow sy (Num 2)].
Definition exSub : expr := Sum [Num (-1); Prod [Num 2; sy]].
Example C16_polynomials_case : polyTerm refSys exInner 2 /\ polyTerm refSys exRepl 1 /\ returns refSys (TExpand exInner) exSquare /\
  returns refSys exRepl exSub /\ smallFactor exSub /\
  exists e facts, w_subst W0 exSquare sx exSub = Ok e facts.
Proof.
  split; [|split; [|split; [|split; [|split; [exact I|]]]]].
  - apply (p_pow refSys _ 1 2); [apply (p_add refSys _ _ 1 1); apply p_sym | lia|].
    apply (base_case _ (Sum [sx; sy])); [exists 20%nat, 20%nat, 0%nat, []; lazy; reflexivity | exact I].
  - apply (p_sub refSys _ _ 1 0); [apply (p_mul refSys _ _ 0 1); [apply p_int | apply p_sym] | apply p_int].
  - exists 20%nat, 20%nat, 0%nat. eexists. lazy. reflexivity.
  - exists 20%nat, 20%nat, 0%nat. eexists. lazy. reflexivity.
  - eexists. eexists. lazy. reflexivity.
Qed.

(** ** C18 for polynomials: isPositive and isNegative end.  Where the first is true, the polynomial isn't negative anywhere, where the
    second is true it isn't positive anywhere. *)
Theorem C18_polynomials_partial : forall Y B t d e, exactUpTo B (s_nlt Y) -> polyTerm Y t d -> d <= B -> returns Y t e -> exists p n : bool,
    (exists F0 k0, forall F k, (F0 <= F)%nat -> (k0 <= k)%nat -> (exists facts, w_pos (world Y F k) e = Ok p facts) /\ exists facts, w_neg (world Y F k) e = Ok n facts) /\
    (forall F k, w_pos (world Y F k) e = Fuel \/ exists facts, w_pos (world Y F k) e = Ok p facts) /\
    (forall F k, w_neg (world Y F k) e = Fuel \/ exists facts, w_neg (world Y F k) e = Ok n facts) /\
    (forall r, posEnv r -> exists v, eval r e = Some v /\ (p = true -> 0 <= v)%R /\ (n = true -> v <= 0)%R).
Proof. intros Y B t d e H. exact (sign_result Y B H t d e). Qed.
Print Assumptions C18_polynomials_partial.
(** x^2 + 3. *)
Definition exPosProg : term := TAdd (TPow tx (TInt 2)) (TInt 3).
Example C18_polynomials_case : polyTerm refSys exPosProg 2 /\ returns refSys exPosProg (Sum [Num 3; Pow sx (Num 2)]) /\
  exists facts, w_pos W0 (Sum [Num 3; Pow sx (Num 2)]) = Ok true facts.
Proof.
  split; [|split; [exists 20%nat, 20%nat, 0%nat; eexists; lazy; reflexivity | eexists; lazy; reflexivity]].
  apply (p_add refSys _ _ 2 0); [|apply p_int]. apply (p_pow refSys _ 1 2); [apply p_sym | lia|]. apply (base_case _ sx); [exists 20%nat, 20%nat, 0%nat, []; reflexivity | exact I].
Qed.

(** Without the restriction to small numbers the values are wrong: x/324 gives x/36, and (324*x)^2 gives 1296*x^2. *)
Theorem C47_large_refuted : ~ forall e r, posEnv r -> returns refSys (TDiv tx (TInt 324)) e -> tval r (TDiv tx (TInt 324)) = eval r e.
Proof.
  intros H. specialize (H (Prod [Num (1 # 36); sx]) (fun _ _ => 1%R)).
  assert (P : posEnv (fun _ _ => 1%R)) by (intros n; cbn; lra). specialize (H P).
  assert (R : returns refSys (TDiv tx (TInt 324)) (Prod [Num (1 # 36); sx])) by (exists 40%nat, 40%nat, 40%nat; eexists; lazy; reflexivity).
  specialize (H R). cbn in H. destruct (Req_EM_T 324 0) as [E|E]; [lra|]. unfold Q2R in H. cbn in H. injection H as H. lra.
Qed.
Print Assumptions C47_large_refuted.
Example C47_large_case : returns refSys (TPow (TMul (TInt 324) tx) (TInt 2)) (Prod [Num 1296; Pow sx (Num 2)]).
Proof. exists 40%nat, 40%nat, 40%nat. eexists. lazy. reflexivity. Qed.
