(** Theorems for C51: normal and simplify of expanded polynomials.

    [polyE p] is the expression of a polynomial p in normal form (LaurentSpec.v).  [ordinary p] (DivSpec.v):
    its exponents are positive, [totalDegree p] is the largest sum of the exponents in a term.  The result of
    expand for a program made of numbers, symbols, +, -, *, ^n is such an expression (C45, C47).
    [endsWith Y f x] and [commonDenominator M p] are defined in NormSpec.v. *)
From Verif Require Import SimplWitness NormSpec NormUser LaurentSpec DivSpec RingPos PropExpand PropRing PropDivide LaurentProd HRuns DivUser NumberSpec SimplApi NormalModel DiffModel ApiModel.
From Coq Require Import Lia Lra.
From Verif Require Import Run LaurentSpec.
Open Scope Z_scope.

(** normal ends and returns the polynomial itself. *)
Theorem C51_normal : forall Y B M p, exactUpTo B (s_nlt Y) -> B < intMax -> ordinary p -> totalDegree p <= B ->
  0 < M < 324 -> commonDenominator M p ->
  endsWith Y (fun W _ => w_normal W (polyE p)) (polyE p).
Proof. exact user_normal. Qed.
Print Assumptions C51_normal.

(** So does simplify. *)
Theorem C51_simplify : forall Y B M p, exactUpTo B (s_nlt Y) -> B < intMax -> ordinary p -> totalDegree p <= B ->
  0 < M < 324 -> commonDenominator M p ->
  endsWith Y (fun W n => simplifyVar W n (polyE p)) (polyE p).
Proof. exact user_simplify. Qed.
Print Assumptions C51_simplify.

(** numerator and denominator end; the denominator is the least common denominator D of the coefficients, the
    numerator D times the polynomial, with whole coefficients. *)
Theorem C51_fraction : forall Y B M p, exactUpTo B (s_nlt Y) -> B < intMax -> ordinary p -> totalDegree p <= B ->
  0 < M < 324 -> commonDenominator M p ->
  exists q D, ordinary q /\ integral q /\ leastDenominator D p /\ (forall r, polyV r q = IZR D * polyV r p)%R /\
    endsWith Y (fun W n => toFraction W n (polyE p)) (polyE q, numZ D).
Proof. exact user_fraction. Qed.
Print Assumptions C51_fraction.

(** -1 + x^2/6 + 3/4*x*y: the denominators have the common multiple 12. *)
Definition nX : sym := exX.
Definition nY : sym := exY.
Definition nP : poly := [((-1)%Q, []); (1 # 6, [(nX, 2)]); (3 # 4, [(nX, 1); (nY, 1)])].
Example C51_case : ordinary nP /\ totalDegree nP = 2 /\ exactUpTo 2 (s_nlt refSys) /\ commonDenominator 12 nP /\ 0 < 12 < 324.
Proof.
  assert (XY : symLt exX exY) by (left; reflexivity).
  split; [|split; [reflexivity|split; [apply exact_ref|split; [|lia]]]].
  - apply ordinary_iff. split; [split|].
    + repeat constructor; try discriminate; try reflexivity; exact XY.
    + repeat apply SSorted_cons; try apply SSorted_nil; repeat apply Forall_cons; try apply Forall_nil; unfold keyLt; cbn [snd rev app]; try apply lex_nil.
      apply lex_head. left. exact XY.
    + repeat constructor.
  - intros m [<-|[<-|[<-|[]]]]; cbn; [exists 12 | exists 2 | exists 3]; reflexivity.
Qed.

(** Without a bound for the denominator it isn't true: normal turns 1/324 into 1/36. *)
Theorem C51_large_denominator_refuted : ~ forall Y B p, exactUpTo B (s_nlt Y) -> B < intMax -> ordinary p -> totalDegree p <= B ->
  endsWith Y (fun W _ => w_normal W (polyE p)) (polyE p).
Proof.
  intros H. specialize (H refSys 2 [(1 # 324, [])] (exact_ref 2) ltac:(unfold intMax; lia)).
  destruct H as [_ H].
  - apply ordinary_iff. split; [split|]; repeat constructor; discriminate || reflexivity.
  - cbn. lia.
  - assert (E : exists facts, w_normal W0 (Num (1 # 324)) = Ok (Num (1 # 36)) facts) by (eexists; lazy; reflexivity).
    destruct E as (facts & E). change (polyE [(1 # 324, [])]) with (Num (1 # 324)) in H. specialize (H 40%nat 40%nat 0%nat). fold W0 in H. cbv beta in H. rewrite E in H. destruct H as [H|(l & H)]; discriminate.
Qed.
Print Assumptions C51_large_denominator_refuted.
