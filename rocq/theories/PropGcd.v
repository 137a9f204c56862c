(** Theorem for C22: gcd of expanded polynomials in one symbol.

    [polyE p] is the expression of a polynomial p in normal form (LaurentSpec.v).  [ordinary p],
    [totalDegree], [hasSymbol], [multipleOf h p] (p is h times a polynomial) and [leadPositive] are defined in
    DivSpec.v. *)
From Verif Require Import SimplWitness LaurentSpec DivSpec RingPos PropExpand PropRing PropDivide LaurentProd HRuns DivUser GcdUser NumberSpec SimplApi PolyModel World RunSpec.
From Coq Require Import Lia Lra.
From Verif Require Import Run LaurentSpec.
Open Scope Z_scope.

(** Whenever gcd returns for two polynomials in the symbol t, not both zero, the result is a common divisor
    with a positive leading coefficient, and every common divisor divides it; with both algorithms ([sub]).
    Partial: several symbols, and that the computation ends. *)
Theorem C22_univariate_gcd_partial : forall Y B F k sub t u v g facts r, exactUpTo B (s_nlt Y) -> 0 <= B < intMax ->
  ordinary u -> ordinary v -> totalDegree u <= B -> totalDegree v <= B -> u <> [] \/ v <> [] -> (forall s, hasSymbol s u \/ hasSymbol s v -> s = t) ->
  gcdCompute Y (world Y F k) sub (polyE u) (polyE v) = Ok g facts -> posEnv r -> rightFacts r facts ->
  exists p, g = polyE p /\ ordinary p /\ leadPositive p /\ multipleOf p u /\ multipleOf p v /\
    forall h, ordinary h -> multipleOf h u -> multipleOf h v -> multipleOf h p.
Proof. exact gcd_univariate. Qed.
Print Assumptions C22_univariate_gcd_partial.

(** gcd(2 x^2 - 2, 4 x + 4) = 2 x + 2. *)
Definition gX : sym := exX.
Definition gU : poly := [((-2)%Q, []); (2%Q, [(gX, 2)])].
Definition gV : poly := [(4%Q, []); (4%Q, [(gX, 1)])].
Example C22_univariate_case : ordinary gU /\ ordinary gV /\ totalDegree gU = 2 /\ totalDegree gV = 1 /\ exactUpTo 2 (s_nlt refSys) /\
  (forall s, hasSymbol s gU \/ hasSymbol s gV -> s = gX) /\
  (exists facts, gcdCompute refSys W0 true (polyE gU) (polyE gV) = Ok (Sum [Num 2; Prod [Num 2; sx]]) facts /\ forall r, posEnv r -> rightFacts r facts) /\
  (exists facts, gcdCompute refSys W0 false (polyE gU) (polyE gV) = Ok (Sum [Num 2; Prod [Num 2; sx]]) facts /\ forall r, posEnv r -> rightFacts r facts).
Proof.
  assert (A1 : harmless (CNumPow (mkPay 2 (ofZ (-1)) 1) (mkPay (1 # 2) 1 1))).
  { apply (fact_right 2 (-1) _ (1 # 2)); [unfold Q2R; cbn; lra | repeat split | unfold Q2R, powerRZ; simpl; field | now left]. }
  assert (A2 : harmless (CNumPow (mkPay (-1) (ofZ 2) 1) (mkPay 1 1 1))).
  { apply (fact_right (-1) 2 _ 1); [unfold Q2R; cbn; lra | repeat split | unfold Q2R, powerRZ; simpl; field | now left]. }
  split; [|split; [|split; [reflexivity|split; [reflexivity|split; [apply exact_ref|split; [|split]]]]]].
  - apply ordinary_iff. split; [split|].
    + repeat constructor; try discriminate; reflexivity.
    + repeat apply SSorted_cons; try apply SSorted_nil; repeat apply Forall_cons; try apply Forall_nil; unfold keyLt; cbn [snd rev app]; apply lex_nil.
    + repeat constructor.
  - apply ordinary_iff. split; [split|].
    + repeat constructor; try discriminate; reflexivity.
    + repeat apply SSorted_cons; try apply SSorted_nil; repeat apply Forall_cons; try apply Forall_nil; unfold keyLt; cbn [snd rev app]; apply lex_nil.
    + repeat constructor.
  - intros s [(m & f & Hm & Hf & <-)|(m & f & Hm & Hf & <-)]; cbn in Hm; destruct Hm as [<-|[<-|[]]]; cbn in Hf; destruct Hf as [<-|[]] || destruct Hf; reflexivity.
  - eexists. split; [lazy; reflexivity|]. intros r Hr. apply harmless_right; [|exact Hr]. repeat (constructor; [first [exact A1 | exact A2]|]). constructor.
  - eexists. split; [lazy; reflexivity|]. intros r Hr. apply harmless_right; [|exact Hr]. repeat (constructor; [first [exact A1 | exact A2]|]). constructor.
Qed.
