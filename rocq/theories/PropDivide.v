(** Theorems for C50: degree, coefficients and division of expanded polynomials.

    [polyE p] is the expression of a polynomial p in normal form (LaurentSpec.v), [polyV r p] its value when
    the symbols have the values r.  [ordinary p] (DivSpec.v): its exponents are positive, [totalDegree p] is
    the largest sum of the exponents in a term.  By C46 and C47 expand and the programs made of numbers,
    symbols, +, -, *, ^n give such expressions. *)
From Verif Require Import SimplWitness LaurentSpec DivSpec RingSpec RingPos PropExpand PropRing ExprProofs LaurentCoeff PolyCode HRuns DivExact DivRun DivApi DivUser RingTerm NumberProofs NumberSpec PolyModel.
From Coq Require Import Lia Lra Rfunctions.
From Verif Require Import Run LaurentSpec.
Open Scope Z_scope.

(** The degree is the largest exponent of the symbol. *)
Theorem C50_degree : forall Y t p, ordinary p -> totalDegree p < intMax -> p <> [] ->
  (exists m, In m p /\ exponentIs t m (degree Y (polyE p) (symE t))) /\
  forall m k, In m p -> exponentIs t m k -> k <= degree Y (polyE p) (symE t).
Proof. intros Y t p H D N. apply (user_degree Y (totalDegree p)); auto; [|lia]. apply ordinary_iff in H as [_ P]. rewrite totalDegree_is in * by exact P. pose proof (LaurentMain.polyDeg_nonneg p). lia. Qed.
Print Assumptions C50_degree.

(** The coefficients are polynomials without the symbol, the sum of coefficients times powers is the
    polynomial, the coefficient of the highest power isn't zero, and the ones beyond are zero.  Nothing is
    assumed about the executions. *)
Theorem C50_coefficients : forall Y B t p, exactUpTo B (s_nlt Y) -> B < intMax -> ordinary p -> totalDegree p <= B ->
  exists c : list poly, length c = S (Z.to_nat (degree Y (polyE p) (symE t))) /\
    (forall i, exists F0 k0, forall F k, (F0 <= F)%nat -> (k0 <= k)%nat ->
      coeff (world Y F k) (polyE p) (symE t) (Z.of_nat i) = Ok (polyE (nth i c [])) []) /\
    (forall s, In s c -> ordinary s /\ ~ hasSymbol t s) /\
    (p <> [] -> last c [] <> []) /\
    (forall r, allPos r -> polyV r p = sum_f_R0 (fun i => polyV r (nth i c []) * r (fst t) (snd t) ^ i)%R (Z.to_nat (degree Y (polyE p) (symE t)))).
Proof.
  intros Y B t p Hlt HB H D. pose proof (proj2 (P_ok_iff B p) (conj H D)) as (O & P & D'). pose proof (LaurentMain.polyDeg_nonneg p) as N. assert (HB' : 0 <= B < intMax) by lia.
  rewrite degree_poly by (assumption || lia). destruct (all_coefficients Y B Hlt HB' t p (conj O (conj P D'))) as (c & L & E & K & La & V).
  exists c. split; [exact L|]. split; [exact E|]. split; [|split; [exact La | exact V]].
  intros s Hs. destruct (K s Hs) as [Ks Fs]. apply P_ok_iff in Ks as [Ks _]. split; [exact Ks|]. now apply free_iff.
Qed.
Print Assumptions C50_coefficients.

(** Division ends with one result, u = q*v + s holds, s is zero if and only if u is a multiple of v, and s
    has a smaller degree if there is just one symbol.  S has all symbols; the exponents that occur on the way
    must be within the bound for the comparison of numbers.  The coefficients of the divisor are small: powers of
    324 and some larger numbers are wrong, see C04. *)
Theorem C50_division_partial : forall Y B S u v, exactUpTo B (s_nlt Y) -> B < intMax -> ordinary u -> ordinary v -> v <> [] ->
  (forall t, hasSymbol t u \/ hasSymbol t v -> In t S) ->
  (totalDegree u + 1) * (totalDegree v + 1) ^ Z.of_nat (length S) <= B -> totalDegree v <= B ->
  (forall m, In m v -> smallNumber (fst m)) ->
  exists q s, ordinary q /\ ordinary s /\ (forall r, allPos r -> polyV r u = polyV r q * polyV r v + polyV r s)%R /\
    (s = [] <-> multipleOf v u) /\
    (forall t, S = [t] -> s = [] \/ degree Y (polyE s) (symE t) < degree Y (polyE v) (symE t)) /\
    (exists F0 k0, forall F k, (F0 <= F)%nat -> (k0 <= k)%nat -> exists facts, polyDivide Y (world Y F k) F (polyE u) (polyE v) = Ok (polyE q, polyE s) facts) /\
    (forall F k n, polyDivide Y (world Y F k) n (polyE u) (polyE v) = Fuel \/
      exists facts, polyDivide Y (world Y F k) n (polyE u) (polyE v) = Ok (polyE q, polyE s) facts).
Proof.
  intros Y B S u v Hlt HB Hu Hv Nv HS Hb Dv Sm.
  assert (HB' : 0 <= B < intMax). { apply ordinary_iff in Hv as [_ P]. rewrite totalDegree_is in Dv by exact P. pose proof (LaurentMain.polyDeg_nonneg v). lia. }
  assert (HI : forall m, In m v -> invertible Y (fst m)) by (apply plain_invertible; [apply Hv | intros m Hm; now apply small_plain, Sm]).
  destruct (user_divide Y B Hlt HB' S u v Hu Hv Nv HS Hb Dv HI) as (q & s & Oq & Os & _ & _ & V & Z & One & (a & -> & E)).
  exists q, s. split; [exact Oq|]. split; [exact Os|]. split; [exact V|]. split; [exact Z|]. split; [exact One|]. split.
  - destruct E as (F0 & k0 & E). exists F0, k0. intros F k HF Hk. destruct (E F k HF Hk) as (l & El & _). now exists l.
  - intros F k n. destruct (LaurentExpand.ev_ex _ E) as (F0 & k0 & l & El & _). eapply divide_only. exact El.
Qed.
Print Assumptions C50_division_partial.

(** The product of two programs divided by one of them gives the other one. *)
Theorem C50_exact_partial : forall Y B t1 t2 d1 d2 u q v, exactUpTo B (s_nlt Y) -> B < intMax -> polyTerm Y t1 d1 -> polyTerm Y t2 d2 -> d1 + d2 <= B ->
  returns Y (TExpand (TMul t1 t2)) u -> returns Y (TExpand t1) q -> returns Y (TExpand t2) (polyE v) ->
  polyOK v -> v <> [] -> (forall m, In m v -> smallNumber (fst m)) ->
  exists F0 k0, forall F k, (F0 <= F)%nat -> (k0 <= k)%nat -> exists facts, polyDivide Y (world Y F k) F u (polyE v) = Ok (q, zero) facts.
Proof. intros Y B t1 t2 d1 d2 u q v Hlt HB P1 P2 D E0 E1 E2 O N H. apply (divide_programs Y B t1 t2 d1 d2 u q v); auto. Qed.
Print Assumptions C50_exact_partial.

(** Full statement: for all coefficients.  648 divided by 324 is 18. *)
Theorem C50_division_refuted : ~ forall Y u v, exactUpTo 1000 (s_nlt Y) -> ordinary u -> ordinary v -> v <> [] -> totalDegree u = 0 -> totalDegree v = 0 ->
  forall F k n q s facts, polyDivide Y (world Y F k) n (polyE u) (polyE v) = Ok (polyE q, polyE s) facts ->
  forall r, allPos r -> (polyV r u = polyV r q * polyV r v + polyV r s)%R.
Proof.
  assert (O : forall z, z <> 0 -> ordinary [(ofZ z, [])]).
  { intros z Hz. apply ordinary_iff. split; [|constructor; constructor]. apply LaurentExpand.mono_polyOK. split; [apply canon_ofZ|]. split; [|split; constructor]. intros E. apply (f_equal Qnum) in E. now apply Hz. }
  intros H. specialize (H refSys [(ofZ 648, [])] [(ofZ 324, [])] (exact_ref 1000) (O 648 ltac:(lia)) (O 324 ltac:(lia)) ltac:(discriminate) eq_refl eq_refl 40%nat 40%nat 40%nat [(ofZ 18, [])] []).
  specialize (H _ ltac:(lazy; reflexivity) unitEnv unit_pos). rewrite !num_polyV, !Q2R_ofZ in H. change (polyV unitEnv []) with 0%R in H. lra.
Qed.
Print Assumptions C50_division_refuted.

(** x^2*y - 3*y + 1 divided by x - 1/2. *)
Definition exX : sym := (nm "x"%string, false).
Definition exY : sym := (nm "y"%string, false).
Definition exU : poly := [(1%Q, []); ((-3)%Q, [(exY, 1)]); (1%Q, [(exX, 2); (exY, 1)])].
Definition exV : poly := [((-1 # 2)%Q, []); (1%Q, [(exX, 1)])].
Example C50_case : polyE exU = Sum [one; Prod [Num (-3); sy]; Prod [Pow sx (Num 2); sy]] /\ polyE exV = Sum [Num (-1 # 2); sx] /\
  ordinary exU /\ ordinary exV /\ (totalDegree exU + 1) * (totalDegree exV + 1) ^ 2 = 16 /\ exactUpTo 16 (s_nlt refSys) /\
  (forall m, In m exV -> smallNumber (fst m)).
Proof.
  split; [reflexivity|]. split; [reflexivity|].
  assert (XY : symLt exX exY) by (left; reflexivity).
  split; [|split; [|split; [reflexivity|split; [apply exact_ref|]]]].
  - apply ordinary_iff. split; [split|].
    + repeat constructor; try discriminate; try reflexivity; exact XY.
    + repeat apply SSorted_cons; try apply SSorted_nil; repeat apply Forall_cons; try apply Forall_nil; unfold keyLt; cbn [snd rev app]; try apply lex_nil; apply lex_tail, lex_nil.
    + repeat constructor.
  - apply ordinary_iff. split; [split|].
    + repeat constructor; try discriminate; reflexivity.
    + repeat constructor.
    + repeat constructor.
  - intros m [<-|[<-|[]]]; split; reflexivity.
Qed.
(** (x + y)*(x - y) and x - y. *)
Example C50_exact_case : polyTerm refSys (TAdd tx ty) 1 /\ polyTerm refSys (TSub tx ty) 1 /\
  returns refSys (TExpand (TMul (TAdd tx ty) (TSub tx ty))) (Sum [Pow sx (Num 2); Prod [Num (-1); Pow sy (Num 2)]]) /\
  returns refSys (TExpand (TAdd tx ty)) (Sum [sx; sy]) /\ returns refSys (TExpand (TSub tx ty)) (polyE [(1%Q, [(exX, 1)]); ((-1)%Q, [(exY, 1)])]) /\
  polyDivide refSys W0 40 (Sum [Pow sx (Num 2); Prod [Num (-1); Pow sy (Num 2)]]) (Sum [sx; Prod [Num (-1); sy]]) = Ok (Sum [sx; sy], zero) [].
Proof.
  split; [apply (p_add refSys _ _ 1 1); apply p_sym|]. split; [apply (p_sub refSys _ _ 1 1); apply p_sym|].
  split; [exists 40%nat, 40%nat, 0%nat, []; lazy; reflexivity|]. split; [exists 40%nat, 40%nat, 0%nat, []; lazy; reflexivity|].
  split; [exists 40%nat, 40%nat, 0%nat, []; lazy; reflexivity|]. lazy. reflexivity.
Qed.
