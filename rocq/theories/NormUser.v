(** normal and simplify of expanded polynomials in terms of NormSpec.v. *)
From Verif Require Import NormSpec LaurentSpec DivSpec LaurentExpand HRuns DivUser DivRun NormPoly NormRun FuelMono FuelApi LaurentMain GcdUser RingPos SimplApi NormalModel DiffModel.
From Coq Require Import Lia.
From Verif Require Import Run LaurentSpec.
Open Scope Z_scope.

Lemma ends_intro {A} Y (f : oper -> nat -> res A) x : (forall W W' n n', ople W W' -> (n <= n')%nat -> rle (f W n) (f W' n')) ->
  hruns Y f (fun y => y = x) -> endsWith Y f x.
Proof.
  intros M (a & -> & E). split.
  - destruct E as (F0 & k0 & E). exists F0, k0. intros F k HF Hk. destruct (E F k HF Hk) as (l & El & Hl). exists l. split; [exact El|]. intros r Hr. now apply harmless_right.
  - intros F k n. destruct (ev_ex _ E) as (F0 & k0 & l & El & _). destruct (world_max Y F F0 k k0) as [H H0].
    pose proof (M _ _ n (Nat.max n F0) H ltac:(lia)) as R. pose proof (M _ _ F0 (Nat.max n F0) H0 ltac:(lia)) as R0.
    rewrite El in R0. destruct R0 as (l0 & R0). rewrite R0 in R.
    destruct (f (world Y F k) n) as [y b| | |]; cbn in R; [right|now left|discriminate R|discriminate R].
    destruct R as (l' & R). exists b. congruence.
Qed.
Lemma bound_nonneg B p : ordinary p -> totalDegree p <= B -> B < intMax -> 0 <= B < intMax.
Proof. intros H D HB. apply ordinary_iff in H as [_ P]. rewrite totalDegree_is in D by exact P. pose proof (polyDeg_nonneg p). lia. Qed.

Lemma user_normal Y B M p : exactUpTo B (s_nlt Y) -> B < intMax -> ordinary p -> totalDegree p <= B -> 0 < M < 324 -> commonDenominator M p ->
  endsWith Y (fun W _ => w_normal W (polyE p)) (polyE p).
Proof.
  intros Hlt HB Hp D HM C. pose proof (bound_nonneg B p Hp D HB) as HB'. apply ends_intro; [intros W W' n n' H _; apply (o_normal _ _ H)|].
  apply (normal_poly Y B Hlt HB' p M); [now apply P_ok_iff | exact HM | exact C].
Qed.
Lemma user_simplify Y B M p : exactUpTo B (s_nlt Y) -> B < intMax -> ordinary p -> totalDegree p <= B -> 0 < M < 324 -> commonDenominator M p ->
  endsWith Y (fun W n => simplifyVar W n (polyE p)) (polyE p).
Proof.
  intros Hlt HB Hp D HM C. pose proof (bound_nonneg B p Hp D HB) as HB'. apply ends_intro; [intros W W' n n' H Hn; now apply m_simplifyVar|].
  apply (simplify_poly Y B Hlt HB' p M); [now apply P_ok_iff | exact HM | exact C].
Qed.
Lemma user_fraction Y B M p : exactUpTo B (s_nlt Y) -> B < intMax -> ordinary p -> totalDegree p <= B -> 0 < M < 324 -> commonDenominator M p ->
  exists q D, ordinary q /\ integral q /\ leastDenominator D p /\ (forall r, polyV r q = IZR D * polyV r p)%R /\
    endsWith Y (fun W n => toFraction W n (polyE p)) (polyE q, numZ D).
Proof.
  intros Hlt HB Hp Dg HM C. pose proof (bound_nonneg B p Hp Dg HB) as HB'. assert (K : P_ok B p) by now apply P_ok_iff.
  destruct (fraction_poly Y B Hlt HB' p M K HM C) as (x & (D & D1 & D2 & ->) & E).
  exists (nums D p), D. split; [now apply (P_ok_iff B), (nums_ok B)|]. split; [apply nums_int|]. split; [|split].
  - split; [apply D2|]. split; [exact (proj2 D2)|]. intros M' PM' C'.
    assert (G : 0 < Z.gcd M M' < 324).
    { pose proof (Z.gcd_nonneg M M'). pose proof (Z.gcd_divide_l M M') as G1. apply Z.divide_pos_le in G1; [|lia]. assert (Z.gcd M M' <> 0) by (intros G0; apply Z.gcd_eq_0_l in G0; lia). lia. }
    destruct (fraction_poly Y B Hlt HB' p (Z.gcd M M') K G) as (x' & (D' & D1' & D2' & ->) & E').
    { intros m Hm. apply Z.gcd_greatest; [now apply C | now apply C']. }
    assert (X : (polyE (nums D p), numZ D) = (polyE (nums D' p), numZ D')).
    { destruct (ev_ex _ (ev_and _ _ E E')) as (F & k & (l & El & _) & (l' & El' & _)). congruence. }
    injection X as _ ->. apply (Z.divide_trans _ (Z.gcd M M')); [exact D1' | apply Z.gcd_divide_r].
  - intros r. now apply nums_V.
  - apply ends_intro; [intros W W' n n' H Hn; now apply m_toFraction|]. exists (polyE (nums D p), numZ D). auto.
Qed.
