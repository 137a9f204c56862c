(** poly::divide with the symbols the code chooses; coefficients for the API. *)
From Verif Require Import LaurentSpec LaurentOrder LaurentProd LaurentIdent LaurentSum LaurentExpand LaurentMain LaurentApi RingProd RingSum RingPos RingSpec RingTerm RingRun LaurentCoeff PolyCode HRuns DivExact DivRun FuelMono FuelApi SimplApi ApiSpec ApiModel ExprProofs NumInt NumberProofs World WorldExact RPow RunSpec NumberSpec PolyModel.
From Coq Require Import Lia Lra Bool Permutation Sorted Rfunctions.
From Verif Require Import Run LaurentSpec.
Open Scope Z_scope.

(** ** The list of symbols *)
Definition inKey (t : sym) (k : key) : Prop := In t (map fst k).
Definition symsOf (p : poly) (t : sym) : Prop := exists m, In m p /\ inKey t (snd m).

Lemma symE_inj s t : symE s = symE t -> s = t.
Proof. destruct s, t. unfold symE; cbn. congruence. Qed.
(** The list A' has the symbols of A and those for which P holds. *)
Definition grows (A A' : list sym) (P : sym -> Prop) : Prop := (NoDup A -> NoDup A') /\ forall t, In t A' <-> In t A \/ P t.
Lemma grows_same A (P : sym -> Prop) : (forall t, P t -> In t A) -> grows A A P.
Proof. intros H. split; [auto|]. intros t. split; [now left | intros [?|?]; auto]. Qed.
Lemma grows_trans A A1 A2 (P Q : sym -> Prop) : grows A A1 P -> grows A1 A2 Q -> grows A A2 (fun t => P t \/ Q t).
Proof. intros [N1 H1] [N2 H2]. split; [auto|]. intros t. rewrite H2, H1. tauto. Qed.
Lemma grows_ext A A' (P Q : sym -> Prop) : (forall t, P t <-> Q t) -> grows A A' P -> grows A A' Q.
Proof. intros E [N H]. split; [exact N|]. intros t. rewrite H, E. reflexivity. Qed.
Lemma add_one A t : exists A', addIfNotStored (map symE A) (symE t) = map symE A' /\ grows A A' (fun s => s = t).
Proof.
  unfold addIfNotStored. destruct (existsb _ _) eqn:E.
  - exists A. split; [reflexivity|]. apply grows_same. intros s ->. apply existsb_exists in E as (x & Hx & E). apply in_map_iff in Hx as (s & <- & Hs). apply isEqual_eq, symE_inj in E. now subst.
  - exists (A ++ [t]). split; [now rewrite map_app|]. split.
    + intros N. apply (Permutation_NoDup (Permutation_cons_append A t)). constructor; [|exact N]. intros I. apply not_true_iff_false in E. apply E.
      apply existsb_exists. exists (symE t). split; [now apply in_map | apply isEqual_refl; reflexivity].
    + intros s. rewrite in_app_iff. cbn [In]. intuition congruence.
Qed.
Lemma add_fac A f : exists A', addSymbols (map symE A) (facE f) = map symE A' /\ grows A A' (fun s => s = fst f).
Proof. destruct (add_one A (fst f)) as (A' & E & H). exists A'. split; [|exact H]. unfold facE. destruct (snd f =? 1); exact E. Qed.
Lemma add_key k : forall A, exists A', fold_left addSymbols (map facE k) (map symE A) = map symE A' /\ grows A A' (fun t => inKey t k).
Proof.
  induction k as [|f k IH]; intros A; cbn [map fold_left].
  - exists A. split; [reflexivity|]. apply grows_same. intros t [].
  - destruct (add_fac A f) as (A1 & E1 & H1). destruct (IH A1) as (A2 & E2 & H2). exists A2. rewrite E1, E2. split; [reflexivity|].
    eapply grows_ext; [|apply (grows_trans _ _ _ _ _ H1 H2)]. intros t. unfold inKey. cbn [map In]. intuition congruence.
Qed.
Lemma add_mono A m : exists A', addSymbols (map symE A) (monoE m) = map symE A' /\ grows A A' (fun t => inKey t (snd m)).
Proof.
  destruct (monoE_cases m) as [[K E]|[(f & -> & E)|(_ & E & _)]]; rewrite E.
  - exists A. split; [reflexivity|]. apply grows_same.
    intros t H. unfold inKey in H. cbv in K. cbv in H. rewrite K in H. destruct H.
  - destruct (add_fac A f) as (A' & E' & H). exists A'. split; [exact E'|]. eapply grows_ext; [|exact H]. intros t. unfold inKey. cbn. intuition congruence.
  - cbn [addSymbols]. destruct (add_key (snd m) A) as (A' & E' & H). exists A'. split; [|exact H]. rewrite <- E'.
    unfold factorsE. destruct (qeqb (fst m) 1); reflexivity.
Qed.
Lemma add_monos p : forall A, exists A', fold_left addSymbols (map monoE p) (map symE A) = map symE A' /\ grows A A' (symsOf p).
Proof.
  induction p as [|m p IH]; intros A; cbn [map fold_left].
  - exists A. split; [reflexivity|]. apply grows_same. intros t (m & [] & _).
  - destruct (add_mono A m) as (A1 & E1 & H1). destruct (IH A1) as (A2 & E2 & H2). exists A2. rewrite E1, E2. split; [reflexivity|].
    eapply grows_ext; [|apply (grows_trans _ _ _ _ _ H1 H2)]. intros t. unfold symsOf. cbn [In]. split.
    + intros [H|(n & Hn & H)]; [exists m | exists n]; auto.
    + intros (n & [<-|Hn] & H); [now left | right; now exists n].
Qed.
Lemma add_poly A p : exists A', addSymbols (map symE A) (polyE p) = map symE A' /\ grows A A' (symsOf p).
Proof.
  destruct (add_monos p A) as (A' & E & H). exists A'. split; [|exact H]. rewrite <- E.
  destruct (polyE_cases p) as [[-> E']|[(m & -> & E')|[L E']]]; rewrite E'; reflexivity.
Qed.
Lemma insert_perm lt x l : Permutation (insertBy lt x l) (x :: l).
Proof. induction l as [|y l IH]; cbn [insertBy]; [reflexivity|]. destruct (lt x y); [reflexivity|]. rewrite IH. apply perm_swap. Qed.
Lemma sort_perm lt l : forall a, Permutation (fold_left (fun a x => insertBy lt x a) l a) (l ++ a).
Proof. induction l as [|x l IH]; intros a; cbn [fold_left app]; [reflexivity|]. rewrite IH, insert_perm. symmetry. apply Permutation_middle. Qed.
Lemma symbols_list Y u v : exists L, listOfSymbols Y (polyE u) (polyE v) = map symE L /\ NoDup L /\ forall t, In t L <-> symsOf u t \/ symsOf v t.
Proof.
  unfold listOfSymbols. destruct (add_poly [] u) as (A & EA & NA & HA). destruct (add_poly A v) as (A' & EA' & NA' & HA'). change (map symE []) with (@nil expr) in EA. rewrite EA, EA'.
  pose proof (sort_perm (compareVars Y (polyE u) (polyE v)) (map symE A') []) as P. rewrite app_nil_r in P.
  apply Permutation_map_inv in P as (L & E & P). exists L. split; [exact E|]. split; [apply (Permutation_NoDup P), NA', NA; constructor|].
  intros t. split.
  - intros H. apply (Permutation_in t (Permutation_sym P)), HA' in H as [H|H]; [|now right]. apply HA in H as [[]|H]. now left.
  - intros H. apply (Permutation_in t P), HA'. destruct H as [H|H]; [left; apply HA; now right | now right].
Qed.
Lemma degIn_syms t p : degIn t p <> 0 -> symsOf p t.
Proof.
  intros D. destruct (in_dec sym_dec t (flat_map (fun m => map fst (snd m)) p)) as [I|I].
  - apply in_flat_map in I as (m & Hm & H). now exists m.
  - exfalso. apply D. apply Z.le_antisymm; [|apply degIn_nonneg]. apply degIn_le; [lia|]. intros m Hm. rewrite kget_notin; [lia|]. intros H. apply I. apply in_flat_map. now exists m.
Qed.

(** A product of powers with a number between 1 and 324. *)
Definition plain (q : Q) : Prop := Z.abs (qnum q) < 324 /\ qden q < 324.

Section Api.
  Variables (Y : sys) (B : Z).
  Hypothesis Hlt : exactUpTo B (s_nlt Y).
  Hypothesis HB : 0 <= B < intMax.

  Theorem polyDivide_exact q v u : P_ok B q -> P_ok B v -> P_ok B u -> v <> [] -> polyDeg q + polyDeg v <= B -> product q v u ->
    (forall m, In m v -> invertible Y (fst m)) ->
    hruns Y (fun W n => polyDivide Y W n (polyE u) (polyE v)) (fun p => p = (polyE q, zero)).
  Proof.
    intros Hq Hv Hu Nv Hd Hp HI. unfold polyDivide. destruct (symbols_list Y u v) as (L & -> & _ & HL). apply (divide_exact Y B Hlt HB); auto.
    intros s Hs. assert (Q0 : q = [] \/ q <> []) by (destruct q; [now left | right; discriminate]).
    assert (Du : degIn s u = 0) by (destruct (Z.eq_dec (degIn s u) 0); [assumption|]; exfalso; apply Hs, HL; left; now apply degIn_syms).
    assert (Dv : degIn s v = 0) by (destruct (Z.eq_dec (degIn s v) 0); [assumption|]; exfalso; apply Hs, HL; right; now apply degIn_syms).
    split; [|exact Dv]. destruct Q0 as [->|Nq]; [reflexivity|].
    assert (X : degIn s u = degIn s q + degIn s v) by (apply mul_degIn; auto; (apply Hq || apply Hv || apply Hu)). lia.
  Qed.

  Lemma plain_invertible p : polyOK p -> (forall m, In m p -> plain (fst m)) -> forall m, In m p -> invertible Y (fst m).
  Proof.
    intros [O _] H m Hm. rewrite Forall_forall in O. destruct (O m Hm) as (C & N & _). destruct (H m Hm) as [P1 P2]. apply small_invertible; auto. now apply Q2R_nonzero.
  Qed.

  (** Everything about the coefficients. *)
  Lemma finite_choice (R : nat -> poly -> Prop) n : (forall i, exists s, R i s) -> exists c, length c = n /\ forall i, (i < n)%nat -> R i (nth i c []).
  Proof.
    intros H. induction n as [|n (c & L & IH)]; [exists []; split; [reflexivity | lia]|]. destruct (H n) as (s & Hs). exists (c ++ [s]). rewrite app_length, L.
    split; [cbn; lia|]. intros i Hi. destruct (Nat.eq_dec i n) as [->|].
    - rewrite app_nth2, L, Nat.sub_diag by lia. exact Hs.
    - rewrite app_nth1 by lia. apply IH. lia.
  Qed.
  Lemma coef_above t p i s : degIn t p < i -> isCoef t i p s -> s = [].
  Proof.
    intros Hi (_ & _ & I). assert (E : coefL t i p = []).
    { unfold coefL, atDeg. destruct (filter (fun m => kget (snd m) t =? i) p) as [|m l] eqn:E; [reflexivity|]. exfalso. assert (Hm : In m (filter (fun m => kget (snd m) t =? i) p)) by (rewrite E; now left).
      apply filter_In in Hm as [Hm Em]. apply Z.eqb_eq in Em. pose proof (degIn_ge t p m Hm). lia. }
    rewrite E in I. destruct s as [|m l]; [reflexivity|]. destruct (I (snd m)). now left.
  Qed.
  Theorem all_coefficients t p : P_ok B p -> exists c : list poly,
    length c = Datatypes.S (Z.to_nat (degIn t p)) /\
    (forall i, ev (fun F k => coeff (world Y F k) (polyE p) (symE t) (Z.of_nat i) = Ok (polyE (nth i c [])) [])) /\
    (forall s, In s c -> P_ok B s /\ degIn t s = 0) /\
    (p <> [] -> last c [] <> []) /\
    (forall r, allPos r -> polyV r p = sum_f_R0 (fun i => polyV r (nth i c []) * symV r t ^ i)%R (Z.to_nat (degIn t p))).
  Proof.
    intros Hp. pose proof Hp as (O & P & D). pose proof (degIn_nonneg t p) as N.
    assert (X : forall i : nat, exists s, isCoef t (Z.of_nat i) p s /\ ev (fun F k => coeff (world Y F k) (polyE p) (symE t) (Z.of_nat i) = Ok (polyE s) [])).
    { intros i. apply (coeff_poly Y B Hlt t (Z.of_nat i) p O P ltac:(lia) D). }
    destruct (finite_choice _ (Datatypes.S (Z.to_nat (degIn t p))) X) as (c & L & Hc). exists c.
    split; [exact L|]. split; [|split; [|split]].
    - intros i. destruct (Nat.lt_ge_cases i (Datatypes.S (Z.to_nat (degIn t p)))) as [Hi|Hi]; [now apply Hc|].
      rewrite nth_overflow by (etransitivity; [apply Nat.eq_le_incl; exact L | exact Hi]). destruct (X i) as (s & C & H). apply coef_above in C; [now subst | lia].
    - intros s Hs. apply (In_nth _ _ []) in Hs as (i & Hi & <-). rewrite L in Hi. destruct (Hc i Hi) as [C _]. split; [apply (coef_ok B HB t (Z.of_nat i) p); [exact Hp | lia | exact C] | eapply isCoef_free; exact C].
    - intros Np. destruct (Hc (Z.to_nat (degIn t p)) ltac:(lia)) as [C _]. rewrite Z2Nat.id in C by apply degIn_nonneg.
      enough (E : nth (Z.to_nat (degIn t p)) c [] = last c []) by (intros E'; exact (isCoef_lead t p _ C O P Np (eq_trans E E'))).
      assert (Nc : c <> []) by (intros ->; discriminate). rewrite (app_removelast_last [] Nc) at 1. rewrite (app_removelast_last [] Nc), app_length in L. cbn in L. rewrite app_nth2 by lia.
      replace (_ - _)%nat with 0%nat by lia. reflexivity.
    - intros r Hr. rewrite (coef_sum r t p (Datatypes.S (Z.to_nat (degIn t p))) Hr P) by lia. clear L.
      induction (Z.to_nat (degIn t p)) as [|n IH].
      + cbn [sum_f_R0 horner]. destruct (Hc 0%nat ltac:(lia)) as [(_ & V & _) _]. rewrite V. cbn. ring.
      + cbn [sum_f_R0]. rewrite <- IH by (intros; apply Hc; lia). cbn [horner]. destruct (Hc (Datatypes.S n) ltac:(lia)) as [(_ & V & _) _]. rewrite V. ring.
  Qed.
End Api.

(** ** Programs *)
Lemma term_normal Y B t d e : exactUpTo B (s_nlt Y) -> polyTerm Y t d -> d <= B -> returns Y (TExpand t) e ->
  exists p, e = polyE p /\ polyOK p /\ posPoly p /\ polyDeg p <= d /\ forall r, allPos r -> tval r t = Some (polyV r p).
Proof.
  intros Hlt P D E. destruct (term_result Y B Hlt t d P D) as (x & Rx & Ri & Dx & _ & _ & Vx).
  destruct (expand_laurent Y B Hlt x) as (p & O & V & Dp & Ep); [now apply ring_laurent | lia|]. exists p.
  assert (E' : e = polyE p).
  { destruct (ev_ex _ Ep) as (F & k & Ep'). eapply expandsTo_unique; [eapply returns_expand; eassumption | now exists F, k, []]. }
  split; [exact E'|]. split; [exact O|]. split; [apply (normal_pos x p); auto; now apply (ring_polyExpr Y)|]. split; [lia|].
  intros r Hr. destruct (Vx r) as (v & -> & Ev); [intros n; apply Hr|]. rewrite V in Ev by exact Hr. congruence.
Qed.

Theorem divide_programs Y B t1 t2 d1 d2 u q v : exactUpTo B (s_nlt Y) -> B < intMax -> polyTerm Y t1 d1 -> polyTerm Y t2 d2 -> d1 + d2 <= B ->
  returns Y (TExpand (TMul t1 t2)) u -> returns Y (TExpand t1) q -> returns Y (TExpand t2) (polyE v) ->
  polyOK v -> v <> [] -> (forall m, In m v -> plain (fst m)) ->
  exists F0 k0, forall F k, (F0 <= F)%nat -> (k0 <= k)%nat -> exists facts, polyDivide Y (world Y F k) F u (polyE v) = Ok (q, zero) facts.
Proof.
  intros Hlt HB P1 P2 D E0 E1 E2 Ov Nv Pl. pose proof (polyTerm_nonneg Y t1 d1 P1) as N1. pose proof (polyTerm_nonneg Y t2 d2 P2) as N2.
  destruct (term_normal Y B _ _ u Hlt (p_mul Y _ _ _ _ P1 P2) D E0) as (pu & -> & Ou & Pu & Du & Vu).
  destruct (term_normal Y B _ _ q Hlt P1 ltac:(lia) E1) as (pq & -> & Oq & Pq & Dq & Vq).
  destruct (term_normal Y B _ _ _ Hlt P2 ltac:(lia) E2) as (pv & Ev & Ov' & Pv & Dv & Vv).
  apply (polyE_inj v pv Ov Ov') in Ev as <-.
  destruct (polyDivide_exact Y B Hlt ltac:(lia) pq v pu) as (a & -> & (F0 & k0 & H)).
  - split; [exact Oq|]. split; [exact Pq | lia].
  - split; [exact Ov|]. split; [exact Pv | lia].
  - split; [exact Ou|]. split; [exact Pu | lia].
  - exact Nv.
  - lia.
  - intros r Hr. specialize (Vu r Hr). cbn [tval] in Vu. rewrite (Vq r Hr), (Vv r Hr) in Vu. cbn [omap2] in Vu. congruence.
  - now apply plain_invertible.
  - exists F0, k0. intros F k HF Hk. destruct (H F k HF Hk) as (l & E & _). now exists l.
Qed.
