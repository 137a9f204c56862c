(** Degree, coefficients and division in terms of DivSpec.v. *)
From Verif Require Import LaurentSpec DivSpec LaurentOrder LaurentProd LaurentIdent LaurentSum LaurentExpand LaurentMain LaurentApi RingProd RingSum RingPos RingSpec RingTerm LaurentCoeff PolyTotal PolyCode HRuns DivExact DivRun DivRem DivApi FuelMono FuelApi SimplApi ApiSpec ApiModel ExprProofs NumInt NumberProofs World WorldExact RPow RunSpec NumberSpec PolyModel.
From Coq Require Import Lia Lra Bool Permutation Sorted Rfunctions.
From Verif Require Import Run LaurentSpec.
Open Scope Z_scope.

Lemma ordinary_iff p : ordinary p <-> polyOK p /\ posPoly p.
Proof.
  unfold ordinary, posPoly, posKey. rewrite Forall_forall. split; intros [O H]; (split; [exact O|]).
  - intros m Hm. apply Forall_forall. intros f Hf. eapply H; eassumption.
  - intros m f Hm Hf. specialize (H m Hm). rewrite Forall_forall in H. auto.
Qed.
Lemma termDegree_is m : posKey (snd m) -> termDegree m = kdeg (snd m).
Proof. unfold termDegree, kdeg. induction 1 as [|f k Hf _ IH]; [reflexivity|]. cbn [fold_right]. lia. Qed.
Lemma totalDegree_is p : posPoly p -> totalDegree p = polyDeg p.
Proof. unfold totalDegree, polyDeg. induction 1 as [|m p Hm _ IH]; [reflexivity|]. cbn [fold_right]. rewrite IH, termDegree_is by exact Hm. reflexivity. Qed.
Lemma P_ok_iff B p : P_ok B p <-> ordinary p /\ totalDegree p <= B.
Proof.
  unfold P_ok. rewrite ordinary_iff. split; [intros (O & P & D) | intros ((O & P) & D)].
  - rewrite totalDegree_is by exact P. auto.
  - rewrite totalDegree_is in D by exact P. auto.
Qed.
Lemma hasSymbol_iff t p : hasSymbol t p <-> symsOf p t.
Proof.
  split.
  - intros (m & f & Hm & Hf & <-). exists m. split; [exact Hm | now apply in_map].
  - intros (m & Hm & H). apply in_map_iff in H as (f & <- & Hf). now exists m, f.
Qed.
Lemma exponent_kget t m k : keyOK (snd m) -> exponentIs t m k -> kget (snd m) t = k.
Proof.
  intros K [H|[-> H]].
  - destruct K as [S _]. induction S as [|f l S IH F]; [destruct H|]. rewrite kget_cons. destruct H as [->|H].
    + cbn [fst snd]. destruct (sym_dec t t); [|congruence]. rewrite kget_notin; [lia|]. intros I. apply in_map_iff in I as (g & E & Hg). rewrite Forall_forall in F. specialize (F g Hg). cbn [fst] in F. rewrite E in F. now apply symLt_irrefl in F.
    + rewrite IH by exact H. destruct (sym_dec (fst f) t) as [E|]; [|lia]. rewrite Forall_forall in F. specialize (F _ H). cbn [fst] in F. rewrite E in F. now apply symLt_irrefl in F.
  - apply kget_notin. intros I. apply in_map_iff in I as (f & E & Hf). now apply (H f Hf).
Qed.
Lemma kget_exponent (t : sym) (k : key) : exists z : Z, (In (t, z) k \/ z = 0 /\ forall f, In f k -> fst f <> t).
Proof.
  destruct (in_dec sym_dec t (map fst k)) as [I|I].
  - apply in_map_iff in I as ([s z] & E & H). cbn in E. subst s. exists z. now left.
  - exists 0. right. split; [reflexivity|]. intros f Hf E. apply I. rewrite <- E. now apply in_map.
Qed.
Lemma exponent_exists t m : keyOK (snd m) -> exponentIs t m (kget (snd m) t).
Proof. intros K. destruct (kget_exponent t (snd m)) as (z & H). now rewrite (exponent_kget t m z K H). Qed.
Lemma free_iff t p : ordinary p -> (degIn t p = 0 <-> ~ hasSymbol t p).
Proof.
  intros H. apply ordinary_iff in H as [O P]. rewrite hasSymbol_iff. split.
  - intros D (m & Hm & I). apply in_map_iff in I as ([s z] & E & Hf). cbn in E. subst s. destruct O as [O _]. rewrite Forall_forall in O. destruct (O m Hm) as (_ & _ & K).
    pose proof (exponent_kget t m z K (or_introl Hf)) as G. pose proof (degIn_ge t p m Hm). unfold posPoly, posKey in P. rewrite Forall_forall in P. specialize (P m Hm). rewrite Forall_forall in P. specialize (P _ Hf). cbn in P. lia.
  - intros N. destruct (Z.eq_dec (degIn t p) 0) as [|D]; [assumption|]. exfalso. now apply N, degIn_syms.
Qed.

Section User.
  Variables (Y : sys) (B : Z).
  Hypothesis Hlt : exactUpTo B (s_nlt Y).
  Hypothesis HB : 0 <= B < intMax.

  Lemma user_degree t p : ordinary p -> totalDegree p <= B -> p <> [] ->
    (exists m, In m p /\ exponentIs t m (degree Y (polyE p) (symE t))) /\ forall m k, In m p -> exponentIs t m k -> k <= degree Y (polyE p) (symE t).
  Proof.
    intros H D N. pose proof (proj2 (P_ok_iff B p) (conj H D)) as (O & P & D'). rewrite degree_poly by (assumption || lia). pose proof (proj1 O) as K. rewrite Forall_forall in K. split.
    - destruct (degIn_attained t p P N) as (m & Hm & <-). exists m. split; [exact Hm|]. apply exponent_exists, K, Hm.
    - intros m k Hm E. rewrite <- (exponent_kget t m k (proj2 (proj2 (K m Hm))) E). now apply degIn_ge.
  Qed.

  Lemma user_divide S u v : ordinary u -> ordinary v -> v <> [] -> (forall t, hasSymbol t u \/ hasSymbol t v -> In t S) ->
    (totalDegree u + 1) * (totalDegree v + 1) ^ Z.of_nat (length S) <= B -> totalDegree v <= B -> (forall m, In m v -> invertible Y (fst m)) ->
    exists q s, ordinary q /\ ordinary s /\ totalDegree q <= B /\ totalDegree s <= B /\ (forall r, allPos r -> polyV r u = polyV r q * polyV r v + polyV r s)%R /\
      (s = [] <-> multipleOf v u) /\ (forall t, S = [t] -> s = [] \/ degree Y (polyE s) (symE t) < degree Y (polyE v) (symE t)) /\
      hruns Y (fun W n => polyDivide Y W n (polyE u) (polyE v)) (fun p => p = (polyE q, polyE s)).
  Proof.
    intros Hu Hv Nv HS Hb Dv HI. destruct (symbols_list Y u v) as (L & EL & NL & HL).
    assert (Len : (length L <= length S)%nat). { apply NoDup_incl_length; [exact NL|]. intros t Ht. apply HS. rewrite !hasSymbol_iff. now apply HL. }
    pose proof (proj1 (ordinary_iff u) Hu) as [Ou Pu]. pose proof (proj1 (ordinary_iff v) Hv) as [Ov Pv].
    rewrite totalDegree_is in Hb, Dv by assumption. rewrite totalDegree_is in Hb by assumption. pose proof (polyDeg_nonneg u) as N1. pose proof (polyDeg_nonneg v) as N2.
    assert (Hb' : budget L (polyDeg u) (polyDeg v) <= B).
    { eapply Z.le_trans; [|exact Hb]. unfold budget. apply Z.mul_le_mono_nonneg_l; [lia|]. apply Z.pow_le_mono_r; lia. }
    assert (Du : polyDeg u + 1 <= B) by (eapply Z.le_trans; [|exact Hb']; now apply budget_ge).
    assert (Hu' : P_ok B u) by (split; [exact Ou|]; split; [exact Pu | lia]). assert (Hv' : P_ok B v) by (split; [exact Ov|]; split; [exact Pv | lia]).
    assert (Wu : within L u) by (intros x Hx; destruct (Z.eq_dec (degIn x u) 0); [assumption|]; exfalso; apply Hx, HL; left; now apply degIn_syms).
    assert (Wv : within L v) by (intros x Hx; destruct (Z.eq_dec (degIn x v) 0); [assumption|]; exfalso; apply Hx, HL; right; now apply degIn_syms).
    destruct (divide_rem Y B Hlt HB L u v Hu' Hv' Nv Hb' HI Wu Wv) as (q & s & ((Oq & Pq & Dq & Ks & V) & Ws & Red) & E).
    assert (E' : hruns Y (fun W n => polyDivide Y W n (polyE u) (polyE v)) (fun p => p = (polyE q, polyE s))) by (unfold polyDivide; rewrite EL; exact E).
    destruct (proj1 (P_ok_iff B q) (conj Oq (conj Pq Dq))) as [Iq Tq]. destruct (proj1 (P_ok_iff B s) Ks) as [Is Ts].
    exists q, s. split; [exact Iq|]. split; [exact Is|]. split; [exact Tq|]. split; [exact Ts|]. split; [intros r Hr; rewrite <- V by exact Hr; ring|]. split; [|split; [|exact E']].
    - split.
      + intros ->. exists q. split; [exact Iq|]. intros r Hr. specialize (V r Hr). change (polyV r []) with 0%R in V. lra.
      + intros (w & Hw & Vw). apply ordinary_iff in Hw as [Ow Pw].
        assert (Dw : w = [] \/ w <> []) by (destruct w; [now left | right; discriminate]).
        assert (Hd : polyDeg w + polyDeg v <= B). { destruct Dw as [->|Nw]; [change (polyDeg []) with 0; lia|]. pose proof (mul_polyDeg w v u Vw Ow Ov Pw Pv Pu Nw Nv). lia. }
        assert (Kw : P_ok B w) by (split; [exact Ow|]; split; [exact Pw | lia]). pose proof (polyDivide_exact Y B Hlt HB w v u Kw Hv' Hu' Nv Hd Vw HI) as X.
        pose proof (h_unique Y _ _ _ X E') as U. assert (Z0 : zero = polyE s) by congruence. change zero with (polyE []) in Z0. apply polyE_inj in Z0; [congruence | apply polyOK_nil | apply Ks].
    - intros t ->. rewrite !degree_poly by (apply Ks || exact Pv || (destruct Ks as (_ & _ & ?); lia)).
      destruct L as [|t' L']; [now left|]. assert (L' = []) as -> by (destruct L'; [reflexivity | cbn in Len; lia]).
      assert (t' = t) as ->. { assert (X : In t' [t]) by (apply HS; rewrite !hasSymbol_iff; apply HL; now left). destruct X as [X|[]]. congruence. }
      destruct Red as [R|[R|R]]; [now left | now right|]. exfalso.
      destruct (h_coeff Y B Hlt t (degIn t s) s Ks (degIn_nonneg t s)) as (ls & Cs & _). destruct (h_coeff Y B Hlt t (degIn t v) v Hv' (degIn_nonneg t v)) as (lv & Cv & _).
      pose proof (coef_ok B HB t _ s ls Ks (degIn_nonneg t s) Cs) as Kls. pose proof (coef_ok B HB t _ v lv Hv' (degIn_nonneg t v) Cv) as Klv.
      destruct (rem_numbers Y B HB ls lv Kls Klv) as (w & Kw & Hw & _).
      + now apply (isCoef_lead t v lv Cv).
      + intros m Hm. apply (in_map fst) in Hm. apply (isCoef_fst t _ v lv Cv Ov) in Hm. apply in_map_iff in Hm as (m' & <- & Hm'). now apply HI.
      + intros x. destruct (sym_dec x t) as [->|Nx]; [eapply isCoef_free; exact Cs|]. pose proof (isCoef_degIn t _ s ls x Cs). pose proof (degIn_nonneg x ls). rewrite (Ws x) in H; [lia|]. intros [X|[]]. congruence.
      + intros x. destruct (sym_dec x t) as [->|Nx]; [eapply isCoef_free; exact Cv|]. pose proof (isCoef_degIn t _ v lv x Cv). pose proof (degIn_nonneg x lv). rewrite (Wv x) in H; [lia|]. intros [X|[]]. congruence.
      + exact (R ls lv w Cs Cv Kw Hw).
  Qed.
End User.

Lemma small_plain q : smallNumber q -> plain q.
Proof. intros [A C]. split; [exact A | exact C]. Qed.
Lemma divide_only Y F k n F0 k0 u v x a : polyDivide Y (world Y F0 k0) F0 u v = Ok x a ->
  polyDivide Y (world Y F k) n u v = Fuel \/ exists facts, polyDivide Y (world Y F k) n u v = Ok x facts.
Proof.
  intros E. destruct (world_max Y F F0 k k0) as [H H0].
  pose proof (m_polyDivide Y _ _ H n (Nat.max n F0) u v ltac:(lia)) as R. pose proof (m_polyDivide Y _ _ H0 F0 (Nat.max n F0) u v ltac:(lia)) as R0.
  rewrite E in R0. destruct R0 as (l & R0). rewrite R0 in R.
  destruct (polyDivide Y (world Y F k) n u v) as [y b| | |]; cbn in R; [right|now left|discriminate R|discriminate R].
  destruct R as (l' & R). exists b. congruence.
Qed.
