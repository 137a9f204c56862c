(** The algorithms of poly::gcd on polynomials in one symbol. *)
From Verif Require Import LaurentSpec DivSpec LaurentOrder LaurentProd LaurentIdent LaurentSum LaurentExpand LaurentMain LaurentApi RingProd RingSum RingPos RingSpec RingTerm LaurentCoeff PolyTotal PolyCode HRuns DivExact DivRun DivRem DivApi DivUser FuelMono FuelApi SimplApi ApiSpec ApiModel ExprProofs NumInt NumberProofs GcdProofs GcdPoly World WorldExact SoundOps RPow RunSpec NumberSpec PolyModel.
From Coq Require Import Lia Lra Bool Permutation Sorted Classical_Prop.
From Verif Require Import Run LaurentSpec.
Open Scope Z_scope.

Section Run.
  Variables (Y : sys) (B : Z) (t : sym) (st : bool) (r0 : env) (F k : nat).
  Hypothesis Hlt : exactUpTo B (s_nlt Y).
  Hypothesis HB : 0 <= B < intMax.
  Hypothesis Hg : wgood st r0.
  Notation W := (world Y F k).
  Notation hruns := (hruns Y).
  Notation P_ok := (P_ok B).
  Notation upoly := (upoly B t).
  Notation H := (holds st r0).
  Notation x := (symE t).

  Lemma not_nil (p : poly) : p = [] \/ p <> [].
  Proof. destruct p; [now left | right; discriminate]. Qed.
  Lemma sp_scalar e p : nz e -> upoly p -> spec H (w_prod W [e; polyE p]) (fun y => exists s, y = polyE s /\ upoly s /\ sim p s).
  Proof.
    intros (c & -> & C & N) U. destruct (multiple Y B Hlt HB c p C N (proj1 U)) as (s & Ks & Vs & _).
    eapply spec_weaken; [apply (from_ev Y st r0 F k (fun W => w_prod W [Num c; polyE p]) (polyE s)); [intros V V' HV; apply (o_prod _ _ HV)|]|].
    - eapply ev_imp; [apply (scalar_prod Y B Hlt c p s); auto; apply U|]. intros F' k' E. now exists [].
    - intros y ->. exists s. split; [reflexivity|]. split; [now apply (uni_multiple B t c p s)|]. exists c. auto.
  Qed.
  Lemma sp_expand p : upoly p -> spec H (w_expand W (polyE p)) (fun y => y = polyE p).
  Proof.
    intros [(O & P & D) _]. apply (from_ev Y st r0 F k (fun W => w_expand W (polyE p))); [intros V V' HV; apply (o_expand _ _ HV)|].
    eapply ev_imp; [apply (expandPoly Y B Hlt p O)|].
    - eapply pdeg_le; [exact D | apply polyDeg_pdeg].
    - intros F' k' E. now exists [].
  Qed.
  Lemma sp_coef i p : upoly p -> 0 <= i -> spec H (coeff W (polyE p) x i) (fun e => exists q, e = Num q /\ canon q /\ (forall r, coefV t i r p = Q2R q) /\ ((exists s, isCoef t i p s /\ s <> []) -> Q2R q <> 0%R)).
  Proof.
    intros U Hi. destruct (h_coeff Y B Hlt t i p (proj1 U) Hi) as (s & C & E).
    eapply spec_weaken; [apply (from_runs Y (fun W _ => coeff W (polyE p) x i) (fun e => e = polyE s)); [intros V V' n n' _ HV; now apply m_coeff | exact E]|].
    intros e ->. destruct (coef_num B t HB i p s U Hi C) as (q & Eq & Cq & Nq & Vq). exists q. split; [exact Eq|]. split; [exact Cq|]. split; [exact Vq|].
    intros (s' & C' & N'). apply Nq. now rewrite (isCoef_unique _ _ _ _ _ C C').
  Qed.
  Lemma deg_is p : upoly p -> degree Y (polyE p) x = degIn t p.
  Proof. intros [(O & P & D) _]. apply degree_poly; [exact P | lia]. Qed.
  Lemma lead_exists p : upoly p -> p <> [] -> exists s, isCoef t (degIn t p) p s /\ s <> [].
  Proof.
    intros U N. destruct (h_coeff Y B Hlt t (degIn t p) p (proj1 U) (degIn_nonneg t p)) as (s & C & _). exists s. split; [exact C|]. apply (isCoef_lead t p s C); [apply U | apply U | exact N].
  Qed.
  Lemma sp_lead p : upoly p -> p <> [] -> spec H (leadingCoeff Y W (polyE p) x) (fun e => exists q, e = Num q /\ canon q /\ Q2R q <> 0%R /\ forall r, coefV t (degIn t p) r p = Q2R q).
  Proof.
    intros U N. unfold leadingCoeff. rewrite (deg_is p U). eapply spec_weaken; [apply sp_coef; [exact U | apply degIn_nonneg]|]. intros e (q & -> & C & V & X). exists q. split; [reflexivity|]. split; [exact C|]. split; [apply X; now apply lead_exists | exact V].
  Qed.
  Lemma sp_lead_nz p : upoly p -> p <> [] -> spec H (leadingCoeff Y W (polyE p) x) nz.
  Proof. intros U N. eapply spec_weaken; [apply sp_lead; assumption|]. intros e (q & -> & C & V & _). now apply nz_intro. Qed.

  (** Division by a number *)
  Lemma sp_div_const p e : upoly p -> nz e -> spec H (divide Y W F [x] (polyE p) e) (fun y => exists s z, y = (polyE s, z) /\ upoly s /\ sim p s).
  Proof.
    intros U (c & -> & C & N). destruct (classic (invertible Y c)) as [I|I].
    - destruct (inv_num c N) as (i & Ci & Vi). assert (Ni : Q2R i <> 0%R) by (rewrite Vi; now apply Rinv_neq_0_compat).
      destruct (multiple Y B Hlt HB i p Ci Ni (proj1 U)) as (s & Ks & Vs & Ds).
      assert (Us : upoly s) by now apply (uni_multiple B t i p s).
      rewrite <- (num_polyE c). eapply spec_weaken; [apply (from_runs Y (fun W n => divide Y W n (map symE [t]) (polyE p) (polyE [(c, [])])) (fun y => y = (polyE s, zero)))|].
      + intros V V' n n' Hn HV. now apply m_divide.
      + apply (divide_exact Y B Hlt HB); auto.
        * now apply num_ok.
        * apply U.
        * discriminate.
        * destruct U as [(_ & _ & D) _]. replace (polyDeg [(c, [])]) with 0 by reflexivity. lia.
        * intros r Hr. rewrite Vs, num_polyV, Vi by exact Hr. field. exact N.
        * intros m [<-|[]]. exact I.
        * intros y Hy. split; [now apply Us | cbn; lia].
      + intros y ->. exists s, zero. split; [reflexivity|]. split; [exact Us|]. exists i. auto.
    - rewrite <- num_polyE. cbn [divide]. rewrite (valid Y B HB p [(c, [])] (proj1 U)) by (try apply num_ok; auto; discriminate). cbn [negb].
      destruct (isEqual (polyE [(c, [])]) (polyE p)) eqn:E.
      + apply isEqual_eq, polyE_inj in E; [|now apply (num_ok B) | apply U]. subst p. apply spec_ret. exists [(1%Q, [])], zero. split; [reflexivity|]. split; [apply (uni_num B t HB); [reflexivity | rewrite Q2R_1; lra]|].
        destruct (inv_num c N) as (i & Ci & Vi). exists i. split; [exact Ci|]. rewrite Vi. split; [now apply Rinv_neq_0_compat|]. intros r _. rewrite !num_polyV, Q2R_1. field. exact N.
      + rewrite polyE_isZero by apply U. destruct (not_nil p) as [->|Np].
        { apply spec_ret. exists [], zero. split; [reflexivity|]. split; [now apply uni_nil|]. exists 1%Q. split; [reflexivity|]. rewrite Q2R_1. split; [lra|]. intros r _. change (polyV r []) with 0%R. ring. }
        destruct p as [|m0 p0] eqn:Ep; [congruence|]. rewrite <- Ep in *. clear Ep m0 p0.
        generalize F at 3 as n. intros [|n]; [exact Logic.I|].
        cbn [divideLoop]. rewrite deg_is by exact U. rewrite num_polyE. change (degree Y (Num c) x) with 0.
        destruct (Z.ltb_spec (degIn t p) 0) as [L|_]; [pose proof (degIn_nonneg t p); lia|].
        eapply spec_bind; [apply sp_lead; assumption|]. intros lr (q & -> & Cq & Nq & _).
        eapply spec_bind with (Q1 := fun e => e = Num c); [apply spec_ret; reflexivity|]. intros lv ->.
        eapply spec_bind with (Q1 := fun _ => False); [|intros ? []].
        cbn [divide]. unfold isInputValid. cbn [isZero hasValidType]. rewrite (nz_qeqb c N), andb_false_r. cbn [andb negb].
        unfold divideEmptyList. eapply spec_bind with (Q1 := fun _ => False); [|intros ? []].
        pose proof (sp_inv Y st r0 F k Hg c C N) as X. unfold oneOver in *. destruct (w_pow W (Num c) mOne) as [a l| | |] eqn:Ew; cbn [spec] in *; auto. intros Hl. destruct (X Hl) as (i & -> & Ci & Vi). apply I. exists F, k, i, l. auto.
  Qed.

  (** Pseudo-remainders *)
  Definition remOf (u v r' : poly) : Prop := exists c q, canon c /\ Q2R c <> 0%R /\ isPoly q /\ forall r, allPos r -> (polyV r r' = Q2R c * polyV r u - q r * polyV r v)%R.
  Lemma rem_refl u v : remOf u v u.
  Proof. exists 1%Q, (fun _ => 0%R). split; [reflexivity|]. rewrite Q2R_1. split; [lra|]. split; [apply isPoly_zero|]. intros r _. ring. Qed.
  Lemma rem_next u v r1 r2 l (w : env -> R) : canon l -> Q2R l <> 0%R -> isPoly w -> (forall r, allPos r -> polyV r r1 = Q2R l * polyV r u - w r * polyV r v)%R -> remOf r1 v r2 -> remOf u v r2.
  Proof.
    intros Cl Nl Pw V1 (c & q & Cc & Nc & Pq & V2). exists (qmul c l), (fun r => Q2R c * w r + q r)%R. split; [apply qmul_spec|]. rewrite Q2R_qmul. split; [now apply Rmult_integral_contrapositive|].
    split; [apply (isPoly_sum Y); [apply (isPoly_prod Y); [now apply isPoly_Q | exact Pw] | exact Pq]|]. intros r Hr. rewrite V2, V1 by exact Hr. ring.
  Qed.
  Lemma rem_sim u v r1 r2 : sim r1 r2 -> remOf u v r1 -> remOf u v r2.
  Proof.
    intros (d & Cd & Nd & Vd) (c & q & Cc & Nc & Pq & V). exists (qmul d c), (fun r => Q2R d * q r)%R. split; [apply qmul_spec|]. rewrite Q2R_qmul. split; [now apply Rmult_integral_contrapositive|].
    split; [apply (isPoly_prod Y); [now apply isPoly_Q | exact Pq]|]. intros r Hr. rewrite Vd, V by exact Hr. ring.
  Qed.

  Lemma isPoly_pow i : 0 <= i -> isPoly (fun r => powerRZ (symV r t) i).
  Proof.
    intros Hi. rewrite <- (Z2Nat.id i Hi). induction (Z.to_nat i) as [|n IH]; [exact isPoly_one|].
    destruct (isPoly_prod Y _ _ (isPoly_sym (fst t) (snd t)) IH) as (s & O & P & V). exists s. split; [exact O|]. split; [exact P|]. intros r Hr. rewrite V by exact Hr.
    rewrite <- !pow_powerRZ. reflexivity.
  Qed.
  Lemma sp_pseudoLoop v l : upoly v -> canon l -> Q2R l <> 0%R -> forall n r qe sigma, upoly r ->
    spec H (pseudoLoop Y W false x (polyE v) (Num l) n qe (polyE r) (degIn t r) sigma) (fun y => exists r' s, y = (qe, polyE r', s) /\ upoly r' /\ remOf r v r').
  Proof.
    intros Uv Cl Nl. induction n as [|n IH]; intros u qe sigma Uu; [exact Logic.I|]. cbn [pseudoLoop]. rewrite (deg_is v Uv).
    destruct (Z.ltb_spec (degIn t u) (degIn t v)) as [Less|Ge]; [apply spec_ret; exists u, sigma; auto using rem_refl|].
    destruct Uu as [(Ou & Pu & Du) Wu] eqn:EU. assert (Uu' : upoly u) by exact Uu. destruct Uv as [(Ov & Pv & Dv) Wv] eqn:EV. assert (Uv' : upoly v) by exact Uv. clear EU EV.
    pose proof (degIn_nonneg t u) as N1. pose proof (degIn_nonneg t v) as N2. pose proof (uni_deg B t u Uu') as Eu. pose proof (uni_deg B t v Uv') as Ev.
    pose (i := degIn t u - degIn t v). assert (Hi : 0 <= i) by (unfold i; lia). fold i.
    eapply spec_bind; [apply sp_coef; [exact Uu' | exact N1]|]. intros e (a & -> & Ca & _ & _).
    eapply spec_bind; [apply (from_runs Y (fun W _ => monomial W x i) (fun e => e = powE t i)); [intros V V' m m' _ HV; apply (o_pow _ _ HV) | apply h_eq; apply (monomial_ev Y t)]|]. intros e ->.
    pose proof (isV_num a Ca) as (Ra & Ea & Va). pose proof (isV_pow t i Hi) as (Rt & Et & Vt). pose proof (isV_poly v Ov Pv) as (Rv & Ev' & Vv). pose proof (isV_poly u Ou Pu) as (Ru & Eu' & Vu). pose proof (isV_num l Cl) as (Rl & El & Vl).
    eapply spec_bind.
    { apply (from_runs Y (fun W _ => w_prod W [Num a; powE t i])); [intros V V' m m' _ HV; apply (o_prod _ _ HV)|].
      apply (v_prod Y B Hlt i (fun r => Q2R a * powerRZ (symV r t) i)%R); [cbn; lia | intros y [<-|[<-|[]]]; assumption | cbn [degSum fold_right degreeBound]; lia | unfold i in *; lia|].
      intros r Hr. cbn [prodVal fold_right]. rewrite Va, Vt by exact Hr. cbn. f_equal. ring. }
    intros te (Rte & Ete & Vte).
    eapply spec_bind with (Q1 := fun q' => q' = qe); [apply spec_ret; reflexivity|]. intros ? ->.
    eapply spec_bind.
    { apply (from_runs Y (fun W _ => w_prod W [Num l; polyE u])); [intros V V' m m' _ HV; apply (o_prod _ _ HV)|].
      apply (v_prod Y B Hlt (degIn t u) (fun r => Q2R l * polyV r u)%R); [cbn; lia | intros y [<-|[<-|[]]]; assumption | cbn [degSum fold_right degreeBound]; lia | lia|].
      intros r Hr. cbn [prodVal fold_right]. rewrite Vl, Vu by exact Hr. cbn. f_equal. ring. }
    intros ae Hae. unfold minus.
    eapply spec_bind.
    { apply (from_runs Y (fun W _ => w_prod W [mOne; polyE v; te])); [intros V V' m m' _ HV; apply (o_prod _ _ HV)|].
      apply (v_prod Y B Hlt (degIn t u) (fun r => - (Q2R a * powerRZ (symV r t) i * polyV r v))%R); [cbn; lia | intros y [<-|[<-|[<-|[]]]]; try assumption; apply rg_num; reflexivity | cbn [degSum fold_right degreeBound mOne]; unfold i in *; lia | lia|].
      intros r Hr. cbn. rewrite Vv, Vte by exact Hr. cbn. f_equal. unfold Q2R at 1; cbn. field. }
    intros be Hbe.
    eapply spec_bind.
    { apply (from_runs Y (fun W _ => w_sum W [ae; be])); [intros V V' m m' _ HV; apply (o_sum _ _ HV)|]. apply (v_sum Y (degIn t u) _ _ _ _ Hae Hbe). }
    intros r1 Hr1.
    eapply spec_bind.
    { apply (from_runs Y (fun W _ => w_expand W r1)); [intros V V' m m' _ HV; apply (o_expand _ _ HV)|]. apply (v_expand Y B Hlt (degIn t u) _ r1 Hr1). lia. }
    intros e (r' & -> & Or & Pr & Dr & Vr).
    assert (Ur : upoly r').
    { split; [split; [exact Or|]; split; [exact Pr | lia]|]. intros y Hy. assert (Ny : y <> t) by (intros ->; apply Hy; now left). apply value_free; auto. intros r T Hr HT. rewrite !Vr by (try apply updS_pos; assumption).
      rewrite !free_value by (auto using (Wu y Hy), (Wv y Hy)). rewrite updS_other by congruence. reflexivity. }
    assert (S1 : remOf r' v r' -> remOf u v r') by (intros _; exists l, (fun r => Q2R a * powerRZ (symV r t) i)%R; split; [exact Cl|]; split; [exact Nl|]; split; [apply (isPoly_prod Y); [now apply isPoly_Q | now apply isPoly_pow]|]; intros r Hr; rewrite Vr by exact Hr; ring).
    destruct (isZero (polyE r')); [apply spec_ret; exists r', sigma; auto using rem_refl|].
    rewrite (deg_is r' Ur). eapply spec_weaken; [apply IH; exact Ur|]. intros y (r2 & s & -> & U2 & R2). exists r2, s. split; [reflexivity|]. split; [exact U2|].
    eapply rem_next; [exact Cl | exact Nl | | | exact R2]; [apply (isPoly_prod Y (fun _ => Q2R a) (fun r => powerRZ (symV r t) i)); [now apply isPoly_Q | now apply isPoly_pow]|].
    intros r Hr. rewrite Vr by exact Hr. ring.
  Qed.
  Lemma sp_pseudo u v : upoly u -> upoly v -> v <> [] -> spec H (pseudoDivide Y W false F (polyE u) (polyE v) x) (fun y => exists q r', y = (q, polyE r') /\ upoly r' /\ remOf u v r').
  Proof.
    intros Uu Uv Nv. unfold pseudoDivide. rewrite (valid Y B HB u v (proj1 Uu) (proj1 Uv) Nv). cbn [negb]. rewrite (deg_is u Uu), (deg_is v Uv).
    eapply spec_bind; [apply sp_lead; assumption|]. intros e (l & -> & Cl & Nl & _).
    eapply spec_bind; [apply sp_expand; exact Uu|]. intros e ->.
    eapply spec_bind; [apply sp_pseudoLoop; assumption|]. intros y (r1 & s & -> & U1 & R1). cbv zeta.
    eapply spec_bind; [apply spec_true|]. intros _ _.
    eapply spec_bind; [apply sp_pow_nz; now apply nz_intro|]. intros e He.
    eapply spec_bind; [apply sp_scalar; eassumption|]. intros ? (r2 & -> & U2 & S2).
    eapply spec_bind; [apply sp_expand; exact U2|]. intros ? ->.
    eapply spec_bind with (Q1 := fun _ => True); [apply spec_true|]. intros q _. apply spec_ret. exists q, r2. eauto using rem_sim.
  Qed.

  (** gcd of two numbers *)
  Lemma isZero_num q : canon q -> isZero (Num q) = true <-> Q2R q = 0%R.
  Proof. intros C. cbn [isZero]. split; [intros E; apply qeqb_true in E; subst; apply Q2R_0 | intros E; apply (Q2R_zero q C) in E; now subst]. Qed.
  Lemma computeNumerics_nz p q : canon p -> canon q -> Q2R p <> 0%R -> exists c, computeNumerics p q = Num c /\ canon c /\ Q2R c <> 0%R.
  Proof.
    intros Cp Cq N. unfold computeNumerics, numZ. eexists. split; [reflexivity|]. split; [apply canon_ofZ|]. rewrite Q2R_ofZ. apply not_0_IZR.
    destruct (qIsInt p && qIsInt q); [|discriminate]. intros E. pose proof (integerGcd_ok (qnum p) (qnum q)) as X. rewrite E in X. cbn in X. symmetry in X. apply Z.gcd_eq_0_l in X.
    apply N. destruct p as [n d]. cbn in X. subst n. unfold Q2R. cbn. ring.
  Qed.
  Lemma sp_w_gcd_num sub a b : canon a -> canon b -> Q2R a <> 0%R \/ Q2R b <> 0%R -> spec H (w_gcd W sub [] (Num a) (Num b)) nz.
  Proof.
    intros Ca Cb Hab. destruct k as [|k']; [exact Logic.I|]. cbn [world step w_gcd]. unfold gcdWith.
    eapply spec_bind; [apply expand_num|]. intros ue ->. eapply spec_bind; [apply expand_num|]. intros ve ->.
    assert (N1 : Q2R 1 <> 0%R) by (rewrite Q2R_1; lra).
    destruct (isOne (Num a) || isOne (Num b)); [now apply sp_normalize_num|].
    destruct (isZero (Num a)) eqn:Ea; destruct (isZero (Num b)) eqn:Eb; cbn [andb].
    - apply isZero_num in Ea, Eb; auto. tauto.
    - apply sp_normalize_num; auto. intros E. apply (isZero_num b Cb) in E. congruence.
    - apply sp_normalize_num; auto. intros E. apply (isZero_num a Ca) in E. congruence.
    - assert (Na : Q2R a <> 0%R) by (intros E; apply (isZero_num a Ca) in E; congruence).
      destruct (isEqual (Num a) (Num b)); [now apply sp_normalize_num|].
      destruct (computeNumerics_nz a b Ca Cb Na) as (c & -> & Cc & Nc). now apply sp_normalize_num.
  Qed.
  Lemma sp_gcd_num sub a b : canon a -> canon b -> Q2R a <> 0%R \/ Q2R b <> 0%R -> spec H (gcdCompute Y W sub (Num a) (Num b)) nz.
  Proof.
    intros Ca Cb Hab. unfold gcdCompute, isInputValid. change (listOfSymbols Y (Num a) (Num b)) with (@nil expr). cbn [hasValidType andb].
    destruct (isZero (Num a) && isZero (Num b)) eqn:E; [|now apply sp_w_gcd_num]. apply andb_true_iff in E as [Ea Eb]. apply isZero_num in Ea, Eb; auto. tauto.
  Qed.

  (** The lowest exponent *)
  Lemma min_fac f : 0 < snd f < intMax -> minDegree Y (facE f) x = Ok (if sym_dec (fst f) t then snd f else 0) [].
  Proof.
    destruct f as [s i]. cbn [fst snd]. intros Hi. unfold facE. cbn [fst snd].
    assert (S1 : forall a b : Z, (if isEqual (symE s) x then a else b) = if sym_dec s t then a else b).
    { intros a b. rewrite isEqual_symE. destruct (sym_dec s t) as [->|N]; [now rewrite symEqb_refl | now rewrite (proj2 (symEqb_neq s t) N)]. }
    assert (S2 : minDegree Y (symE s) x = Ok (if sym_dec s t then 1 else 0) []) by (rewrite <- S1; reflexivity).
    destruct (Z.eqb_spec i 1) as [->|Ni]; [exact S2|].
    cbn [minDegree]. change (isEqual (Pow (symE s) (Num (ofZ i))) x) with false. cbn [numericEval]. change (qnum (ofZ i)) with i.
    replace (fitsInt i) with true by (symmetry; unfold fitsInt, intMin, intMax in *; lia). cbn [negb]. rewrite S2, isEqual_symE.
    destruct (sym_dec s t) as [->|N]; [now rewrite symEqb_refl | rewrite (proj2 (symEqb_neq s t) N)]. cbn. now rewrite Z.mul_0_r.
  Qed.
  Lemma fold_map_add (g : expr -> Z) l : forall a, fold_left Z.add (map g l) a = fold_left (fun a s => a + g s) l a.
  Proof. induction l as [|e l IH]; intros a; [reflexivity|]. cbn [map fold_left]. apply IH. Qed.
  Lemma min_list (l : list expr) (g : expr -> Z) : (forall e, In e l -> minDegree Y e x = Ok (g e) []) -> mapM (fun s => minDegree Y s x) l = Ok (map g l) [].
  Proof.
    induction l as [|e l IH]; intros Hl; [reflexivity|]. cbn [mapM]. rewrite (Hl e) by now left. cbn [bind]. rewrite IH by (intros; apply Hl; now right). reflexivity.
  Qed.
  Lemma min_mono m : posKey (snd m) -> kdeg (snd m) < intMax -> minDegree Y (monoE m) x = Ok (kget (snd m) t) [].
  Proof.
    intros P D.
    assert (K : forall f, In f (snd m) -> minDegree Y (facE f) x = Ok (degree Y (facE f) x) []).
    { intros f Hf. assert (0 < snd f < intMax). { pose proof (kdeg_in (snd m) f Hf). unfold posKey in P. rewrite Forall_forall in P. specialize (P f Hf). lia. }
      rewrite min_fac, degree_fac by assumption. reflexivity. }
    pose proof (degree_mono Y m t P D) as Q. rewrite <- Q. destruct (monoE_cases m) as [(E & ->)|[(f & -> & ->)|(N & E & _ & c & F' & C)]].
    - reflexivity.
    - apply K. now left.
    - rewrite E. change (minDegree Y (Prod (factorsE m)) x) with (d <- mapM (fun s => minDegree Y s x) (factorsE m) ;; ret (fold_left Z.add d 0)).
      change (degree Y (Prod (factorsE m)) x) with (fold_left (fun a s => a + degree Y s x) (factorsE m) 0).
      rewrite (min_list (factorsE m) (fun e => degree Y e x)).
      + cbn [bind]. rewrite fold_map_add. reflexivity.
      + intros e He. rewrite F' in He. apply in_app_or in He as [He|He]; [destruct (C e He) as (q & ->); reflexivity|]. apply in_map_iff in He as (f & <- & Hf). now apply K.
  Qed.
  Lemma fold_min_in l : forall a, let d := fold_left Z.min l a in (d = a \/ In d l) /\ d <= a /\ forall b, In b l -> d <= b.
  Proof.
    induction l as [|b l IH]; intros a; cbn [fold_left]; [cbn; split; [now left|]; split; [lia | intros ? []]|].
    specialize (IH (Z.min a b)). cbv zeta in *. destruct IH as (A & D & E). split; [|split; [lia|]].
    - destruct A as [A|A]; [|right; now right]. rewrite A. destruct (Z.min_spec a b) as [[_ ->]|[_ ->]]; [now left | right; now left].
    - intros c [<-|Hc]; [lia | now apply E].
  Qed.
  Lemma min_poly p : upoly p -> p <> [] -> exists d, minDegree Y (polyE p) x = Ok d [] /\ exists m, In m p /\ kget (snd m) t = d.
  Proof.
    intros [(O & P & D) _] N.
    assert (K : forall m, In m p -> minDegree Y (monoE m) x = Ok (kget (snd m) t) [] /\ degree Y (monoE m) x = kget (snd m) t).
    { intros m Hm. assert (kdeg (snd m) < intMax) by (pose proof (kdeg_le p m Hm); lia). assert (posKey (snd m)) by (unfold posPoly in P; rewrite Forall_forall in P; now apply P).
      split; [now apply min_mono | now apply degree_mono]. }
    destruct (polyE_cases p) as [(E & _)|[(m & -> & ->)|(L & ->)]]; [now elim (N E) | |].
    - exists (kget (snd m) t). split; [apply K; now left|]. exists m. split; [now left | reflexivity].
    - change (minDegree Y (Sum (map monoE p)) x) with (d <- mapM (fun s => minDegree Y s x) (map monoE p) ;; match d with [] => UB "min_element of nothing"%string | a :: r => ret (fold_left Z.min r a) end).
      rewrite (min_list (map monoE p) (fun e => degree Y e x)).
      2:{ intros e He. apply in_map_iff in He as (m & <- & Hm). destruct (K m Hm) as [A ->]. exact A. }
      cbn [bind]. destruct p as [|m p]; [congruence|]. cbn [map]. pose proof (fold_min_in (map (fun e => degree Y e x) (map monoE p)) (degree Y (monoE m) x)) as (A & _ & _).
      eexists. split; [reflexivity|]. destruct A as [A|A].
      + rewrite A. exists m. split; [now left|]. symmetry. apply K. now left.
      + apply in_map_iff in A as (e & <- & A). apply in_map_iff in A as (m' & <- & Hm'). exists m'. split; [now right|]. symmetry. apply K. now right.
  Qed.

  (** The content: a number *)
  Lemma qabs_nz q : canon q -> Q2R q <> 0%R -> nz (Num (qabs q)).
  Proof. intros C N. destruct (qabs_R q) as [R1 R2]. apply nz_intro; [now apply R2|]. rewrite R1. now apply Rabs_no_R0. Qed.
  Lemma polyE_num p q : polyOK p -> p <> [] -> polyE p = Num q -> p = [(q, [])] /\ canon q /\ Q2R q <> 0%R.
  Proof.
    intros O N E. destruct (polyE_cases p) as [(E' & _)|[(m & -> & E')|(_ & E')]]; [now elim (N E') | | rewrite E' in E; discriminate]. rewrite E' in E.
    assert (M : snd m = [] /\ fst m = q).
    { destruct (monoE_cases m) as [(A & C)|[(f & -> & C)|(_ & C & _)]]; [rewrite C in E; split; [exact A | now injection E] | | rewrite C in E; discriminate]. rewrite C in E. unfold facE in E. destruct (snd f =? 1); discriminate. }
    destruct m as [c l]. cbn in M. destruct M as [-> ->]. split; [reflexivity|]. now apply num_nonzero.
  Qed.
  Lemma sp_contentLoop sub p : upoly p -> forall n i e, 0 <= i -> nz e -> spec H (contentLoop Y W sub (polyE p) x i n e) nz.
  Proof.
    intros U. induction n as [|n IH]; intros i e Hi He; [now apply spec_ret|]. cbn [contentLoop].
    eapply spec_bind; [apply sp_coef; assumption|]. intros a (q & -> & Cq & _). destruct He as (c & -> & Cc & Nc).
    eapply spec_bind; [apply sp_gcd_num; auto|]. intros c' Hc'. apply IH; [lia | exact Hc'].
  Qed.
  Lemma sp_content sub p : upoly p -> p <> [] -> spec H (content Y W sub (polyE p) x) nz.
  Proof.
    intros U N. unfold content. eapply spec_bind; [apply sp_expand; exact U|]. intros e ->.
    assert (G : spec H (d <- minDegree Y (polyE p) x ;; contentLoop Y W sub (polyE p) x d (Z.to_nat (degree Y (polyE p) x - d + 1)) zero) nz).
    { destruct (min_poly p U N) as (d & -> & m & Hm & Ed). eapply spec_bind with (Q1 := fun y => y = d); [intros _; reflexivity|]. intros ? ->. rewrite (deg_is p U).
      assert (D0 : 0 <= d <= degIn t p).
      { rewrite <- Ed. split; [apply kget_nonneg; destruct U as [(_ & P & _) _]; unfold posPoly in P; rewrite Forall_forall in P; now apply P | now apply degIn_ge]. }
      replace (Z.to_nat (degIn t p - d + 1)) with (Datatypes.S (Z.to_nat (degIn t p - d))) by lia. cbn [contentLoop].
      eapply spec_bind; [apply sp_coef; [exact U | lia]|]. intros a (q & -> & Cq & _ & Nq).
      assert (Q2R q <> 0%R).
      { apply Nq. destruct (h_coeff Y B Hlt t d p (proj1 U) (proj1 D0)) as (s & C & _). exists s. split; [exact C|]. intros ->.
        destruct C as (_ & V & _). destruct (coef_nonzero t d p m) as (r & Hr & X); [apply U | exact Hm | exact Ed|]. apply X. now rewrite <- V. }
      eapply spec_bind; [apply (sp_gcd_num sub q 0); auto; reflexivity|]. intros c Hc. apply sp_contentLoop; [exact U | lia | exact Hc]. }
    destruct (polyE p) eqn:E; try exact G. apply spec_ret.
    apply polyE_num in E as (_ & C & N'); [now apply qabs_nz | apply U | exact N].
  Qed.

  (** ** The two algorithms *)
  Notation upoly1 p := (upoly p /\ p <> []).
  Lemma sim_up p s : upoly p -> upoly s -> sim p s -> p <> [] -> s <> [].
  Proof. intros Up Us S N. now apply (sim_nonempty p s (proj1 (proj1 Up)) (proj1 (proj1 Us))). Qed.
  Lemma polyE_defined p : isUndefined (polyE p) = false.
  Proof.
    destruct (polyE_cases p) as [(_ & ->)|[(m & _ & ->)|(_ & ->)]]; try reflexivity.
    destruct (monoE_cases m) as [(_ & ->)|[(f & _ & ->)|(_ & -> & _)]]; try reflexivity. unfold facE. destruct (snd f =? 1); reflexivity.
  Qed.
  Lemma rem_gcd u v r' g : remOf u v r' -> gcdOf v r' g -> gcdOf u v g.
  Proof. intros (c & q & C & N & P & V). now apply (gcd_step Y u v r' g c q). Qed.
  Lemma isZero_cases p : upoly p -> (p = [] /\ isZero (polyE p) = true) \/ (p <> [] /\ isZero (polyE p) = false).
  Proof. intros U. rewrite polyE_isZero by apply U. destruct p; [left | right]; auto. split; [discriminate | reflexivity]. Qed.

  Lemma sp_primitiveLoop : forall j u v, upoly u -> u <> [] -> upoly v ->
    spec H (primitiveLoop Y W F j x [x] (polyE u) (polyE v)) (fun o => exists g, o = Some (polyE g) /\ upoly g /\ g <> [] /\ gcdOf u v g).
  Proof.
    induction j as [|j IH]; intros u v Uu Nu Uv; [exact Logic.I|]. cbn [primitiveLoop].
    destruct (isZero_cases v Uv) as [[-> ->]|[Nv ->]]; [apply spec_ret; exists u; split; [reflexivity|]; split; [exact Uu|]; split; [exact Nu | apply gcd_zero; apply Uu]|].
    eapply spec_bind; [apply sp_pseudo; assumption|]. intros y (q & r' & -> & Ur & Rr).
    destruct (isZero_cases r' Ur) as [[-> ->]|[Nr ->]].
    { eapply spec_weaken; [apply (IH v []); [exact Uv | exact Nv | now apply uni_nil]|]. intros o (g & -> & Ug & Ng & G). exists g. split; [reflexivity|]. split; [exact Ug|]. split; [exact Ng|]. now apply (rem_gcd u v []). }
    rewrite polyE_defined.
    eapply spec_bind; [apply sp_content; assumption|]. intros c Hc.
    eapply spec_bind; [apply sp_div_const; eassumption|]. intros ? (s & z & -> & Us & Ss).
    eapply spec_weaken; [apply (IH v s); assumption|]. intros o (g & -> & Ug & Ng & G). exists g. split; [reflexivity|]. split; [exact Ug|]. split; [exact Ng|].
    apply (rem_gcd u v r'); [exact Rr|]. apply (gcd_sim Y v v s r' g g); auto using sim_refl, sim_sym.
  Qed.
  Lemma sp_primitive u v : upoly u -> u <> [] -> upoly v -> v <> [] ->
    spec H (primitiveAlgo Y W F (polyE u) (polyE v) [x]) (fun e => exists g, e = polyE g /\ upoly g /\ g <> [] /\ gcdOf u v g).
  Proof.
    intros Uu Nu Uv Nv. cbn [primitiveAlgo].
    eapply spec_bind; [apply sp_content; assumption|]. intros uc (a & -> & Ca & Na).
    eapply spec_bind; [apply sp_content; assumption|]. intros vc (b & -> & Cb & Nb).
    eapply spec_bind; [apply sp_w_gcd_num; auto|]. intros d Hd.
    eapply spec_bind; [apply sp_div_const; [exact Uu | now apply nz_intro]|]. intros ? (u1 & z1 & -> & U1 & S1).
    eapply spec_bind; [apply sp_div_const; [exact Uv | now apply nz_intro]|]. intros ? (v1 & z2 & -> & V1 & S2).
    eapply spec_bind; [apply (sp_primitiveLoop F u1 v1); [exact U1 | now apply (sim_up u u1) | exact V1]|]. intros o (g & -> & Ug & Ng & G).
    eapply spec_bind; [apply sp_scalar; eassumption|]. intros ? (g1 & -> & Ug1 & S3).
    eapply spec_weaken; [apply sp_expand; exact Ug1|]. intros ? ->. exists g1. split; [reflexivity|]. split; [exact Ug1|]. split; [now apply (sim_up g g1)|].
    apply (gcd_sim Y u1 u v1 v g g1); auto using sim_sym.
  Qed.

  Lemma sp_minus_nz a : nz a -> spec H (minus W [a]) nz.
  Proof. intros Ha. unfold minus. apply sp_prod_nz; [apply (nz_Z (-1)); lia | exact Ha]. Qed.
  Lemma sp_expand_nz a : nz a -> spec H (w_expand W a) nz.
  Proof. intros (q & -> & C & N). eapply spec_weaken; [apply sp_expand_num|]. intros ? ->. now apply nz_intro. Qed.
  Lemma sp_div_nz a b : nz a -> nz b -> spec H (divide Y W F [] a b) (fun y => exists c z, y = (c, z) /\ nz c).
  Proof.
    intros (p & -> & Cp & Np) (q & -> & Cq & Nq). eapply spec_weaken; [apply sp_div_num; assumption|]. intros y (c & -> & Cc & Vc). exists (Num c), zero. split; [reflexivity|]. apply nz_intro; [exact Cc|]. rewrite Vc.
    unfold Rdiv. apply Rmult_integral_contrapositive. split; [exact Np | now apply Rinv_neq_0_compat].
  Qed.
  Lemma sp_subLoop : forall j u v beta psi delta i, upoly u -> u <> [] -> upoly v -> v <> [] -> nz beta -> nz psi ->
    spec H (subresultantLoop Y W F j x [x] [] (polyE u) (polyE v) beta psi delta i) (fun o => exists g, o = Some (polyE g) /\ upoly g /\ g <> [] /\ gcdOf u v g).
  Proof.
    induction j as [|j IH]; intros u v beta psi delta i Uu Nu Uv Nv Hb Hp; [exact Logic.I|]. cbn [subresultantLoop].
    eapply spec_bind; [apply sp_pseudo; assumption|]. intros y (q & r' & -> & Ur & Rr).
    destruct (isZero_cases r' Ur) as [[-> ->]|[Nr ->]].
    { apply spec_ret. exists v. split; [reflexivity|]. split; [exact Uv|]. split; [exact Nv|]. apply (rem_gcd u v []); [exact Rr | apply gcd_zero; apply Uv]. }
    rewrite polyE_defined.
    eapply spec_bind with (Q1 := fun y => exists b p d, y = (b, p, d) /\ nz b /\ nz p).
    { destruct (Nat.ltb 0 i); [|apply spec_ret; eauto 10]. cbv zeta.
      eapply spec_bind; [apply sp_lead_nz; assumption|]. intros lu Hlu. eapply spec_bind; [apply sp_minus_nz; exact Hlu|]. intros e He.
      eapply spec_bind; [apply sp_pow_nz; exact He|]. intros a Ha. eapply spec_bind; [apply sp_expand_nz; exact Ha|]. intros a' Ha'.
      eapply spec_bind; [apply sp_pow_nz; exact Hp|]. intros b Hb'. eapply spec_bind; [apply sp_expand_nz; exact Hb'|]. intros b' Hb''.
      eapply spec_bind; [apply sp_div_nz; eassumption|]. intros ? (p' & z & -> & Hp').
      eapply spec_bind; [apply sp_pow_nz; exact Hp'|]. intros c Hc. eapply spec_bind; [apply sp_prod_nz; eassumption|]. intros d Hd.
      eapply spec_bind; [apply sp_expand_nz; exact Hd|]. intros b2 Hb2. apply spec_ret. eauto 10. }
    intros ? (b & p & d & -> & Hb' & Hp').
    eapply spec_bind; [apply sp_div_const; eassumption|]. intros ? (s & z & -> & Us & Ss).
    eapply spec_weaken; [apply (IH v s b p d); auto; now apply (sim_up r' s)|]. intros o (g & -> & Ug & Ng & G). exists g. split; [reflexivity|]. split; [exact Ug|]. split; [exact Ng|].
    apply (rem_gcd u v r'); [exact Rr|]. apply (gcd_sim Y v v s r' g g); auto using sim_refl, sim_sym.
  Qed.
  Lemma sp_subresultant u v : upoly u -> u <> [] -> upoly v -> v <> [] ->
    spec H (subresultantGcd Y W F (polyE u) (polyE v) x []) (fun e => exists g, e = polyE g /\ upoly g /\ g <> [] /\ gcdOf u v g).
  Proof.
    intros Uu Nu Uv Nv. unfold subresultantGcd. cbv zeta.
    eapply spec_bind; [apply sp_content; assumption|]. intros uc (a & -> & Ca & Na).
    eapply spec_bind; [apply sp_content; assumption|]. intros vc (b & -> & Cb & Nb).
    eapply spec_bind; [apply sp_w_gcd_num; auto|]. intros d Hd.
    eapply spec_bind; [apply sp_div_const; [exact Uu | now apply nz_intro]|]. intros ? (u1 & z1 & -> & U1 & S1).
    eapply spec_bind; [apply sp_div_const; [exact Uv | now apply nz_intro]|]. intros ? (v1 & z2 & -> & V1 & S2).
    assert (Nu1 : u1 <> []) by now apply (sim_up u u1). assert (Nv1 : v1 <> []) by now apply (sim_up v v1).
    eapply spec_bind; [apply sp_lead_nz; [exact U1 | exact Nu1]|]. intros lu (p & -> & Cp & Np).
    eapply spec_bind; [apply sp_lead_nz; [exact V1 | exact Nv1]|]. intros lv (q & -> & Cq & Nq).
    eapply spec_bind; [apply sp_w_gcd_num; auto|]. intros g0 Hg0.
    eapply spec_bind; [apply sp_pow_nz; apply (nz_Z (-1)); lia|]. intros beta Hbeta.
    eapply spec_bind; [apply (sp_subLoop F u1 v1 beta mOne); auto; apply (nz_Z (-1)); lia|]. intros o (g & -> & Ug & Ng & G).
    eapply spec_bind; [apply sp_lead_nz; [exact Ug | exact Ng]|]. intros lu' Hlu'.
    eapply spec_bind; [apply sp_div_nz; eassumption|]. intros ? (t1 & z3 & -> & Ht1).
    eapply spec_bind; [apply sp_div_const; eassumption|]. intros ? (t2 & z4 & -> & Ut2 & St2).
    assert (Nt2 : t2 <> []) by now apply (sim_up g t2).
    eapply spec_bind; [apply sp_content; [exact Ut2 | exact Nt2]|]. intros c Hc.
    eapply spec_bind; [apply sp_div_const; eassumption|]. intros ? (t3 & z5 & -> & Ut3 & St3).
    eapply spec_bind; [apply sp_scalar; eassumption|]. intros ? (g1 & -> & Ug1 & S3).
    assert (Sg : sim g g1) by (exact (sim_trans B HB g t2 g1 St2 (sim_trans B HB t2 t3 g1 St3 S3))).
    eapply spec_weaken; [apply sp_expand; exact Ug1|]. intros ? ->. exists g1. split; [reflexivity|]. split; [exact Ug1|]. split; [now apply (sim_up g g1)|].
    apply (gcd_sim Y u1 u v1 v g g1); auto using sim_sym.
  Qed.
  Lemma sp_algo sub u v : upoly u -> u <> [] -> upoly v -> v <> [] ->
    spec H (gcdAlgo Y W F sub (polyE u) (polyE v) [x]) (fun e => exists g, e = polyE g /\ upoly g /\ g <> [] /\ gcdOf u v g).
  Proof.
    intros Uu Nu Uv Nv. unfold gcdAlgo. destruct sub; [|now apply sp_primitive]. destruct (degree Y (polyE u) x <? degree Y (polyE v) x); [|now apply sp_subresultant].
    eapply spec_weaken; [now apply sp_subresultant|]. intros e (g & -> & Ug & Ng & G). exists g. auto using gcd_comm.
  Qed.

  (** ** The rest of the computation *)
  Lemma sp_content1 p : polyOK p -> p <> [] -> spec H (integerContent1 Y (polyE p)) (fun z => z <> 0).
  Proof.
    intros O N.
    assert (M : forall m, In m p -> spec H (integerContent1 Y (monoE m)) (fun z => z <> 0)).
    { intros m Hm. assert (C : canon (fst m) /\ fst m <> 0%Q) by (destruct O as [O _]; rewrite Forall_forall in O; destruct (O m Hm) as (A & C & _); auto). destruct C as [C C0].
      assert (A : qnum (qabs (fst m)) <> 0).
      { intros E. apply C0. apply Q2R_zero; [exact C|]. destruct (qabs_R (fst m)) as [R1 _]. destruct (Req_dec (Q2R (fst m)) 0) as [|Z]; [assumption|]. apply Rabs_no_R0 in Z. rewrite <- R1 in Z. elim Z. destruct (qabs (fst m)) as [n d]. cbn in E. subst n. unfold Q2R. cbn. ring. }
      destruct (monoE_cases m) as [(E & ->)|[(f & -> & ->)|(_ & E & _ & c & _)]].
      - cbn [integerContent1 numericTerm]. eapply spec_bind; [apply spec_ret; exact eq_refl|]. intros ? <-. apply spec_ret. cbn [numericEval]. destruct (qIsInt _); [exact A | discriminate].
      - unfold facE. destruct (snd f =? 1); cbn [integerContent1 numericTerm symE]; (eapply spec_bind; [apply spec_ret; exact eq_refl|]); intros ? <-; apply spec_ret; cbn; discriminate.
      - rewrite E. unfold factorsE. destruct (qeqb (fst m) 1) eqn:Q1; cbn [app].
        + destruct (snd m) as [|f l] eqn:Em; [unfold monoE, factorsE in E; rewrite Q1, Em in E; discriminate|].
          cbn [map integerContent1 numericTerm]. replace (isNumeric (facE f)) with false by (unfold facE; now destruct (snd f =? 1)).
          eapply spec_bind; [apply spec_ret; exact eq_refl|]. intros ? <-. apply spec_ret. cbn. discriminate.
        + cbn [integerContent1 numericTerm]. eapply spec_bind; [apply spec_ret; exact eq_refl|]. intros ? <-. apply spec_ret. cbn [numericEval]. destruct (qIsInt _); [exact A | discriminate]. }
    destruct (polyE_cases p) as [(E & _)|[(m & -> & ->)|(L & ->)]]; [now elim (N E) | apply M; now left|].
    cbn [integerContent1].
    assert (X : forall l a, (forall m, In m l -> spec H (integerContent1 Y (monoE m)) (fun z => z <> 0)) -> l <> [] \/ spec H a (fun z => z <> 0) ->
      spec H (fold_left (fun a s => z <- a ;; y <- integerContent1 Y s ;; ret (integerGcd z y)) (map monoE l) a) (fun z => z <> 0)).
    { induction l as [|m l IH]; intros a Ml [Hl|Ha]; cbn [map fold_left]; [congruence | exact Ha | |]; (apply IH; [intros; apply Ml; now right | right]);
        (eapply spec_bind; [apply spec_true|]; intros z _; eapply spec_bind; [apply Ml; now left|]; intros y Hy; apply spec_ret; intros E; apply Hy; pose proof (integerGcd_ok z y) as G; rewrite E in G; cbn in G; symmetry in G; now apply Z.gcd_eq_0_r in G). }
    apply X; [exact M | now left].
  Qed.
  Lemma sp_intContent u v : polyOK u -> u <> [] -> polyOK v -> v <> [] -> spec H (integerContent Y (polyE u) (polyE v)) nz.
  Proof.
    intros Ou Nu Ov Nv. unfold integerContent. eapply spec_bind; [now apply sp_content1|]. intros a Ha. eapply spec_bind; [now apply sp_content1|]. intros b Hb. apply spec_ret.
    apply nz_Z. intros E. pose proof (integerGcd_ok a b) as G. rewrite E in G. cbn in G. symmetry in G. now apply Z.gcd_eq_0_l in G.
  Qed.
  Lemma sp_viaAlgo sub u v : upoly u -> u <> [] -> upoly v -> v <> [] ->
    spec H (gcdViaAlgo Y W F sub (polyE u) (polyE v) [x]) (fun e => exists g, e = polyE g /\ upoly g /\ g <> [] /\ gcdOf u v g).
  Proof.
    intros Uu Nu Uv Nv. unfold gcdViaAlgo.
    eapply spec_bind; [apply sp_intContent; auto; (apply Uu || apply Uv)|]. intros c Hc.
    eapply spec_bind; [apply sp_inv_nz; [exact Hg | exact Hc]|]. intros f Hf.
    eapply spec_bind; [apply sp_scalar; [exact Hf | exact Uu]|]. intros ? (u1 & -> & U1 & S1).
    eapply spec_bind; [apply sp_scalar; [exact Hf | exact Uv]|]. intros ? (v1 & -> & V1 & S2).
    eapply spec_bind; [apply (sp_algo sub u1 v1); auto; [now apply (sim_up u u1) | now apply (sim_up v v1)]|]. intros ? (g & -> & Ug & Ng & G).
    eapply spec_weaken; [apply sp_scalar; [exact Hc | exact Ug]|]. intros ? (g1 & -> & Ug1 & S3). exists g1. split; [reflexivity|]. split; [exact Ug1|]. split; [now apply (sim_up g g1)|].
    apply (gcd_sim Y u1 u v1 v g g1); auto using sim_sym.
  Qed.

  (** The sign of the leading coefficient *)
  Definition posLead (p : poly) : Prop := forall m, In m p -> kget (snd m) t = degIn t p -> (0 < Q2R (fst m))%R.
  Lemma key_uni p m : upoly p -> In m p -> dropSym t (snd m) = [] /\ keyOK (snd m) /\ forall s, s <> t -> kget (snd m) s = 0.
  Proof.
    intros U Hm. assert (K : keyOK (snd m)) by (destruct U as [([O _] & _) _]; rewrite Forall_forall in O; apply O, Hm).
    assert (P : posKey (snd m)) by (destruct U as [(_ & P & _) _]; unfold posPoly in P; rewrite Forall_forall in P; now apply P).
    assert (Z0 : forall s, s <> t -> kget (snd m) s = 0).
    { intros s Ns. pose proof (degIn_ge s p m Hm) as G. rewrite (proj2 U s) in G by (intros [X|[]]; congruence). pose proof (kget_nonneg (snd m) s P). lia. }
    split; [|split; [exact K | exact Z0]].
    destruct (dropSym t (snd m)) as [|[s z] l] eqn:E; [reflexivity|]. exfalso.
    assert (Hs : In (s, z) (dropSym t (snd m))) by (rewrite E; now left). unfold dropSym in Hs. apply filter_In in Hs as [Hs N]. cbn [fst] in N. destruct (sym_dec s t) as [|N']; [discriminate|].
    pose proof (kget_in (snd m) s z K Hs) as G. rewrite Z0 in G by exact N'. unfold posKey in P. rewrite Forall_forall in P. specialize (P _ Hs). cbn in P. lia.
  Qed.
  Lemma coef_is p m r : upoly p -> In m p -> coefV t (kget (snd m) t) r p = Q2R (fst m).
  Proof.
    intros U Hm. apply in_split in Hm as (a & b & ->).
    assert (X : forall n, In n (a ++ b) -> kget (snd n) t <> kget (snd m) t).
    { intros n Hn E. destruct (key_uni _ m U) as (_ & Km & Zm); [apply in_elt|]. destruct (key_uni _ n U) as (_ & Kn & Zn); [apply in_app_or in Hn as [Hn|Hn]; apply in_or_app; [now left | right; now right]|].
      assert (EK : snd n = snd m). { apply key_ext; auto. intros s. destruct (sym_dec s t) as [->|Ns]; [exact E | now rewrite Zm, Zn]. }
      destruct U as [([_ S] & _) _]. apply in_app_or in Hn as [Hn|Hn].
      - clear - S Hn EK. induction a as [|c a IH]; [destruct Hn|]. cbn [app] in S. inversion S as [|? ? S' F']; subst. destruct Hn as [->|Hn]; [|now apply IH].
        rewrite Forall_forall in F'. specialize (F' m (in_elt m a b)). rewrite EK in F'. now apply keyLt_irrefl in F'.
      - clear - S Hn EK. induction a as [|c a IH]; cbn [app] in S; inversion S as [|? ? S' F']; subst; [|now apply IH].
        rewrite Forall_forall in F'. specialize (F' n Hn). rewrite EK in F'. now apply keyLt_irrefl in F'. }
    unfold coefV, cTerms. rewrite map_app. cbn [map]. rewrite coefAt_app.
    rewrite (coefAt_none _ (map _ a)).
    2:{ intros y Hy. apply in_map_iff in Hy as (n & <- & Hn). cbn [snd]. apply X. apply in_or_app. now left. }
    change (?h :: map ?f b) with ([h] ++ map f b). rewrite coefAt_app. rewrite (coefAt_none _ (map _ b)).
    2:{ intros y Hy. apply in_map_iff in Hy as (n & <- & Hn). cbn [snd]. apply X. apply in_or_app. now right. }
    destruct (key_uni _ m U (in_elt m a b)) as (-> & _). unfold coefAt. cbn [fold_right fst snd]. destruct (Z.eq_dec _ _) as [_|X0]; [|now elim X0]. unfold keyV. cbn [fold_right]. ring.
  Qed.
  Lemma coef_scaled c p s i r : allPos r -> (forall r, allPos r -> polyV r s = Q2R c * polyV r p)%R -> coefV t i r s = (Q2R c * coefV t i r p)%R.
  Proof.
    intros Hr V. rewrite (coef_by_value t r s (uMul [(Q2R c, 0)] (cTerms t r p)) Hr).
    - rewrite coefAt_shift, Z.sub_0_r. reflexivity.
    - intros T HT. assert (HT0 : (0 < T)%R) by lra. rewrite V by now apply updS_pos. rewrite uMul_V by lra. rewrite <- polyV_upd by assumption. unfold uV at 1. cbn [fold_right fst snd powerRZ]. ring.
  Qed.
  Lemma degIn_scaled c p s : canon c -> Q2R c <> 0%R -> upoly p -> p <> [] -> upoly s -> (forall r, allPos r -> polyV r s = Q2R c * polyV r p)%R -> degIn t s = degIn t p.
  Proof.
    intros C N Up Np Us V. destruct (num_ok B HB c C N) as (Oc & Pc & _).
    assert (M : degIn t s = degIn t [(c, [])] + degIn t p); [|rewrite M; cbn; lia].
    apply mul_degIn; auto; try apply Up; try apply Us; [|discriminate]. intros r Hr. rewrite V, num_polyV by exact Hr. reflexivity.
  Qed.
  Lemma sign_pos q : canon q -> Q2R q <> 0%R -> (0 < Q2R (ofZ (qsign q)) * Q2R q)%R.
  Proof.
    intros C N. rewrite Q2R_ofZ. unfold qsign, Q2R in *. destruct q as [n d]. cbn [Qnum Qden] in *. assert (D : (0 < / IZR (Z.pos d))%R) by (apply Rinv_0_lt_compat, IZR_lt; lia).
    destruct n as [|n|n]; cbn in *.
    - elim N. ring.
    - assert (0 < IZR (Z.pos n))%R by (apply IZR_lt; lia). nra.
    - assert (IZR (Z.neg n) < 0)%R by (apply IZR_lt; lia). nra.
  Qed.
  Definition result (u v : poly) (e : expr) : Prop := exists g, e = polyE g /\ upoly g /\ g <> [] /\ posLead g /\ gcdOf u v g.
  Lemma sp_normalize u v g : upoly g -> g <> [] -> gcdOf u v g -> spec H (gcdNormalize Y W (polyE g) [x]) (result u v).
  Proof.
    intros U N G. unfold gcdNormalize. cbn [rev app normalizationFactor].
    eapply spec_bind with (Q1 := fun f => exists q, f = qsign q /\ canon q /\ Q2R q <> 0%R /\ forall r, coefV t (degIn t g) r g = Q2R q).
    { eapply spec_bind; [apply sp_lead; assumption|]. intros e (q & -> & C & Nq & V). apply spec_ret. eauto. }
    intros f (q & -> & C & Nq & V). pose proof (sign_pos q C Nq) as P. pose proof (canon_ofZ (qsign q)) as Cf. assert (Nf : Q2R (ofZ (qsign q)) <> 0%R) by (intros E; rewrite E in P; lra).
    destruct (multiple Y B Hlt HB _ g Cf Nf (proj1 U)) as (s & Ks & Vs & _).
    assert (Us : upoly s) by now apply (uni_multiple B t (ofZ (qsign q)) g s).
    eapply spec_weaken; [apply (from_ev Y st r0 F k (fun W => w_prod W [Num (ofZ (qsign q)); polyE g]) (polyE s)); [intros V1 V1' HV; apply (o_prod _ _ HV)|]|].
    { eapply ev_imp; [apply (scalar_prod Y B Hlt (ofZ (qsign q)) g s); auto; apply U|]. intros F' k' E. now exists []. }
    intros y ->. assert (Sg : sim g s) by (exists (ofZ (qsign q)); auto). exists s. split; [reflexivity|]. split; [exact Us|]. split; [now apply (sim_up g s)|]. split.
    - intros m Hm Em. pose (r := fun (_ : name) (_ : bool) => 1%R). assert (Hr : allPos r) by (intros ? ?; unfold r; lra).
      rewrite <- (coef_is s m r Us Hm), Em. rewrite (coef_scaled (ofZ (qsign q)) g s _ r Hr Vs). rewrite (degIn_scaled _ g s Cf Nf U N Us Vs), V. exact P.
    - apply (gcd_sim Y u u v v g s); auto using sim_refl.
  Qed.
  Lemma num_posLead c : (0 < Q2R c)%R -> posLead [(c, [])].
  Proof. intros P m [<-|[]] _. exact P. Qed.
  Lemma gcd_const c v d : canon c -> Q2R c <> 0%R -> canon d -> Q2R d <> 0%R -> P_ok v -> gcdOf [(c, [])] v [(d, [])].
  Proof.
    intros Cc Nc Cd Nd Kv. destruct (inv_num d Nd) as (i & Ci & Vi). split; [|split].
    - exists (fun _ => Q2R c * Q2R i)%R. split; [apply (isPoly_prod Y); now apply isPoly_Q|]. intros r _. rewrite !num_polyV, Vi. field. exact Nd.
    - exists (fun r => polyV r v * Q2R i)%R. split; [apply (isPoly_prod Y); [now apply (isPoly_p B) | now apply isPoly_Q]|]. intros r _. rewrite !num_polyV, Vi. field. exact Nd.
    - intros h (w & Iw & Vw) _. destruct (inv_num c Nc) as (j & Cj & Vj). exists (fun r => Q2R d * (Q2R j * w r))%R. split; [apply (isPoly_prod Y); [now apply isPoly_Q | apply (isPoly_prod Y); [now apply isPoly_Q | exact Iw]]|].
      intros r Hr. specialize (Vw r Hr). rewrite num_polyV in *. transitivity (Q2R d * Q2R j * (w r * h r))%R; [|ring]. rewrite <- Vw, Vj. field. exact Nc.
  Qed.
  Lemma gcd_same u : gcdOf u u u.
  Proof. assert (D : dv (fun r => polyV r u) u) by (exists (fun _ => 1%R); split; [apply isPoly_one | intros; ring]). split; [exact D|]. split; [exact D | auto]. Qed.
  Lemma uni_const p : upoly p -> p <> [] -> degIn t p = 0 -> exists c, p = [(c, [])] /\ canon c /\ Q2R c <> 0%R.
  Proof.
    intros U N D. destruct (no_symbols p) as [->|(c & ->)]; [apply U | apply U | | congruence|].
    - intros s. destruct (sym_dec s t) as [->|Ns]; [exact D|]. apply (proj2 U). intros [X|[]]. congruence.
    - exists c. split; [reflexivity|]. apply num_nonzero, U.
  Qed.
  Lemma sp_gcdWith sub u v : upoly u -> upoly v -> u <> [] \/ v <> [] -> spec H (gcdWith Y W F sub [x] (polyE u) (polyE v)) (result u v).
  Proof.
    intros Uu Uv N. unfold gcdWith. eapply spec_bind; [apply sp_expand; exact Uu|]. intros ? ->. eapply spec_bind; [apply sp_expand; exact Uv|]. intros ? ->.
    assert (N1 : Q2R 1 <> 0%R) by (rewrite Q2R_1; lra).
    assert (One : forall p, upoly p -> isOne (polyE p) = true -> p = [(1%Q, [])]).
    { intros p U E. destruct (polyE p) as [q| | | | | | |] eqn:Ep; try discriminate. cbn in E. apply qeqb_true in E. subst q.
      destruct (not_nil p) as [->|Np]; [discriminate|]. now apply polyE_num in Ep as (-> & _); [|apply U|]. }
    assert (U1 : upoly [(1%Q, [])]) by (apply uni_num; auto; reflexivity).
    destruct (isOne (polyE u) || isOne (polyE v)) eqn:E1.
    { change one with (polyE [(1%Q, [])]). apply sp_normalize; [exact U1 | discriminate|]. apply orb_true_iff in E1 as [E|E]; apply One in E; auto; subst.
      - apply gcd_const; auto; try reflexivity. apply Uv.
      - apply gcd_comm, gcd_const; auto; try reflexivity. apply Uu. }
    destruct (isZero_cases u Uu) as [[-> ->]|[Nu ->]], (isZero_cases v Uv) as [[-> ->]|[Nv ->]]; cbn [andb].
    - destruct N; congruence.
    - apply sp_normalize; auto. apply gcd_comm, gcd_zero; apply Uv.
    - apply sp_normalize; auto. apply gcd_zero; apply Uu.
    - destruct (isEqual (polyE u) (polyE v)) eqn:E.
      { apply isEqual_eq, polyE_inj in E; [|apply Uu | apply Uv]. subst v. apply sp_normalize; auto. apply gcd_same. }
      assert (G : spec H (g <- (if negb (haveCommonSymbol (polyE u) (polyE v) [x]) then integerContent Y (polyE u) (polyE v) else gcdViaAlgo Y W F sub (polyE u) (polyE v) [x]) ;; gcdNormalize Y W g [x]) (result u v)).
      { eapply spec_bind with (Q1 := fun e => exists g, e = polyE g /\ upoly g /\ g <> [] /\ gcdOf u v g).
        - unfold haveCommonSymbol. cbn [existsb]. rewrite orb_false_r, !has_poly by (apply Uu || apply Uv). destruct (Z.eqb_spec (degIn t u) 0) as [Du|Du]; cbn [negb andb].
          + destruct (uni_const u Uu Nu Du) as (c & -> & Cc & Nc). eapply spec_weaken; [apply sp_intContent; auto; (apply Uu || apply Uv)|]. intros e (d & -> & Cd & Nd). exists [(d, [])]. split; [symmetry; apply num_polyE|]. split; [now apply uni_num|]. split; [discriminate|]. apply gcd_const; auto. apply Uv.
          + destruct (Z.eqb_spec (degIn t v) 0) as [Dv|Dv]; cbn [negb]; [|now apply sp_viaAlgo].
            destruct (uni_const v Uv Nv Dv) as (c & -> & Cc & Nc). eapply spec_weaken; [apply sp_intContent; auto; (apply Uu || apply Uv)|]. intros e (d & -> & Cd & Nd). exists [(d, [])]. split; [symmetry; apply num_polyE|]. split; [now apply uni_num|]. split; [discriminate|]. apply gcd_comm, gcd_const; auto. apply Uu.
        - intros ? (g & -> & Ug & Ng & G). now apply sp_normalize. }
      destruct (polyE u) eqn:Eu; try exact G. destruct (polyE v) eqn:Ev; try exact G.
      apply polyE_num in Eu as (-> & Cp & Np); [|apply Uu | exact Nu]. destruct (computeNumerics_nz q q0) as (c & -> & Cc & Nc); auto.
      { apply polyE_num in Ev as (_ & A & _); [exact A | apply Uv | exact Nv]. }
      rewrite <- (num_polyE c). apply sp_normalize; [now apply uni_num | discriminate|]. apply gcd_const; auto. apply Uv.
  Qed.
End Run.
