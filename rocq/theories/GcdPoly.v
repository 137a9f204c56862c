(** poly::gcd for polynomials in one symbol: runs that end return a greatest common divisor. *)
From Verif Require Import LaurentSpec DivSpec LaurentOrder LaurentProd LaurentIdent LaurentSum LaurentExpand LaurentMain LaurentApi RingProd RingSum RingPos RingSpec RingTerm LaurentCoeff PolyTotal PolyCode HRuns DivExact DivRun DivRem DivApi DivUser FuelMono FuelApi SimplApi ApiSpec ApiModel ExprProofs NumInt NumberProofs GcdProofs World WorldExact SoundOps RPow RunSpec NumberSpec PolyModel.
From Coq Require Import Lia Lra Bool Permutation Sorted Classical_Prop.
From Verif Require Import Run LaurentSpec.
Open Scope Z_scope.

(** ** From executions that end to all executions *)
Lemma from_runs {A} Y (f : oper -> nat -> res A) P F k H :
  (forall W W' n n', (n <= n')%nat -> ople W W' -> rle (f W n) (f W' n')) -> hruns Y f P -> spec H (f (world Y F k) F) P.
Proof.
  intros M (a & Pa & F0 & k0 & E). destruct (E (F + F0)%nat (k + k0)%nat ltac:(lia) ltac:(lia)) as (l & El & _).
  pose proof (M (world Y F k) (world Y (F + F0) (k + k0)) F (F + F0)%nat ltac:(lia) (world_mono Y F (F + F0) k (k + k0) ltac:(lia) ltac:(lia))) as R.
  rewrite El in R. destruct (f (world Y F k) F); cbn [rle spec] in *; auto. destruct R as (l' & R). injection R as <- _. auto.
Qed.

(** ** A number times a polynomial *)
Section Scalar.
  Variables (Y : sys) (B : Z).
  Hypothesis Hlt : exactUpTo B (s_nlt Y).
  Hypothesis HB : 0 <= B < intMax.
  Notation hruns := (hruns Y).
  Notation P_ok := (P_ok B).

  Lemma num_mono c : canon c -> Q2R c <> 0%R -> monoOK (c, []) /\ monoE (c, []) = Num c.
  Proof. intros C N. destruct (numE c C) as [A D]; [intros ->; apply N, Q2R_0|]. auto. Qed.
  Lemma num_ok c : canon c -> Q2R c <> 0%R -> P_ok [(c, [])].
  Proof. intros C N. split; [apply mono_polyOK, num_mono; auto|]. split; [repeat constructor | cbn; lia]. Qed.
  (** The multiple exists. *)
  Lemma multiple c p : canon c -> Q2R c <> 0%R -> P_ok p -> exists s, P_ok s /\ (forall r, allPos r -> polyV r s = Q2R c * polyV r p)%R /\ polyDeg s <= polyDeg p.
  Proof.
    intros C N (O & P & D). destruct p as [|m0 p0] eqn:Ep.
    - exists []. split; [apply nil_ok; exact HB|]. split; [|cbn; lia]. intros r _. change (polyV r []) with 0%R. ring.
    - rewrite <- Ep in *. assert (Np : p <> []) by (subst; discriminate). clear Ep m0 p0.
      destruct (num_mono c C N) as [Om _]. destruct (scale_ev Y B Hlt (c, []) p Om O Np (polyDeg p) (polyDeg_pdeg p)) as (s & Os & Vs & Ds & _); [cbn; lia|].
      assert (Vs' : forall r, allPos r -> polyV r s = (polyV r [(c, [])] * polyV r p)%R).
      { intros r Hr. rewrite Vs by exact Hr. rewrite num_polyV. unfold monoV, keyV; cbn [fst snd fold_right]. ring. }
      destruct (isPoly_prod Y (fun r => polyV r [(c, [])]) (fun r => polyV r p)) as (s' & Os' & Ps' & Vs2).
      + exists [(c, [])]. split; [apply num_ok; auto|]. split; [repeat constructor | reflexivity].
      + exists p. auto.
      + assert (s' = s) as -> by (apply poly_unique; auto; intros r Hr; rewrite Vs2, Vs' by exact Hr; reflexivity).
        assert (E : polyDeg s <= polyDeg p) by (apply pdeg_polyDeg; [apply polyDeg_nonneg | exact Ds]).
        exists s. split; [split; [exact Os|]; split; [exact Ps' | lia]|]. split; [|exact E]. intros r Hr. rewrite Vs', num_polyV by exact Hr. reflexivity.
  Qed.
  (** The product is computed. *)
  Lemma scalar_prod c p s : canon c -> Q2R c <> 0%R -> P_ok p -> P_ok s -> (forall r, allPos r -> polyV r s = Q2R c * polyV r p)%R ->
    ev (fun F k => w_prod (world Y F k) [Num c; polyE p] = Ok (polyE s) []).
  Proof.
    intros C N (O & P & D) (Os & Ps & Ds) V. destruct (num_mono c C N) as [Om Em].
    destruct (polyE_cases p) as [[-> E]|[(m & -> & E)|[L E]]]; rewrite E.
    - assert (s = []) as ->. { apply poly_unique; [exact Os | apply polyOK_nil|]. intros r Hr. rewrite V by exact Hr. change (polyV r []) with 0%R. ring. }
      apply ev_S, ev_all. intros F k. cbn [world step w_prod]. unfold prodCreate. cbn [existsb isUndefined isZero orb zero]. rewrite orb_true_r. reflexivity.
    - assert (X : exists n, s = [n] /\ monoOK n /\ forall r, allPos r -> monoV r n = monosV r [(c, []); m]).
      { apply polyOK_one in O. destruct (prod_ev Y [(c, []); m]) as (y & Oy & Vy & _); [discriminate | auto|]. exists y. split; [|auto].
        apply poly_unique; [exact Os | now apply mono_polyOK|]. intros r Hr. rewrite V by exact Hr. rewrite !polyV_cons. change (polyV r []) with 0%R. rewrite Vy by exact Hr.
        unfold monosV; cbn [fold_right]. replace (monoV r (c, [])) with (Q2R c) by (unfold monoV, keyV; cbn [fst snd fold_right]; ring). ring. }
      destruct X as (n & -> & On & Vn). apply polyOK_one in O. eapply ev_imp; [apply (prod_is Y [(c, []); m] n); [discriminate | auto | exact On | exact Vn]|].
      intros F k H. cbn [map] in H. rewrite Em in H. exact H.
    - rewrite <- E. destruct (qeqb c 1) eqn:E1.
      { apply qeqb_eq in E1 as ->. assert (s = p) as ->. { apply poly_unique; auto. intros r Hr. rewrite V, Q2R_1 by exact Hr. ring. }
        rewrite E. apply (ev_ge 5 1). intros F k HF Hk. destruct k as [|k]; [lia|]. cbn [world step w_prod]. unfold prodCreate. cbn [existsb isUndefined isZero orb]. change (qeqb 1 0) with false. cbn [orb].
        destruct F as [|F]; [lia|]. cbn [simplifyProduct]. unfold prepare. cbn [extractProducts flat_map extractProduct app].
        rewrite contract_none; [|intros x y [<-|[<-|[]]] _; reflexivity | cbn; lia]. reflexivity. }
      destruct (scale_ev Y B Hlt (c, []) p Om O) with (d := polyDeg p) as (s' & Os' & Vs' & Ds' & Es'); [intros ->; cbn in L; lia | apply polyDeg_pdeg | cbn; lia|].
      assert (s' = s) as -> by (apply poly_unique; auto; intros r Hr; rewrite Vs', V by exact Hr; unfold monoV, keyV; cbn [fst snd fold_right]; ring).
      assert (NF : factorsE (c, []) <> []) by (unfold factorsE; cbn [fst snd]; rewrite E1; discriminate).
      pose (U := factorsE (c, []) ++ [Sum (map monoE p)]).
      assert (LL : ev (fun F k => forall v, Permutation U v -> expandAsProduct (world Y F k) F v = Ok (polyE s) [])).
      { pose (vs := listsOf U (length U)).
        assert (X : ev (fun F k => forall v, In v vs -> Permutation U v -> expandAsProduct (world Y F k) F v = Ok (polyE s) [])).
        { clearbody vs. induction vs as [|v vs IH]; [apply ev_all; intros F k v []|].
          destruct (classic (Permutation U v)) as [Pv|Pv].
          - eapply ev_mp; [apply (big_asProduct Y B Hlt (c, []) p Om O L (polyDeg p) (polyDeg_pdeg p)) with (s := s) (v := v); [cbn; lia | exact Es' | exact NF | exact Pv]|].
            eapply ev_imp; [exact IH|]. intros F k H1 H2 w [<-|Hw]; auto.
          - eapply ev_imp; [exact IH|]. intros F k H w [<-|Hw]; auto. intros; contradiction. }
        eapply ev_imp; [exact X|]. intros F k H v Hv. apply H; [|exact Hv]. apply listsOf_in; [symmetry; now apply Permutation_length|].
        intros x Hx. eapply Permutation_in; [symmetry; exact Hv | exact Hx]. }
      apply ev_S. destruct LL as (F0 & k0 & LL). exists (F0 + length U + 3)%nat, k0. intros F k HF Hk.
      destruct (big_prod Y (c, []) p Om O L F k) as (v & Pv & Ev); [fold U; lia | exact NF|]. rewrite Em in Ev. rewrite E, Ev.
      fold U. assert (NE : needsExpansion U = true) by (unfold U; rewrite (needsExpansion_big (c, []) p Om O L); cbn [fst snd]; now rewrite E1). rewrite NE. apply LL; [lia | lia | exact Pv].
  Qed.
End Scalar.

(** ** Numbers *)
Definition nz (e : expr) : Prop := exists q, e = Num q /\ canon q /\ Q2R q <> 0%R.
Lemma nz_intro q : canon q -> Q2R q <> 0%R -> nz (Num q).
Proof. intros. now exists q. Qed.
Lemma nz_Z z : z <> 0 -> nz (numZ z).
Proof. intros Hz. exists (ofZ z). split; [reflexivity|]. split; [apply canon_ofZ|]. rewrite Q2R_ofZ. now apply not_0_IZR. Qed.
Lemma Q2R_zero q : canon q -> Q2R q = 0%R -> q = 0%Q.
Proof. intros C E. apply Q2R_inj; [exact C | reflexivity | now rewrite Q2R_0]. Qed.
Lemma nz_qeqb q : Q2R q <> 0%R -> qeqb q 0 = false.
Proof. intros H. apply qeqb_neq. intros ->. apply H, Q2R_0. Qed.

Section Nums.
  Variables (Y : sys) (st : bool) (r0 : env) (F k : nat).
  Hypothesis Hg : wgood st r0.
  Notation W := (world Y F k).
  Notation H := (holds st r0).

  Lemma from_ev {A} (f : oper -> res A) a : (forall W W', ople W W' -> rle (f W) (f W')) -> ev (fun F k => exists l, f (world Y F k) = Ok a l) -> spec H (f W) (fun x => x = a).
  Proof.
    intros M (F0 & k0 & E). destruct (E (F + F0)%nat (k + k0)%nat ltac:(lia) ltac:(lia)) as (l & El).
    pose proof (M W (world Y (F + F0) (k + k0)) (world_mono Y F (F + F0) k (k + k0) ltac:(lia) ltac:(lia))) as R.
    rewrite El in R. destruct (f W); cbn [rle spec] in *; auto. destruct R as (l' & R). injection R as <- _. auto.
  Qed.

  Lemma sp_prod_nz a b : nz a -> nz b -> spec H (w_prod W [a; b]) nz.
  Proof.
    intros (p & -> & Cp & Np) (q & -> & Cq & Nq). eapply spec_weaken; [apply prod_nums; assumption|]. intros x ->. apply nz_intro; [apply qmul_spec|]. rewrite Q2R_qmul. now apply Rmult_integral_contrapositive.
  Qed.
  Lemma sp_pow_nz a z : nz a -> spec H (w_pow W a (numZ z)) nz.
  Proof.
    intros (p & -> & Cp & Np). destruct (Z.eq_dec z 0) as [->|Hz].
    - eapply spec_weaken; [apply (from_ev (fun W => w_pow W (Num p) (numZ 0)) one); [intros V V' HV; apply (o_pow _ _ HV)|]|].
      + apply ev_S, ev_all. intros F' k'. exists []. cbn [world step w_pow]. unfold powCreate. cbn [isUndefined orb isZero numZ]. rewrite (nz_qeqb p Np). reflexivity.
      + intros x ->. apply (nz_Z 1). lia.
    - destruct (num_pow Y p z Cp Np Hz) as (q & Cq & Nq & _ & E). eapply spec_weaken; [apply (from_ev (fun W => w_pow W (Num p) (numZ z)) (Num q)); [intros V V' HV; apply (o_pow _ _ HV)|]|].
      + eapply ev_imp; [exact E|]. intros F' k' (l & El & _). now exists l.
      + intros x ->. now apply nz_intro.
  Qed.
  Lemma sp_inv q : canon q -> Q2R q <> 0%R -> spec H (oneOver W (Num q)) (fun e => exists i, e = Num i /\ canon i /\ Q2R i = (/ Q2R q)%R).
  Proof.
    intros C N. unfold oneOver. change mOne with (numZ (-1)). destruct (num_pow Y q (-1) C N ltac:(lia)) as (i & Ci & Ni & _ & E).
    assert (A : spec H (w_pow W (Num q) (numZ (-1))) (fun x => x = Num i)).
    { apply (from_ev (fun W => w_pow W (Num q) (numZ (-1)))); [intros V V' HV; apply (o_pow _ _ HV)|]. eapply ev_imp; [exact E|]. intros F' k' (l & El & _). now exists l. }
    pose proof (so_pow W (world_sound Y F k) st r0 anySym (Num q) (numZ (-1)) Hg C (canon_ofZ (-1))) as Bv.
    eapply spec_weaken; [apply (DiffProofs.spec_and _ _ _ _ A Bv)|]. cbv beta. intros x [-> [_ V]]. exists i. split; [reflexivity|]. split; [exact Ci|].
    unfold opow, numZ in V. cbn [eval] in V. rewrite Q2R_ofZ, rpow_int in V by exact N. cbn [ole] in V. apply (f_equal (fun o => match o with Some v => v | None => 0%R end)) in V. rewrite V. change (-1) with (- (1)). rewrite powerRZ_neg', powerRZ_1. reflexivity.
  Qed.
  Lemma sp_inv_nz a : nz a -> spec H (oneOver W a) nz.
  Proof. intros (q & -> & C & N). eapply spec_weaken; [apply sp_inv; assumption|]. intros x (i & -> & Ci & Vi). apply nz_intro; [exact Ci|]. rewrite Vi. now apply Rinv_neq_0_compat. Qed.
  Lemma sp_div_num n a c : canon a -> canon c -> Q2R c <> 0%R ->
    spec H (divide Y W n [] (Num a) (Num c)) (fun p => exists q, p = (Num q, zero) /\ canon q /\ Q2R q = (Q2R a / Q2R c)%R).
  Proof.
    intros Ca Cc Nc. assert (D : divide Y W n [] (Num a) (Num c) = divideEmptyList Y W (Num a) (Num c)).
    { destruct n; cbn [divide]; unfold isInputValid; cbn [isZero hasValidType]; rewrite (nz_qeqb c Nc), andb_false_r; reflexivity. }
    rewrite D. unfold divideEmptyList. eapply spec_bind; [apply sp_inv; assumption|]. intros x (i & -> & Ci & Vi).
    eapply spec_bind; [apply prod_nums; assumption|]. intros x ->. cbn [numericEval].
    eapply spec_bind; [apply spec_true|]. intros _ _. apply spec_ret. exists (qmul a i). split; [reflexivity|]. split; [apply qmul_spec|]. rewrite Q2R_qmul, Vi. reflexivity.
  Qed.
  Lemma sp_expand_num q : spec H (w_expand W (Num q)) (fun e => e = Num q).
  Proof. apply expand_num. Qed.
  Lemma qsign_nz q : canon q -> Q2R q <> 0%R -> qsign q <> 0.
  Proof.
    intros C N E. apply N. assert (X : q = 0%Q); [|subst; apply Q2R_0]. unfold qsign in E. destruct q as [n d]. cbn in E. assert (n = 0) by (destruct n; cbn in E; lia). subst n.
    apply canon_eq; [exact C | reflexivity|]. reflexivity.
  Qed.
  Lemma sp_normalize_num q : canon q -> Q2R q <> 0%R -> spec H (gcdNormalize Y W (Num q) []) nz.
  Proof.
    intros C N. unfold gcdNormalize. cbn [rev normalizationFactor]. eapply spec_bind; [apply spec_ret; exact eq_refl|]. intros f <-. apply sp_prod_nz; [apply nz_Z, qsign_nz; assumption | now apply nz_intro].
  Qed.
End Nums.

(** ** Polynomials in one symbol *)
Section Uni.
  Variables (Y : sys) (B : Z) (t : sym) (st : bool) (r0 : env).
  Hypothesis Hlt : exactUpTo B (s_nlt Y).
  Hypothesis HB : 0 <= B < intMax.
  Hypothesis Hg : wgood st r0.
  Notation hruns := (hruns Y).
  Notation P_ok := (P_ok B).
  Notation H := (holds st r0).
  Definition upoly (p : poly) : Prop := P_ok p /\ within [t] p.

  Lemma uni_key p m : upoly p -> In m p -> kdeg (snd m) = kget (snd m) t.
  Proof.
    intros [(O & P & _) Wp] Hm. unfold posPoly in P. rewrite Forall_forall in P. specialize (P m Hm). pose proof (dropSym_kdeg t (snd m) P) as D.
    assert (E : dropSym t (snd m) = []); [|rewrite E in D; cbn in D; lia].
    destruct (dropSym t (snd m)) as [|[s z] l] eqn:E; [reflexivity|]. exfalso.
    assert (Hs : In s (map fst (dropSym t (snd m)))) by (rewrite E; now left). apply dropSym_in in Hs as [Ns Hs].
    pose proof (degIn_ge s p m Hm) as G. rewrite (Wp s) in G by (intros [X|[]]; congruence).
    apply in_map_iff in Hs as ([s' z'] & E' & Hf). cbn in E'. subst s'. assert (K : keyOK (snd m)) by (destruct O as [O _]; rewrite Forall_forall in O; apply O, Hm).
    pose proof (kget_in (snd m) s z' K Hf) as G'. unfold posKey in P. rewrite Forall_forall in P. specialize (P _ Hf). cbn in P. lia.
  Qed.
  Lemma uni_deg p : upoly p -> polyDeg p = degIn t p.
  Proof.
    intros U. apply Z.le_antisymm; [|apply degIn_polyDeg]. apply pdeg_polyDeg; [apply degIn_nonneg|]. apply Forall_forall. intros m Hm. rewrite (uni_key p m U Hm). now apply degIn_ge.
  Qed.
  Lemma uni_multiple c p s : upoly p -> P_ok s -> Q2R c <> 0%R -> (forall r, allPos r -> polyV r s = Q2R c * polyV r p)%R -> upoly s.
  Proof.
    intros [(O & P & D) Wp] Ks N V. split; [exact Ks|]. intros x Hx. apply value_free; [apply Ks | apply Ks|]. intros r T Hr HT. rewrite !V by (try apply updS_pos; assumption).
    rewrite free_value; auto.
  Qed.
  Lemma uni_num c : canon c -> Q2R c <> 0%R -> upoly [(c, [])].
  Proof. intros C N. split; [now apply num_ok|]. intros x _. cbn. lia. Qed.
  Lemma uni_nil : upoly [].
  Proof. split; [now apply nil_ok | intros x _; reflexivity]. Qed.

  (** Coefficients are numbers. *)
  Lemma coef_num i p s : upoly p -> 0 <= i -> isCoef t i p s -> exists q, polyE s = Num q /\ canon q /\ (s <> [] -> Q2R q <> 0%R) /\ forall r, coefV t i r p = Q2R q.
  Proof.
    intros [K Wp] Hi C. destruct (coef_ok B HB t i p s K Hi C) as (Os & Ps & _).
    destruct (no_symbols s Os Ps) as [->|(c & ->)].
    - intros x. destruct (sym_dec x t) as [->|N]; [eapply isCoef_free; exact C|]. pose proof (isCoef_degIn t i p s x C) as X1. pose proof (degIn_nonneg x s) as X2. rewrite (Wp x) in X1; [lia|]. intros [X|[]]. congruence.
    - exists 0%Q. split; [reflexivity|]. split; [reflexivity|]. split; [congruence|]. intros r. destruct C as (_ & V & _). rewrite <- V. symmetry. apply Q2R_0.
    - destruct (num_nonzero c Os) as [Cc Nc]. exists c. split; [apply num_polyE|]. split; [exact Cc|]. split; [auto|]. intros r. destruct C as (_ & V & _). rewrite <- V. apply num_polyV.
  Qed.

  (** ** Divisibility *)
  Lemma inv_num c : Q2R c <> 0%R -> exists i, canon i /\ Q2R i = (/ Q2R c)%R.
  Proof.
    intros Nc. exists (Qred (/ c)). split; [apply canon_Qred|]. rewrite (Qreals.Qeq_eqR _ _ (Qred_correct _)). apply Qreals.Q2R_inv. intros E. apply Nc. rewrite (Qreals.Qeq_eqR _ _ E). apply Q2R_0.
  Qed.
  Definition dv (h : env -> R) (p : poly) : Prop := exists w, isPoly w /\ forall r, allPos r -> (polyV r p = w r * h r)%R.
  Lemma dv_comb h a b c p u v : isPoly a -> isPoly b -> dv h u -> dv h v -> Q2R c <> 0%R -> canon c ->
    (forall r, allPos r -> Q2R c * polyV r p = a r * polyV r u + b r * polyV r v)%R -> dv h p.
  Proof.
    intros Ia Ib (w & Iw & Vw) (x & Ix & Vx) Nc Cc V.
    destruct (inv_num c Nc) as (i & Ci & Vi). exists (fun r => Q2R i * (a r * w r + b r * x r))%R. split.
    - apply (isPoly_prod Y); [now apply isPoly_const|]. apply (isPoly_sum Y); now apply (isPoly_prod Y).
    - intros r Hr. specialize (V r Hr). rewrite Vw, Vx in V by exact Hr. rewrite Vi. apply (Rmult_eq_reg_l (Q2R c)); [|exact Nc]. rewrite V. field. exact Nc.
  Qed.
  (** A greatest common divisor of u and v, up to factors that are numbers. *)
  Definition gcdOf (u v g : poly) : Prop :=
    dv (fun r => polyV r g) u /\ dv (fun r => polyV r g) v /\ forall h, dv h u -> dv h v -> dv h g.
  Lemma isPoly_zero : isPoly (fun _ => 0%R).
  Proof. apply isPoly_ext with (2 := isPoly_const 0 eq_refl). intros r _. apply Q2R_0. Qed.
  Lemma isPoly_one : isPoly (fun _ => 1%R).
  Proof. apply isPoly_ext with (2 := isPoly_const 1 eq_refl). intros r _. apply Q2R_1. Qed.
  Lemma isPoly_Q c : canon c -> isPoly (fun _ => Q2R c). Proof. apply isPoly_const. Qed.
  Lemma isPoly_neg w : isPoly w -> isPoly (fun r => - w r)%R.
  Proof. intros I. apply isPoly_ext with (v := fun r => (Q2R (-1) * w r)%R); [intros r _; unfold Q2R; cbn; field|]. apply (isPoly_prod Y); [apply isPoly_const; reflexivity | exact I]. Qed.
  Lemma isPoly_p p : P_ok p -> isPoly (fun r => polyV r p).
  Proof. intros (O & P & _). exists p. auto. Qed.
  (** Numeric multiples *)
  Definition sim (p q : poly) : Prop := exists c, canon c /\ Q2R c <> 0%R /\ forall r, allPos r -> (polyV r q = Q2R c * polyV r p)%R.
  Lemma sim_refl p : sim p p.
  Proof. exists 1%Q. split; [reflexivity|]. rewrite Q2R_1. split; [lra|]. intros; ring. Qed.
  Lemma sim_sym p q : sim p q -> sim q p.
  Proof.
    intros (c & C & N & V). destruct (inv_num c N) as (i & Ci & Vi). exists i. split; [exact Ci|]. rewrite Vi. split; [now apply Rinv_neq_0_compat|]. intros r Hr. rewrite V by exact Hr. field. exact N.
  Qed.
  Lemma sim_trans p q s : sim p q -> sim q s -> sim p s.
  Proof.
    intros (c & C & N & V) (d & D & M & X). exists (qmul d c). split; [apply qmul_spec|]. rewrite Q2R_qmul. split; [now apply Rmult_integral_contrapositive|]. intros r Hr. rewrite X, V by exact Hr. ring.
  Qed.
  Lemma sim_dv h p q : sim p q -> dv h p -> dv h q.
  Proof.
    intros (c & C & N & V) (w & I & X). exists (fun r => Q2R c * w r)%R. split; [apply (isPoly_prod Y); [now apply isPoly_const | exact I]|]. intros r Hr. rewrite V, X by exact Hr. ring.
  Qed.
  Lemma dv_sim g g' p : sim g g' -> dv (fun r => polyV r g) p -> dv (fun r => polyV r g') p.
  Proof.
    intros S (w & I & X). apply sim_sym in S as (c & C & N & V). exists (fun r => w r * Q2R c)%R. split; [apply (isPoly_prod Y); [exact I | now apply isPoly_const]|].
    intros r Hr. rewrite X, V by exact Hr. ring.
  Qed.
  Lemma gcd_sim u u' v v' g g' : sim u u' -> sim v v' -> sim g g' -> gcdOf u v g -> gcdOf u' v' g'.
  Proof.
    intros Su Sv Sg (D1 & D2 & M). split; [|split].
    - apply (dv_sim g); [exact Sg|]. now apply (sim_dv _ u).
    - apply (dv_sim g); [exact Sg|]. now apply (sim_dv _ v).
    - intros h H1 H2. apply (sim_dv h g); [exact Sg|]. apply M; [apply (sim_dv h u') | apply (sim_dv h v')]; auto using sim_sym.
  Qed.
  Lemma gcd_comm u v g : gcdOf u v g -> gcdOf v u g.
  Proof. intros (A & C & D). split; [exact C|]. split; [exact A|]. auto. Qed.
  Lemma sim_nonempty p q : polyOK p -> polyOK q -> sim p q -> p <> [] -> q <> [].
  Proof.
    intros Op Oq (c & C & N & V) Np ->. destruct (nonzero_value p Op Np) as (r & Hr & X). specialize (V r Hr). change (polyV r []) with 0%R in V. symmetry in V. apply Rmult_integral in V as [V|V]; contradiction.
  Qed.
  Lemma gcd_step u v r' g c q : canon c -> Q2R c <> 0%R -> isPoly q -> (forall r, allPos r -> polyV r r' = Q2R c * polyV r u - q r * polyV r v)%R ->
    gcdOf v r' g -> gcdOf u v g.
  Proof.
    intros C N I V (D1 & D2 & M). split; [|split; [exact D1|]].
    - apply (dv_comb _ q (fun _ => 1%R) c u v r'); auto; [apply isPoly_one|]. intros r Hr. rewrite V by exact Hr. ring.
    - intros h H1 H2. apply M; [exact H2|]. apply (dv_comb h (fun _ => Q2R c) (fun r => - q r)%R 1 r' u v); auto; [now apply isPoly_const | now apply isPoly_neg | rewrite Q2R_1; lra | reflexivity|]. intros r Hr. rewrite V, Q2R_1 by exact Hr. ring.
  Qed.
  Lemma gcd_zero u : polyOK u -> posPoly u -> gcdOf u [] u.
  Proof.
    intros O P. split; [exists (fun _ => 1%R); split; [apply isPoly_one | intros; ring]|]. split; [|auto].
    exists (fun _ => 0%R). split; [apply isPoly_zero|]. intros r _. change (polyV r []) with 0%R. ring.
  Qed.
End Uni.
