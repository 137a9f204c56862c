(** poly::divide by a number whose inverse is computed wrongly: the loop never ends. *)
From Verif Require Import LaurentSpec DivSpec LaurentOrder LaurentProd LaurentIdent LaurentSum LaurentExpand LaurentMain LaurentApi RingProd RingSum RingPos RingSpec RingTerm LaurentCoeff PolyTotal PolyCode HRuns DivExact DivRun DivRem DivApi DivUser FuelMono FuelApi SimplApi ApiSpec ApiModel ExprProofs NumInt NumberProofs GcdProofs GcdPoly World WorldExact SoundOps RPow RunSpec NumberSpec PolyModel.
From Coq Require Import Lia Lra Bool Permutation Sorted Classical_Prop.
From Verif Require Import Run LaurentSpec.
Open Scope Z_scope.

(** The computation ends with a result that meets Q, or it doesn't end within the bounds. *)
Definition only {A} (m : res A) (Q : A -> Prop) : Prop := match m with Ok a _ => Q a | Fuel => True | _ => False end.
Lemma only_bind {A B} (m : res A) (f : A -> res B) Q Q' : only m Q -> (forall a, Q a -> only (f a) Q') -> only (bind m f) Q'.
Proof. destruct m as [a l| | |]; cbn; auto. intros Ha H. specialize (H a Ha). destruct (f a); cbn in *; auto. Qed.
Lemma only_ret {A} (a : A) (Q : A -> Prop) : Q a -> only (ret a) Q.
Proof. auto. Qed.
Lemma only_false {A} (m : res A) : only m (fun _ => False) -> m = Fuel.
Proof. destruct m; cbn; tauto. Qed.
Lemma only_rle {A} (m m' : res A) Q : rle m m' -> only m' Q -> m' <> Fuel -> only m Q.
Proof. destruct m as [a l| | |]; cbn; auto; [intros (l' & ->); auto | now intros -> | now intros ->]. Qed.
Lemma only_runs {A} Y (f : oper -> nat -> res A) P F k :
  (forall W W' n n', (n <= n')%nat -> ople W W' -> rle (f W n) (f W' n')) -> hruns Y f P -> only (f (world Y F k) F) P.
Proof.
  intros M (a & Pa & F0 & k0 & E). destruct (E (F + F0)%nat (k + k0)%nat ltac:(lia) ltac:(lia)) as (l & El & _).
  pose proof (M (world Y F k) (world Y (F + F0) (k + k0)) F (F + F0)%nat ltac:(lia) (world_mono Y F (F + F0) k (k + k0) ltac:(lia) ltac:(lia))) as R.
  rewrite El in R. eapply only_rle; [exact R | exact Pa | discriminate].
Qed.

Section Hang.
  Variables (Y : sys) (B : Z) (t : sym) (F k : nat) (c : Q).
  Hypothesis Hlt : exactUpTo B (s_nlt Y).
  Hypothesis HB : 0 <= B < intMax.
  Hypotheses (Cc : canon c) (Nc : Q2R c <> 0%R) (Wrong : ~ invertible Y c).
  Notation W := (world Y F k).
  Notation upoly := (upoly B t).
  Notation x := (symE t).

  (** What the code takes for the inverse. *)
  Lemma wrong_inverse : exists i, canon i /\ Q2R i <> 0%R /\ (Q2R i * Q2R c <> 1)%R /\
    (forall G, only (oneOver (world Y F G) (Num c)) (fun e => e = Num i)).
  Proof.
    destruct (num_pow Y c (-1) Cc Nc ltac:(lia)) as (i & Ci & Ni & _ & E). exists i. split; [exact Ci|]. split; [exact Ni|]. split.
    - intros H. apply Wrong. destruct (ev_ex _ E) as (F0 & k0 & l & El & _). exists F0, k0, i, l. split; [exact El|]. apply (Rmult_eq_reg_r (Q2R c)); [|exact Nc]. rewrite H. field. exact Nc.
    - intros G. unfold oneOver. change mOne with (Num (ofZ (-1))). destruct E as (F0 & k0 & E). destruct (E (F + F0)%nat (G + k0)%nat ltac:(lia) ltac:(lia)) as (l & El & _).
      pose proof (o_pow _ _ (world_mono Y F (F + F0) G (G + k0) ltac:(lia) ltac:(lia)) (Num c) (Num (ofZ (-1)))) as R. rewrite El in R.
      eapply only_rle; [exact R | reflexivity | discriminate].
  Qed.

  Lemma hang_loop : forall n q w u, isV B w q -> upoly u -> u <> [] ->
    only (divideLoop Y W (divide Y W F []) x (Num c) n q (polyE u) (degIn t u)) (fun _ => False).
  Proof.
    destruct wrong_inverse as (i & Ci & Ni & Hi & Inv).
    induction n as [|n IH]; intros qe qv u Hqe U Nu; [exact Logic.I|]. destruct U as [Ku Wu] eqn:EU. assert (Uu : upoly u) by exact U. clear EU.
    assert (Ou : polyOK u) by apply Ku. assert (Pu : posPoly u) by apply Ku. assert (Dub : polyDeg u <= B) by apply Ku.
    pose proof (degIn_nonneg t u) as N1. pose proof (uni_deg B t u Uu) as Eud.
    assert (Du : degree Y (polyE u) x = degIn t u) by (apply degree_poly; [exact Pu | lia]).
    destruct (h_coeff Y B Hlt t (degIn t u) u Ku N1) as (s & Cs & Es).
    destruct (coef_num B t HB _ u s Uu N1 Cs) as (a & Ea & Ca & Na & Va). specialize (Na (isCoef_lead t u s Cs Ou Pu Nu)).
    cbn [divideLoop]. change (degree Y (Num c) x) with 0. rewrite (proj2 (Z.ltb_ge (degIn t u) 0)) by exact N1. rewrite Z.sub_0_r.
    unfold leadingCoeff. rewrite Du. change (degree Y (Num c) x) with 0.
    eapply only_bind; [apply (only_runs Y (fun W _ => coeff W (polyE u) x (degIn t u)) (fun e => e = polyE s)); [intros V V' m m' _ HV; now apply m_coeff | exact Es]|]. intros ? ->. rewrite Ea.
    eapply only_bind with (Q := fun e => e = Num c); [apply only_ret; reflexivity|]. intros ? ->.
    eapply only_bind with (Q := fun d => d = (Num (qmul a i), zero)).
    { cbn [divide]. unfold isInputValid. cbn [isZero hasValidType]. rewrite (nz_qeqb c Nc), andb_false_r. cbn [andb negb].
      unfold divideEmptyList. eapply only_bind; [apply Inv|]. intros ? ->.
      eapply only_bind; [apply (only_runs Y (fun W _ => w_prod W [Num a; Num i]) (fun e => e = Num (qmul a i))); [intros V V' m m' _ HV; apply (o_prod _ _ HV)|]|].
      - apply h_eq. apply num_prod; auto; [apply qmul_spec | apply Q2R_qmul].
      - intros ? ->. cbn [numericEval]. rewrite (nz_qeqb c Nc). apply only_ret. reflexivity. }
    intros ? ->. cbn [fst snd]. change (isZero zero) with true. cbn [negb]. cbv zeta.
    eapply only_bind; [apply (only_runs Y (fun W _ => monomial W x (degIn t u)) (fun e => e = powE t (degIn t u))); [intros V V' m m' _ HV; apply (o_pow _ _ HV) | apply h_eq; apply (monomial_ev Y t)]|]. intros ? ->.
    pose (m := qmul a i). assert (Cm : canon m) by apply qmul_spec. assert (Vm : Q2R m = (Q2R a * Q2R i)%R) by apply Q2R_qmul. fold m.
    pose proof (isV_num m Cm) as (Rm & Em & Vm'). pose proof (isV_pow t (degIn t u) N1) as (Rt & Et & Vt). pose proof (isV_num c Cc) as (Rc & Ec & Vc).
    eapply only_bind.
    { apply (only_runs Y (fun W _ => w_prod W [Num m; powE t (degIn t u)])); [intros V V' n1 n2 _ HV; apply (o_prod _ _ HV)|].
      apply (v_prod Y B Hlt B (fun r => Q2R m * powerRZ (symV r t) (degIn t u))%R); [cbn; lia | intros y [<-|[<-|[]]]; assumption | cbn [degSum fold_right degreeBound]; lia | lia|].
      intros r Hr. cbn [prodVal fold_right]. rewrite Vm', Vt by exact Hr. cbn. f_equal. ring. }
    intros pe Hpe.
    eapply only_bind; [apply (only_runs Y (fun W _ => w_sum W [qe; pe])); [intros V V' n1 n2 _ HV; apply (o_sum _ _ HV) | apply (v_sum Y B _ _ _ _ Hqe Hpe)]|]. intros q' Hq'.
    eapply only_bind.
    { apply (only_runs Y (fun W _ => minus W [Num m; Num c; powE t (degIn t u)])); [intros V V' n1 n2 _ HV; apply (o_prod _ _ HV)|].
      apply (v_prod Y B Hlt (degIn t u) (fun r => - (Q2R m * Q2R c * powerRZ (symV r t) (degIn t u)))%R); [cbn; lia | intros y [<-|[<-|[<-|[<-|[]]]]]; try assumption; apply rg_num; reflexivity | cbn [degSum fold_right degreeBound mOne]; lia | lia|].
      intros r Hr. cbn [prodVal fold_right]. rewrite Vm', Vc, Vt by exact Hr. cbn. f_equal. unfold Q2R at 1; cbn. field. }
    intros me Hme.
    eapply only_bind.
    { apply (only_runs Y (fun W _ => w_sum W [polyE u; me])); [intros V V' n1 n2 _ HV; apply (o_sum _ _ HV)|].
      apply (v_sum Y (degIn t u) (fun r => polyV r u)); [|exact Hme]. rewrite <- Eud. now apply isV_poly. }
    intros r1 Hr1.
    eapply only_bind.
    { apply (only_runs Y (fun W _ => w_expand W r1)); [intros V V' n1 n2 _ HV; apply (o_expand _ _ HV)|].
      apply (v_expand Y B Hlt (degIn t u) _ r1 Hr1). lia. }
    intros r' (u' & -> & Ou' & Pu' & Du' & Vu'). cbv beta in Vu'.
    assert (Nu' : u' <> []).
    { intros ->. pose (s' := offDeg t (degIn t u) u). assert (Os' : polyOK s') by now apply filter_polyOK. assert (Ps' : posPoly s') by now apply filter_posPoly.
      assert (Ds' : polyDeg s' <= polyDeg u) by apply filter_polyDeg. assert (Ks' : P_ok B s') by (split; [exact Os'|]; split; [exact Ps' | lia]).
      pose (g := qmul i c). assert (Cg : canon g) by apply qmul_spec. assert (Vg : Q2R g = (Q2R i * Q2R c)%R) by apply Q2R_qmul.
      pose (h := qadd g (-1)). assert (Ch : canon h) by apply qadd_spec.
      assert (Vh : Q2R h = (Q2R g - 1)%R). { unfold h. rewrite (Qeq_eqR _ _ (proj2 (qadd_spec g (-1)))), Q2R_plus. unfold Q2R at 2; cbn. lra. }
      assert (Ng : Q2R g <> 0%R) by (rewrite Vg; now apply Rmult_integral_contrapositive). assert (Nh : Q2R h <> 0%R) by lra.
      destruct (multiple Y B Hlt HB h u Ch Nh Ku) as (w & Kw & Vw & _).
      assert (X : forall r, allPos r -> (Q2R g * polyV r s' = Q2R h * polyV r u)%R).
      { intros r Hr. pose proof (Vu' r Hr) as E0. change (polyV r []) with 0%R in E0. pose proof (split_lead r t u Hr) as E1. rewrite Va in E1. fold s' in E1.
        assert (E2 : polyV r u = (Q2R a * Q2R g * powerRZ (symV r t) (degIn t u))%R) by (rewrite Vg; rewrite Vm in E0; lra).
        assert (E3 : polyV r s' = (polyV r u - Q2R a * powerRZ (symV r t) (degIn t u))%R) by lra. rewrite E3, Vh, E2. ring. }
      assert (P1 : product [(g, [])] s' w) by (intros r Hr; rewrite num_polyV, Vw, X by exact Hr; reflexivity).
      assert (P2 : product [(h, [])] u w) by (intros r Hr; rewrite num_polyV, Vw by exact Hr; reflexivity).
      assert (Og : polyOK [(g, [])]) by now apply (num_ok B). assert (Oh : polyOK [(h, [])]) by now apply (num_ok B).
      assert (Ns' : s' <> []).
      { intros E0. assert (Ew : w = []) by (apply poly_unique; [apply Kw | apply polyOK_nil|]; intros r Hr; rewrite Vw, <- X by exact Hr; rewrite E0; change (polyV r []) with 0%R; ring).
        pose proof (product_zero [(h, [])] u w Oh Ou Nu P2 Ew). discriminate. }
      assert (D1 : degIn t w = degIn t [(g, [])] + degIn t s') by (apply mul_degIn; auto; try discriminate; try apply Kw; repeat constructor).
      assert (D2 : degIn t w = degIn t [(h, [])] + degIn t u) by (apply mul_degIn; auto; try discriminate; try apply Kw; repeat constructor).
      change (degIn t [(g, [])]) with 0 in D1. change (degIn t [(h, [])]) with 0 in D2. pose proof (offDeg_less t u Pu Ns') as L. fold s' in L. lia. }
    assert (U' : upoly u').
    { split; [split; [exact Ou'|]; split; [exact Pu' | lia]|]. intros y Hy. apply value_free; [exact Ou' | exact Pu'|]. intros r T Hr HT.
      rewrite !Vu' by (try apply updS_pos; assumption). rewrite free_value by (auto; apply Wu; exact Hy). f_equal. f_equal. f_equal. f_equal.
      unfold symV, updS. destruct (sym_dec (fst t, snd t) y) as [E0|_]; [|reflexivity]. exfalso. apply Hy. left. rewrite <- E0. now destruct t. }
    rewrite polyE_isZero by exact Ou'. destruct u' as [|m' u''] eqn:Eu'; [congruence|]. rewrite <- Eu' in *.
    rewrite degree_poly; [|exact Pu' | lia]. eapply IH; [exact Hq' | exact U' | rewrite Eu'; discriminate].
  Qed.

  Lemma hang_divide u : upoly u -> degIn t u <> 0 -> only (divide Y W F [x] (polyE u) (Num c)) (fun _ => False).
  Proof.
    intros U D. assert (Nu : u <> []) by (intros ->; apply D; reflexivity).
    rewrite <- num_polyE. cbn [divide]. rewrite (valid Y B HB u [(c, [])] (proj1 U)) by (try apply num_ok; auto; discriminate). cbn [negb].
    destruct (isEqual (polyE [(c, [])]) (polyE u)) eqn:E.
    { apply isEqual_eq, polyE_inj in E; [|now apply (num_ok B) | apply U]. subst u. exfalso. apply D. reflexivity. }
    rewrite polyE_isZero by apply U. destruct u as [|m0 u0] eqn:Eu; [congruence|]. rewrite <- Eu in *.
    rewrite degree_poly; [|apply U | destruct U as [(_ & _ & ?) _]; lia]. rewrite num_polyE. eapply (hang_loop F (zero) (fun _ => Q2R 0)); auto. apply (isV_le 0); [lia | apply isV_num; reflexivity].
  Qed.
End Hang.

(** A polynomial in one symbol, divided by such a number. *)
Theorem divide_hangs Y B t u c : exactUpTo B (s_nlt Y) -> 0 <= B < intMax -> P_ok B u -> (forall s, symsOf u s <-> s = t) -> canon c -> Q2R c <> 0%R -> ~ invertible Y c ->
  forall F k n, polyDivide Y (world Y F k) n (polyE u) (Num c) = Fuel.
Proof.
  intros Hlt HB Ku Hs Cc Nc Wr F k n.
  pose proof (m_polyDivide Y _ _ (world_mono Y F (F + n) k k ltac:(lia) ltac:(lia)) n (F + n)%nat (polyE u) (Num c) ltac:(lia)) as R.
  assert (E : polyDivide Y (world Y (F + n) k) (F + n) (polyE u) (Num c) = Fuel).
  { unfold polyDivide. rewrite <- num_polyE. destruct (symbols_list Y u [(c, [])]) as (L & EL & ND & HL). rewrite EL. clear EL.
    assert (HL' : forall s, In s L <-> s = t).
    { intros s. rewrite HL, Hs. split; [|now left]. intros [?|(m & [<-|[]] & [])]; assumption. }
    assert (L1 : L = [t]).
    { destruct L as [|a [|b L]]; [exfalso; apply (proj2 (HL' t) eq_refl) | f_equal; apply HL'; now left|]. exfalso. inversion ND as [|? ? N _]; subst. apply N. left.
      transitivity t; [apply HL'; right; now left | symmetry; apply HL'; now left]. }
    subst L. rewrite num_polyE.
    assert (U : upoly B t u).
    { split; [exact Ku|]. intros s Hn. destruct (Z.eq_dec (degIn s u) 0) as [|N]; [assumption|]. exfalso. apply Hn. left. symmetry. apply Hs. now apply degIn_syms. }
    apply only_false. apply (hang_divide Y B t (F + n) k c Hlt HB Cc Nc Wr u U).
    intros D. destruct (proj2 (Hs t) eq_refl) as (m & Hm & Hk). pose proof (degIn_ge t u m Hm) as G. destruct Ku as ([Ou _] & Pu & _). unfold posPoly in Pu. rewrite Forall_forall in Pu, Ou. specialize (Pu m Hm).
    unfold inKey in Hk. apply in_map_iff in Hk as ((s & z) & Es & Hk). cbn in Es. subst s. destruct (Ou m Hm) as (_ & _ & K).
    pose proof (PolyCode.kget_in (snd m) t z K Hk) as G'. unfold posKey in Pu. rewrite Forall_forall in Pu. specialize (Pu _ Hk). cbn in Pu. lia. }
  rewrite E in R. destruct (polyDivide Y (world Y F k) n (polyE u) (Num c)); cbn in R; [destruct R; discriminate | reflexivity | discriminate | discriminate].
Qed.
