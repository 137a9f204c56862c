(** poly::divide on polynomials in normal form: the quotient of a product is found, without remainder. *)
From Verif Require Import LaurentSpec LaurentOrder LaurentProd LaurentIdent LaurentSum LaurentExpand LaurentMain LaurentApi RingProd RingSum RingPos RingSpec RingTerm LaurentCoeff PolyCode HRuns DivExact FuelMono FuelApi SimplApi ApiSpec ApiModel ExprProofs NumInt NumberProofs World WorldExact RPow RunSpec NumberSpec PolyModel.
From Coq Require Import Lia Lra Bool Permutation Sorted Wf_nat.
From Verif Require Import Run LaurentSpec.
Open Scope Z_scope.

Section Div.
  Variables (Y : sys) (B : Z).
  Hypothesis Hlt : exactUpTo B (s_nlt Y).
  Hypothesis HB : 0 <= B < intMax.
  Notation hruns := (hruns Y).
  Notation lruns := (lruns Y).

  (** A polynomial within the bounds. *)
  Definition P_ok (p : poly) : Prop := polyOK p /\ posPoly p /\ polyDeg p <= B.
  Definition product (q v u : poly) : Prop := forall r, allPos r -> (polyV r u = polyV r q * polyV r v)%R.

  Lemma valid u v : P_ok u -> P_ok v -> v <> [] -> isInputValid Y (polyE u) (polyE v) = true.
  Proof.
    intros (Ou & Pu & Du) (Ov & Pv & Dv) N. unfold isInputValid. rewrite !polyE_isZero by assumption. rewrite !valid_poly by (assumption || lia).
    destruct v; [congruence|]. now rewrite andb_false_r.
  Qed.
  Lemma num_nonzero c : polyOK [(c, [])] -> canon c /\ Q2R c <> 0%R.
  Proof. intros O. apply polyOK_one in O as (A & C & _). split; [exact A|]. now apply Q2R_nonzero. Qed.
  Lemma num_polyV r c : polyV r [(c, [])] = Q2R c.
  Proof. rewrite polyV_cons. change (polyV r []) with 0%R. unfold monoV, keyV; cbn [fst snd fold_right]. ring. Qed.
  Lemma num_polyE c : polyE [(c, [])] = Num c.
  Proof. cbn. unfold monoE, factorsE; cbn. destruct (qeqb c 1) eqn:E; [apply qeqb_eq in E as ->|]; reflexivity. Qed.
  Definition unitEnv : env := fun _ _ => 1%R.
  Lemma unit_pos : allPos unitEnv. Proof. intros n p. unfold unitEnv. lra. Qed.

  Lemma product_zero q v u : polyOK q -> polyOK v -> v <> [] -> product q v u -> u = [] -> q = [].
  Proof.
    intros Oq Ov Nv H ->. destruct q as [|m q]; [reflexivity|]. exfalso. apply (mul_nonzero (m :: q) v []); auto. discriminate.
  Qed.
  Lemma product_zero' q v u : polyOK u -> product q v u -> q = [] -> u = [].
  Proof. intros Ou H ->. apply poly_unique; [exact Ou | apply polyOK_nil|]. intros r Hr. rewrite H by exact Hr. change (polyV r []) with 0%R. ring. Qed.

  (** Numbers. *)
  Lemma div_numbers q v u : P_ok q -> P_ok v -> P_ok u -> v <> [] -> product q v u -> (forall m, In m v -> invertible Y (fst m)) ->
    (forall t, degIn t q = 0 /\ degIn t v = 0) -> hruns (fun W n => divideEmptyList Y W (polyE u) (polyE v)) (fun p => p = (polyE q, zero)).
  Proof.
    intros (Oq & Pq & Dq) (Ov & Pv & Dv) (Ou & Pu & Du) Nv H I D.
    destruct (no_symbols v Ov Pv) as [->|(d & ->)]; [intros; apply D | congruence|]. destruct (num_nonzero d Ov) as [Cd Nd]. rewrite num_polyE.
    unfold divideEmptyList. eapply h_bind; [apply h_inverse; [exact Cd | exact Nd | exact (I (d, []) (or_introl eq_refl))]|].
    intros e (i & -> & Ci & Vi). assert (Z : qeqb d 0 = false) by (apply qeqb_neq; intros ->; apply Nd, Q2R_0).
    destruct (no_symbols q Oq Pq) as [->|(c & ->)]; [intros; apply D| |].
    - rewrite (product_zero' [] _ u Ou H eq_refl). eapply h_bind.
      + apply (h_eq Y (fun W _ => w_prod W [polyE []; Num i]) zero). apply ev_S, ev_all. reflexivity.
      + intros ? ->. apply (h_ext Y (fun _ _ => _ <- relyIf (qeqb d 0) (CNonZero (Num d)) ;; ret (zero, zero))); [reflexivity|]. rewrite Z. apply h_ret. reflexivity.
    - destruct (num_nonzero c Oq) as [Cc Nc]. assert (E : u = [(qmul c d, [])]).
      { apply poly_unique; [exact Ou| |].
        - apply mono_polyOK. split; [apply qmul_spec|]. split; [cbn [fst]; intros E; apply (f_equal Q2R) in E; rewrite Q2R_qmul, Q2R_0 in E; apply Rmult_integral in E; tauto | apply keyOK_nil].
        - intros r Hr. rewrite H by exact Hr. rewrite !num_polyV, Q2R_qmul. reflexivity. }
      rewrite E, !num_polyE. eapply h_bind.
      + apply (h_eq Y (fun W _ => w_prod W [Num (qmul c d); Num i]) (Num c)). apply num_prod; auto.
        * apply qmul_spec.
        * rewrite Q2R_qmul. now apply Rmult_integral_contrapositive.
        * rewrite Vi. now apply Rinv_neq_0_compat.
        * rewrite Q2R_qmul, Vi. field. exact Nd.
      + intros ? ->. apply (h_ext Y (fun _ _ => _ <- relyIf (qeqb d 0) (CNonZero (Num d)) ;; ret (Num c, zero))); [reflexivity|]. rewrite Z. apply h_ret. reflexivity.
  Qed.

  Lemma h_coeff t i p : P_ok p -> 0 <= i -> exists s, isCoef t i p s /\ hruns (fun W _ => coeff W (polyE p) (symE t) i) (fun e => e = polyE s).
  Proof. intros (O & P & D) Hi. destruct (coeff_poly Y B Hlt t i p O P Hi D) as (s & Hs & E). exists s. split; [exact Hs|]. now apply h_eq. Qed.
  Lemma coef_ok t i p s : P_ok p -> 0 <= i -> isCoef t i p s -> P_ok s.
  Proof.
    intros (O & P & D) Hi H. split; [apply H|]. split; [now apply (isCoef_pos t i p)|]. assert (X : s = [] \/ s <> []) by (destruct s; [now left | right; discriminate]). destruct X as [->|N]; [cbn; lia|].
    pose proof (isCoef_deg t i p s H P N). lia.
  Qed.

  Section Loop.
    Variables (t : sym) (R : list sym) (q v : poly).
    Hypotheses (Hq : P_ok q) (Hv : P_ok v) (Nv : v <> []) (Hqv : polyDeg q + polyDeg v <= B).
    Hypothesis HI : forall m, In m v -> invertible Y (fst m).
    Hypothesis HL : forall s, ~ In s (t :: R) -> degIn s q = 0 /\ degIn s v = 0.
    Hypothesis IH : forall q v u, P_ok q -> P_ok v -> P_ok u -> v <> [] -> polyDeg q + polyDeg v <= B -> product q v u ->
      (forall m, In m v -> invertible Y (fst m)) -> (forall s, ~ In s R -> degIn s q = 0 /\ degIn s v = 0) ->
      hruns (fun W n => divide Y W n (map symE R) (polyE u) (polyE v)) (fun p => p = (polyE q, zero)).

    Lemma div_loop : forall n s u qe, (Z.to_nat (degIn t s) < n)%nat -> P_ok s -> s <> [] -> polyDeg s <= polyDeg q -> (forall x, degIn x s <= degIn x q) ->
      P_ok u -> product s v u -> isV (polyDeg q) (fun r => polyV r q - polyV r s)%R qe ->
      lruns (fun W n j => divideLoop Y W (divide Y W n (map symE R)) (symE t) (polyE v) j qe (polyE u) (degIn t u)) (fun p => p = (polyE q, zero)).
    Proof.
      induction n as [|n IHn]; intros s u qe Hn Hs Ns Ds Is Hu Hp Hqe; [lia|].
      assert (Op : polyOK s) by apply Hs. assert (Ov : polyOK v) by apply Hv. assert (Pv : posPoly v) by apply Hv. assert (Ps : posPoly s) by apply Hs.
      assert (Hd : degIn t u = degIn t s + degIn t v) by (apply mul_degIn; auto; apply Hu).
      assert (Dv : degree Y (polyE v) (symE t) = degIn t v) by (apply degree_poly; [exact Pv|]; destruct Hv as (_ & _ & ?); lia).
      assert (Du : degree Y (polyE u) (symE t) = degIn t u) by (apply degree_poly; [apply Hu|]; destruct Hu as (_ & _ & ?); lia).
      pose proof (degIn_nonneg t s) as N1. pose proof (degIn_nonneg t v) as N2.
      destruct (h_coeff t (degIn t u) u Hu) as (lu & Cu & Eu); [lia|]. destruct (h_coeff t (degIn t v) v Hv) as (lv & Cv & Ev); [lia|].
      destruct (h_coeff t (degIn t s) s Hs) as (g & Cg & _); [lia|].
      pose proof (coef_ok t _ u lu Hu (degIn_nonneg t u) Cu) as Klu. pose proof (coef_ok t _ v lv Hv (degIn_nonneg t v) Cv) as Klv. pose proof (coef_ok t _ s g Hs (degIn_nonneg t s) Cg) as Kg.
      assert (Nlv : lv <> []) by (apply (isCoef_lead t v lv); auto). assert (Ng : g <> []) by (apply (isCoef_lead t s g); auto).
      pose proof (isCoef_deg t _ s g Cg Ps Ng) as Dg. pose proof (isCoef_deg t _ v lv Cv Pv Nlv) as Dlv.
      apply (l_S Y _ (fun W n j => if degIn t u <? degree Y (polyE v) (symE t) then e <- w_expand W qe ;; ret (e, polyE u) else
          lr <- leadingCoeff Y W (polyE u) (symE t) ;; lv <- leadingCoeff Y W (polyE v) (symE t) ;; d <- divide Y W n (map symE R) lr lv ;;
          if negb (isZero (snd d)) then e <- w_expand W qe ;; ret (e, polyE u)
          else let c := fst d in
            x <- monomial W (symE t) (degIn t u - degree Y (polyE v) (symE t)) ;;
            p <- w_prod W [c; x] ;; q' <- w_sum W [qe; p] ;;
            m <- minus W [c; polyE v; x] ;; r1 <- w_sum W [polyE u; m] ;; r' <- w_expand W r1 ;;
            if isZero r' then e <- w_expand W q' ;; ret (e, r')
            else divideLoop Y W (divide Y W n (map symE R)) (symE t) (polyE v) j q' r' (degree Y r' (symE t)))).
      { reflexivity. }
      unfold leadingCoeff. rewrite Dv, Du. rewrite (proj2 (Z.ltb_ge (degIn t u) (degIn t v))) by lia. replace (degIn t u - degIn t v) with (degIn t s) by lia.
      eapply l_bind; [exact Eu|]. intros ? ->. eapply l_bind; [exact Ev|]. intros ? ->.
      eapply l_bind.
      { apply (IH g lv lu Kg Klv Klu Nlv); [lia| | |].
        - intros r Hr. destruct Cu as (_ & Vu & _), Cv as (_ & Vv & _), Cg as (_ & Vg & _). rewrite Vu, Vv, Vg, Hd. now apply mul_lead.
        - intros m Hm. apply (in_map fst) in Hm. apply (isCoef_fst t _ v lv Cv Ov) in Hm. apply in_map_iff in Hm as (m' & <- & Hm'). now apply HI.
        - intros x Hx. destruct (sym_dec x t) as [->|Nx]; [split; eapply isCoef_free; eassumption|]. destruct (HL x) as [Z1 Z2]; [intros [E|E]; [congruence | contradiction]|].
          pose proof (isCoef_degIn t _ s g x Cg). pose proof (isCoef_degIn t _ v lv x Cv). specialize (Is x). pose proof (degIn_nonneg x g). pose proof (degIn_nonneg x lv). lia. }
      intros ? ->. cbn [fst snd]. change (isZero zero) with true. cbn [negb]. cbv zeta.
      eapply l_bind; [apply (h_eq Y (fun W _ => monomial W (symE t) (degIn t s)) (powE t (degIn t s))); apply (monomial_ev Y t)|]. intros ? ->.
      destruct Kg as (Og & Pg & _). pose proof (isV_poly g Og Pg) as (Rg & Eg & Vg). pose proof (isV_pow t (degIn t s) N1) as (Rt & Et & Vt). pose proof (isV_poly v Ov Pv) as (Rv & Ev' & Vv).
      assert (CV : forall r, allPos r -> (polyV r g * powerRZ (symV r t) (degIn t s) = polyV r s - polyV r (offDeg t (degIn t s) s))%R).
      { intros r Hr. rewrite (split_lead r t s Hr). destruct Cg as (_ & Vc & _). rewrite Vc. ring. }
      pose (s' := offDeg t (degIn t s) s). fold s' in CV.
      eapply l_bind.
      { apply (v_prod Y B Hlt (polyDeg q) (fun r => polyV r s - polyV r s')%R); [cbn; lia | intros x [<-|[<-|[]]]; assumption | cbn [degSum fold_right]; lia | pose proof (polyDeg_nonneg v); lia|].
        intros r Hr. cbn. rewrite Vg, Vt by exact Hr. cbn. f_equal. rewrite <- CV by exact Hr. ring. }
      intros pe Hpe. eapply l_bind; [apply (v_sum Y (polyDeg q) _ _ _ _ Hqe Hpe)|]. intros q' Hq'.
      eapply l_bind.
      { apply (v_prod Y B Hlt B (fun r => - ((polyV r s - polyV r s') * polyV r v))%R); [cbn; lia | intros x [<-|[<-|[<-|[<-|[]]]]]; try assumption; apply rg_num; reflexivity | cbn [degSum fold_right degreeBound mOne]; lia | lia|].
        intros r Hr. cbn. rewrite Vg, Vt, Vv by exact Hr. cbn. f_equal. rewrite <- CV by exact Hr. unfold Q2R; cbn. field. }
      intros me Hme. destruct Hu as (Ou & Pu & Dub). eapply l_bind; [apply (v_sum Y B (fun r => polyV r u) (fun r => - ((polyV r s - polyV r s') * polyV r v))%R); [apply (isV_le (polyDeg u)); [exact Dub | now apply isV_poly] | exact Hme]|]. intros r1 Hr1.
      eapply l_bind; [apply (v_expand Y B Hlt B _ r1 Hr1); lia|]. intros r' (u' & -> & Ou' & Pu' & Du' & Vu').
      assert (Hp' : product s' v u') by (intros r Hr; rewrite Vu' by exact Hr; rewrite Hp by exact Hr; ring).
      assert (Os' : polyOK s') by now apply filter_polyOK. assert (Ps' : posPoly s') by now apply filter_posPoly. assert (Ds' : polyDeg s' <= polyDeg s) by apply filter_polyDeg.
      assert (Hq'' : isV (polyDeg q) (fun r => polyV r q - polyV r s')%R q') by (eapply isV_ext; [|exact Hq']; intros r _; cbn beta; ring).
      rewrite polyE_isZero by exact Ou'. destruct u' as [|m' u''] eqn:Eu'.
      - apply l_const. assert (s' = []) as E0 by now apply (product_zero s' v []).
        eapply h_bind; [apply (v_expand Y B Hlt (polyDeg q) _ q' Hq''); pose proof (polyDeg_nonneg v); lia|]. intros x Hx. apply h_ret. f_equal.
        apply (isN_is _ _ _ q Hx); [apply Hq|]. intros r Hr. rewrite E0. change (polyV r []) with 0%R. ring.
      - rewrite <- Eu' in *. assert (Ns' : s' <> []) by (intros E0; pose proof (product_zero' s' v u' Ou' Hp' E0); congruence).
        assert (Du2 : degree Y (polyE u') (symE t) = degIn t u') by (apply degree_poly; [exact Pu' | lia]). rewrite Du2.
        pose proof (offDeg_less t s Ps Ns') as L. fold s' in L. pose proof (degIn_nonneg t s').
        apply (IHn s' u' q'); auto; [lia | split; [exact Os'|]; split; [exact Ps'|]; destruct Hs as (_ & _ & ?); lia | lia | | split; [exact Ou'|]; split; [exact Pu' | exact Du']].
        intros x. eapply Z.le_trans; [|apply (Is x)]. apply degIn_le; [apply degIn_nonneg|]. intros m Hm. apply filter_In in Hm as [Hm _]. now apply degIn_ge.
    Qed.
  End Loop.

  Theorem divide_exact L : forall q v u, P_ok q -> P_ok v -> P_ok u -> v <> [] -> polyDeg q + polyDeg v <= B -> product q v u ->
    (forall m, In m v -> invertible Y (fst m)) -> (forall s, ~ In s L -> degIn s q = 0 /\ degIn s v = 0) ->
    hruns (fun W n => divide Y W n (map symE L) (polyE u) (polyE v)) (fun p => p = (polyE q, zero)).
  Proof.
    induction L as [|t R IH]; intros q v u Hq Hv Hu Nv Hd Hp HI HL; cbn [map divide]; rewrite (valid u v Hu Hv Nv); cbn [negb].
    - apply div_numbers; auto.
    - destruct (isEqual (polyE v) (polyE u)) eqn:E.
      + apply h_ret. f_equal. apply isEqual_eq, polyE_inj in E; [|apply Hv | apply Hu]. subst u. change one with (polyE [(1%Q, [])]). f_equal.
        assert (O1 : polyOK [(1%Q, [])]) by (apply mono_polyOK; split; [reflexivity|]; split; [discriminate | apply keyOK_nil]).
        apply (mul_cancel Y B Hlt _ q v); auto; try (apply Hq || apply Hv); try lia.
        * constructor; [constructor | constructor].
        * cbn; lia.
        * intros r Hr. rewrite num_polyV, Q2R_1. rewrite <- Hp by exact Hr. ring.
      + rewrite polyE_isZero by apply Hu. destruct u as [|m u'] eqn:Eu.
        * apply h_ret. f_equal. rewrite (product_zero q v []); auto; [apply Hq | apply Hv].
        * rewrite <- Eu in *. assert (Du : degree Y (polyE u) (symE t) = degIn t u) by (apply degree_poly; [apply Hu|]; destruct Hu as (_ & _ & ?); lia). rewrite Du.
          apply (l_of Y (fun W n j => divideLoop Y W (divide Y W n (map symE R)) (symE t) (polyE v) j zero (polyE u) (degIn t u))).
          apply (div_loop t R q v Hq Hv Nv Hd HI HL IH (S (Z.to_nat (degIn t q))) q u zero); auto; try lia.
          -- intros E0. pose proof (product_zero' q v u (proj1 Hu) Hp E0). congruence.
          -- apply (isV_ext _ (fun _ => Q2R 0)); [intros r _; rewrite Q2R_0; ring|]. apply (isV_le 0); [apply polyDeg_nonneg|]. apply isV_num. reflexivity.
  Qed.
End Div.
