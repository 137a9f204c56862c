(** poly::divide on polynomials in normal form, with remainder. *)
From Verif Require Import LaurentSpec LaurentOrder LaurentProd LaurentIdent LaurentSum LaurentExpand LaurentMain LaurentApi RingProd RingSum RingPos RingSpec RingTerm LaurentCoeff PolyTotal PolyCode HRuns DivExact DivRun FuelMono FuelApi SimplApi ApiSpec ApiModel ExprProofs NumInt NumberProofs World WorldExact RPow RunSpec NumberSpec PolyModel.
From Coq Require Import Lia Lra Bool Permutation Sorted Wf_nat.
From Verif Require Import Run LaurentSpec.
Open Scope Z_scope.

(** ** Coefficients and values *)
Lemma coef_by_value t r p ts : allPos r -> (forall T, (1 <= T)%R -> polyV (updS r t T) p = uV T ts) -> forall d, coefV t d r p = coefAt d ts.
Proof. intros Hr H. apply same_coefs. intros T HT. rewrite <- polyV_upd by (assumption || lra). now apply H. Qed.
Lemma coefAt_shift a k d l : coefAt d (uMul [(a, k)] l) = (a * coefAt (d - k) l)%R.
Proof.
  unfold uMul. cbn [flat_map fst snd]. rewrite app_nil_r. unfold coefAt. induction l as [|u l IH]; cbn [map fold_right fst snd]; [ring|]. rewrite IH.
  destruct (Z.eq_dec (k + snd u) d), (Z.eq_dec (snd u) (d - k)); try lia; ring.
Qed.
Lemma coefV_above t d r p : degIn t p < d -> coefV t d r p = 0%R.
Proof. intros H. apply coefAt_none. intros u Hu. apply cTerms_le in Hu. lia. Qed.
Lemma degIn_bound t p d : polyOK p -> posPoly p -> p <> [] -> (forall r i, allPos r -> d <= i -> coefV t i r p = 0%R) -> degIn t p < d.
Proof.
  intros O P N H. destruct (degIn_attained t p P N) as (m & Hm & E). destruct (coef_nonzero t _ p m O Hm E) as (r & Hr & C).
  destruct (Z_lt_ge_dec (degIn t p) d) as [|G]; [assumption|]. exfalso. apply C, H; [exact Hr | lia].
Qed.
(** A symbol doesn't occur if and only if the value doesn't depend on it. *)
Lemma free_value x p r T : posPoly p -> degIn x p = 0 -> allPos r -> (0 < T)%R -> polyV (updS r x T) p = polyV r p.
Proof.
  intros P D Hr HT. rewrite polyV_upd by assumption. rewrite (polyV_terms r x) by exact Hr. unfold cTerms, uV.
  assert (K : forall m, In m p -> kget (snd m) x = 0).
  { intros m Hm. pose proof (degIn_ge x p m Hm). unfold posPoly in P. rewrite Forall_forall in P. pose proof (kget_nonneg (snd m) x (P m Hm)). lia. }
  clear D P. induction p as [|m p IH]; [reflexivity|]. cbn [map fold_right fst snd]. rewrite IH by (intros; apply K; now right). rewrite (K m) by now left. cbn [powerRZ]. reflexivity.
Qed.
Lemma value_free x p : polyOK p -> posPoly p -> (forall r T, allPos r -> (0 < T)%R -> polyV (updS r x T) p = polyV r p) -> degIn x p = 0.
Proof.
  intros O P H. destruct p as [|m0 p0] eqn:Ep; [reflexivity|]. rewrite <- Ep in *. assert (N : p <> []) by (subst; discriminate). clear Ep m0 p0.
  apply Z.le_antisymm; [|apply degIn_nonneg]. apply Z.lt_succ_r. apply degIn_bound; auto. intros r i Hr Hi.
  rewrite (coef_by_value x r p [(polyV r p, 0)] Hr).
  - unfold coefAt. cbn [fold_right fst snd]. destruct (Z.eq_dec 0 i) as [E|_]; [lia|]. ring.
  - intros T HT. rewrite H by (assumption || lra). unfold uV. cbn [fold_right fst snd powerRZ]. ring.
Qed.

Lemma h_unique {A} Y (f : oper -> nat -> res A) a b : hruns Y f (fun x => x = a) -> hruns Y f (fun x => x = b) -> a = b.
Proof.
  intros (x & -> & E1) (y & -> & E2). destruct (ev_ex _ (ev_and _ _ E1 E2)) as (F & k & (l & El & _) & (l' & El' & _)). congruence.
Qed.
Lemma isCoef_unique t i p s s' : isCoef t i p s -> isCoef t i p s' -> s = s'.
Proof. intros (O & V & _) (O' & V' & _). apply poly_unique; auto. intros r _. now rewrite V, V'. Qed.

Section Rem.
  Variables (Y : sys) (B : Z).
  Hypothesis Hlt : exactUpTo B (s_nlt Y).
  Hypothesis HB : 0 <= B < intMax.
  Notation hruns := (hruns Y).
  Notation lruns := (lruns Y).
  Notation P_ok := (P_ok B).

  (** The remainder can't be reduced further: its degree is smaller, or its leading coefficient isn't a multiple of the divisor's. *)
  Definition reduced (t : sym) (s v : poly) : Prop :=
    s = [] \/ degIn t s < degIn t v \/
    (forall ls lv w, isCoef t (degIn t s) s ls -> isCoef t (degIn t v) v lv -> P_ok w -> ~ product w lv ls).
  Definition within (L : list sym) (p : poly) : Prop := forall x, ~ In x L -> degIn x p = 0.
  Definition quotRem (u v : poly) (Q : env -> R) (q s : poly) : Prop :=
    polyOK q /\ posPoly q /\ polyDeg q <= B /\ P_ok s /\ forall r, allPos r -> (polyV r u + Q r * polyV r v = polyV r q * polyV r v + polyV r s)%R.
  Definition budget (L : list sym) (d e : Z) : Z := (d + 1) * (e + 1) ^ Z.of_nat (length L).

  Lemma budget_mono L d d' e e' : 0 <= d <= d' -> 0 <= e <= e' -> budget L d e <= budget L d' e'.
  Proof. intros Hd He. unfold budget. apply Z.mul_le_mono_nonneg; [lia | lia | apply Z.pow_nonneg; lia | apply Z.pow_le_mono_l; lia]. Qed.
  Lemma budget_cons t L d e : 0 <= e -> budget (t :: L) d e = budget L (d + (d + 1) * e) e.
  Proof. intros He. unfold budget. cbn [length]. rewrite Nat2Z.inj_succ, Z.pow_succ_r by lia. ring. Qed.
  Lemma budget_ge L d e : 0 <= d -> 0 <= e -> d + 1 <= budget L d e.
  Proof. intros Hd He. unfold budget. assert (1 <= (e + 1) ^ Z.of_nat (length L)) by (rewrite <- (Z.pow_1_l (Z.of_nat (length L))) at 1 by lia; apply Z.pow_le_mono_l; lia). nia. Qed.

  Section Loop.
    Variables (t : sym) (R : list sym) (v : poly) (K : Z).
    Hypotheses (Hv : P_ok v) (Nv : v <> []) (HK : budget R K (polyDeg v) <= B).
    Hypothesis HI : forall m, In m v -> invertible Y (fst m).
    Hypothesis Wv : within (t :: R) v.
    Hypothesis IH : forall u v, P_ok u -> P_ok v -> v <> [] -> budget R (polyDeg u) (polyDeg v) <= B -> (forall m, In m v -> invertible Y (fst m)) -> within R u -> within R v ->
      exists q s, quotRem u v (fun _ => 0%R) q s /\ hruns (fun W n => divide Y W n (map symE R) (polyE u) (polyE v)) (fun p => p = (polyE q, polyE s)).

    Lemma rem_loop : forall n u qe Q, (Z.to_nat (degIn t u) < n)%nat -> P_ok u -> u <> [] -> within (t :: R) u -> polyDeg u + (degIn t u + 1) * polyDeg v <= K -> isV B Q qe ->
      lruns (fun W n j => divideLoop Y W (divide Y W n (map symE R)) (symE t) (polyE v) j qe (polyE u) (degIn t u))
        (fun p => exists q s, p = (polyE q, polyE s) /\ quotRem u v Q q s /\ reduced t s v /\ within (t :: R) s).
    Proof.
      induction n as [|n IHn]; intros u qe Q Hn Hu Nu Wu HD Hqe; [lia|].
      assert (Ov : polyOK v) by apply Hv. assert (Pv : posPoly v) by apply Hv. assert (Ou : polyOK u) by apply Hu. assert (Pu : posPoly u) by apply Hu.
      assert (Dub : polyDeg u <= B) by apply Hu. assert (Dvb : polyDeg v <= B) by apply Hv.
      assert (Dv : degree Y (polyE v) (symE t) = degIn t v) by (apply degree_poly; [exact Pv | lia]).
      assert (Du : degree Y (polyE u) (symE t) = degIn t u) by (apply degree_poly; [exact Pu | lia]).
      pose proof (degIn_nonneg t u) as N1. pose proof (degIn_nonneg t v) as N2. pose proof (polyDeg_nonneg v) as N3. pose proof (polyDeg_nonneg u) as N4.
      assert (KB : K + 1 <= B). { eapply Z.le_trans; [|exact HK]. apply budget_ge; nia. }
      assert (KE : polyDeg u + polyDeg v <= K) by nia.
      assert (Stop : hruns (fun W _ => e <- w_expand W qe ;; ret (e, polyE u)) (fun p => exists q, p = (polyE q, polyE u) /\ quotRem u v Q q u)).
      { eapply h_bind; [apply (v_expand Y B Hlt B _ qe Hqe); lia|]. intros e (q & -> & Oq & Pq & Dq & Vq). apply h_ret. exists q. split; [reflexivity|].
        split; [exact Oq|]. split; [exact Pq|]. split; [exact Dq|]. split; [exact Hu|]. intros r Hr. rewrite Vq by exact Hr. ring. }
      apply (l_S Y _ (fun W n j => if degIn t u <? degree Y (polyE v) (symE t) then e <- w_expand W qe ;; ret (e, polyE u) else
          lr <- leadingCoeff Y W (polyE u) (symE t) ;; lv <- leadingCoeff Y W (polyE v) (symE t) ;; d <- divide Y W n (map symE R) lr lv ;;
          if negb (isZero (snd d)) then e <- w_expand W qe ;; ret (e, polyE u)
          else let c := fst d in
            x <- monomial W (symE t) (degIn t u - degree Y (polyE v) (symE t)) ;;
            p <- w_prod W [c; x] ;; q' <- w_sum W [qe; p] ;;
            m <- minus W [c; polyE v; x] ;; r1 <- w_sum W [polyE u; m] ;; r' <- w_expand W r1 ;;
            if isZero r' then e <- w_expand W q' ;; ret (e, r')
            else divideLoop Y W (divide Y W n (map symE R)) (symE t) (polyE v) j q' r' (degree Y r' (symE t)))).
      { reflexivity. }
      unfold leadingCoeff. rewrite Dv, Du. destruct (Z.ltb_spec (degIn t u) (degIn t v)) as [Less|Ge].
      { apply l_const. eapply h_imp; [exact Stop|]. intros p (q & -> & H). exists q, u. split; [reflexivity|]. split; [exact H|]. split; [right; now left | exact Wu]. }
      destruct (h_coeff Y B Hlt t (degIn t u) u Hu) as (lu & Cu & Eu); [lia|]. destruct (h_coeff Y B Hlt t (degIn t v) v Hv) as (lv & Cv & Ev); [lia|].
      pose proof (coef_ok B HB t _ u lu Hu N1 Cu) as Klu. pose proof (coef_ok B HB t _ v lv Hv N2 Cv) as Klv.
      assert (Nlu : lu <> []) by (apply (isCoef_lead t u lu); auto). assert (Nlv : lv <> []) by (apply (isCoef_lead t v lv); auto).
      pose proof (isCoef_deg t _ u lu Cu Pu Nlu) as Dlu. pose proof (isCoef_deg t _ v lv Cv Pv Nlv) as Dlv.
      assert (Wlu : within R lu).
      { intros x Hx. destruct (sym_dec x t) as [->|Nx]; [eapply isCoef_free; exact Cu|]. pose proof (isCoef_degIn t _ u lu x Cu). pose proof (degIn_nonneg x lu).
        rewrite (Wu x) in H; [lia|]. intros [E|E]; [congruence | contradiction]. }
      assert (Wlv : within R lv).
      { intros x Hx. destruct (sym_dec x t) as [->|Nx]; [eapply isCoef_free; exact Cv|]. pose proof (isCoef_degIn t _ v lv x Cv). pose proof (degIn_nonneg x lv).
        rewrite (Wv x) in H; [lia|]. intros [E|E]; [congruence | contradiction]. }
      assert (HIl : forall m, In m lv -> invertible Y (fst m)).
      { intros m Hm. apply (in_map fst) in Hm. apply (isCoef_fst t _ v lv Cv Ov) in Hm. apply in_map_iff in Hm as (m' & <- & Hm'). now apply HI. }
      destruct (IH lu lv Klu Klv Nlv) as (c & s' & (Oc & Pc & Dc & Ks & Vc) & Er); auto.
      { eapply Z.le_trans; [|exact HK]. pose proof (polyDeg_nonneg lu). pose proof (polyDeg_nonneg lv). apply budget_mono; lia. }
      eapply l_bind; [exact Eu|]. intros ? ->. eapply l_bind; [exact Ev|]. intros ? ->. eapply l_bind; [exact Er|]. intros ? ->. cbn [fst snd].
      rewrite polyE_isZero by apply Ks. assert (S0 : s' = [] \/ s' <> []) by (destruct s'; [now left | right; discriminate]). destruct S0 as [->|Ns].
      2:{ destruct s' as [|m0 s0] eqn:Es; [congruence|]. rewrite <- Es in *. cbn [negb]. apply l_const. eapply h_imp; [exact Stop|]. intros p (q & -> & H). exists q, u. split; [reflexivity|]. split; [exact H|].
        split; [|exact Wu]. right; right. intros ls lv' w C1 C2 Kw Hw. rewrite (isCoef_unique _ _ _ _ _ C1 Cu), (isCoef_unique _ _ _ _ _ C2 Cv) in Hw.
        assert (X : (polyE w, zero) = (polyE c, polyE s')).
        { eapply h_unique; [|exact Er]. apply (divide_exact Y B Hlt HB R w lv lu); auto.
          - assert (W0 : w = [] \/ w <> []) by (destruct w; [now left | right; discriminate]). destruct W0 as [->|Nw]; [change (polyDeg []) with 0; destruct Klv as (_ & _ & ?); lia|].
            pose proof (mul_polyDeg w lv lu Hw) as M. destruct Kw as (Ow & Pw & _), Klv as (Olv & Plv & _), Klu as (Olu & Plu & ?). specialize (M Ow Olv Pw Plv Plu Nw Nlv). lia.
          - intros x Hx. split; [|now apply Wlv]. assert (W0 : w = [] \/ w <> []) by (destruct w; [now left | right; discriminate]). destruct W0 as [->|Nw]; [reflexivity|].
            assert (M : degIn x lu = degIn x w + degIn x lv) by (apply mul_degIn; auto; (apply Kw || apply Klv || apply Klu)). rewrite (Wlu x Hx) in M. pose proof (degIn_nonneg x w). pose proof (degIn_nonneg x lv). lia. }
        assert (Z : zero = polyE s') by congruence. change zero with (polyE []) in Z. apply polyE_inj in Z; [congruence | apply polyOK_nil | apply Ks]. }
      cbn [negb]. cbv zeta. assert (Hc : product c lv lu) by (intros r Hr; specialize (Vc r Hr); change (polyV r []) with 0%R in Vc; lra). clear Vc Ks.
      assert (Nc : c <> []) by (intros E; apply Nlu; now apply (product_zero' c lv lu (proj1 Klu) Hc)).
      destruct Klu as (Olu & Plu & Blu), Klv as (Olv & Plv & Blv). pose proof (mul_polyDeg c lv lu Hc Oc Olv Pc Plv Plu Nc Nlv) as Dcl. pose proof (polyDeg_nonneg lv) as N5. pose proof (polyDeg_nonneg c) as N6.
      assert (Fc : forall x, ~ In x R -> degIn x c = 0).
      { intros x Hx. assert (M : degIn x lu = degIn x c + degIn x lv) by (apply mul_degIn; auto). rewrite (Wlu x Hx) in M. pose proof (degIn_nonneg x c). pose proof (degIn_nonneg x lv). lia. }
      assert (Ft : degIn t c = 0).
      { assert (M : degIn t lu = degIn t c + degIn t lv) by (apply mul_degIn; auto). rewrite (isCoef_free t _ u lu Cu) in M. pose proof (degIn_nonneg t c). pose proof (degIn_nonneg t lv). lia. }
      pose (k := degIn t u - degIn t v). assert (Hk : 0 <= k) by (unfold k; lia). fold k.
      eapply l_bind; [apply (h_eq Y (fun W _ => monomial W (symE t) k) (powE t k)); apply (monomial_ev Y t)|]. intros ? ->.
      pose proof (isV_poly c Oc Pc) as (Rc & Ec & Vc). pose proof (isV_pow t k Hk) as (Rt & Et & Vt). pose proof (isV_poly v Ov Pv) as (Rv & Ev' & Vv).
      eapply l_bind.
      { apply (v_prod Y B Hlt B (fun r => polyV r c * powerRZ (symV r t) k)%R); [cbn; lia | intros x [<-|[<-|[]]]; assumption | cbn [degSum fold_right]; unfold k in *; lia | lia|].
        intros r Hr. cbn. rewrite Vc, Vt by exact Hr. cbn. f_equal. ring. }
      intros pe Hpe. eapply l_bind; [apply (v_sum Y B _ _ _ _ Hqe Hpe)|]. intros q' Hq'.
      eapply l_bind.
      { apply (v_prod Y B Hlt (polyDeg u + polyDeg v) (fun r => - (polyV r c * powerRZ (symV r t) k * polyV r v))%R); [cbn; lia | intros x [<-|[<-|[<-|[<-|[]]]]]; try assumption; apply rg_num; reflexivity | cbn [degSum fold_right degreeBound mOne]; unfold k in *; lia | lia|].
        intros r Hr. cbn. rewrite Vc, Vt, Vv by exact Hr. cbn. f_equal. unfold Q2R; cbn. field. }
      intros me Hme. eapply l_bind; [apply (v_sum Y (polyDeg u + polyDeg v) (fun r => polyV r u) (fun r => - (polyV r c * powerRZ (symV r t) k * polyV r v))%R); [apply (isV_le (polyDeg u)); [lia | now apply isV_poly] | exact Hme]|]. intros r1 Hr1.
      eapply l_bind; [apply (v_expand Y B Hlt (polyDeg u + polyDeg v) _ r1 Hr1); lia|]. intros r' (u' & -> & Ou' & Pu' & Du' & Vu').
      assert (Hu' : P_ok u') by (split; [exact Ou'|]; split; [exact Pu' | lia]).
      rewrite polyE_isZero by exact Ou'. assert (U0 : u' = [] \/ u' <> []) by (destruct u'; [now left | right; discriminate]). destruct U0 as [E0|Nu'].
      - rewrite E0 in *. apply l_const. eapply h_bind; [apply (v_expand Y B Hlt B _ q' Hq'); lia|]. intros e (q & -> & Oq & Pq & Dq & Vq). apply h_ret. exists q, []. split; [reflexivity|]. split; [|split; [now left | intros x _; reflexivity]].
        split; [exact Oq|]. split; [exact Pq|]. split; [exact Dq|]. split; [exact Hu'|]. intros r Hr. rewrite Vq by exact Hr. specialize (Vu' r Hr). rewrite Vu'. ring.
      - destruct u' as [|m0 u0] eqn:E0; [congruence|]. rewrite <- E0 in *. clear E0 m0 u0.
        assert (Du2 : degree Y (polyE u') (symE t) = degIn t u') by (apply degree_poly; [exact Pu' | lia]). rewrite Du2.
        assert (Less : degIn t u' < degIn t u).
        { apply degIn_bound; auto. intros r i Hr Hi. rewrite (coef_by_value t r u' (cTerms t r u ++ uMul [((- polyV r c)%R, k)] (cTerms t r v)) Hr).
          - rewrite coefAt_app, coefAt_shift. fold (coefV t i r u). fold (coefV t (i - k) r v). destruct (Z.eq_dec i (degIn t u)) as [->|Ni].
            + replace (degIn t u - k) with (degIn t v) by (unfold k; lia). destruct Cu as (_ & Vlu & _), Cv as (_ & Vlv & _). rewrite <- Vlu, <- Vlv. rewrite (Hc r Hr). ring.
            + rewrite !coefV_above by (unfold k; lia). ring.
          - intros T HT. assert (HT0 : (0 < T)%R) by lra. rewrite Vu' by now apply updS_pos. rewrite uV_app, uMul_V by lra. rewrite <- !polyV_upd by assumption.
            rewrite (free_value t c) by assumption. rewrite updS_same. unfold uV at 1. cbn [fold_right fst snd]. ring. }
        eapply l_imp; [apply (IHn u' q' (fun r => Q r + polyV r c * powerRZ (symV r t) k)%R); auto|].
        + pose proof (degIn_nonneg t u'). lia.
        + intros x Hx. assert (Nx : x <> t) by (intros ->; apply Hx; now left). assert (Hx' : ~ In x R) by (intros A; apply Hx; now right). apply value_free; auto. intros r T Hr HT. rewrite !Vu' by (try apply updS_pos; assumption).
          rewrite !free_value by (auto using (Wu x), (Wv x), (Fc x)). rewrite updS_other by congruence. reflexivity.
        + pose proof (degIn_nonneg t u'). nia.
        + intros p (q & s & -> & (Oq & Pq & Dq & Ks & Vq) & Red). exists q, s. split; [reflexivity|]. split; [|exact Red].
          split; [exact Oq|]. split; [exact Pq|]. split; [exact Dq|]. split; [exact Ks|]. intros r Hr. rewrite <- Vq by exact Hr. rewrite Vu' by exact Hr. ring.
    Qed.
  End Loop.

  Lemma one_ok : polyOK [(1%Q, [])] /\ posPoly [(1%Q, [])].
  Proof. split; [apply mono_polyOK; split; [reflexivity|]; split; [discriminate | apply keyOK_nil]|]. constructor; [constructor | constructor]. Qed.
  Lemma nil_ok : P_ok [].
  Proof. split; [apply polyOK_nil|]. split; [constructor | cbn; lia]. Qed.
  Lemma rem_numbers u v : P_ok u -> P_ok v -> v <> [] -> (forall m, In m v -> invertible Y (fst m)) -> (forall x, degIn x u = 0) -> (forall x, degIn x v = 0) ->
    exists q, P_ok q /\ product q v u /\ (forall x, degIn x q = 0).
  Proof.
    intros Hu Hv Nv HI Wu Wv. destruct (no_symbols v) as [->|(d & ->)]; [apply Hv | apply Hv | exact Wv | congruence|].
    destruct (num_nonzero d (proj1 Hv)) as [Cd Nd]. destruct (no_symbols u) as [->|(c & ->)]; [apply Hu | apply Hu | exact Wu | |].
    - exists []. split; [exact nil_ok|]. split; [|reflexivity]. intros r _. change (polyV r []) with 0%R. ring.
    - destruct (num_nonzero c (proj1 Hu)) as [Cc Nc]. destruct (h_inverse Y d Cd Nd (HI (d, []) (or_introl eq_refl))) as (e & (i & _ & Ci & Vi) & _).
      exists [(qmul c i, [])]. split; [|split; [|intros x; cbn; lia]].
      + split; [apply mono_polyOK; split; [apply qmul_spec|]; split; [|apply keyOK_nil]|split; [constructor; [constructor | constructor] | cbn; lia]].
        cbn [fst]. intros E. apply (f_equal Q2R) in E. rewrite Q2R_qmul, Q2R_0, Vi in E. apply Rmult_integral in E as [E|E]; [tauto|]. now apply Rinv_neq_0_compat in E.
      + intros r _. rewrite !num_polyV, Q2R_qmul, Vi. field. exact Nd.
  Qed.

  Theorem divide_rem L : forall u v, P_ok u -> P_ok v -> v <> [] -> budget L (polyDeg u) (polyDeg v) <= B -> (forall m, In m v -> invertible Y (fst m)) -> within L u -> within L v ->
    exists q s, (quotRem u v (fun _ => 0%R) q s /\ within L s /\ match L with [] => s = [] | t :: _ => reduced t s v end) /\
      hruns (fun W n => divide Y W n (map symE L) (polyE u) (polyE v)) (fun p => p = (polyE q, polyE s)).
  Proof.
    induction L as [|t R IH]; intros u v Hu Hv Nv Hb HI Wu Wv.
    - destruct (rem_numbers u v Hu Hv Nv HI) as (q & Kq & Hp & Fq); [intros; now apply Wu | intros; now apply Wv|].
      exists q, []. split; [split; [|split; [intros x _|]; reflexivity]|].
      + destruct Kq as (Oq & Pq & Dq). split; [exact Oq|]. split; [exact Pq|]. split; [exact Dq|]. split; [exact nil_ok|]. intros r Hr. rewrite Hp by exact Hr. change (polyV r []) with 0%R. ring.
      + change (polyE []) with zero. apply (divide_exact Y B Hlt HB [] q v u); auto.
        assert (Q0 : q = [] \/ q <> []) by (destruct q; [now left | right; discriminate]). destruct Q0 as [->|Nq]; [change (polyDeg []) with 0; destruct Hv as (_ & _ & ?); lia|].
        destruct Kq as (Oq & Pq & _), Hv as (Ov & Pv & _), Hu as (Ou & Pu & Du). pose proof (mul_polyDeg q v u Hp Oq Ov Pq Pv Pu Nq Nv). lia.
    - cbn [map divide]. rewrite (valid Y B HB u v Hu Hv Nv). cbn [negb].
      destruct (isEqual (polyE v) (polyE u)) eqn:E.
      + apply isEqual_eq, polyE_inj in E; [|apply Hv | apply Hu]. subst u. destruct one_ok as [O1 P1]. exists [(1%Q, [])], []. split; [split; [|split; [intros x _; reflexivity | now left]]|now apply h_ret].
        split; [exact O1|]. split; [exact P1|]. split; [cbn; lia|]. split; [exact nil_ok|]. intros r Hr. rewrite num_polyV, Q2R_1. change (polyV r []) with 0%R. ring.
      + rewrite polyE_isZero by apply Hu. assert (U0 : u = [] \/ u <> []) by (destruct u; [now left | right; discriminate]). destruct U0 as [->|Nu].
        * exists [], []. split; [split; [|split; [intros x _; reflexivity | now left]]|now apply h_ret]. split; [apply polyOK_nil|]. split; [constructor|]. split; [cbn; lia|]. split; [exact nil_ok|]. intros r Hr. change (polyV r []) with 0%R. ring.
        * destruct u as [|m0 u0] eqn:Eu; [congruence|]. rewrite <- Eu in *. clear Eu m0 u0.
          assert (Du : degree Y (polyE u) (symE t) = degIn t u) by (apply degree_poly; [apply Hu|]; destruct Hu as (_ & _ & ?); lia). rewrite Du.
          pose proof (polyDeg_nonneg v) as N3. pose proof (degIn_polyDeg t u) as N4. pose proof (degIn_nonneg t u) as N5. rewrite budget_cons in Hb by exact N3.
          assert (X : lruns (fun W n j => divideLoop Y W (divide Y W n (map symE R)) (symE t) (polyE v) j zero (polyE u) (degIn t u)) (fun p => exists q s, p = (polyE q, polyE s) /\ quotRem u v (fun _ => 0%R) q s /\ reduced t s v /\ within (t :: R) s)).
          { apply (rem_loop t R v (polyDeg u + (polyDeg u + 1) * polyDeg v) Hv Nv Hb HI Wv) with (n := S (Z.to_nat (degIn t u))); auto.
            - intros u1 v1 A1 A2 A3 A4 A5 A6 A7. destruct (IH u1 v1 A1 A2 A3 A4 A5 A6 A7) as (q & s & [H1 _] & H2). eauto.
            - nia.
            - apply (isV_ext _ (fun _ => Q2R 0)); [intros r _; apply Q2R_0|]. apply (isV_le 0); [lia|]. apply isV_num. reflexivity. }
          apply (l_of Y (fun W n j => divideLoop Y W (divide Y W n (map symE R)) (symE t) (polyE v) j zero (polyE u) (degIn t u))) in X. destruct X as (a & (q & s & -> & Hq & Hr & Hw) & E').
          exists q, s. split; [auto|]. exists (polyE q, polyE s). auto.
  Qed.
End Rem.
