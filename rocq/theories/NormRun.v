(** normal and simplify on expanded polynomials, continued: fractions, common denominators, cancelling. *)
From Verif Require Import LaurentSpec DivSpec LaurentOrder LaurentProd LaurentIdent LaurentSum LaurentExpand LaurentMain LaurentApi RingProd RingSum RingPos RingSpec RingTerm RingRun LaurentCoeff PolyTotal PolyCode HRuns DivExact DivRun DivRem DivApi DivUser GcdPoly GcdRun FuelMono FuelApi SimplApi ApiSpec ApiModel ExprProofs NumInt NumberProofs GcdProofs World WorldExact SoundOps RPow RunSpec NumberSpec PolyModel NormalModel DiffModel NormPoly.
From Coq Require Import Lia Lra Bool Permutation Sorted Classical_Prop.
From Verif Require Import Run LaurentSpec.
Open Scope Z_scope.

Section Norm.
  Variables (Y : sys) (B : Z).
  Hypothesis Hlt : exactUpTo B (s_nlt Y).
  Hypothesis HB : 0 <= B < intMax.
  Notation hruns := (hruns Y).
  Notation P_ok := (P_ok B).

  Lemma not_nilE p : isUndefined (polyE p) = false /\ noUndef (polyE p) = true.
  Proof. pose proof (polyE_noUndef p) as H. split; [|exact H]. now destruct (polyE p). Qed.
  Lemma h_relyFactor u g q : hruns (fun W n => polyDivide Y W n u g) (fun p => p = (q, zero)) -> hruns (fun W n => relyFactor Y W n u g) (fun _ => True).
  Proof.
    intros (a & -> & E). exists tt. split; [exact Logic.I|]. eapply ev_imp; [exact E|]. intros F k (l & El & Hl). exists l. unfold relyFactor. rewrite El. auto.
  Qed.
  Lemma h_divideZ q g u : P_ok q -> P_ok u -> 0 < g < 324 -> (forall r, allPos r -> polyV r u = polyV r q * IZR g)%R ->
    hruns (fun W n => polyDivide Y W n (polyE u) (numZ g)) (fun p => p = (polyE q, zero)).
  Proof.
    intros Kq Ku Hg V. destruct (numE_poly B HB g) as [Kg Eg]; [lia|]. rewrite <- Eg. apply (polyDivide_exact Y B Hlt HB); auto.
    - discriminate.
    - change (polyDeg [(ofZ g, [])]) with 0. destruct Kq as (_ & _ & D). lia.
    - intros r Hr. rewrite V, num_polyV, Q2R_ofZ by exact Hr. reflexivity.
    - intros m [<-|[]]. apply small_invertible; [apply canon_ofZ | apply numZ_nonzero; lia | change (Z.abs g < 324); lia | change (1 < 324); lia].
  Qed.
  Lemma h_exactDivide q g u : P_ok q -> P_ok u -> 0 < g < 324 -> (forall r, allPos r -> polyV r u = polyV r q * IZR g)%R ->
    hruns (fun W n => exactDivide Y W n (polyE u) (numZ g)) (fun p => p = polyE q).
  Proof.
    intros Kq Ku Hg V. unfold exactDivide. eapply h_bind; [apply (h_divideZ q g u); assumption|]. intros ? ->.
    destruct (not_nilE q) as [U _]. rewrite U. now apply h_ret.
  Qed.

  (** Cancelling. *)
  Lemma reduced D g p : polyOK p -> common D p -> 0 < g -> (g | D) -> divides g (nums D p) -> common (D / g) p.
  Proof.
    intros [O _] [HD H] Hg [z Ez] Hp. rewrite Forall_forall in O. subst D. rewrite Z.div_mul by lia. assert (Hz : 0 < z) by nia. split; [exact Hz|]. intros m Hm.
    destruct (quot_pos (z * g) m HD (H m Hm)) as [Q1 Q2]. set (e := z * g / den m) in *.
    assert (G : (g | qnum (fst m) * e)) by (apply (Hp (numOf (z * g) m)), in_map, Hm).
    assert (C : Z.gcd (qnum (fst m)) (den m) = 1) by (apply (O m Hm)).
    assert (G' : (g | e)).
    { replace e with (Z.gcd (qnum (fst m) * e) (den m * e)); [|rewrite Z.gcd_mul_mono_r_nonneg, C by lia; lia]. apply Z.gcd_greatest; [exact G|]. rewrite <- Q2. now exists z. }
    destruct G' as [y Ey]. exists y. rewrite Ey in Q2. nia.
  Qed.
  Lemma h_cancel D p : P_ok p -> p <> [] -> common D p -> D < 324 ->
    hruns (fun W n => cancel Y W n (polyE (nums D p)) (numZ D)) (fun x => exists E, (E | D) /\ common E p /\ x = (polyE (nums E p), numZ E)).
  Proof.
    intros K N C HD. pose proof C as [Pos _]. pose proof (nums_ok B D p C K) as Kn. unfold cancel. destruct (isOne (numZ D)) eqn:E1.
    { assert (D = 1) as ->. { cbn in E1. apply qeqb_eq in E1. now injection E1. } apply h_ret. exists 1. split; [apply Z.divide_refl|]. auto. }
    assert (Nn : nums D p <> []) by (destruct p; [congruence | discriminate]).
    assert (Zu : isZero (polyE (nums D p)) = false) by (rewrite polyE_isZero by apply Kn; destruct (nums D p); congruence). rewrite Zu.
    eapply h_bind; [apply h_expandNum|]. intros ? ->. assert (Zd : isZero (Num (ofZ D)) = false) by (destruct D; [lia | reflexivity | lia]). rewrite Zd. change (Num (ofZ D)) with (numZ D).
    eapply h_bind; [apply (h_polyGcd Y B Hlt HB (nums D p) D Kn Nn (nums_int D p)); lia|]. intros ? (g & -> & Hg & Dg & Dp).
    pose proof (reduced D g p (proj1 K) C Hg Dg Dp) as C'. destruct Dg as [z Ez]. assert (Hz : D / g = z) by (rewrite Ez; apply Z.div_mul; lia). rewrite Hz in C'. pose proof (proj1 C') as Pz.
    assert (g < 324) by nia. destruct (numE_poly B HB D) as [KD ED]; [lia|]. destruct (numE_poly B HB z Pz) as [Kz Ez'].
    eapply h_bind with (P := fun e => e = numZ z).
    { rewrite <- ED, <- Ez'. apply h_exactDivide; auto. intros r Hr. rewrite !num_polyV, !Q2R_ofZ, Ez, mult_IZR. reflexivity. }
    intros ? ->. eapply h_bind with (P := fun e => e = polyE (nums z p)).
    { apply h_exactDivide; auto; [now apply nums_ok|]. intros r Hr. rewrite !nums_V by assumption. rewrite Ez, mult_IZR. ring. }
    intros ? ->. apply h_ret. exists z. split; [exists g; lia|]. auto.
  Qed.

  (** ** Numbers and factors *)
  Lemma n_num z : 0 < z -> hruns (fun W _ => w_normal W (numZ z)) (fun e => e = numZ z).
  Proof.
    intros H. destruct (numE_poly B HB z H) as [K E]. apply (n_of Y (numZ z) (numZ z) one (numZ z)); try reflexivity.
    - intros b. apply (nf_num Y (mkMap b []) (ofZ z)).
    - pose proof (h_fracOne Y B Hlt [(ofZ z, [])] K) as X. now rewrite E in X.
  Qed.
  Lemma nf_fac mp f : 0 < snd f -> hruns (fun W _ => w_normalF W mp (facE f)) (sameF mp (facE f)).
  Proof.
    destruct f as [s z]. cbn [fst snd]. intros H. unfold facE; cbn [fst snd]. destruct (Z.eqb_spec z 1) as [->|N]; [apply nf_sym|].
    apply nf_step. cbn [normalF]. unfold powerNormal. eapply h_bind; [apply nf_sym|]. intros ? ->. eapply h_bind; [apply (n_num z H)|]. intros ? ->.
    cbn [isUndefined symE one orb isZero]. change (qeqb 1 0) with false. cbn iota.
    eapply h_bind with (P := fun b => b = false).
    { eapply h_bind; [apply h_inEnv, (h_expandNum Y 1%Q)|]. intros ? ->. now apply h_ret. }
    intros ? ->. cbn [numericEval numZ]. change (qIsInt (ofZ z)) with true. cbn iota. change (qnum (ofZ z)) with z. unfold normalIntegerExp. cbn [relyInt].
    eapply h_bind with (P := fun _ => True); [now apply h_ret|]. intros _ _. rewrite Z.abs_eq by lia.
    eapply h_bind with (P := fun e => e = Pow (symE s) (numZ z)).
    { apply h_inEnv, h_eq, (ev_ge 0 3). intros F k _ Hk. change (symE s) with (symE s). unfold numZ. rewrite (pow_sym Y F k s z Hk). unfold powE, facE; cbn [fst snd]. destruct (Z.eqb_spec z 0); [lia|]. destruct (Z.eqb_spec z 1); [lia|]. reflexivity. }
    intros ? ->. eapply h_bind with (P := fun e => e = one); [apply h_inEnv, h_powOne; reflexivity|]. intros ? ->.
    destruct (Z.ltb_spec 0 z); [|lia]. now apply h_ret.
  Qed.

  (** ** Products *)
  Definition nAtom (m : mono) : mono := (ofZ (qnum (fst m)), snd m).
  Definition dAtom (m : mono) : mono := (ofZ (den m), []).
  Definition atom (m : mono) : Prop := monoOK m /\ (snd m = [] \/ exists f, m = (1%Q, [f]) /\ 0 < snd f).
  Lemma nf_atom mp m : atom m -> hruns (fun W _ => w_normalF W mp (monoE m)) (fun x => x = (monoE (nAtom m), monoE (dAtom m), mp)).
  Proof.
    assert (NE : forall c, monoE (c, []) = Num c) by (intros c; apply num_polyE).
    intros [O [E|(f & -> & Hf)]].
    - destruct m as [c k]. cbn [snd] in E. subst k. unfold nAtom, dAtom. cbn [fst snd]. rewrite !NE. apply nf_num.
    - change (nAtom (1%Q, [f])) with (1%Q, [f]). change (monoE (dAtom (1%Q, [f]))) with one. change (monoE (1%Q, [f])) with (facE f). now apply nf_fac.
  Qed.
  Lemma h_fractions mp l (g : mono -> expr * expr) : (forall m, In m l -> hruns (fun W _ => w_normalF W mp (monoE m)) (fun x => x = (fst (g m), snd (g m), mp))) ->
    hruns (fun W _ => fractions W mp (map monoE l)) (fun x => x = (map g l, mp)).
  Proof.
    induction l as [|m l IH]; intros H; cbn [map fractions]; [now apply h_ret|].
    eapply h_bind; [apply H; now left|]. intros ? ->. eapply h_bind; [apply IH; intros; apply H; now right|]. intros ? ->. apply h_ret. now destruct (g m).
  Qed.
  Lemma parts_atom m : monoOK m -> posKey (snd m) -> Forall atom (parts m).
  Proof.
    intros O P. pose proof (parts_OK m O) as Q. rewrite Forall_forall in *. intros x Hx. split; [now apply Q|]. unfold parts in Hx. apply in_app_or in Hx as [Hx|Hx].
    - destruct (qeqb (fst m) 1); [destruct Hx|]. destruct Hx as [<-|[]]. now left.
    - apply in_map_iff in Hx as (f & <- & Hf). right. exists f. split; [reflexivity|]. unfold posKey in P. rewrite Forall_forall in P. apply P, Hf.
  Qed.
  Lemma monosV_app r a b : monosV r (a ++ b) = (monosV r a * monosV r b)%R.
  Proof. induction a as [|x a IH]; unfold monosV in *; cbn [app fold_right]; [ring|]. rewrite IH. ring. Qed.
  Lemma nAtoms_V r m : monoOK m -> monosV r (map nAtom (parts m)) = monoV r (nAtom m) /\ monosV r (map dAtom (parts m)) = monoV r (dAtom m).
  Proof.
    intros (C & N & K).
    assert (X : forall l, monosV r (map nAtom (map (fun f => (1%Q, [f])) l)) = keyV r l /\ monosV r (map dAtom (map (fun f => (1%Q, [f])) l)) = 1%R).
    { induction l as [|f l [I1 I2]]; [split; reflexivity|]. cbn [map monosV fold_right]. unfold monosV in I1, I2. rewrite I1, I2. split.
      - unfold nAtom, monoV, keyV; cbn [fst snd fold_right]. change (ofZ (qnum 1)) with 1%Q. rewrite Q2R_1. ring.
      - unfold dAtom, monoV, keyV; cbn [fst snd fold_right]. change (ofZ (den (1%Q, [f]))) with 1%Q. rewrite Q2R_1. ring. }
    destruct (X (snd m)) as [X1 X2]. unfold parts. rewrite !map_app, !monosV_app.
    match goal with |- (?u * ?a = _ /\ ?v * ?b = _)%R => replace a with (keyV r (snd m)) by (symmetry; exact X1); replace b with 1%R by (symmetry; exact X2) end. destruct (qeqb (fst m) 1) eqn:E.
    - apply qeqb_eq in E. unfold monosV. cbn [map fold_right]. unfold nAtom, dAtom, den, monoV. cbn [fst snd]. rewrite E. change (ofZ (qnum 1)) with 1%Q. change (ofZ (Z.pos (Qden 1))) with 1%Q. rewrite Q2R_1. change (keyV r []) with 1%R. split; ring.
    - unfold monosV. cbn [map fold_right]. unfold nAtom, dAtom, den, monoV. cbn [fst snd]. change (keyV r []) with 1%R. split; ring.
  Qed.
  Lemma den_common m : common (den m) [m].
  Proof. split; [apply den_pos|]. intros x [<-|[]]. apply Z.divide_refl. Qed.
  Lemma nums_den m : nums (den m) [m] = [nAtom m].
  Proof. unfold nums, numOf, nAtom. cbn [map]. rewrite Z.div_same by (pose proof (den_pos m); lia). now rewrite Z.mul_1_r. Qed.
  Lemma nAtom_OK m : monoOK m -> monoOK (nAtom m).
  Proof. intros O. pose proof (numOf_OK (den m) m (den_pos m) (Z.divide_refl _) O) as X. unfold numOf in X. rewrite Z.div_same, Z.mul_1_r in X by (pose proof (den_pos m); lia). exact X. Qed.
  Lemma dAtom_OK m : monoOK (dAtom m).
  Proof. apply num_mono; [apply canon_ofZ | apply numZ_nonzero; pose proof (den_pos m); lia]. Qed.
  Lemma dAtom_E m : monoE (dAtom m) = numZ (den m).
  Proof. apply num_polyE. Qed.

  Definition fracOf (mp : smap) (M : Z) (p : poly) (x : expr * expr * smap) : Prop :=
    exists D, (D | M) /\ common D p /\ x = (polyE (nums D p), numZ D, mp).
  Lemma nf_mono mp M m : P_ok [m] -> 0 < M < 324 -> (den m | M) -> hruns (fun W _ => w_normalF W mp (monoE m)) (fracOf mp M [m]).
  Proof.
    intros K HM Dm. pose proof K as (O & P & _). apply polyOK_one in O. unfold posPoly in P. inversion P as [|? ? Pk _]; subst.
    destruct (monoE_cases m) as [(A & E)|[(f & Em & E)|(_ & E & L & _)]].
    - eapply h_imp; [apply nf_atom; split; [exact O | now left]|]. intros x ->. exists (den m). split; [exact Dm|]. split; [apply den_common|]. rewrite nums_den, dAtom_E. reflexivity.
    - eapply h_imp; [apply nf_atom; split; [exact O | right; exists f; split; [exact Em|]]|].
      + subst m. unfold posKey in Pk. cbn [snd] in Pk. inversion Pk; assumption.
      + intros x ->. exists (den m). split; [exact Dm|]. split; [apply den_common|]. rewrite nums_den, dAtom_E. reflexivity.
    - rewrite E. apply nf_step. cbn [normalF]. rewrite <- E. change (monoE m) with (polyE [m]).
      eapply h_bind; [apply (h_expandPoly Y B Hlt), K|]. intros ? ->. rewrite polyE_isZero by apply K. cbn [isZero]. rewrite <- (parts_E m).
      eapply h_bind; [apply (h_fractions mp (parts m) (fun x => (monoE (nAtom x), monoE (dAtom x))))|].
      { intros x Hx. apply nf_atom. pose proof (parts_atom m O Pk) as Q. rewrite Forall_forall in Q. now apply Q. }
      intros ? ->. rewrite !map_map. cbn [fst snd].
      assert (NP : parts m <> []) by (intros Z; rewrite <- parts_E, Z in L; cbn in L; lia).
      eapply h_bind with (P := fun x => exists D, (D | den m) /\ common D [m] /\ x = (polyE (nums D [m]), numZ D)).
      { apply h_inEnv. eapply h_bind with (P := fun e => e = monoE (nAtom m)).
        { rewrite <- (map_map nAtom monoE). apply h_eq, prod_is; [destruct (parts m); [congruence | discriminate] | | now apply nAtom_OK | intros r _; now rewrite (proj1 (nAtoms_V r m O))].
          rewrite Forall_map. eapply Forall_impl; [|apply (parts_OK m O)]. apply nAtom_OK. }
        intros ? ->. eapply h_bind with (P := fun e => e = monoE (dAtom m)).
        { rewrite <- (map_map dAtom monoE). apply h_eq, prod_is; [destruct (parts m); [congruence | discriminate] | | apply dAtom_OK | intros r _; now rewrite (proj2 (nAtoms_V r m O))].
          rewrite Forall_map. eapply Forall_impl; [|apply (parts_OK m O)]. intros x _. apply dAtom_OK. }
        intros ? ->. rewrite dAtom_E. change (monoE (nAtom m)) with (polyE [nAtom m]). rewrite <- nums_den. apply h_cancel; [exact K | discriminate | apply den_common|].
        apply Z.divide_pos_le in Dm; lia. }
      intros ? (D & D1 & C & ->). apply h_ret. exists D. split; [now apply Z.divide_trans with (den m)|]. auto.
  Qed.

  (** ** Sums *)
  Lemma sum_two a b s : P_ok a -> P_ok b -> P_ok s -> (forall r, allPos r -> polyV r s = polyV r a + polyV r b)%R ->
    ev (fun F k => w_sum (world Y F k) [polyE a; polyE b] = Ok (polyE s) []).
  Proof.
    intros (Oa & Pa & Da) (Ob & Pb & Db) (Os & Ps & Ds) V. destruct (sum_ev Y B Hlt [a; b]) as (t & (Ot & Vt & _) & E).
    - discriminate.
    - auto.
    - constructor; [eapply pdeg_le; [exact Da | apply polyDeg_pdeg]|]. constructor; [eapply pdeg_le; [exact Db | apply polyDeg_pdeg] | constructor].
    - assert (t = s) as <-; [|exact E]. apply poly_unique; auto. intros r Hr. rewrite Vt, V by exact Hr. unfold polysV. cbn [fold_right]. ring.
  Qed.
  Lemma h_gcdZ a b : 0 < a -> 0 < b -> hruns (fun W _ => polyGcd Y W (numZ a) (numZ b)) (fun e => e = numZ (Z.gcd a b)).
  Proof.
    intros Ha Hb. destruct (numE_poly B HB a Ha) as [Ka Ea]. destruct (numE_poly B HB b Hb) as [Kb Eb].
    unfold polyGcd. destruct (symbols_list Y [(ofZ a, [])] [(ofZ b, [])]) as (L & EL & _). rewrite Ea, Eb in EL. rewrite EL.
    pose proof (Z.gcd_nonneg a b) as G0. assert (GN : Z.gcd a b <> 0) by (intros E; apply Z.gcd_eq_0_l in E; lia).
    eapply h_bind with (P := fun e => e = numZ (Z.gcd a b)).
    2:{ intros e ->. replace (NormalModel.polyOK (map symE L) (numZ (Z.gcd a b))) with true by (cbn; unfold canonb; cbn; now rewrite Z.gcd_1_r). now apply (h_ret Y (numZ (Z.gcd a b))). }
    apply h_quiet. unfold gcdCompute. rewrite EL. replace (isInputValid Y (numZ a) (numZ b)) with true by (rewrite <- Ea, <- Eb; symmetry; now apply (valid Y B HB)).
    apply h_step with (g := fun W n => gcdWith Y W n true (map symE L) (numZ a) (numZ b)); [reflexivity|]. unfold gcdWith.
    eapply h_bind; [apply h_expandNum|]. intros ? ->. eapply h_bind; [apply h_expandNum|]. intros ? ->. change (Num (ofZ a)) with (numZ a). change (Num (ofZ b)) with (numZ b).
    assert (NUM : forall z, Z.abs z = Z.gcd a b -> hruns (fun W _ => gcdNormalize Y W (numZ z) (map symE L)) (fun e => e = numZ (Z.gcd a b))).
    { intros z E. rewrite <- E. apply (h_gcdNormalize Y z L). lia. }
    assert (EQ : forall y z, isEqual (numZ y) (numZ z) = true -> y = z) by (intros y z H; cbn in H; apply qeqb_eq in H; now injection H).
    destruct (isOne (numZ a) || isOne (numZ b)) eqn:E1.
    { apply (NUM 1). assert (X : a = 1 \/ b = 1) by (apply orb_true_iff in E1 as [E|E]; [left|right]; cbn in E; apply qeqb_eq in E; now injection E).
      destruct X as [-> | ->]; [now rewrite Z.gcd_1_l | now rewrite Z.gcd_1_r]. }
    assert (Za : isZero (numZ a) = false) by (destruct a; [lia | reflexivity | lia]). assert (Zb : isZero (numZ b) = false) by (destruct b; [lia | reflexivity | lia]). rewrite Za, Zb. cbn [andb].
    destruct (isEqual (numZ a) (numZ b)) eqn:E2.
    - apply EQ in E2 as <-. apply NUM. now rewrite Z.gcd_diag, Z.abs_eq by lia.
    - cbn [numZ]. change (computeNumerics (ofZ a) (ofZ b)) with (numZ (integerGcd a b)). apply NUM. apply integerGcd_ok.
  Qed.
  Lemma prodZ a c z : canon c -> 0 < a -> 0 < z -> (Q2R c * IZR a = IZR z)%R -> hruns (fun W _ => w_prod W [numZ a; Num c]) (fun e => e = numZ z).
  Proof.
    intros C Ha Hz V. apply h_eq, (num_prod Y (ofZ a) c (ofZ z)); try apply canon_ofZ; auto.
    - apply numZ_nonzero. lia.
    - intros E. rewrite E, Rmult_0_l in V. apply (eq_IZR 0) in V. lia.
    - rewrite !Q2R_ofZ, <- V. ring.
  Qed.

  Section Common.
    Variable M : Z.
    Hypothesis HM : 0 < M < 324.
    (** normal does nothing to polynomials with whole coefficients; needed unless M is one. *)
    Hypothesis HN : M = 1 \/ forall p, P_ok p -> intPoly p -> hruns (fun W _ => w_normal W (polyE p)) (fun e => e = polyE p).
    Lemma bound D : 0 < D -> (D | M) -> D < 324. Proof. intros H H'. apply Z.divide_pos_le in H'; lia. Qed.
    Definition pairE (x : mono * Z) : expr * expr := (polyE (nums (snd x) [fst x]), numZ (snd x)).
    Definition pairOK (x : mono * Z) : Prop := common (snd x) [fst x] /\ (snd x | M).
    Lemma h_common rest : forall pre D, P_ok (pre ++ map fst rest) -> pre <> [] -> common D pre -> (D | M) -> Forall pairOK rest ->
      hruns (fun W n => commonDenom Y W n (polyE (nums D pre)) (numZ D) (map pairE rest))
        (fun x => exists E, (E | M) /\ common E (pre ++ map fst rest) /\ x = (polyE (nums E (pre ++ map fst rest)), numZ E)).
    Proof.
      induction rest as [|[m D2] rest IH]; intros pre D K N C DM HR; cbn [map fst] in *.
      - rewrite app_nil_r in *. cbn [map commonDenom]. eapply h_imp; [apply h_cancel; auto; apply bound; [apply C | exact DM]|].
        intros x (E & E1 & E2 & ->). exists E. split; [now apply Z.divide_trans with D|]. auto.
      - inversion HR as [|? ? [C2 D2M] HR']; subst. cbn [fst snd] in C2, D2M. cbn [map commonDenom pairE fst snd].
        assert (KK : P_ok pre /\ P_ok [m] /\ P_ok (pre ++ [m])).
        { replace (pre ++ m :: map fst rest) with ((pre ++ [m]) ++ map fst rest) in K by (now rewrite <- app_assoc). destruct (P_ok_sub B HB _ _ K) as [K1 _]. destruct (P_ok_sub B HB _ _ K1) as [K2 K3]. auto. }
        destruct KK as (Kp & Km & Kpm).
        assert (SUM : forall E, common E pre -> common E [m] -> hruns (fun W _ => w_sum W [polyE (nums E pre); polyE (nums E [m])]) (fun e => e = polyE (nums E (pre ++ [m])))).
        { intros E H1 H2. assert (H3 : common E (pre ++ [m])) by (apply (proj2 (common_app B HB E pre [m])); auto). apply h_eq, sum_two; try (apply (nums_ok B); assumption).
          intros r Hr. rewrite !nums_V by assumption. rewrite polyV_app. ring. }
        assert (GO : forall E, common E pre -> common E [m] -> (E | M) -> hruns (fun W n => commonDenom Y W n (polyE (nums E (pre ++ [m]))) (numZ E) (map pairE rest))
          (fun x => exists E, (E | M) /\ common E (pre ++ m :: map fst rest) /\ x = (polyE (nums E (pre ++ m :: map fst rest)), numZ E))).
        { intros E H1 H2 H3. replace (pre ++ m :: map fst rest) with ((pre ++ [m]) ++ map fst rest) in * by (now rewrite <- app_assoc). apply IH; auto.
          - intros Q. apply app_eq_nil in Q as [_ Q]. discriminate.
          - apply (proj2 (common_app B HB E pre [m])); auto. }
        pose proof (proj1 C) as PD. pose proof (proj1 C2) as PD2.
        destruct (isEqual (numZ D) (numZ D2)) eqn:EQ.
        + assert (ED : D = D2) by (cbn in EQ; apply qeqb_eq in EQ; now injection EQ). rewrite <- ED in *.
          eapply h_bind; [now apply SUM|]. intros ? ->. now apply GO.
        + destruct HN as [M1|HI].
          { exfalso. rewrite M1 in DM, D2M. apply Z.divide_1_r_nonneg in DM; [|lia]. apply Z.divide_1_r_nonneg in D2M; [|lia]. rewrite DM, D2M in EQ. discriminate. }
          pose proof (Z.gcd_nonneg D D2) as G0. assert (GN : Z.gcd D D2 <> 0) by (intros E; apply Z.gcd_eq_0_l in E; lia).
          destruct (Z.gcd_divide_l D D2) as [a Ea]. destruct (Z.gcd_divide_r D D2) as [b Eb]. set (g := Z.gcd D D2) in *.
          assert (Pa : 0 < a) by nia. assert (Pb : 0 < b) by nia. pose proof (bound D PD DM) as BD. pose proof (bound D2 PD2 D2M) as BD2.
          assert (Pg : 0 < g) by lia. assert (Bg : g < 324) by nia.
          assert (LM : (D * b | M)).
          { replace (D * b) with (Z.lcm D D2); [now apply Z.lcm_least|]. unfold Z.lcm. fold g. replace (D2 / g) with b by (symmetry; rewrite Eb; apply Z.div_mul; lia). apply Z.abs_eq. nia. }
          assert (DL : D * b = D2 * a) by (rewrite Ea, Eb; ring).
          assert (CL : common (D * b) pre /\ common (D * b) [m]).
          { split; (split; [nia|]); intros x Hx; [apply Z.divide_mul_l, C, Hx | rewrite DL; apply Z.divide_mul_l, C2, Hx]. }
          destruct CL as [CL1 CL2].
          eapply h_bind; [apply (h_gcdZ D D2 PD PD2)|]. intros ? ->. fold g.
          destruct (numE_poly B HB D2 PD2) as [K2 E2]. destruct (numE_poly B HB b Pb) as [Kb Eb'].
          eapply h_bind; [apply (h_relyFactor (numZ D2) (numZ g) (polyE [(ofZ b, [])]))|].
          { rewrite <- E2. apply h_divideZ; [exact Kb | exact K2 | lia|]. intros r _. rewrite !num_polyV, !Q2R_ofZ, Eb, mult_IZR. reflexivity. }
          intros _ _. eapply h_bind; [apply (h_inverse Y (ofZ g)); [apply canon_ofZ | apply numZ_nonzero; lia|]|].
          { apply small_invertible; [apply canon_ofZ | apply numZ_nonzero; lia | change (Z.abs g < 324); lia | change (1 < 324); lia]. }
          intros ? (i & -> & Ci & Vi). rewrite Q2R_ofZ in Vi. assert (Rg : IZR g <> 0%R) by (apply not_0_IZR; lia).
          eapply h_bind; [apply (prodZ D2 i b); auto; rewrite Vi, Eb, mult_IZR; field; exact Rg|]. intros ? ->.
          eapply h_bind; [apply h_expandNum|]. intros ? ->. change (Num (ofZ b)) with (numZ b).
          eapply h_bind; [apply (prodZ D i a); auto; rewrite Vi, Ea, mult_IZR; field; exact Rg|]. intros ? ->.
          eapply h_bind; [apply (n_num a Pa)|]. intros ? ->.
          eapply h_bind with (P := fun e => e = polyE (nums (D * b) pre)).
          { apply h_eq, (prod_scalar Y B Hlt (ofZ b)); [apply canon_ofZ | apply numZ_nonzero; lia | now apply (nums_ok B) | now apply (nums_ok B)|]. intros r Hr. rewrite !nums_V by assumption. rewrite Q2R_ofZ, mult_IZR. ring. }
          intros ? ->. eapply h_bind; [apply (h_expandPoly Y B Hlt); now apply (nums_ok B)|]. intros ? ->.
          eapply h_bind with (P := fun e => e = polyE (nums (D * b) [m])).
          { apply h_eq, (prod_scalar Y B Hlt (ofZ a)); [apply canon_ofZ | apply numZ_nonzero; lia | now apply (nums_ok B) | now apply (nums_ok B)|]. intros r Hr. rewrite !nums_V by assumption. rewrite Q2R_ofZ, DL, mult_IZR. ring. }
          intros ? ->. eapply h_bind; [apply (h_expandPoly Y B Hlt); now apply (nums_ok B)|]. intros ? ->.
          eapply h_bind; [now apply SUM|]. intros ? ->. eapply h_bind; [apply HI; [apply (nums_ok B); [apply (proj2 (common_app B HB (D * b) pre [m])); auto | exact Kpm] | apply nums_int]|]. intros ? ->.
          eapply h_bind with (P := fun e => e = numZ (D * b)).
          { apply prodZ; [apply canon_ofZ | lia | nia | rewrite Q2R_ofZ, mult_IZR; ring]. }
          intros ? ->. eapply h_bind; [apply (n_num (D * b)); nia|]. intros ? ->. now apply GO.
    Qed.

    Lemma h_fracs mp p : (forall m, In m p -> hruns (fun W _ => w_normalF W mp (monoE m)) (fracOf mp M [m])) ->
      hruns (fun W _ => fractions W mp (map monoE p)) (fun x => exists l, map fst l = p /\ Forall pairOK l /\ x = (map pairE l, mp)).
    Proof.
      induction p as [|m p IH]; intros H; cbn [map fractions].
      - apply h_ret. exists []. auto.
      - eapply h_bind; [apply H; now left|]. intros ? (D & D1 & D2 & ->). eapply h_bind; [apply IH; intros; apply H; now right|]. intros ? (l & <- & Hl & ->).
        apply h_ret. exists ((m, D) :: l). split; [reflexivity|]. split; [constructor; [split; assumption | exact Hl] | reflexivity].
    Qed.
    Lemma nf_poly mp p : P_ok p -> (forall m, In m p -> (den m | M)) -> hruns (fun W _ => w_normalF W mp (polyE p)) (fracOf mp M p).
    Proof.
      intros K HD. destruct (polyE_cases p) as [(-> & E)|[(m & -> & E)|(L & E)]].
      - rewrite E. eapply h_imp; [apply nf_num|]. intros x ->. exists 1. split; [apply Z.divide_1_l|]. split; [split; [lia | intros ? []] | reflexivity].
      - rewrite E. apply nf_mono; auto. apply HD. now left.
      - pose proof E as E'. rewrite E. apply nf_step. cbn [normalF]. rewrite <- E.
        eapply h_bind; [apply (h_expandPoly Y B Hlt), K|]. intros ? ->. rewrite polyE_isZero by apply K. destruct p as [|m p]; [cbn in L; lia|]. cbn iota.
        eapply h_bind; [apply (h_fracs mp (m :: p))|].
        { intros x Hx. apply nf_mono; [|exact HM | now apply HD]. apply in_split in Hx as (l1 & l2 & El). rewrite El in K. apply P_ok_sub in K as [_ K]; [|exact HB]. change (x :: l2) with ([x] ++ l2) in K. apply P_ok_sub in K; [apply K | exact HB]. }
        intros ? ([|[m' D] l] & El & Hl & ->); [discriminate|]. cbn [map fst] in El. injection El as -> <-. cbn [map pairE fst snd]. inversion Hl as [|? ? [D2 D1] Hl']; subst. cbn [fst snd] in D1, D2.
        eapply h_bind; [apply h_inEnv, (h_common l [m] D); auto; discriminate|].
        intros ? (E0 & Z1 & Z2 & ->). apply h_ret. exists E0. auto.
    Qed.
    Lemma n_poly p : P_ok p -> (forall m, In m p -> (den m | M)) -> hruns (fun W _ => w_normal W (polyE p)) (fun e => e = polyE p).
    Proof.
      intros K HD. apply n_step. unfold normalTop. eapply h_bind; [apply nf_poly; auto|]. intros ? (D & D1 & C & ->).
      destruct (not_nilE (nums D p)) as [U1 U2].
      eapply h_bind with (P := fun z => z = polyE (nums D p)).
      { apply h_eq, (ev_ge 1 0). intros F k HF _. destruct F as [|F]; [lia|]. now rewrite replace_empty. }
      intros ? ->. eapply h_bind with (P := fun z => z = numZ D).
      { apply h_eq, (ev_ge 1 0). intros F k HF _. destruct F as [|F]; [lia|]. now rewrite replace_empty. }
      intros ? ->. cbn [noneLeft m_list forallb negb orb relyIf]. eapply h_bind with (P := fun _ => True); [now apply h_ret|]. intros _ _. unfold fracEval.
      pose proof (proj1 C) as PD. pose proof (bound D PD D1) as BD.
      eapply h_bind; [apply (h_inverse Y (ofZ D)); [apply canon_ofZ | apply numZ_nonzero; lia|]|].
      { apply small_invertible; [apply canon_ofZ | apply numZ_nonzero; lia | change (Z.abs D < 324); lia | change (1 < 324); lia]. }
      intros ? (i & -> & Ci & Vi). rewrite Q2R_ofZ in Vi. assert (RD : IZR D <> 0%R) by (apply not_0_IZR; lia).
      apply h_eq, (prod_scalar Y B Hlt i); auto; [rewrite Vi; now apply Rinv_neq_0_compat | now apply (nums_ok B)|].
      intros r Hr. rewrite nums_V by assumption. rewrite Vi. field. exact RD.
    Qed.
  End Common.

  Theorem normal_poly p M : P_ok p -> 0 < M < 324 -> (forall m, In m p -> (den m | M)) -> hruns (fun W _ => w_normal W (polyE p)) (fun e => e = polyE p).
  Proof.
    intros K HM HD. apply (n_poly M HM); auto. right. intros q Kq Iq. apply (n_poly 1); [lia | now left | exact Kq|]. intros m Hm. unfold den. rewrite (Iq m Hm). apply Z.divide_refl.
  Qed.
  (** numerator and denominator *)
  Theorem fraction_poly p M : P_ok p -> 0 < M < 324 -> (forall m, In m p -> (den m | M)) ->
    hruns (fun W n => toFraction W n (polyE p)) (fun x => exists D, (D | M) /\ common D p /\ x = (polyE (nums D p), numZ D)).
  Proof.
    intros K HM HD. unfold toFraction. eapply h_bind.
    { apply (nf_poly M HM); [|exact K | exact HD]. right. intros q Kq Iq. apply (n_poly 1); [lia | now left | exact Kq|]. intros m Hm. unfold den. rewrite (Iq m Hm). apply Z.divide_refl. }
    intros ? (D & D1 & C & ->). destruct (not_nilE (nums D p)) as [U1 U2].
    eapply h_bind with (P := fun z => z = numZ D).
    { apply h_eq, (ev_ge 1 0). intros F k HF _. destruct F as [|F]; [lia|]. now rewrite replace_empty. }
    intros ? ->. eapply h_bind with (P := fun z => z = polyE (nums D p)).
    { apply h_eq, (ev_ge 1 0). intros F k HF _. destruct F as [|F]; [lia|]. now rewrite replace_empty. }
    intros ? ->. cbn [noneLeft m_list forallb negb orb relyIf]. eapply h_bind with (P := fun _ => True); [now apply h_ret|]. intros _ _. apply h_ret. exists D. auto.
  Qed.
  Theorem simplify_poly p M : P_ok p -> 0 < M < 324 -> (forall m, In m p -> (den m | M)) -> hruns (fun W n => simplifyVar W n (polyE p)) (fun e => e = polyE p).
  Proof.
    intros K HM HD. unfold simplifyVar. eapply h_bind; [apply (h_expandPoly Y B Hlt), K|]. intros ? ->. eapply h_bind; [now apply (normal_poly p M)|]. intros ? ->.
    destruct (not_nilE p) as [U1 U2]. rewrite U1. eapply h_bind with (P := fun e => e = polyE p).
    { apply h_eq, ev_all. intros F k. destruct F; cbn [normalLoop]; rewrite isEqual_refl by exact U2; reflexivity. }
    intros ? ->. eapply h_bind; [apply (h_expandPoly Y B Hlt), K|]. intros ? ->. apply h_ret. rewrite !Z.ltb_irrefl. reflexivity.
  Qed.
End Norm.
