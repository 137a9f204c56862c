(** normal and simplify on expanded polynomials: they end and return the polynomial itself. *)
From Verif Require Import LaurentSpec DivSpec LaurentOrder LaurentProd LaurentIdent LaurentSum LaurentExpand LaurentMain LaurentApi RingProd RingSum RingPos RingSpec RingTerm RingRun LaurentCoeff PolyTotal PolyCode HRuns DivExact DivRun DivRem DivApi DivUser GcdPoly GcdRun FuelMono FuelApi SimplApi ApiSpec ApiModel ExprProofs NumInt NumberProofs GcdProofs World WorldExact SoundOps RPow RunSpec NumberSpec PolyModel NormalModel DiffModel.
From Coq Require Import Lia Lra Bool Permutation Sorted Classical_Prop.
From Verif Require Import Run LaurentSpec.
Open Scope Z_scope.

Section Norm.
  Variables (Y : sys) (B : Z).
  Hypothesis Hlt : exactUpTo B (s_nlt Y).
  Hypothesis HB : 0 <= B < intMax.
  Notation hruns := (hruns Y).
  Notation P_ok := (P_ok B).

  (** ** Small steps *)
  Lemma h_expandPoly p : P_ok p -> hruns (fun W _ => w_expand W (polyE p)) (fun y => y = polyE p).
  Proof. intros (O & P & D). apply h_eq, (expandPoly Y B Hlt p O). eapply pdeg_le; [exact D | apply polyDeg_pdeg]. Qed.
  Lemma h_expandNum q : hruns (fun W _ => w_expand W (Num q)) (fun y => y = Num q).
  Proof. apply h_eq, ev_S, ev_all. reflexivity. Qed.
  Lemma h_powOne e : isUndefined e = false -> hruns (fun W _ => w_pow W one e) (fun y => y = one).
  Proof. intros U. apply h_eq, ev_S, ev_all. intros F k. cbn [world step w_pow]. unfold powCreate. rewrite U. cbn [isUndefined orb isZero isOne one]. change (qeqb 1 0) with false. change (qeqb 1 1) with true. rewrite orb_true_r. reflexivity. Qed.
  Lemma h_inverseOne : hruns (fun W _ => oneOver W one) (fun y => y = one).
  Proof. unfold oneOver. apply h_powOne. reflexivity. Qed.

  (** A polynomial times a number, in this order. *)
  Lemma big_prod_swapped c p F k : monoOK (c, []) -> polyOK p -> (2 <= length p)%nat -> qeqb c 1 = false -> (8 <= F)%nat ->
    exists v, Permutation [Num c; Sum (map monoE p)] v /\
      w_prod (world Y F (S k)) [Sum (map monoE p); Num c] = expandAsProduct (world Y F k) F v.
  Proof.
    intros Om O L E1 HF. set (T := Sum (map monoE p)).
    assert (X : simplifyProduct Y (world Y F k) F [T; Num c] = simplTwoFactorsWithoutProduct Y (world Y F k) T (Num c)).
    { destruct F as [|F']; [lia|]. set (F := S F') in *. unfold F at 2. cbn [simplifyProduct]. fold F. unfold prepare. cbn [extractProducts flat_map extractProduct app T].
      rewrite contract_none; [|intros x y [<-|[<-|[]]] _; reflexivity | cbn; lia]. cbn [bind ret].
      unfold F at 2. rewrite two_nonprod by reflexivity. fold F. fold T. destruct (simplTwoFactorsWithoutProduct _ _ _ _); reflexivity. }
    assert (U : factorsE (c, []) = [Num c]) by (unfold factorsE; cbn [fst snd map]; rewrite E1; reflexivity).
    assert (P2 : forall v, Permutation [Num c; T] v -> prodCreate Y (world Y F k) F [T; Num c] = (r <- Ok v [] ;; match r with [] => ret one | [x] => ret x | _ => if needsExpansion r then expandAsProduct (world Y F k) F r else ret (Prod r) end) ->
      prodCreate Y (world Y F k) F [T; Num c] = expandAsProduct (world Y F k) F v).
    { intros v Pv ->. assert (NE : needsExpansion v = true).
      { rewrite <- (needsExpansion_perm _ _ Pv). pose proof (needsExpansion_big (c, []) p Om O L) as Q. rewrite U in Q. cbn [fst snd app] in Q. rewrite E1 in Q. exact Q. }
      pose proof (Permutation_length Pv) as Q. destruct v as [|x [|y v]]; try discriminate. rewrite bind_ret, NE. reflexivity. }
    assert (PC : prodCreate Y (world Y F k) F [T; Num c] = (r <- simplTwoFactorsWithoutProduct Y (world Y F k) T (Num c) ;; match r with [] => ret one | [x] => ret x | _ => if needsExpansion r then expandAsProduct (world Y F k) F r else ret (Prod r) end)).
    { rewrite <- X. unfold prodCreate. cbn [existsb isUndefined isZero orb T]. assert (Z : qeqb c 0 = false) by (apply qeqb_neq; apply Om). rewrite Z. reflexivity. }
    destruct (big_inert Y (c, []) p Om O L F k T (Num c)) as [E|E]; rewrite ?U.
    - right. now left.
    - now left.
    - discriminate.
    - exists [T; Num c]. split; [apply perm_swap|]. apply P2; [apply perm_swap|]. now rewrite PC, E.
    - exists [Num c; T]. split; [reflexivity|]. apply P2; [reflexivity|]. now rewrite PC, E.
  Qed.
  Lemma prod_scalar c p s : canon c -> Q2R c <> 0%R -> P_ok p -> P_ok s -> (forall r, allPos r -> polyV r s = Q2R c * polyV r p)%R ->
    ev (fun F k => w_prod (world Y F k) [polyE p; Num c] = Ok (polyE s) []).
  Proof.
    intros C N (O & P & D) (Os & Ps & Ds) V. destruct (num_mono c C N) as [Om Em].
    destruct (polyE_cases p) as [[-> E]|[(m & -> & E)|[L E]]]; rewrite E.
    - assert (s = []) as ->. { apply poly_unique; [exact Os | apply polyOK_nil|]. intros r Hr. rewrite V by exact Hr. change (polyV r []) with 0%R. ring. }
      apply ev_S, ev_all. intros F k. cbn [world step w_prod]. unfold prodCreate. cbn [existsb isUndefined isZero orb zero]. reflexivity.
    - assert (X : exists n, s = [n] /\ monoOK n /\ forall r, allPos r -> monoV r n = monosV r [m; (c, [])]).
      { apply polyOK_one in O. destruct (prod_ev Y [m; (c, [])]) as (y & Oy & Vy & _); [discriminate | auto|]. exists y. split; [|auto].
        apply poly_unique; [exact Os | now apply mono_polyOK|]. intros r Hr. rewrite V by exact Hr. rewrite !polyV_cons. change (polyV r []) with 0%R. rewrite Vy by exact Hr.
        unfold monosV; cbn [fold_right]. replace (monoV r (c, [])) with (Q2R c) by (unfold monoV, keyV; cbn [fst snd fold_right]; ring). ring. }
      destruct X as (n & -> & On & Vn). apply polyOK_one in O. eapply ev_imp; [apply (prod_is Y [m; (c, [])] n); [discriminate | auto | exact On | exact Vn]|].
      intros F k H. cbn [map] in H. rewrite Em in H. exact H.
    - destruct (qeqb c 1) eqn:E1.
      { apply qeqb_eq in E1 as ->. assert (s = p) as ->. { apply poly_unique; auto. intros r Hr. rewrite V, Q2R_1 by exact Hr. ring. }
        rewrite E. apply (ev_ge 5 1). intros F k HF Hk. destruct k as [|k]; [lia|]. cbn [world step w_prod]. unfold prodCreate. cbn [existsb isUndefined isZero orb]. change (qeqb 1 0) with false. cbn [orb].
        destruct F as [|F]; [lia|]. cbn [simplifyProduct]. unfold prepare. cbn [extractProducts flat_map extractProduct app].
        rewrite contract_none; [|intros x y [<-|[<-|[]]] _; reflexivity | cbn; lia]. reflexivity. }
      destruct (scale_ev Y B Hlt (c, []) p Om O) with (d := polyDeg p) as (s' & Os' & Vs' & Ds' & Es'); [intros ->; cbn in L; lia | apply polyDeg_pdeg | cbn; lia|].
      assert (s' = s) as -> by (apply poly_unique; auto; intros r Hr; rewrite Vs', V by exact Hr; unfold monoV, keyV; cbn [fst snd fold_right]; ring).
      assert (FE : factorsE (c, []) = [Num c]) by (unfold factorsE; cbn [fst snd map]; rewrite E1; reflexivity).
      pose (U := [Num c; Sum (map monoE p)]).
      assert (LL : ev (fun F k => forall v, Permutation U v -> expandAsProduct (world Y F k) F v = Ok (polyE s) [])).
      { assert (X : forall v, Permutation U v -> ev (fun F k => expandAsProduct (world Y F k) F v = Ok (polyE s) [])).
        { intros v Pv. apply (big_asProduct Y B Hlt (c, []) p Om O L (polyDeg p) (polyDeg_pdeg p)); [cbn; lia | exact Es' | rewrite FE; discriminate | rewrite FE; exact Pv]. }
        eapply ev_mp; [apply (X U); reflexivity|]. eapply ev_imp; [apply (X [Sum (map monoE p); Num c]); apply perm_swap|]. intros F k H1 H2 v Pv.
        destruct (Permutation_length_2_inv Pv) as [->| ->]; assumption. }
      apply ev_S. destruct LL as (F0 & k0 & LL). exists (F0 + 8)%nat, k0. intros F k HF Hk.
      destruct (big_prod_swapped c p F k Om O L E1) as (v & Pv & ->); [lia|]. apply LL; [lia | lia | exact Pv].
  Qed.
  Lemma h_fracOne p : P_ok p -> hruns (fun W _ => fracEval W (polyE p) one) (fun y => y = polyE p).
  Proof.
    intros K. unfold fracEval. eapply h_bind; [apply h_inverseOne|]. intros ? ->. apply h_eq, prod_scalar; auto; [reflexivity | rewrite Q2R_1; lra|].
    intros r _. rewrite Q2R_1. ring.
  Qed.

  (** ** One factor *)
  Definition sameF (m : smap) (e : expr) (x : expr * expr * smap) : Prop := x = (e, one, m).
  Lemma nf_step m e P : hruns (fun W n => normalF Y W n m e) P -> hruns (fun W _ => w_normalF W m e) P.
  Proof. apply h_step. reflexivity. Qed.
  Lemma n_step e P : hruns (fun W n => normalTop W n e) P -> hruns (fun W _ => w_normal W e) P.
  Proof. apply h_step. reflexivity. Qed.
  Lemma nf_num m q : hruns (fun W _ => w_normalF W m (Num q)) (fun x => x = (numZ (qnum q), numZ (Z.pos (Qden q)), m)).
  Proof. apply nf_step. now apply h_ret. Qed.
  Lemma nf_sym m s : hruns (fun W _ => w_normalF W m (symE s)) (sameF m (symE s)).
  Proof. apply nf_step. now apply h_ret. Qed.
  (** normal from normal with a map. *)
  Lemma replace_empty W n b e : isUndefined e = false -> noUndef e = true -> replaceBack W (S n) (mkMap b []) e = ret e.
  Proof. intros U N. cbn [replaceBack m_list substAll inEnv ret map bind]. rewrite U, isEqual_refl by exact N. reflexivity. Qed.
  Lemma n_of e n d y : isUndefined n = false -> noUndef n = true -> isUndefined d = false -> noUndef d = true ->
    (forall b, hruns (fun W _ => w_normalF W (mkMap b []) e) (fun x => x = (n, d, mkMap b []))) -> hruns (fun W _ => fracEval W n d) (fun z => z = y) ->
    hruns (fun W _ => w_normal W e) (fun z => z = y).
  Proof.
    intros U1 U2 U3 U4 Hf Hy. apply n_step. unfold normalTop. eapply h_bind; [apply Hf|]. intros x ->.
    eapply h_bind with (P := fun z => z = n).
    { apply h_eq, (ev_ge 1 0). intros F k HF _. destruct F as [|F]; [lia|]. now rewrite replace_empty. }
    intros ? ->. eapply h_bind with (P := fun z => z = d).
    { apply h_eq, (ev_ge 1 0). intros F k HF _. destruct F as [|F]; [lia|]. now rewrite replace_empty. }
    intros ? ->. cbn [noneLeft m_list forallb negb orb relyIf]. eapply h_ext; [|exact Hy]. intros W k. cbn [bind ret app]. destruct (fracEval W n d); reflexivity.
  Qed.

  (** ** Numerators for a common denominator *)
  Definition den (m : mono) : Z := Z.pos (Qden (fst m)).
  Definition numOf (D : Z) (m : mono) : mono := (ofZ (qnum (fst m) * (D / den m)), snd m).
  Definition nums (D : Z) (p : poly) : poly := map (numOf D) p.
  Definition common (D : Z) (p : poly) : Prop := 0 < D /\ forall m, In m p -> (den m | D).
  Lemma den_pos m : 0 < den m. Proof. unfold den. lia. Qed.
  Lemma quot_pos D m : 0 < D -> (den m | D) -> 0 < D / den m /\ D = den m * (D / den m).
  Proof. intros H (z & ->). pose proof (den_pos m). rewrite Z.div_mul by lia. split; nia. Qed.
  Lemma common_app D a b : common D (a ++ b) <-> common D a /\ common D b.
  Proof.
    unfold common. split.
    - intros [H H']. split; (split; [exact H|]); intros m Hm; apply H', in_or_app; tauto.
    - intros [[H Ha] [_ Hb]]. split; [exact H|]. intros m Hm. apply in_app_or in Hm as [Hm|Hm]; auto.
  Qed.
  Lemma numOf_V r D m : 0 < D -> (den m | D) -> monoV r (numOf D m) = (IZR D * monoV r m)%R.
  Proof.
    intros H Hd. destruct (quot_pos D m H Hd) as [Q1 Q2]. unfold numOf, monoV. cbn [fst snd]. rewrite Q2R_ofZ.
    assert (ED : IZR D = (IZR (den m) * IZR (D / den m))%R) by (rewrite <- mult_IZR, <- Q2; reflexivity). rewrite mult_IZR, ED.
    assert (E : Q2R (fst m) = (IZR (qnum (fst m)) / IZR (den m))%R) by (unfold Q2R, den, qnum; destruct (fst m); reflexivity). rewrite E.
    field. apply not_0_IZR. pose proof (den_pos m). lia.
  Qed.
  Lemma nums_V r D p : common D p -> polyV r (nums D p) = (IZR D * polyV r p)%R.
  Proof.
    intros [H Hd]. induction p as [|m p IH]; [change (polyV r []) with 0%R; change (polyV r (nums D [])) with 0%R; ring|].
    change (nums D (m :: p)) with (numOf D m :: nums D p). rewrite !polyV_cons, IH, numOf_V; auto with datatypes. ring.
  Qed.
  Lemma numOf_OK D m : 0 < D -> (den m | D) -> monoOK m -> monoOK (numOf D m).
  Proof.
    intros H Hd (C & N & K). destruct (quot_pos D m H Hd) as [Q1 Q2]. unfold numOf. split; [apply canon_ofZ|]. split; [|exact K]. cbn [fst]. intros E. apply (f_equal Qnum) in E. cbn in E.
    apply N. assert (Z0 : qnum (fst m) = 0) by nia. apply Q2R_zero; [exact C|]. unfold Q2R. unfold qnum in Z0. rewrite Z0. ring.
  Qed.
  Lemma nums_keys D p : map snd (nums D p) = map snd p.
  Proof. unfold nums. rewrite map_map. reflexivity. Qed.
  Lemma nums_ok D p : common D p -> P_ok p -> P_ok (nums D p).
  Proof.
    intros [H Hd] ((O & S) & P & Dg). split; [split|split].
    - rewrite Forall_forall in *. intros x Hx. unfold nums in Hx. apply in_map_iff in Hx as (m & <- & Hm). apply numOf_OK; auto.
    - clear - S. induction p as [|m p IH]; [constructor|]. inversion S as [|? ? S1 S2]; subst. constructor; [apply IH, S1|].
      rewrite Forall_forall in *. intros x Hx. unfold nums in Hx. apply in_map_iff in Hx as (n & <- & Hn). apply (S2 n Hn).
    - unfold posPoly in *. rewrite Forall_forall in *. intros x Hx. unfold nums in Hx. apply in_map_iff in Hx as (m & <- & Hm). apply (P m Hm).
    - replace (polyDeg (nums D p)) with (polyDeg p); [exact Dg|]. clear. induction p as [|m p IH]; [reflexivity|]. unfold polyDeg, nums in *. cbn [map fold_right]. now rewrite IH.
  Qed.
  Definition intPoly (p : poly) : Prop := forall m, In m p -> Qden (fst m) = 1%positive.
  Lemma nums_int D p : intPoly (nums D p).
  Proof. intros x Hx. unfold nums in Hx. apply in_map_iff in Hx as (m & <- & _). reflexivity. Qed.
  Lemma P_ok_sub a b : P_ok (a ++ b) -> P_ok a /\ P_ok b.
  Proof.
    intros ((O & S) & P & D). unfold posPoly in P. rewrite Forall_app in O, P.
    assert (SS : StronglySorted (fun m n => keyLt (snd m) (snd n)) a /\ StronglySorted (fun m n => keyLt (snd m) (snd n)) b).
    { clear - S. induction a as [|m a IH]; [split; [constructor | exact S]|]. cbn [app] in S. inversion S as [|? ? S1 S2]; subst. destruct (IH S1) as [A1 A2]. split; [|exact A2]. constructor; [exact A1|].
      rewrite Forall_app in S2. apply S2. }
    assert (DD : polyDeg a <= polyDeg (a ++ b) /\ polyDeg b <= polyDeg (a ++ b)).
    { clear. induction a as [|m a [I1 I2]]; [pose proof (polyDeg_nonneg b); change (polyDeg []) with 0; cbn [app]; lia|]. unfold polyDeg in *. cbn [app fold_right]. lia. }
    split; (split; [split|split]); try tauto; lia.
  Qed.

  (** ** The gcd of a polynomial with whole coefficients and a number *)
  Lemma qnum_nonzero m : monoOK m -> qnum (fst m) <> 0.
  Proof. intros (C & N & _) E. apply N, Q2R_zero; [exact C|]. unfold Q2R. unfold qnum in E. rewrite E. ring. Qed.
  Lemma whole m : monoOK m -> Qden (fst m) = 1%positive -> fst m = ofZ (qnum (fst m)).
  Proof. intros _ E. destruct (fst m) as [n d]. cbn in E. subst d. reflexivity. Qed.
  Lemma numZ_nonzero z : z <> 0 -> Q2R (ofZ z) <> 0%R.
  Proof. intros H. rewrite Q2R_ofZ. now apply not_0_IZR. Qed.
  Lemma qsign_ofZ z : qsign (ofZ z) = Z.sgn z.
  Proof. destruct z; reflexivity. Qed.
  Lemma h_gcdNormalize z L : z <> 0 -> hruns (fun W _ => gcdNormalize Y W (numZ z) (map symE L)) (fun e => e = numZ (Z.abs z)).
  Proof.
    intros N. unfold gcdNormalize. eapply h_bind with (P := fun f => f = Z.sgn z).
    { rewrite <- map_rev. apply h_ext with (f := fun _ _ => ret (Z.sgn z)); [|now apply h_ret]. intros W n. destruct (rev L) as [|x R]; cbn; now rewrite qsign_ofZ. }
    intros ? ->. apply h_eq. apply (num_prod Y (ofZ (Z.sgn z)) (ofZ z) (ofZ (Z.abs z))); try apply canon_ofZ.
    - apply numZ_nonzero. lia.
    - now apply numZ_nonzero.
    - rewrite !Q2R_ofZ, <- mult_IZR. f_equal. lia.
  Qed.
  Lemma qabs_ofZ z : qabs (ofZ z) = ofZ (Z.abs z).
  Proof. destruct (qabs_R (ofZ z)) as [V C]. apply Q2R_inj; [apply C, canon_ofZ | apply canon_ofZ|]. now rewrite V, !Q2R_ofZ, abs_IZR. Qed.
  Lemma content_mono m : monoOK m -> Qden (fst m) = 1%positive -> integerContent1 Y (monoE m) = Ok (Z.abs (qnum (fst m))) [].
  Proof.
    intros O Q. pose proof (whole m O Q) as E0. destruct m as [c k]. cbn [fst snd] in *. set (z := qnum c) in *. clearbody z. subst c.
    assert (X : integerContent1 Y (Num (ofZ z)) = Ok (Z.abs z) []) by (cbn [integerContent1 numericTerm bind ret numericEval app]; rewrite qabs_ofZ; reflexivity).
    destruct (monoE_cases (ofZ z, k)) as [(A & E)|[(f & E1 & E)|(_ & E & _)]].
    - now rewrite E.
    - injection E1 as -> ->. rewrite E. unfold facE. destruct (snd f =? 1); reflexivity.
    - rewrite E. unfold factorsE. cbn [fst snd] in *. destruct (qeqb (ofZ z) 1) eqn:Q1; cbn [app].
      + apply qeqb_eq in Q1. injection Q1 as ->. unfold monoE, factorsE in E. cbn [fst snd] in E. destruct k as [|f l]; [discriminate|]. cbn [map integerContent1 numericTerm].
        replace (isNumeric (facE f)) with false by (unfold facE; now destruct (snd f =? 1)). reflexivity.
      + cbn [integerContent1 numericTerm isNumeric]. exact X.
  Qed.
  Lemma content_poly p : polyOK p -> p <> [] -> intPoly p -> exists z, integerContent1 Y (polyE p) = Ok z [] /\ z <> 0 /\ forall m, In m p -> (z | qnum (fst m)).
  Proof.
    intros [O _] N I. assert (M : forall m, In m p -> integerContent1 Y (monoE m) = Ok (Z.abs (qnum (fst m))) [] /\ qnum (fst m) <> 0).
    { intros m Hm. rewrite Forall_forall in O. split; [apply content_mono | apply qnum_nonzero]; auto. }
    destruct (polyE_cases p) as [(E & _)|[(m & -> & ->)|(L & ->)]]; [now elim (N E)| |].
    - destruct (M m (or_introl eq_refl)) as [-> Nz]. eexists. split; [reflexivity|]. split; [lia|]. intros n [<-|[]]. apply Z.divide_abs_l, Z.divide_refl.
    - cbn [integerContent1].
      assert (X : forall l a, (forall m, In m l -> integerContent1 Y (monoE m) = Ok (Z.abs (qnum (fst m))) [] /\ qnum (fst m) <> 0) ->
        exists z, fold_left (fun a s => z <- a ;; y <- integerContent1 Y s ;; ret (integerGcd z y)) (map monoE l) (Ok a []) = Ok z [] /\ (z | a) /\ (l <> [] \/ a <> 0 -> z <> 0) /\ forall m, In m l -> (z | qnum (fst m))).
      { induction l as [|m l IH]; intros a Ml; cbn [map fold_left].
        - exists a. split; [reflexivity|]. split; [apply Z.divide_refl|]. split; [intros [H|H]; [congruence | exact H] | intros ? []].
        - destruct (Ml m (or_introl eq_refl)) as [-> Nz]. cbn [bind ret app]. destruct (IH (integerGcd a (Z.abs (qnum (fst m))))) as (z & E & D & Nn & Hl); [intros; apply Ml; now right|].
          exists z. split; [exact E|]. pose proof (integerGcd_ok a (Z.abs (qnum (fst m)))) as G.
          assert (D' : (z | Z.gcd a (Z.abs (qnum (fst m))))) by (rewrite <- G; now apply Z.divide_abs_r).
          split; [eapply Z.divide_trans; [exact D' | apply Z.gcd_divide_l]|]. split.
          + intros _. apply Nn. right. intros E0. rewrite E0 in G. cbn in G. symmetry in G. apply Z.gcd_eq_0_r in G. lia.
          + intros n [<-|Hn]; [|now apply Hl]. apply Z.divide_abs_r. eapply Z.divide_trans; [exact D' | apply Z.gcd_divide_r]. }
      destruct (X p 0 M) as (z & E & _ & Nz & H). exists z. split; [exact E|]. split; [apply Nz; now left | exact H].
  Qed.
  Lemma has_num q x : has (Num q) (symE x) = false.
  Proof. reflexivity. Qed.
  Lemma no_common e q L : haveCommonSymbol e (Num q) (map symE L) = false.
  Proof. unfold haveCommonSymbol. induction L as [|x L IH]; cbn [map existsb]; [reflexivity|]. rewrite IH, has_num, andb_false_r. reflexivity. Qed.
  Definition divides (g : Z) (p : poly) : Prop := forall m, In m p -> (g | qnum (fst m)).
  Lemma h_quiet {A} (f : oper -> nat -> res A) P : hruns f P -> hruns (fun W n => quiet (f W n)) P.
  Proof. intros (a & Pa & E). exists a. split; [exact Pa|]. eapply ev_imp; [exact E|]. intros F k (l & -> & _). exists []. split; [reflexivity | constructor]. Qed.
  Lemma numE_poly d : 0 < d -> P_ok [(ofZ d, [])] /\ polyE [(ofZ d, [])] = numZ d.
  Proof. intros H. split; [apply (num_ok B HB); [apply canon_ofZ | apply numZ_nonzero; lia]|]. apply num_polyE. Qed.
  Lemma h_polyGcd u d : P_ok u -> u <> [] -> intPoly u -> 0 < d ->
    hruns (fun W _ => polyGcd Y W (polyE u) (numZ d)) (fun e => exists g, e = numZ g /\ 0 < g /\ (g | d) /\ divides g u).
  Proof.
    intros K N I Hd. destruct (numE_poly d Hd) as [Kd Ed]. unfold polyGcd. destruct (symbols_list Y u [(ofZ d, [])]) as (L & EL & _). rewrite Ed in EL. rewrite EL.
    eapply h_bind with (P := fun e => exists g, e = numZ g /\ 0 < g /\ (g | d) /\ divides g u).
    2:{ intros e (g & -> & Hg). replace (NormalModel.polyOK (map symE L) (numZ g)) with true by (cbn; unfold canonb; cbn; now rewrite Z.gcd_1_r). apply (h_ret Y (numZ g)). now exists g. }
    apply h_quiet. unfold gcdCompute. rewrite EL. replace (isInputValid Y (polyE u) (numZ d)) with true by (rewrite <- Ed; symmetry; now apply (valid Y B HB)).
    apply h_step with (g := fun W n => gcdWith Y W n true (map symE L) (polyE u) (numZ d)); [reflexivity|]. unfold gcdWith. eapply h_bind; [apply h_expandPoly, K|]. intros ? ->. eapply h_bind; [apply h_expandNum|]. intros ? ->.
    assert (ONE : hruns (fun W _ => gcdNormalize Y W one (map symE L)) (fun e => exists g, e = numZ g /\ 0 < g /\ (g | d) /\ divides g u)).
    { eapply h_imp; [apply (h_gcdNormalize 1); lia|]. intros e ->. exists 1. split; [reflexivity|]. split; [lia|]. split; [apply Z.divide_1_l | intros m _; apply Z.divide_1_l]. }
    assert (NUM : forall z, z <> 0 -> (z | d) -> divides z u -> hruns (fun W _ => gcdNormalize Y W (numZ z) (map symE L)) (fun e => exists g, e = numZ g /\ 0 < g /\ (g | d) /\ divides g u)).
    { intros z Nz D1 D2. eapply h_imp; [apply (h_gcdNormalize z L Nz)|]. intros e ->. exists (Z.abs z). split; [reflexivity|]. split; [lia|]. split; [now apply Z.divide_abs_l | intros m Hm; apply Z.divide_abs_l, D2, Hm]. }
    change (Num (ofZ d)) with (numZ d). destruct (isOne (polyE u) || isOne (numZ d)); [exact ONE|].
    assert (Zu : isZero (polyE u) = false) by (rewrite polyE_isZero by apply K; destruct u; congruence). rewrite Zu. cbn [andb].
    assert (Zd : isZero (numZ d) = false) by (destruct d; [lia | reflexivity | lia]). rewrite Zd.
    assert (NN : forall q, polyE u = Num q -> u = [(q, [])] /\ q = ofZ (qnum q) /\ qnum q <> 0).
    { intros q E. destruct (polyE_num u q) as (-> & C & Nq); [apply K | exact N | exact E|]. split; [reflexivity|]. destruct K as [O _]. apply polyOK_one in O. split; [apply (whole (q, [])); [exact O | apply (I (q, [])); now left] | apply (qnum_nonzero (q, [])), O]. }
    destruct (isEqual (polyE u) (numZ d)) eqn:EQ.
    - assert (E : polyE u = numZ d). { destruct (polyE u); cbn in EQ; try discriminate. apply qeqb_eq in EQ. now rewrite EQ. }
      rewrite E. destruct (NN _ E) as (-> & _). apply (NUM d); [lia | apply Z.divide_refl|]. intros m [<-|[]]. apply Z.divide_refl.
    - assert (GEN : hruns (fun W n => g <- (if negb (haveCommonSymbol (polyE u) (numZ d) (map symE L)) then integerContent Y (polyE u) (numZ d) else gcdViaAlgo Y W n true (polyE u) (numZ d) (map symE L)) ;; gcdNormalize Y W g (map symE L)) (fun e => exists g, e = numZ g /\ 0 < g /\ (g | d) /\ divides g u)).
      { replace (haveCommonSymbol (polyE u) (numZ d) (map symE L)) with false by (symmetry; apply no_common). cbn [negb]. destruct (content_poly u) as (z & Ez & Nz & Dz); [apply K | exact N | exact I|]. unfold integerContent. rewrite Ez.
        replace (integerContent1 Y (numZ d)) with (Ok d []) by (destruct d; try lia; reflexivity). cbn [bind ret app].
        pose proof (integerGcd_ok z d) as G. eapply h_ext; [|apply (NUM (integerGcd z d))]; [intros W n; cbv beta; match goal with |- ?x = _ => change x with (gcdNormalize Y W (numZ (integerGcd z d)) (map symE L)) end; destruct (gcdNormalize Y W (numZ (integerGcd z d)) (map symE L)); reflexivity | | |].
        - intros E. rewrite E in G. symmetry in G. apply Z.gcd_eq_0_l in G. lia.
        - apply Z.divide_abs_l. rewrite G. apply Z.gcd_divide_r.
        - intros m Hm. apply Z.divide_abs_l. rewrite G. eapply Z.divide_trans; [apply Z.gcd_divide_l | apply Dz, Hm]. }
      destruct (polyE u) eqn:Eu; try exact GEN. cbn [numZ].
      destruct (NN _ eq_refl) as (-> & Eq & Nq). assert (CN : computeNumerics q (ofZ d) = numZ (integerGcd (qnum q) d)) by (rewrite Eq; reflexivity). rewrite CN.
      pose proof (integerGcd_ok (qnum q) d) as G. apply NUM.
      + intros E. rewrite E in G. symmetry in G. apply Z.gcd_eq_0_l in G. lia.
      + apply Z.divide_abs_l. rewrite G. apply Z.gcd_divide_r.
      + intros m [<-|[]]. apply Z.divide_abs_l. rewrite G. apply Z.gcd_divide_l.
  Qed.
End Norm.
