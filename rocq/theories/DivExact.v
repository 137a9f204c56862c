(** Division of polynomials in normal form without remainder. *)
From Verif Require Import LaurentSpec LaurentOrder LaurentProd LaurentIdent LaurentSum LaurentExpand LaurentMain LaurentApi RingProd RingSum RingPos RingSpec RingTerm LaurentCoeff PolyCode HRuns FuelMono FuelApi SimplApi ApiSpec ApiModel ExprProofs NumInt NumberProofs World RPow RunSpec NumberSpec PolyModel.
From Coq Require Import Lia Lra Bool Permutation Sorted.
From Verif Require Import Run LaurentSpec.
Open Scope Z_scope.

(** ** The numeric coefficients of a coefficient *)
Section Coefs.
  Variable ks : list key.
  Lemma coef_in' p m : (forall n, In n p -> In (snd n) ks) -> Forall monoOK p -> NoDup (map snd p) -> In m p -> coefAt (weight ks (snd m)) (uTerms ks p) = Q2R (fst m).
  Proof.
    intros Hin O N Hm. unfold uTerms. induction p as [|n q IH]; [destruct Hm|]. cbn [map] in *. apply NoDup_cons_iff in N as [Nn Nq]. cbn [coefAt fold_right fst snd].
    pose proof O as O0. apply Forall_cons_iff in O as [On Oq]. rewrite Forall_forall in O0. destruct Hm as [->|Hm].
    - destruct (Z.eq_dec _ _) as [_|]; [|congruence].
      assert (C0 : coefAt (weight ks (snd m)) (map (fun m => (Q2R (fst m), weight ks (snd m))) q) = 0%R).
      { apply coefAt_none. intros t Ht. apply in_map_iff in Ht as (u & <- & Hu). cbn [snd]. intros E. apply weight_inj in E.
        - apply Nn. rewrite <- E. now apply in_map.
        - apply Hin. now right.
        - apply Hin. now left.
        - apply O0. now right.
        - apply O0. now left. }
      unfold coefAt in C0. rewrite C0. lra.
    - destruct (Z.eq_dec _ _) as [E|].
      + exfalso. apply weight_inj in E.
        * apply Nn. rewrite E. now apply in_map.
        * apply Hin. now left.
        * apply Hin. now right.
        * apply O0. now left.
        * apply O0. now right.
      + rewrite Rplus_0_l. apply IH; auto. intros; apply Hin; now right.
  Qed.
End Coefs.
Lemma nodup_same s l : polyOK s -> Forall monoOK l -> NoDup (map snd l) -> (forall r, allPos r -> polyV r s = polyV r l) -> incl s l.
Proof.
  intros Os Ol N H m Hm. pose (ks := map snd (s ++ l)).
  assert (Is : forall n, In n s -> In (snd n) ks) by (intros; apply in_map, in_or_app; auto).
  assert (Il : forall n, In n l -> In (snd n) ks) by (intros; apply in_map, in_or_app; auto).
  assert (E : forall d, coefAt d (uTerms ks s) = coefAt d (uTerms ks l)).
  { apply same_coefs. intros T HT. rewrite <- !uTerms_V by assumption. apply H. now apply weightEnv_pos. }
  pose proof (coef_in ks s m Is Os Hm) as C. rewrite E in C. destruct Os as [Os _]. rewrite Forall_forall in Os. destruct (Os m Hm) as (Cm & Nm & Km).
  destruct (in_dec Z.eq_dec (weight ks (snd m)) (map (fun n => weight ks (snd n)) l)) as [I|I].
  - apply in_map_iff in I as (n & W & Hn). pose proof Ol as Ol'. rewrite Forall_forall in Ol'. destruct (Ol' n Hn) as (Cn & Nn & Kn).
    apply weight_inj in W; auto. pose proof (coef_in' ks l n Il Ol N Hn) as C'. rewrite W, C in C'.
    apply Q2R_inj in C'; auto. destruct m, n; cbn in *. now subst.
  - exfalso. rewrite coefAt_none in C.
    + symmetry in C. now apply Q2R_nonzero in C.
    + intros t Ht. apply in_map_iff in Ht as (n & <- & Hn). cbn [snd]. intros W. apply I. rewrite <- W. apply in_map_iff. eauto.
Qed.
Lemma sorted_nodup p : StronglySorted (fun m n : mono => keyLt (snd m) (snd n)) p -> NoDup (map snd p).
Proof.
  induction 1 as [|m p S IH F]; cbn [map]; constructor; [|exact IH]. intros H. apply in_map_iff in H as (n & E & Hn). rewrite Forall_forall in F. specialize (F n Hn). rewrite E in F. now apply keyLt_irrefl in F.
Qed.
Lemma coefL_nodup t i p : polyOK p -> NoDup (map snd (coefL t i p)).
Proof.
  intros [O S]. apply sorted_nodup in S. unfold coefL. rewrite map_map. cbn [dropT snd]. induction p as [|m p IH]; [constructor|].
  cbn [map] in S. apply NoDup_cons_iff in S as [Sm S]. pose proof O as O0. apply Forall_cons_iff in O as [Om Op]. specialize (IH Op S). unfold atDeg in *. cbn [filter].
  destruct (Z.eqb_spec (kget (snd m) t) i) as [E|E]; [|exact IH]. cbn [map]. constructor; [|exact IH]. intros H. apply Sm. apply in_map_iff in H as (n & En & Hn). apply filter_In in Hn as [Hn Dn]. apply Z.eqb_eq in Dn.
  replace (snd m) with (snd n); [now apply in_map|]. rewrite Forall_forall in Op. apply key_ext; [apply Op, Hn | apply Om|].
  intros s. destruct (sym_dec s t) as [->|N]; [congruence|]. rewrite <- (dropSym_kget t (snd n) s N), <- (dropSym_kget t (snd m) s N). now rewrite En.
Qed.
Lemma isCoef_fst t i p s : isCoef t i p s -> polyOK p -> incl (map fst s) (map fst p).
Proof.
  intros (O & V & _) Op c Hc. apply in_map_iff in Hc as (m & <- & Hm).
  apply (nodup_same s (coefL t i p)) in Hm; [|exact O | apply coefL_OK, Op | now apply coefL_nodup | intros r _; now rewrite coefL_V].
  apply in_map_iff in Hm as (n & <- & Hn). apply filter_In in Hn as [Hn _]. cbn [dropT fst]. now apply in_map.
Qed.

(** Polynomials without symbols. *)
Lemma no_symbols p : polyOK p -> posPoly p -> (forall t, degIn t p = 0) -> p = [] \/ exists c, p = [(c, [])].
Proof.
  intros O P D. assert (K : forall m, In m p -> snd m = []).
  { intros m Hm. destruct (snd m) as [|[s z] k] eqn:E; [reflexivity|]. exfalso. unfold posPoly in P. rewrite Forall_forall in P. specialize (P m Hm). rewrite E in P.
    pose proof (degIn_ge s p m Hm) as G. rewrite D, E, kget_cons in G. cbn [fst snd] in G. destruct (sym_dec s s); [|congruence]. unfold posKey in P. apply Forall_cons_iff in P as [Pz Pk]. cbn [snd] in Pz.
    pose proof (kget_nonneg k s Pk). lia. }
  destruct p as [|[c k] [|[d l] p]]; [now left| |exfalso].
  - right. exists c. specialize (K (c, k) (or_introl eq_refl)). cbn in K. now subst k.
  - pose proof (K (c, k) (or_introl eq_refl)) as K1. pose proof (K (d, l) (or_intror (or_introl eq_refl))) as K2. cbn in K1, K2. subst k l.
    destruct O as [_ S]. inversion S as [|? ? _ F]; subst. apply Forall_inv in F. cbn [snd] in F. now apply keyLt_irrefl in F.
Qed.

(** The API computes the inverse of the number. *)
Definition invertible (Y : sys) (q : Q) : Prop :=
  exists F k i facts, w_pow (world Y F k) (Num q) mOne = Ok (Num i) facts /\ Q2R i = (/ Q2R q)%R.

Section Values.
  Variables (Y : sys) (B : Z).
  Hypothesis Hlt : exactUpTo B (s_nlt Y).
  Notation W F k := (world Y F k).
  Notation hruns := (hruns Y).

  Definition isV (D : Z) (v : env -> R) (e : expr) : Prop := ring e /\ degreeBound e <= D /\ forall r, allPos r -> eval r e = Some (v r).
  Lemma isV_le D D' v e : D <= D' -> isV D v e -> isV D' v e.
  Proof. intros H (A & C & E). split; [exact A|]. split; [lia | exact E]. Qed.
  Lemma isV_ext D v w e : (forall r, allPos r -> v r = w r) -> isV D v e -> isV D w e.
  Proof. intros H (A & C & E). split; [exact A|]. split; [exact C|]. intros r Hr. rewrite <- H by exact Hr. now apply E. Qed.
  Lemma isV_poly p : polyOK p -> posPoly p -> isV (polyDeg p) (fun r => polyV r p) (polyE p).
  Proof. intros O P. destruct (poly_ring p O P) as [A C]. split; [exact A|]. split; [exact C|]. intros r Hr. now apply polyE_value. Qed.
  Lemma isV_num q : canon q -> isV 0 (fun _ => Q2R q) (Num q).
  Proof. intros C. split; [now apply rg_num|]. split; [cbn; lia | reflexivity]. Qed.
  Lemma isV_pow t i : 0 <= i -> isV i (fun r => powerRZ (symV r t) i) (powE t i).
  Proof.
    intros Hi. unfold powE. destruct (Z.eqb_spec i 0) as [->|N].
    - split; [apply rg_num; reflexivity|]. split; [cbn; lia|]. intros r _. cbn [eval one]. cbn [powerRZ]. unfold one. cbn [eval]. f_equal. apply Q2R_1.
    - assert (O : monoOK (1%Q, [(t, i)])).
      { split; [reflexivity|]. split; [discriminate|]. split; [constructor; constructor|]. constructor; [exact N | constructor]. }
      assert (P : posKey [(t, i)]) by (constructor; [cbn; lia | constructor]).
      change (facE (t, i)) with (monoE (1%Q, [(t, i)])). destruct (mono_ring _ O P) as (A & _ & D & _). split; [exact A|]. split; [rewrite D; cbn; lia|].
      intros r Hr. pose proof (polyE_value r [(1%Q, [(t, i)])] Hr) as V. change (polyE [(1%Q, [(t, i)])]) with (monoE (1%Q, [(t, i)])) in V. rewrite V. f_equal.
      rewrite polyV_cons. change (polyV r []) with 0%R. unfold monoV, keyV; cbn [fst snd fold_right]. rewrite Q2R_1. unfold facV, symV; cbn [fst snd]. ring.
  Qed.

  Lemma v_sum D v w a b : isV D v a -> isV D w b -> hruns (fun W _ => w_sum W [a; b]) (isV D (fun r => v r + w r)%R).
  Proof.
    intros (Ra & Da & Va) (Rb & Db & Vb). eapply h_imp.
    - apply (h_also Y (fun W _ => w_sum W [a; b]) (within (Z.max (degreeBound a) (degreeBound b))) (fun e => forall r, allPos r -> eval r e = Some (v r + w r)%R)); [apply runs_h, (run_sum Y a b Ra Rb)|].
      intros F k e l El Hl _ r Hr. apply (sum_value Y F k r (allPos_posEnv r Hr) [a; b] e l); [|exact El | apply harmless_right; [exact Hl | now apply allPos_posEnv]|].
      + constructor; [now apply laurent_wf, ring_laurent|]. constructor; [now apply laurent_wf, ring_laurent | constructor].
      + cbn. rewrite Va, Vb by exact Hr. cbn. f_equal. ring.
    - intros e [[Re De] Ve]. split; [exact Re|]. split; [lia | exact Ve].
  Qed.
  Lemma v_prod D v es : (2 <= length es)%nat -> (forall x, In x es -> ring x) -> degSum es <= D -> D <= B -> (forall r, allPos r -> prodVal r es = Some (v r)) ->
    hruns (fun W _ => w_prod W es) (isV D v).
  Proof.
    intros L R HD HB V. eapply h_imp.
    - apply (h_also Y (fun W _ => w_prod W es) (within (degSum es)) (fun e => forall r, allPos r -> eval r e = Some (v r))); [apply runs_h, (run_prod Y B Hlt es L R); lia|].
      intros F k e l El Hl _ r Hr. apply (prod_value Y F k r (allPos_posEnv r Hr) es e l); [|exact El | apply harmless_right; [exact Hl | now apply allPos_posEnv]|now apply V].
      apply Forall_forall. intros x Hx. now apply laurent_wf, ring_laurent, R.
    - intros e [[Re De] Ve]. split; [exact Re|]. split; [lia | exact Ve].
  Qed.
  Definition isN (D : Z) (v : env -> R) (e : expr) : Prop := exists p, e = polyE p /\ polyOK p /\ posPoly p /\ polyDeg p <= D /\ forall r, allPos r -> polyV r p = v r.
  Lemma v_expand D v e : isV D v e -> D <= B -> hruns (fun W _ => w_expand W e) (isN D v).
  Proof.
    intros (R & HD & V) HB. destruct (expand_laurent Y B Hlt e (ring_laurent e R)) as (p & O & Vp & Dp & E); [lia|].
    assert (P : posPoly p) by (apply (normal_pos e p); auto; now apply (ring_polyExpr Y)).
    eapply h_imp; [apply h_eq, E|]. intros x ->. exists p. split; [reflexivity|]. split; [exact O|]. split; [exact P|]. split; [lia|].
    intros r Hr. specialize (Vp r Hr). rewrite (V r Hr) in Vp. congruence.
  Qed.
  Lemma isN_is D v e p : isN D v e -> polyOK p -> (forall r, allPos r -> v r = polyV r p) -> e = polyE p.
  Proof. intros (p' & -> & O & _ & _ & V) Op H. f_equal. apply poly_unique; auto. intros r Hr. rewrite V, H by exact Hr. reflexivity. Qed.

  (** Cancellation. *)
  Lemma sub_poly a b : polyOK a -> polyOK b -> posPoly a -> posPoly b -> polyDeg a <= B -> polyDeg b <= B -> 0 <= B ->
    exists c, polyOK c /\ forall r, allPos r -> (polyV r c = polyV r a - polyV r b)%R.
  Proof.
    intros Oa Ob Pa Pb Da Db HB. assert (X : hruns (fun W n => x <- w_prod W [mOne; polyE b] ;; y <- w_sum W [polyE a; x] ;; w_expand W y) (isN B (fun r => polyV r a - polyV r b)%R)).
    { destruct (isV_poly b Ob Pb) as (Rb & Eb & Vb). eapply h_bind.
      - apply (v_prod B (fun r => - polyV r b)%R); [cbn; lia | intros x [<-|[<-|[]]]; [apply rg_num; reflexivity | exact Rb] | cbn; lia | lia|].
        intros r Hr. cbn. rewrite Vb by exact Hr. cbn. f_equal. unfold mOne, Q2R; cbn. field.
      - intros x Hx. eapply h_bind; [apply (v_sum B (fun r => polyV r a)); [apply (isV_le (polyDeg a)); [exact Da | now apply isV_poly] | exact Hx]|].
        intros y Hy. eapply h_imp; [apply (v_expand B _ y Hy); lia|]. auto. }
    destruct X as (e & (p & _ & O & _ & _ & V) & _). exists p. auto.
  Qed.
  Lemma mul_cancel a b v : polyOK a -> polyOK b -> posPoly a -> posPoly b -> polyDeg a <= B -> polyDeg b <= B -> 0 <= B -> polyOK v -> v <> [] ->
    (forall r, allPos r -> polyV r a * polyV r v = polyV r b * polyV r v)%R -> a = b.
  Proof.
    intros Oa Ob Pa Pb Da Db HB Ov Nv H. destruct (sub_poly a b Oa Ob Pa Pb Da Db HB) as (c & Oc & Vc). apply poly_unique; auto. intros r Hr.
    assert (c = []) as ->.
    { destruct c as [|m c]; [reflexivity|]. exfalso. apply (mul_nonzero (m :: c) v [] Oc Ov); [discriminate | exact Nv | | reflexivity].
      intros r' Hr'. rewrite Vc by exact Hr'. change (polyV r' []) with 0%R. specialize (H r' Hr'). lra. }
    specialize (Vc r Hr). change (polyV r []) with 0%R in Vc. lra.
  Qed.

  Lemma h_inverse q : canon q -> Q2R q <> 0%R -> invertible Y q -> hruns (fun W _ => oneOver W (Num q)) (fun e => exists i, e = Num i /\ canon i /\ Q2R i = (/ Q2R q)%R).
  Proof.
    intros C N (F & k & i & facts & E & V). unfold oneOver. change mOne with (Num (ofZ (-1))) in *.
    destruct (num_pow Y q (-1) C N ltac:(lia)) as (j & Cj & Nj & _ & Ej). assert (j = i) as <-.
    { destruct (ev_ex _ Ej) as (F' & k' & l & E' & _).
      pose proof (oper_unique (fun W => w_pow W (Num q) (Num (ofZ (-1)))) Y F F' k k') as U. cbv beta in U. rewrite E, E' in U. specialize (U (fun W W' HW => o_pow _ _ HW _ _) ltac:(discriminate) ltac:(discriminate)).
      cbn in U. congruence. }
    exists (Num j). split; [now exists j|]. eapply ev_imp; [exact Ej|]. intros F' k' (l & El & Hl). exists l. split; [exact El|]. apply Hl. rewrite V.
    change (-1) with (- (1)). rewrite powerRZ_neg', powerRZ_1. reflexivity.
  Qed.
  Lemma small_invertible q : canon q -> Q2R q <> 0%R -> Z.abs (qnum q) < 324 -> qden q < 324 -> invertible Y q.
  Proof.
    intros C N H1 H2. destruct (num_pow Y q (-1) C N ltac:(lia)) as (j & Cj & Nj & Sj & Ej). destruct (ev_ex _ Ej) as (F & k & l & E & _). exists F, k, j, l. split; [exact E|].
    rewrite Sj by assumption. change (-1) with (- (1)). rewrite powerRZ_neg', powerRZ_1. reflexivity.
  Qed.
End Values.
