(** A polynomial is determined by its values for positive arguments. *)
From Verif Require Import LaurentSpec LaurentOrder NumberProofs LaurentProd.
From Coq Require Import Lia Lra Bool Permutation.
From Verif Require Import LaurentSpec.
Open Scope R_scope.

(** ** One variable *)
Definition term := (R * Z)%type.
Definition uV (T : R) (l : list term) : R := fold_right (fun t a => fst t * powerRZ T (snd t) + a) 0 l.
Definition coefAt (d : Z) (l : list term) : R := fold_right (fun t a => (if Z.eq_dec (snd t) d then fst t else 0) + a) 0 l.

Definition tends (f : R -> R) (c : R) : Prop :=
  forall eps, 0 < eps -> exists M, 1 <= M /\ forall T, M <= T -> Rabs (f T - c) <= eps.

Lemma tends_unique f a b : tends f a -> tends f b -> a = b.
Proof.
  intros Ha Hb. destruct (Req_dec a b) as [|N]; auto. exfalso.
  assert (P : 0 < Rabs (a - b) / 3) by (pose proof (Rabs_pos_lt (a - b)); lra).
  destruct (Ha _ P) as (M & HM & H1), (Hb _ P) as (M' & HM' & H2).
  specialize (H1 (Rmax M M') (Rmax_l _ _)). specialize (H2 (Rmax M M') (Rmax_r _ _)).
  set (x := f (Rmax M M')) in *.
  assert (Rabs (a - b) <= Rabs (x - a) + Rabs (x - b)).
  { replace (a - b) with (- (x - a) + (x - b)) by ring. eapply Rle_trans; [apply Rabs_triang|]. rewrite Rabs_Ropp. lra. }
  lra.
Qed.
Lemma tends_ext f g c : (forall T, 1 <= T -> f T = g T) -> tends f c -> tends g c.
Proof.
  intros E H eps He. destruct (H eps He) as (M & HM & K). exists M. split; auto. intros T HT. rewrite <- E by lra. auto.
Qed.
Lemma tends_add f g a b : tends f a -> tends g b -> tends (fun T => f T + g T) (a + b).
Proof.
  intros Ha Hb eps He. destruct (Ha (eps / 2)) as (M & HM & H1); [lra|]. destruct (Hb (eps / 2)) as (M' & HM' & H2); [lra|].
  exists (Rmax M M'). split; [eapply Rle_trans; [|apply Rmax_l]; lra|]. intros T HT.
  pose proof (Rmax_l M M'). pose proof (Rmax_r M M').
  specialize (H1 T ltac:(lra)). specialize (H2 T ltac:(lra)).
  replace (f T + g T - (a + b)) with ((f T - a) + (g T - b)) by ring.
  eapply Rle_trans; [apply Rabs_triang|]. lra.
Qed.
Lemma tends_const c : tends (fun _ => c) c.
Proof. intros eps He. exists 1. split; [lra|]. intros T _. rewrite Rminus_eq_0, Rabs_R0. lra. Qed.

Lemma powerRZ_ge1 T n : 1 <= T -> (1 <= n)%Z -> T <= powerRZ T n.
Proof.
  intros HT Hn. assert (exists k, n = Z.of_nat (S k)) as (k & ->) by (exists (Z.to_nat (n - 1)); lia).
  rewrite <- pow_powerRZ. cbn [pow]. assert (1 <= T ^ k) by now apply pow_R1_Rle. nra.
Qed.
Lemma tends_neg c z : (z < 0)%Z -> tends (fun T => c * powerRZ T z) 0.
Proof.
  intros Hz eps He. exists (Rmax 1 (Rabs c / eps)). split; [apply Rmax_l|]. intros T HT.
  pose proof (Rmax_l 1 (Rabs c / eps)). pose proof (Rmax_r 1 (Rabs c / eps)).
  assert (HT1 : 1 <= T) by lra. assert (HT2 : Rabs c / eps <= T) by lra.
  rewrite Rminus_0_r, Rabs_mult.
  pose proof (powerRZ_ge1 T (- z) HT1 ltac:(lia)) as G. set (P := powerRZ T (- z)) in *.
  assert (I : powerRZ T z * P = 1) by (unfold P; rewrite <- powerRZ_add by lra; now rewrite Z.add_opp_diag_r).
  assert (PP : 0 < powerRZ T z) by (apply powerRZ_lt; lra).
  rewrite (Rabs_right (powerRZ T z)) by lra.
  apply Rmult_le_reg_r with P; [lra|]. rewrite Rmult_assoc, I, Rmult_1_r.
  assert (Rabs c <= eps * T).
  { apply Rmult_le_compat_r with (r := eps) in HT2; [|lra]. unfold Rdiv in HT2. rewrite Rmult_assoc, Rinv_l in HT2 by lra. lra. }
  nra.
Qed.

(** The coefficient of the largest exponent. *)
Lemma lead l D : (forall t, In t l -> (snd t <= D)%Z) -> tends (fun T => uV T l * powerRZ T (- D)) (coefAt D l).
Proof.
  induction l as [|[c d] l IH]; intros H.
  - cbn. apply (tends_ext (fun _ => 0)); [intros; ring | apply tends_const].
  - assert (IH' := IH (fun t Ht => H t (or_intror Ht))). cbn [uV coefAt fold_right fst snd].
    apply (tends_ext (fun T => c * powerRZ T (d - D) + uV T l * powerRZ T (- D))).
    { intros T HT. rewrite Rmult_plus_distr_r. f_equal. unfold Z.sub. rewrite powerRZ_add by lra. ring. }
    apply tends_add; [|exact IH']. destruct (Z.eq_dec d D) as [->|N].
    + rewrite Z.sub_diag. cbn [powerRZ]. apply (tends_ext (fun _ => c)); [intros; ring | apply tends_const].
    + apply tends_neg. specialize (H (c, d) (or_introl eq_refl)). cbn in H. lia.
Qed.

Lemma coefAt_app d l m : coefAt d (l ++ m) = coefAt d l + coefAt d m.
Proof. unfold coefAt. induction l as [|t l IH]; cbn [app fold_right]; [lra|]. rewrite IH. lra. Qed.
Lemma uV_app T l m : uV T (l ++ m) = uV T l + uV T m.
Proof. unfold uV. induction l as [|t l IH]; cbn [app fold_right]; [lra|]. rewrite IH. lra. Qed.
Lemma coefAt_none d l : (forall t, In t l -> snd t <> d) -> coefAt d l = 0.
Proof.
  induction l as [|t l IH]; intros H; [reflexivity|]. cbn [coefAt fold_right].
  destruct (Z.eq_dec (snd t) d) as [E|_]; [now apply (H t (or_introl eq_refl)) in E|].
  unfold coefAt in IH. rewrite IH; [lra|]. intros; apply H; now right.
Qed.
Lemma coefAt_filter d D l : d <> D -> coefAt d (filter (fun t => negb (Z.eqb (snd t) D)) l) = coefAt d l.
Proof.
  intros N. induction l as [|t l IH]; [reflexivity|]. cbn [filter]. destruct (Z.eqb_spec (snd t) D) as [E|E]; cbn [negb].
  - rewrite IH. cbn [coefAt fold_right]. destruct (Z.eq_dec (snd t) d); [lia|]. unfold coefAt. lra.
  - cbn [coefAt fold_right]. unfold coefAt in IH. now rewrite IH.
Qed.
Lemma uV_filter T D l : uV T (filter (fun t => negb (Z.eqb (snd t) D)) l) = uV T l - coefAt D l * powerRZ T D.
Proof.
  induction l as [|t l IH]; [cbn; ring|]. cbn [filter]. destruct (Z.eqb_spec (snd t) D) as [E|E]; cbn [negb].
  - rewrite IH. cbn [uV coefAt fold_right]. destruct (Z.eq_dec (snd t) D); [|lia]. rewrite E. unfold uV, coefAt. ring.
  - cbn [uV coefAt fold_right]. destruct (Z.eq_dec (snd t) D); [lia|]. unfold uV, coefAt in *. rewrite IH. ring.
Qed.

Lemma max_exists (l : list term) : l <> [] -> exists t, In t l /\ forall u, In u l -> (snd u <= snd t)%Z.
Proof.
  induction l as [|t l IH]; [congruence|]. intros _. destruct l as [|u l].
  - exists t. split; [now left|]. intros x [<-|[]]. lia.
  - destruct IH as (v & Hv & M); [discriminate|]. destruct (Z_le_gt_dec (snd v) (snd t)).
    + exists t. split; [now left|]. intros x [<-|Hx]; [lia|]. specialize (M x Hx). lia.
    + exists v. split; [now right|]. intros x [<-|Hx]; [lia|]. now apply M.
Qed.
Lemma min_exists (l : list term) : l <> [] -> exists t, In t l /\ forall u, In u l -> (snd t <= snd u)%Z.
Proof.
  induction l as [|t l IH]; [congruence|]. intros _. destruct l as [|u l].
  - exists t. split; [now left|]. intros x [<-|[]]. lia.
  - destruct IH as (v & Hv & M); [discriminate|]. destruct (Z_le_gt_dec (snd t) (snd v)).
    + exists t. split; [now left|]. intros x [<-|Hx]; [lia|]. specialize (M x Hx). lia.
    + exists v. split; [now right|]. intros x [<-|Hx]; [lia|]. now apply M.
Qed.

Lemma zero_coefs : forall n l, (length l <= n)%nat -> (forall T, 1 <= T -> uV T l = 0) -> forall d, coefAt d l = 0.
Proof.
  induction n as [|n IH]; intros l Hl H d.
  - destruct l; [reflexivity | cbn in Hl; lia].
  - assert (D0 : l = [] \/ l <> []) by (destruct l; [left | right]; congruence || discriminate).
    destruct D0 as [->|NE]; [reflexivity|]. destruct (max_exists l NE) as (t & Ht & M).
    assert (Z0 : coefAt (snd t) l = 0).
    { apply (tends_unique (fun T => uV T l * powerRZ T (- snd t))); [now apply lead|].
      apply (tends_ext (fun _ => 0)); [|apply tends_const]. intros T HT. rewrite H by assumption. ring. }
    destruct (Z.eq_dec d (snd t)) as [->|N]; [exact Z0|].
    rewrite <- (coefAt_filter d (snd t)) by assumption. apply IH.
    + assert (L : (length (filter (fun u => negb (Z.eqb (snd u) (snd t))) l) < length l)%nat).
      { clear -Ht. induction l as [|x l IH]; [destruct Ht|]. cbn [filter].
        assert (G : (length (filter (fun u => negb (Z.eqb (snd u) (snd t))) l) <= length l)%nat).
        { clear. induction l as [|y l IH]; cbn; [lia|]. destruct (negb _); cbn; lia. }
        destruct Ht as [->|Ht].
        - rewrite Z.eqb_refl. cbn. lia.
        - specialize (IH Ht). destruct (negb _); cbn [length]; lia. }
      apply Nat.lt_succ_r. eapply Nat.lt_le_trans; [exact L | exact Hl].
    + intros T HT. rewrite uV_filter, H by assumption. rewrite Z0. ring.
Qed.
Lemma same_coefs l m : (forall T, 1 <= T -> uV T l = uV T m) -> forall d, coefAt d l = coefAt d m.
Proof.
  intros H d. pose (neg := map (fun t : term => (- fst t, snd t)) m).
  assert (V : forall T, uV T neg = - uV T m).
  { intros T. unfold neg, uV. clear. induction m as [|t m IH]; cbn [map fold_right fst snd]; [lra|]. rewrite IH. ring. }
  assert (C : coefAt d neg = - coefAt d m).
  { unfold neg, coefAt. clear. induction m as [|t m IH]; cbn [map fold_right fst snd]; [lra|]. rewrite IH.
    destruct (Z.eq_dec _ _); ring. }
  assert (Z : coefAt d (l ++ neg) = 0).
  { apply (zero_coefs (length (l ++ neg))); [lia|]. intros T HT. rewrite uV_app, V, H by assumption. ring. }
  rewrite coefAt_app, C in Z. lra.
Qed.

(** Products. *)
Definition uMul (l m : list term) : list term :=
  flat_map (fun t => map (fun u => (fst t * fst u, (snd t + snd u)%Z)) m) l.
Lemma uMul_V T l m : T <> 0 -> uV T (uMul l m) = uV T l * uV T m.
Proof.
  intros HT. induction l as [|t l IH]; cbn [uMul flat_map]; [cbn; ring|]. rewrite uV_app. unfold uMul in IH. rewrite IH.
  assert (X : uV T (map (fun u => (fst t * fst u, (snd t + snd u)%Z)) m) = fst t * powerRZ T (snd t) * uV T m).
  { unfold uV. clear -HT. induction m as [|u m IH]; cbn [map fold_right fst snd]; [ring|]. rewrite IH, powerRZ_add by assumption. ring. }
  rewrite X. cbn [uV fold_right]. unfold uV. ring.
Qed.
Lemma uMul_coef l m D E :
  (forall t u, In t l -> In u m -> (snd t + snd u = D + E)%Z -> snd t = D /\ snd u = E) ->
  coefAt (D + E) (uMul l m) = coefAt D l * coefAt E m.
Proof.
  induction l as [|t l IH]; intros H; cbn [uMul flat_map]; [cbn; ring|]. rewrite coefAt_app. unfold uMul in IH.
  rewrite IH by (intros; apply H; auto; now right).
  assert (X : coefAt (D + E) (map (fun u => (fst t * fst u, (snd t + snd u)%Z)) m) =
    (if Z.eq_dec (snd t) D then fst t else 0) * coefAt E m).
  { assert (H' : forall u, In u m -> (snd t + snd u = D + E)%Z -> snd t = D /\ snd u = E) by (intros; apply H; auto; now left).
    clear -H'. unfold coefAt. induction m as [|u m IH]; cbn [map fold_right fst snd]; [ring|].
    rewrite IH by (intros; apply H'; auto; now right). specialize (H' u (or_introl eq_refl)).
    destruct (Z.eq_dec (snd t + snd u) (D + E)) as [e|e].
    - destruct (H' e) as [-> ->]. destruct (Z.eq_dec D D), (Z.eq_dec E E); try lia. ring.
    - destruct (Z.eq_dec (snd t) D), (Z.eq_dec (snd u) E); try lia; ring. }
  rewrite X. cbn [coefAt fold_right]. unfold coefAt. ring.
Qed.

(** ** Several variables: all symbols become powers of one *)
Section Weights.
  Variable M : Z.
  Hypothesis HM : (1 < M)%Z.
  Fixpoint wsym (S : list sym) (s : sym) : Z :=
    match S with [] => 0 | t :: S' => if sym_dec s t then 1 else M * wsym S' s end.
  Definition kget (k : key) (s : sym) : Z := fold_right (fun f a => (if sym_dec (fst f) s then snd f else 0) + a)%Z 0%Z k.
  Fixpoint wtS (S : list sym) (k : key) : Z :=
    match S with [] => 0 | t :: S' => kget k t + M * wtS S' k end.
  Definition wt (S : list sym) (k : key) : Z := fold_right (fun f a => snd f * wsym S (fst f) + a)%Z 0%Z k.

  Lemma wtS_cons S s z k : NoDup S -> wtS S ((s, z) :: k) = (z * wsym S s + wtS S k)%Z.
  Proof.
    induction S as [|t S IH]; intros N; cbn [wtS wsym]; [lia|]. inversion N; subst.
    cbn [kget fold_right fst snd]. rewrite IH by assumption. fold (kget k t).
    destruct (sym_dec s t) as [->|].
    - assert (Z0 : wsym S t = 0%Z).
      { clear -H1. induction S as [|u S IH]; [reflexivity|]. cbn [wsym]. destruct (sym_dec t u) as [->|].
        - exfalso. apply H1. now left.
        - rewrite IH; [lia|]. intros H. apply H1. now right. }
      rewrite Z0. lia.
    - lia.
  Qed.
  Lemma wtS_wt S k : NoDup S -> wt S k = wtS S k.
  Proof.
    intros N. induction k as [|[s z] k IH].
    - cbn [wt fold_right]. clear N. induction S as [|t S IH]; cbn [wtS kget fold_right]; [reflexivity|]. unfold kget in *. cbn. lia.
    - rewrite wtS_cons by assumption. cbn [wt fold_right fst snd]. unfold wt in IH. lia.
  Qed.

  Lemma wtS_inj B S k l : (0 <= B)%Z -> (2 * B < M)%Z -> (forall s, Z.abs (kget k s) <= B)%Z -> (forall s, Z.abs (kget l s) <= B)%Z ->
    wtS S k = wtS S l -> forall s, In s S -> kget k s = kget l s.
  Proof.
    intros HB0 HB Hk Hl. induction S as [|t S IH]; intros E s Hs; [destruct Hs|]. cbn [wtS] in E.
    specialize (Hk t) as Hkt. specialize (Hl t) as Hlt.
    assert (X : (kget k t = kget l t /\ wtS S k = wtS S l)%Z).
    { assert (D : (kget k t - kget l t = M * (wtS S l - wtS S k))%Z) by lia.
      assert (wtS S l - wtS S k = 0)%Z by nia. lia. }
    destruct X as [X1 X2]. destruct Hs as [<-|Hs]; [exact X1 | now apply IH].
  Qed.
End Weights.

Lemma kget_lt s k : Forall (fun f => symLt s (fst f)) k -> kget k s = 0%Z.
Proof.
  induction 1 as [|f k Hf _ IH]; [reflexivity|]. cbn [kget fold_right]. unfold kget in IH. rewrite IH.
  destruct (sym_dec (fst f) s) as [E|]; [|lia]. rewrite E in Hf. now apply symLt_irrefl in Hf.
Qed.
Lemma key_ext k : forall l, keyOK k -> keyOK l -> (forall s, kget k s = kget l s) -> k = l.
Proof.
  induction k as [|[s z] k IH]; intros [|[t w] l] [Sk Nk] [Sl Nl] H.
  - reflexivity.
  - exfalso. specialize (H t). cbn [kget fold_right fst snd] in H. inversion Sl; inversion Nl; subst. cbn [fst snd] in *.
    fold (kget l t) in H. rewrite (kget_lt t l) in H by assumption. destruct (sym_dec t t); [lia | congruence].
  - exfalso. specialize (H s). cbn [kget fold_right fst snd] in H. inversion Sk; inversion Nk; subst. cbn [fst snd] in *.
    fold (kget k s) in H. rewrite (kget_lt s k) in H by assumption. destruct (sym_dec s s); [lia | congruence].
  - inversion Sk as [|? ? Sk' Fk]; inversion Nk as [|? ? Zk Nk']; inversion Sl as [|? ? Sl' Fl]; inversion Nl as [|? ? Zl Nl']; subst.
    cbn [fst snd] in *.
    assert (Es : s = t).
    { destruct (sym_dec s t) as [|N]; auto. exfalso. destruct (symLt_tri s t N) as [L|L].
      - specialize (H s). cbn [kget fold_right fst snd] in H. fold (kget k s) (kget l s) in H.
        rewrite (kget_lt s k) in H by assumption. rewrite (kget_lt s l) in H.
        2:{ eapply Forall_impl; [|exact Fl]. intros f Hf. eapply symLt_trans; eauto. }
        destruct (sym_dec s s), (sym_dec t s); try congruence; lia.
      - specialize (H t). cbn [kget fold_right fst snd] in H. fold (kget k t) (kget l t) in H.
        rewrite (kget_lt t l) in H by assumption. rewrite (kget_lt t k) in H.
        2:{ eapply Forall_impl; [|exact Fk]. intros f Hf. eapply symLt_trans; eauto. }
        destruct (sym_dec s t), (sym_dec t t); try congruence; lia. }
    subst t. assert (Ez : z = w).
    { specialize (H s). cbn [kget fold_right fst snd] in H. fold (kget k s) (kget l s) in H.
      rewrite (kget_lt s k), (kget_lt s l) in H by assumption. destruct (sym_dec s s); [lia | congruence]. }
    subst w. f_equal. apply IH; try (split; assumption). intros u. specialize (H u).
    cbn [kget fold_right fst snd] in H. unfold kget. lia.
Qed.

Lemma kget_deg k s : (Z.abs (kget k s) <= kdeg k)%Z.
Proof.
  induction k as [|f k IH]; cbn [kget kdeg fold_right]; [lia|]. unfold kget, kdeg in *. destruct (sym_dec _ _); lia.
Qed.
Lemma kget_notin k s : ~ In s (map fst k) -> kget k s = 0%Z.
Proof.
  induction k as [|f k IH]; intros H; [reflexivity|]. cbn [kget fold_right map] in *. unfold kget in *. rewrite IH.
  - destruct (sym_dec _ _) as [E|]; [|lia]. exfalso. apply H. now left.
  - intros G. apply H. now right.
Qed.

(** A weight that separates the given products. *)
Section Separate.
  Variable ks : list key.
  Let S := nodup sym_dec (flat_map (map fst) ks).
  Let B := fold_right (fun k a => (kdeg k + a)%Z) 0%Z ks.
  Let M := (2 * B + 2)%Z.
  Definition weight (k : key) : Z := wt M S k.
  Definition weightEnv (T : R) : env := fun n p => powerRZ T (wsym M S (n, p)).

  Lemma B_bound k : In k ks -> (kdeg k <= B)%Z /\ (0 <= B)%Z.
  Proof.
    unfold B. clear. induction ks as [|l ls IH]; intros H; [destruct H|]. cbn [fold_right].
    pose proof (kdeg_nonneg l). assert (0 <= fold_right (fun k a => (kdeg k + a)%Z) 0%Z ls)%Z.
    { clear. induction ls as [|x ls IH]; cbn [fold_right]; [lia|]. pose proof (kdeg_nonneg x). lia. }
    destruct H as [->|H]; [lia|]. specialize (IH H). lia.
  Qed.
  Lemma weight_inj k l : In k ks -> In l ks -> keyOK k -> keyOK l -> weight k = weight l -> k = l.
  Proof.
    intros Hk Hl Ok Ol E. destruct (B_bound k Hk) as [Bk B0]. destruct (B_bound l Hl) as [Bl _].
    unfold weight in E. assert (N : NoDup S) by apply NoDup_nodup. rewrite !wtS_wt in E by (assumption || (unfold M; lia)).
    apply key_ext; auto. intros s. destruct (in_dec sym_dec s S) as [I|I].
    - eapply (wtS_inj M) with (B := B); eauto; unfold M; try lia.
      + intros t. pose proof (kget_deg k t). lia.
      + intros t. pose proof (kget_deg l t). lia.
    - assert (X : forall j, In j ks -> ~ In s (map fst j)).
      { intros j Hj G. apply I. unfold S. apply nodup_In, in_flat_map. eauto. }
      rewrite (kget_notin k), (kget_notin l); auto.
  Qed.
  Lemma weightEnv_pos T : 1 <= T -> allPos (weightEnv T).
  Proof. intros HT n p. unfold weightEnv. apply powerRZ_lt. lra. Qed.
  Lemma weightEnv_V T k : 1 <= T -> keyV (weightEnv T) k = powerRZ T (weight k).
  Proof.
    intros HT. unfold weight. induction k as [|[[n p] z] k IH]; [reflexivity|].
    cbn [keyV wt fold_right fst snd]. unfold keyV, wt in IH. rewrite IH. rewrite powerRZ_add by lra. f_equal.
    unfold facV, weightEnv; cbn [fst snd]. rewrite powerRZ_powerRZ by lra. f_equal. lia.
  Qed.
  Definition uTerms (p : poly) : list term := map (fun m => (Q2R (fst m), weight (snd m))) p.
  Lemma uTerms_V T p : 1 <= T -> polyV (weightEnv T) p = uV T (uTerms p).
  Proof.
    intros HT. unfold polyV, uV, uTerms. induction p as [|m p IH]; cbn [map fold_right fst snd]; [reflexivity|].
    rewrite IH. unfold monoV. now rewrite weightEnv_V.
  Qed.

  (** The coefficient of a product in a polynomial. *)
  Lemma coef_in p m : (forall n, In n p -> In (snd n) ks) -> polyOK p -> In m p -> coefAt (weight (snd m)) (uTerms p) = Q2R (fst m).
  Proof.
    intros Hin [O S0] Hm. unfold uTerms.
    assert (X : forall q, (forall n, In n q -> In n p) -> StronglySorted (fun m n => keyLt (snd m) (snd n)) q -> In m q ->
      coefAt (weight (snd m)) (map (fun m => (Q2R (fst m), weight (snd m))) q) = Q2R (fst m)).
    { induction q as [|n q IH]; intros Hq Sq Hmq; [destruct Hmq|]. cbn [map coefAt fold_right fst snd].
      inversion Sq as [|? ? Sq' Fq]; subst.
      rewrite Forall_forall in O.
      destruct Hmq as [->|Hmq].
      - destruct (Z.eq_dec _ _) as [_|]; [|congruence].
        assert (C0 : coefAt (weight (snd m)) (map (fun m => (Q2R (fst m), weight (snd m))) q) = 0).
        { apply coefAt_none. intros t Ht. apply in_map_iff in Ht as (u & <- & Hu). cbn [snd]. intros E.
          apply weight_inj in E.
          - rewrite Forall_forall in Fq. specialize (Fq u Hu). rewrite E in Fq. now apply keyLt_irrefl in Fq.
          - apply Hin, Hq. now right.
          - now apply Hin.
          - apply O, Hq. now right.
          - now apply O. }
        unfold coefAt in C0. rewrite C0. lra.
      - destruct (Z.eq_dec _ _) as [E|].
        + exfalso. apply weight_inj in E.
          * rewrite Forall_forall in Fq. specialize (Fq m Hmq). rewrite E in Fq. now apply keyLt_irrefl in Fq.
          * apply Hin, Hq. now left.
          * now apply Hin.
          * apply O, Hq. now left.
          * now apply O.
        + rewrite Rplus_0_l. apply IH; auto. intros; apply Hq; now right. }
    apply X; auto.
  Qed.
End Separate.

Lemma Q2R_nonzero q : canon q -> q <> 0%Q -> Q2R q <> 0.
Proof. intros C N E. apply N. apply Q2R_inj; auto using canon_0. now rewrite Q2R_0. Qed.

Lemma sorted_same {A} (lt : A -> A -> Prop) (irrefl : forall x, ~ lt x x) (trans : forall x y z, lt x y -> lt y z -> lt x z) :
  forall l m, StronglySorted lt l -> StronglySorted lt m -> (forall x, In x l <-> In x m) -> l = m.
Proof.
  induction l as [|x l IH]; intros [|y m] Sl Sm H.
  - reflexivity.
  - exfalso. apply (H y). now left.
  - exfalso. apply (H x). now left.
  - inversion Sl as [|? ? Sl' Fl]; inversion Sm as [|? ? Sm' Fm]; subst. rewrite Forall_forall in *.
    assert (E : x = y).
    { destruct (proj1 (H x) (or_introl eq_refl)) as [|Hx]; auto. destruct (proj2 (H y) (or_introl eq_refl)) as [|Hy]; auto.
      exfalso. apply (irrefl x). eapply trans; eauto. }
    subst y. f_equal. apply IH; auto. intros z. split; intros Hz.
    + destruct (proj1 (H z) (or_intror Hz)) as [->|]; auto. now apply Fl, irrefl in Hz.
    + destruct (proj2 (H z) (or_intror Hz)) as [->|]; auto. now apply Fm, irrefl in Hz.
Qed.

(** Equal values, equal polynomials. *)
Theorem poly_unique p q : polyOK p -> polyOK q -> (forall r, allPos r -> polyV r p = polyV r q) -> p = q.
Proof.
  intros Op Oq H. pose (ks := map snd (p ++ q)).
  assert (Ip : forall n, In n p -> In (snd n) ks) by (intros; apply in_map, in_or_app; auto).
  assert (Iq : forall n, In n q -> In (snd n) ks) by (intros; apply in_map, in_or_app; auto).
  assert (E : forall d, coefAt d (uTerms ks p) = coefAt d (uTerms ks q)).
  { apply same_coefs. intros T HT. rewrite <- !uTerms_V by assumption. apply H. now apply weightEnv_pos. }
  assert (Half : forall a b, polyOK a -> polyOK b -> (forall n, In n a -> In (snd n) ks) -> (forall n, In n b -> In (snd n) ks) ->
    (forall d, coefAt d (uTerms ks a) = coefAt d (uTerms ks b)) -> forall m, In m a -> In m b).
  { clear. intros a b Oa Ob Ia Ib E m Hm.
    pose proof (coef_in ks a m Ia Oa Hm) as C. rewrite E in C.
    destruct Oa as [Oa Sa]. rewrite Forall_forall in Oa. destruct (Oa m Hm) as (Cm & Nm & Km).
    destruct (in_dec Z.eq_dec (weight ks (snd m)) (map (fun n => weight ks (snd n)) b)) as [I|I].
    - apply in_map_iff in I as (n & W & Hn).
      destruct Ob as [Ob Sb]. assert (Ob' := Ob). rewrite Forall_forall in Ob'. destruct (Ob' n Hn) as (Cn & Nn & Kn).
      apply weight_inj in W; auto. pose proof (coef_in ks b n Ib (conj Ob Sb) Hn) as C'. rewrite W, C in C'.
      apply Q2R_inj in C'; auto. destruct m, n; cbn in *. now subst.
    - exfalso. rewrite coefAt_none in C.
      + symmetry in C. now apply Q2R_nonzero in C.
      + intros t Ht. apply in_map_iff in Ht as (n & <- & Hn). cbn [snd]. intros W. apply I. rewrite <- W.
        apply in_map_iff. eauto. }
  destruct Op as [Op Sp], Oq as [Oq Sq].
  apply (sorted_same (fun m n => keyLt (snd m) (snd n))); auto.
  - intros x. apply keyLt_irrefl.
  - intros x y z. apply keyLt_trans.
  - intros x. split; apply Half; try split; auto.
Qed.
Lemma mono_unique m n : monoOK m -> monoOK n -> (forall r, allPos r -> monoV r m = monoV r n) -> m = n.
Proof.
  intros Om On H. assert (E : [m] = [n]); [|now injection E].
  apply poly_unique.
  - split; repeat constructor; auto; apply Om.
  - split; repeat constructor; auto; apply On.
  - intros r Hr. cbn. now rewrite H.
Qed.

(** The product of two polynomials with at least two terms each has at least two terms. *)
Lemma product_terms p q s : polyOK p -> polyOK q -> polyOK s -> (2 <= length p)%nat -> (2 <= length q)%nat ->
  (forall r, allPos r -> polyV r s = polyV r p * polyV r q) -> (2 <= length s)%nat.
Proof.
  intros Op Oq Os Lp Lq H. pose (ks := map snd (p ++ q)).
  assert (Ip : forall n, In n p -> In (snd n) ks) by (intros; apply in_map, in_or_app; auto).
  assert (Iq : forall n, In n q -> In (snd n) ks) by (intros; apply in_map, in_or_app; auto).
  assert (E : forall d, coefAt d (uTerms ks s) = coefAt d (uMul (uTerms ks p) (uTerms ks q))).
  { apply same_coefs. intros T HT. rewrite uMul_V by lra. rewrite <- !uTerms_V by assumption.
    apply H. now apply weightEnv_pos. }
  assert (Ends : forall a, polyOK a -> (2 <= length a)%nat -> (forall n, In n a -> In (snd n) ks) ->
    exists D d, (d < D)%Z /\ coefAt D (uTerms ks a) <> 0 /\ coefAt d (uTerms ks a) <> 0 /\
      (forall t, In t (uTerms ks a) -> (d <= snd t)%Z /\ (snd t <= D)%Z)).
  { clear -ks. intros a Oa La Ia.
    assert (NE : uTerms ks a <> []) by (destruct a; [cbn in La; lia | discriminate]).
    destruct (max_exists _ NE) as (t & Ht & Mt). destruct (min_exists _ NE) as (u & Hu & Mu).
    apply in_map_iff in Ht as (m & <- & Hm). apply in_map_iff in Hu as (n & <- & Hn). cbn [snd] in *.
    destruct Oa as [Oa Sa]. assert (Oa' := Oa). rewrite Forall_forall in Oa'.
    destruct (Oa' m Hm) as (Cm & Nm & Km). destruct (Oa' n Hn) as (Cn & Nn & Kn).
    exists (weight ks (snd m)), (weight ks (snd n)).
    rewrite !(coef_in ks a) by (auto; now split). split; [|split; [|split]]; auto using Q2R_nonzero.
    destruct (Z_lt_ge_dec (weight ks (snd n)) (weight ks (snd m))) as [|G]; auto. exfalso.
    destruct a as [|x [|y a]]; cbn in La; try lia.
    assert (W : weight ks (snd x) = weight ks (snd y)).
    { assert (A : forall z, In z (x :: y :: a) -> weight ks (snd z) = weight ks (snd m)).
      { intros z Hz. assert (I : In (Q2R (fst z), weight ks (snd z)) (uTerms ks (x :: y :: a))) by (apply in_map_iff; eauto).
        specialize (Mt _ I). specialize (Mu _ I). cbn [snd] in *. lia. }
      rewrite (A x), (A y); auto; cbn; auto. }
    apply weight_inj in W; try (apply Ia; cbn; auto); try (apply Oa'; cbn; auto).
    inversion Sa as [|? ? _ Fa]; subst. inversion Fa as [|? ? K _]; subst. rewrite W in K. now apply keyLt_irrefl in K.
    all: auto. }
  destruct (Ends p Op Lp Ip) as (D & d & L1 & C1 & C2 & Bp). destruct (Ends q Oq Lq Iq) as (D' & d' & L2 & C3 & C4 & Bq).
  assert (X1 : coefAt (D + D') (uTerms ks s) <> 0).
  { rewrite E, uMul_coef; [now apply Rmult_integral_contrapositive_currified|].
    intros t u Ht Hu. specialize (Bp t Ht). specialize (Bq u Hu). lia. }
  assert (X2 : coefAt (d + d') (uTerms ks s) <> 0).
  { rewrite E, uMul_coef; [now apply Rmult_integral_contrapositive_currified|].
    intros t u Ht Hu. specialize (Bp t Ht). specialize (Bq u Hu). lia. }
  destruct s as [|x [|y s]]; [| |cbn; lia].
  - cbn in X1. lra.
  - exfalso. cbn in X1, X2. destruct (Z.eq_dec _ (D + D')), (Z.eq_dec _ (d + d')); lia || lra.
Qed.
