(** Expansion computes the normal form of a Laurent polynomial. *)
From Verif Require Import LaurentSpec LaurentOrder LaurentProd LaurentIdent LaurentSum LaurentInert LaurentExpand ExprProofs NumberProofs OrderModel OrderProofs World RPow.
From Coq Require Import Lia Lra Bool Permutation Classical_Prop.
From Verif Require Import Run LaurentSpec.
Open Scope Z_scope.

Definition polyDeg (p : poly) : Z := fold_right (fun m a => Z.max (kdeg (snd m)) a) 0 p.
Definition polysDeg (ps : list poly) : Z := fold_right (fun p a => polyDeg p + a) 0 ps.
Definition polysProd (r : env) (ps : list poly) : R := fold_right (fun p a => polyV r p * a)%R 1%R ps.

Lemma polyDeg_nonneg p : 0 <= polyDeg p.
Proof. induction p as [|m p IH]; cbn [polyDeg fold_right]; [lia|]. unfold polyDeg in IH. lia. Qed.
Lemma polyDeg_pdeg p : pdeg (polyDeg p) p.
Proof.
  induction p as [|m p IH]; constructor.
  - unfold polyDeg. cbn [fold_right]. apply Z.le_max_l.
  - eapply pdeg_le; [|exact IH]. unfold polyDeg. cbn [fold_right]. apply Z.le_max_r.
Qed.
Lemma pdeg_polyDeg d p : 0 <= d -> pdeg d p -> polyDeg p <= d.
Proof.
  intros Hd. induction 1 as [|m p H _ IH]; unfold polyDeg in *; cbn [fold_right]; [lia|]. now apply Z.max_lub.
Qed.
Lemma polysDeg_nonneg ps : 0 <= polysDeg ps.
Proof. induction ps as [|p ps IH]; cbn [polysDeg fold_right]; [lia|]. pose proof (polyDeg_nonneg p). unfold polysDeg in IH. lia. Qed.
Lemma polysDeg_in ps p : In p ps -> polyDeg p <= polysDeg ps.
Proof.
  induction ps as [|q ps IH]; intros H; [destruct H|]. cbn [polysDeg fold_right]. pose proof (polysDeg_nonneg ps). pose proof (polyDeg_nonneg q).
  unfold polysDeg in *. destruct H as [->|H]; [lia | specialize (IH H); lia].
Qed.

Section Main.
  Variables (Y : sys) (B : Z).
  Hypothesis Hlt : exactUpTo B (s_nlt Y).
  Notation W F k := (world Y F k).

  (** ** Sums times sums *)
  Lemma two_sums f g : polyOK f -> polyOK g -> (2 <= length f)%nat -> (2 <= length g)%nat -> polyDeg f + polyDeg g <= B ->
    exists s, polyOK s /\ (2 <= length s)%nat /\ (forall r, allPos r -> polyV r s = polyV r f * polyV r g)%R /\
      polyDeg s <= polyDeg f + polyDeg g /\
      ev (fun F k => (l <- mapM (fun x => p <- w_prod (W F k) [x; polyE g] ;; w_expand (W F k) p) (map monoE f) ;; w_sum (W F k) l)
        = Ok (polyE s) []).
  Proof.
    intros Of Og Lf Lg D. pose proof (polyDeg_nonneg f) as Nf. pose proof (polyDeg_nonneg g) as Ng.
    assert (Eg : polyE g = Sum (map monoE g)) by now apply big_E.
    assert (Ng' : g <> []) by (destruct g; [cbn in Lg; lia | discriminate]).
    assert (X : forall l, incl l f -> exists ss, length ss = length l /\ Forall polyOK ss /\ Forall (pdeg (polyDeg f + polyDeg g)) ss /\
      (forall r, allPos r -> polysV r ss = polyV r l * polyV r g)%R /\
      Forall2 (fun x y => ev (fun F k => (p <- w_prod (W F k) [x; polyE g] ;; w_expand (W F k) p) = Ok y [])) (map monoE l) (map polyE ss)).
    { induction l as [|m l IH]; intros I.
      - exists []. repeat split; try constructor. intros r _. change (polyV r []) with 0%R. unfold polysV; cbn [fold_right]. ring.
      - destruct IH as (ss & L & O & Ds & V & E); [intros z Hz; apply I; now right|].
        assert (Hm : In m f) by (apply I; now left).
        assert (Om : monoOK m) by (destruct Of as [Of _]; rewrite Forall_forall in Of; now apply Of).
        assert (Dm : kdeg (snd m) <= polyDeg f) by (pose proof (polyDeg_pdeg f) as X; unfold pdeg in X; rewrite Forall_forall in X; now apply X).
        destruct (scale_ev Y B Hlt m g Om Og Ng' (polyDeg g) (polyDeg_pdeg g) ltac:(lia)) as (s & Os & Vs & Hs & Es).
        exists (s :: ss). split; [cbn; lia|]. split; [now constructor|]. split; [constructor; [|exact Ds]|split].
        + eapply pdeg_le; [|exact Hs]. lia.
        + intros r Hr. rewrite polyV_cons. cbn [polysV fold_right]. unfold polysV in V. rewrite V, Vs by assumption. ring.
        + cbn [map]. constructor; [|exact E]. rewrite Eg.
          apply (big_scale Y B Hlt m g Om Og Lg (polyDeg g) (polyDeg_pdeg g) ltac:(lia) s Es Os); [|exact Vs].
          eapply pdeg_le; [|exact Hs]. lia. }
    destruct (X f (incl_refl f)) as (ss & L & O & Ds & V & E).
    destruct (sum_ev Y B Hlt ss) as (s & (Os & Vs & Is & _) & Es); auto.
    - destruct ss; [destruct f; [cbn in Lf; lia | discriminate] | discriminate].
    - eapply Forall_impl; [|exact Ds]. intros p. now apply pdeg_le.
    - assert (Vfg : forall r, allPos r -> (polyV r s = polyV r f * polyV r g)%R) by (intros r Hr; rewrite Vs; auto).
      exists s. split; [exact Os|]. split; [|split; [exact Vfg|split]].
      + now apply (product_terms f g).
      + apply pdeg_polyDeg; [lia|]. apply pdeg_incl with (1 := Is). intros k Hk. apply in_map_iff in Hk as (n & <- & Hn).
        apply in_concat in Hn as (q & Hq & Hn). rewrite Forall_forall in Ds. specialize (Ds q Hq). unfold pdeg in Ds. rewrite Forall_forall in Ds. now apply Ds.
      + eapply ev_mp; [exact Es|]. eapply ev_imp; [apply (mapM_ev (fun F k x => p <- w_prod (W F k) [x; polyE g] ;; w_expand (W F k) p)); exact E|].
        intros F k E1 E2. cbn beta in E1. now rewrite E1, bind_ret.
  Qed.

  Lemma productOf_ev : forall n ps, length ps = S n -> Forall polyOK ps -> Forall (fun p => 2 <= length p)%nat ps -> polysDeg ps <= B ->
    exists s, polyOK s /\ (2 <= length s)%nat /\ (forall r, allPos r -> polyV r s = polysProd r ps) /\ polyDeg s <= polysDeg ps /\
      ev (fun F k => forall N, (n < N)%nat -> expandProductOf (W F k) N (map polyE ps) = Ok (polyE s) []).
  Proof.
    induction n as [|n IH]; intros ps L O Ls D.
    - destruct ps as [|p [|]]; try discriminate. inversion O as [|? ? Op _]; inversion Ls as [|? ? Lp _]; subst.
      exists p. split; [exact Op|]. split; [exact Lp|]. split; [intros r _; unfold polysProd; cbn [fold_right]; ring|].
      split; [cbn [polysDeg fold_right]; lia|]. apply ev_all. intros F k [|N] HN; [lia|]. reflexivity.
    - destruct ps as [|f [|g ps]]; try discriminate. inversion O as [|? ? Of O']; inversion O' as [|? ? Og O'']; subst.
      inversion Ls as [|? ? Lf Ls']; inversion Ls' as [|? ? Lg Ls'']; subst.
      cbn [polysDeg fold_right] in D. fold (polysDeg ps) in D. pose proof (polysDeg_nonneg ps) as Nps.
      destruct (two_sums f g Of Og Lf Lg ltac:(lia)) as (t & Ot & Lt & Vt & Dt & Et).
      destruct (IH (t :: ps)) as (s & Os & Lso & Vs & Dso & Es).
      + cbn in *. lia.
      + now constructor.
      + now constructor.
      + cbn [polysDeg fold_right]. fold (polysDeg ps). lia.
      + exists s. split; [exact Os|]. split; [exact Lso|]. split; [|split].
        * intros r Hr. rewrite Vs by assumption. unfold polysProd; cbn [fold_right]. rewrite Vt by assumption. ring.
        * cbn [polysDeg fold_right] in *. fold (polysDeg ps) in *. lia.
        * eapply ev_mp; [exact Et|]. eapply ev_imp; [exact Es|]. intros F k E1 E2 [|N] HN; [lia|]. cbn [map expandProductOf] in *.
          assert (Ef : polyE f = Sum (map monoE f)) by now apply big_E.
          rewrite Ef. cbn [isSum negb relyIf ops]. unfold ret at 1. rewrite bind_ret.
          specialize (E1 N ltac:(lia)).
          match type of E2 with (l <- ?m ;; _) = _ => destruct m as [l fl| | |]; try discriminate end. cbn [bind] in E2 |- *.
          destruct (w_sum (W F k) l) as [x fx| | |]; try discriminate. injection E2 as -> E2. cbn [bind]. rewrite E1. rewrite app_nil_r. now rewrite E2.
  Qed.

  (** ** Products *)
  Definition big (p : poly) : bool := Nat.leb 2 (length p).
  Lemma big_isSum p : isSum (polyE p) = big p.
  Proof. destruct p as [|m [|n p]]; [reflexivity | apply monoE_isSum | reflexivity]. Qed.
  Lemma filter_polyE (b : expr -> bool) c ps : (forall p, b (polyE p) = c p) -> filter b (map polyE ps) = map polyE (filter c ps).
  Proof. intros H. induction ps as [|p ps IH]; [reflexivity|]. cbn [map filter]. rewrite H, IH. destruct (c p); reflexivity. Qed.
  Lemma split_prod r (b : poly -> bool) ps : polysProd r ps = (polysProd r (filter b ps) * polysProd r (filter (fun p => negb (b p)) ps))%R.
  Proof.
    unfold polysProd. induction ps as [|p ps IH]; cbn [filter fold_right]; [ring|]. destruct (b p); cbn [negb fold_right]; rewrite IH; ring.
  Qed.
  Lemma split_deg (b : poly -> bool) ps : polysDeg ps = polysDeg (filter b ps) + polysDeg (filter (fun p => negb (b p)) ps).
  Proof.
    unfold polysDeg. induction ps as [|p ps IH]; cbn [filter fold_right]; [reflexivity|]. destruct (b p); cbn [negb fold_right]; lia.
  Qed.
  Lemma polyE_nil : polyE [] = zero. Proof. reflexivity. Qed.
  Lemma polyE_one m : polyE [m] = monoE m. Proof. reflexivity. Qed.

  (** The factors that aren't sums. *)
  Lemma scalar_ev ps : Forall polyOK ps -> Forall (fun p => length p <= 1)%nat ps ->
    exists c, polyOK c /\ (length c <= 1)%nat /\ (forall r, allPos r -> polyV r c = polysProd r ps) /\ polyDeg c <= polysDeg ps /\
      ev (fun F k => match map polyE ps with [] => ret one | f => w_prod (W F k) f end = Ok (polyE c) []).
  Proof.
    intros O L. destruct ps as [|p0 ps0] eqn:Eps.
    { exists [(1%Q, [])]. split; [apply mono_polyOK; split; [apply canon_1 | split; [discriminate | apply keyOK_nil]]|].
      split; [cbn; lia|]. split; [|split; [cbn; lia | now apply ev_all]]. intros r _. rewrite polyV_cons. change (polyV r []) with 0%R.
      unfold monoV, polysProd, keyV; cbn. rewrite Q2R_1. ring. }
    rewrite <- Eps in *. assert (Hne : ps <> []) by (rewrite Eps; discriminate). clear p0 ps0 Eps.
    assert (M : forall P : res expr -> Prop, forall F k, P (w_prod (W F k) (map polyE ps)) -> P (match map polyE ps with [] => ret one | f => w_prod (W F k) f end)).
    { intros P F k. destruct ps; [congruence|]. auto. }
    destruct (classic (In [] ps)) as [Hz|Hz].
    - exists []. split; [apply polyOK_nil|]. split; [cbn; lia|]. split; [|split; [apply (polysDeg_nonneg ps)|]].
      + intros r _. change (polyV r []) with 0%R. clear -Hz. induction ps as [|p ps IH]; [destruct Hz|]. unfold polysProd in *; cbn [fold_right].
        destruct Hz as [->|Hz]; [change (polyV r []) with 0%R; ring | rewrite <- IH by assumption; ring].
      + apply (ev_ge 0 1). intros F k _ Hk. apply (M (fun x => x = Ok (polyE []) [])). apply prod_zero; [exact Hk| |].
        * clear. induction ps as [|p ps IH]; [reflexivity|]. cbn [map existsb]. now rewrite polyE_isUndefined.
        * apply existsb_exists. exists zero. split; [|reflexivity]. rewrite <- polyE_nil. now apply in_map.
    - assert (X : exists ms, ps = map (fun m => [m]) ms).
      { clear -L Hz. induction L as [|p ps Hp _ IH]; [now exists []|]. destruct IH as (ms & ->); [intros H; apply Hz; now right|].
        destruct p as [|m [|]]; [exfalso; apply Hz; now left | | cbn in Hp; lia]. now exists (m :: ms). }
      destruct X as (ms & ->).
      assert (Oms : Forall monoOK ms).
      { rewrite Forall_forall in *. intros m Hm. apply (polyOK_one m []). apply O. now apply (in_map (fun m => [m])). }
      destruct (prod_ev Y ms) as (m & Om & Vm & Dm & Em); [destruct ms; [now cbn in Hne | discriminate] | exact Oms |].
      exists [m]. split; [now apply mono_polyOK|]. split; [cbn; lia|]. split; [|split].
      + intros r Hr. rewrite polyV_cons. change (polyV r []) with 0%R. rewrite Vm by assumption. rewrite Rplus_0_r. clear.
        unfold monosV, polysProd. induction ms as [|x ms IH]; [reflexivity|]. cbn [map fold_right]. rewrite IH, polyV_cons. change (polyV r []) with 0%R. ring.
      + apply pdeg_polyDeg; [apply polysDeg_nonneg|]. constructor; [|constructor]. eapply Z.le_trans; [exact Dm|]. clear.
        unfold monosDeg, polysDeg. induction ms as [|x ms IH]; [cbn; lia|]. cbn [map fold_right]. apply Z.add_le_mono; [|exact IH].
        unfold polyDeg; cbn [fold_right]. apply Z.le_max_l.
      + eapply ev_imp; [exact Em|]. intros F k E. apply (M (fun x => x = Ok (polyE [m]) [])). rewrite map_map. exact E.
  Qed.

  Lemma asProduct_ev l ps : Forall2 (fun e p => ev (fun F k => w_expand (W F k) e = Ok (polyE p) [])) l ps ->
    Forall polyOK ps -> polysDeg ps <= B ->
    exists s, polyOK s /\ (forall r, allPos r -> polyV r s = polysProd r ps) /\ polyDeg s <= polysDeg ps /\
      ev (fun F k => expandAsProduct (W F k) F l = Ok (polyE s) []).
  Proof.
    intros E O D.
    assert (Ev : ev (fun F k => mapM (w_expand (W F k)) l = Ok (map polyE ps) [])).
    { apply (mapM_ev (fun F k => w_expand (W F k))). clear -E. induction E; cbn [map]; constructor; auto. }
    pose (bs := filter big ps). pose (ss := filter (fun p => negb (big p)) ps).
    assert (Ob : Forall polyOK bs) by (rewrite Forall_forall in *; intros p Hp; apply filter_In in Hp; now apply O).
    assert (Oc : Forall polyOK ss) by (rewrite Forall_forall in *; intros p Hp; apply filter_In in Hp; now apply O).
    assert (Lb : Forall (fun p => 2 <= length p)%nat bs).
    { apply Forall_forall. intros p Hp. apply filter_In in Hp as [_ Hp]. now apply Nat.leb_le. }
    assert (Lc : Forall (fun p => length p <= 1)%nat ss).
    { apply Forall_forall. intros p Hp. apply filter_In in Hp as [_ Hp]. apply negb_true_iff, Nat.leb_gt in Hp. lia. }
    pose proof (split_deg big ps) as SD. fold bs ss in SD. pose proof (polysDeg_nonneg bs). pose proof (polysDeg_nonneg ss).
    assert (SV : forall r, polysProd r ps = (polysProd r bs * polysProd r ss)%R) by (intros r; apply split_prod).
    destruct (scalar_ev ss Oc Lc) as (c & Occ & Lcc & Vc & Dc & Ec).
    assert (FB : filter isSum (map polyE ps) = map polyE bs) by (apply filter_polyE, big_isSum).
    assert (FS : filter (fun e => negb (isSum e)) (map polyE ps) = map polyE ss) by (apply filter_polyE; intros p; now rewrite big_isSum).
    destruct bs as [|b bs'] eqn:Ebs.
    - exists c. split; [exact Occ|]. split; [|split; [lia|]].
      + intros r Hr. rewrite SV, Vc by assumption. unfold polysProd at 2; cbn [fold_right]. ring.
      + eapply ev_mp; [exact Ev|]. eapply ev_imp; [exact Ec|]. intros F k E1 E2. unfold expandAsProduct. rewrite E2, bind_ret, FB, FS, E1, bind_ret. reflexivity.
    - rewrite <- Ebs in *. destruct (productOf_ev (length bs') bs) as (s0 & Os0 & Ls0 & Vs0 & Ds0 & Es0); auto; [rewrite Ebs; reflexivity | lia |].
      assert (E0 : polyE s0 = Sum (map monoE s0)) by now apply big_E.
      assert (Ns0 : s0 <> []) by (destruct s0; [cbn in Ls0; lia | discriminate]).
      assert (Q : exists s, polyOK s /\ (forall r, allPos r -> polyV r s = polyV r c * polyV r s0)%R /\ polyDeg s <= polyDeg c + polyDeg s0 /\
        ev (fun F k => expandScalarProduct (W F k) (polyE c) (map monoE s0) = Ok (polyE s) [])).
      { pose proof (polyDeg_nonneg s0) as N0. destruct c as [|m [|]]; [| |cbn in Lcc; lia].
        - exists []. split; [apply polyOK_nil|]. split; [intros r _; change (polyV r []) with 0%R; ring|]. split; [cbn; lia|].
          destruct (sum_ev Y B Hlt (map (fun _ => []) s0)) as (z & (Oz & Vz & _) & Ez).
          + destruct s0; [congruence | discriminate].
          + apply Forall_map, Forall_forall. intros; apply polyOK_nil.
          + apply Forall_map, Forall_forall. intros; constructor.
          + assert (z = []) as ->.
            { apply poly_unique; auto using polyOK_nil. intros r _. rewrite Vz. clear. induction s0 as [|m s0 IH]; [reflexivity|].
              cbn [map polysV fold_right]. unfold polysV in IH. rewrite IH. change (polyV r []) with 0%R. ring. }
            eapply ev_mp; [exact Ez|]. eapply ev_imp; [apply (mapM_ev (fun F k x => p <- w_prod (W F k) [zero; x] ;; w_expand (W F k) p) (map monoE s0) (map polyE (map (fun _ => []) s0)))|].
            * clear. induction s0 as [|m s0 IH]; cbn [map]; constructor; [|exact IH]. apply (ev_ge 0 1). intros F k _ Hk.
              rewrite (prod_zero Y F k) by (auto; cbn [existsb isUndefined isZero zero orb]; now rewrite ?monoE_isUndefined).
              rewrite bind_ret. destruct k; [lia | reflexivity].
            * intros F k E1 E2. unfold expandScalarProduct. rewrite polyE_nil. cbn beta in E1. rewrite E1, bind_ret. exact E2.
        - destruct (scale_ev Y B Hlt m s0 (polyOK_one _ _ Occ) Os0 Ns0 (polyDeg s0) (polyDeg_pdeg s0)) as (s & Os & Vs & Hs & Es).
          + assert (kdeg (snd m) <= polyDeg [m]) by (unfold polyDeg; cbn [fold_right]; apply Z.le_max_l). lia.
          + exists s. split; [exact Os|]. split; [|split].
            * intros r Hr. rewrite Vs by assumption. rewrite polyV_cons. change (polyV r []) with 0%R. ring.
            * assert (kdeg (snd m) <= polyDeg [m]) by (unfold polyDeg; cbn [fold_right]; apply Z.le_max_l).
              pose proof (kdeg_nonneg (snd m)). apply pdeg_polyDeg; [pose proof (polyDeg_nonneg [m]); lia|]. eapply pdeg_le; [|exact Hs]. lia.
            * exact Es. }
      destruct Q as (s & Os & Vs & Dso & Es). exists s. split; [exact Os|]. split; [|split; [lia|]].
      + intros r Hr. rewrite Vs, SV, Vc, Vs0 by assumption. ring.
      + eapply ev_mp; [exact Ev|]. eapply ev_mp; [exact Ec|]. eapply ev_mp; [exact Es|]. eapply ev_mp; [exact Es0|].
        apply (ev_ge (S (length bs')) 0). intros F k HF _ E1 E2 E3 E4. unfold expandAsProduct. rewrite E4, bind_ret, FB, FS, E3, bind_ret.
        rewrite (E1 F) by lia. rewrite bind_ret, E0. rewrite Ebs. cbn [map]. exact E2.
  Qed.

  (** ** The theorem *)
  Lemma evalNum r q : eval r (Num q) = Some (Q2R q). Proof. reflexivity. Qed.

  Lemma degreeBound_nonneg e : laurent e -> 0 <= degreeBound e.
  Proof.
    induction 1 as [q C|n p|l N H IH|l N H IH|n p z|l z Hz H IH]; cbn [degreeBound]; try lia.
    - clear -IH. induction l as [|x l IHl]; cbn [fold_right]; [lia|]. assert (0 <= degreeBound x) by (apply IH; now left). lia.
    - clear -IH. induction l as [|x l IHl]; cbn [fold_right]; [lia|]. assert (0 <= degreeBound x) by (apply IH; now left).
      assert (0 <= fold_right (fun x a => degreeBound x + a) 0 l) by (apply IHl; intros y Hy; apply IH; now right). lia.
    - cbn [degreeBound] in IH. lia.
  Qed.

  Definition expands (e : expr) : Prop :=
    exists p, polyOK p /\ (forall r, allPos r -> eval r e = Some (polyV r p)) /\ polyDeg p <= degreeBound e /\
      ev (fun F k => w_expand (W F k) e = Ok (polyE p) []).

  Lemma expands_list l : (forall x, In x l -> expands x) ->
    exists ps, length ps = length l /\ Forall polyOK ps /\ (forall r, allPos r -> Forall2 (fun x p => eval r x = Some (polyV r p)) l ps) /\
      Forall2 (fun x p => polyDeg p <= degreeBound x) l ps /\
      Forall2 (fun e p => ev (fun F k => w_expand (W F k) e = Ok (polyE p) [])) l ps.
  Proof.
    induction l as [|x l IH]; intros H.
    - exists []. repeat split; constructor.
    - destruct IH as (ps & L & O & V & D & E); [intros y Hy; apply H; now right|].
      destruct (H x) as (p & Op & Vp & Dp & Ep); [now left|]. exists (p :: ps). repeat split; try (constructor; auto).
      cbn. lia.
  Qed.

  Lemma ofZ_num z : qnum (ofZ z) = z. Proof. reflexivity. Qed.

  Theorem expand_laurent e : laurent e -> degreeBound e <= B -> expands e.
  Proof.
    induction 1 as [q C|n p|l N H IH|l N H IH|n p z|l z Hz H IH]; intros D.
    - exists (if qeqb q 0 then [] else [(q, [])]). destruct (qeqb q 0) eqn:E.
      + apply qeqb_eq in E as ->. split; [apply polyOK_nil|]. split; [intros r _; cbn; now rewrite Q2R_0|]. split; [cbn; lia|]. apply ev_S. now apply ev_all.
      + apply qeqb_neq in E. split; [apply mono_polyOK; split; [exact C | split; [exact E | apply keyOK_nil]]|]. split; [|split; [cbn; lia|]].
        * intros r _. cbn [eval]. rewrite polyV_cons. change (polyV r []) with 0%R. unfold monoV, keyV; cbn. f_equal. ring.
        * rewrite polyE_one, <- Num_monoE. apply ev_S. now apply ev_all.
    - exists [(1%Q, [((n, p), 1)])]. split; [apply mono_polyOK; split; [apply canon_1 | split; [discriminate | apply keyOK_one; discriminate]]|].
      split; [|split; [cbn; lia|]].
      + intros r _. cbn [eval]. rewrite polyV_cons. change (polyV r []) with 0%R. unfold monoV, keyV, facV; cbn [fst snd fold_right]. rewrite Q2R_1.
        f_equal. rewrite powerRZ_1. ring.
      + apply ev_S. now apply ev_all.
    - cbn [degreeBound] in D.
      destruct (expands_list l) as (ps & L & O & V & Dp & E).
      { intros x Hx. apply IH; [exact Hx|]. clear -Hx D. induction l as [|y l IHl]; [destruct Hx|]. cbn [fold_right] in D. destruct Hx as [->|Hx]; [lia|]. apply IHl; [lia | exact Hx]. }
      assert (DD : Forall (pdeg (fold_right (fun x a => Z.max (degreeBound x) a) 0 l)) ps).
      { clear -Dp. induction Dp as [|x p l ps Hp _ IHl]; constructor.
        - eapply pdeg_le; [|apply polyDeg_pdeg]. cbn [fold_right]. lia.
        - eapply Forall_impl; [|exact IHl]. intros q. apply pdeg_le. cbn [fold_right]. lia. }
      destruct (sum_ev Y B Hlt ps) as (s & (Os & Vs & Is & _) & Es).
      + destruct ps; [destruct l; [congruence | discriminate] | discriminate].
      + exact O.
      + eapply Forall_impl; [|exact DD]. intros p. now apply pdeg_le.
      + exists s. split; [exact Os|]. split; [|split].
        * intros r Hr. rewrite Vs. cbn [eval]. specialize (V r Hr). clear -V. induction V as [|x p l ps Hx _ IHl]; [reflexivity|].
          cbn [fold_right polysV]. rewrite Hx, IHl. reflexivity.
        * cbn [degreeBound]. apply pdeg_polyDeg.
          { clear. induction l as [|x l IHl]; cbn [fold_right]; lia. }
          apply pdeg_incl with (1 := Is). intros k Hk. apply in_map_iff in Hk as (m & <- & Hm). apply in_concat in Hm as (q & Hq & Hm).
          rewrite Forall_forall in DD. specialize (DD q Hq). unfold pdeg in DD. rewrite Forall_forall in DD. now apply DD.
        * apply ev_S. eapply ev_mp; [exact Es|]. eapply ev_imp; [apply (mapM_ev (fun F k => w_expand (W F k)) l (map polyE ps))|].
          { clear -E. induction E; cbn [map]; constructor; auto. }
          intros F k E1 E2. cbn [world step w_expand expandExpr]. cbn beta in E1. rewrite E1, bind_ret. exact E2.
    - cbn [degreeBound] in D.
      assert (NN : forall x, In x l -> 0 <= degreeBound x) by (intros x Hx; apply degreeBound_nonneg; now apply H).
      destruct (expands_list l) as (ps & L & O & V & Dp & E).
      { intros x Hx. apply IH; [exact Hx|]. clear -Hx D NN. induction l as [|y l IHl]; [destruct Hx|]. cbn [fold_right] in D.
        assert (0 <= degreeBound y) by (apply NN; now left).
        assert (0 <= fold_right (fun x a => degreeBound x + a) 0 l).
        { clear -NN. assert (NN' : forall x, In x l -> 0 <= degreeBound x) by (intros x Hx; apply NN; now right). clear NN.
          induction l as [|x l IHl]; cbn [fold_right]; [lia|]. assert (0 <= degreeBound x) by (apply NN'; now left).
          assert (0 <= fold_right (fun x a => degreeBound x + a) 0 l) by (apply IHl; intros z Hz; apply NN'; now right). lia. }
        destruct Hx as [->|Hx]; [lia|]. apply IHl; [lia | intros z Hz; apply NN; now right | exact Hx]. }
      assert (DD : polysDeg ps <= fold_right (fun x a => degreeBound x + a) 0 l).
      { clear -Dp. unfold polysDeg. induction Dp as [|x p l ps Hp _ IHl]; cbn [fold_right]; lia. }
      destruct (asProduct_ev l ps E O ltac:(lia)) as (s & Os & Vs & Ds & Es). exists s. split; [exact Os|]. split; [|split].
      + intros r Hr. rewrite Vs by assumption. cbn [eval]. specialize (V r Hr). clear -V. induction V as [|x p l ps Hx _ IHl]; [reflexivity|].
        cbn [fold_right polysProd]. rewrite Hx, IHl. reflexivity.
      + cbn [degreeBound]. lia.
      + apply ev_S. exact Es.
    - assert (V : forall r, allPos r -> eval r (Pow (Sym n p) (Num (ofZ z))) = Some (powerRZ (r n p) z)).
      { intros r Hr. cbn [eval]. rewrite Q2R_ofZ. apply rpow_int. specialize (Hr n p). lra. }
      assert (X : ev (fun F k => w_expand (W F k) (Pow (Sym n p) (Num (ofZ z))) = Ok (powE (n, p) z) [])).
      { apply ev_S. apply (ev_ge 0 3). intros F k _ Hk. cbn [world step w_expand expandExpr numericEval].
        replace (qIsInt (ofZ z)) with true by reflexivity. exact (pow_sym Y F k (n, p) z Hk). }
      unfold powE in X. destruct (Z.eqb_spec z 0) as [->|Nz].
      + exists [(1%Q, [])]. split; [apply mono_polyOK; split; [apply canon_1 | split; [discriminate | apply keyOK_nil]]|].
        split; [|split; [cbn; lia | exact X]]. intros r Hr. rewrite V by assumption. rewrite polyV_cons. change (polyV r []) with 0%R.
        unfold monoV, keyV; cbn. rewrite Q2R_1. f_equal. ring.
      + exists [(1%Q, [((n, p), z)])]. split; [apply mono_polyOK; split; [apply canon_1 | split; [discriminate | now apply keyOK_one]]|].
        split; [|split; [unfold polyDeg, kdeg, ofZ; cbn [degreeBound fold_right fst snd Qnum]; lia | exact X]]. intros r Hr. rewrite V by assumption. rewrite polyV_cons. change (polyV r []) with 0%R.
        unfold monoV, keyV, facV; cbn [fst snd fold_right]. rewrite Q2R_1. f_equal. ring.
    - destruct (Z.eqb_spec z 0) as [->|Nz].
      + exists [(1%Q, [])]. split; [apply mono_polyOK; split; [apply canon_1 | split; [discriminate | apply keyOK_nil]]|].
        split; [|split; [cbn; lia|]].
        * intros r Hr.
          assert (exists v, eval r (Sum l) = Some v) as (v & Ev).
          { clear -H Hr. assert (X : forall e, laurent e -> exists v, eval r e = Some v).
            { clear -Hr. induction 1 as [q C|n p|l N H IH|l N H IH|n p z|l z Hz H IH]; cbn [eval]; eauto.
              - clear -IH. induction l as [|x l IHl]; cbn [fold_right]; [eauto|]. destruct (IH x) as (v & Ev); [now left|].
                destruct IHl as (w & Ew); [intros y Hy; apply IH; now right|]. rewrite Ev, Ew. cbn. eauto.
              - clear -IH. induction l as [|x l IHl]; cbn [fold_right]; [eauto|]. destruct (IH x) as (v & Ev); [now left|].
                destruct IHl as (w & Ew); [intros y Hy; apply IH; now right|]. rewrite Ev, Ew. cbn. eauto.
              - rewrite Q2R_ofZ. rewrite rpow_int by (specialize (Hr n p); lra). eauto.
              - destruct IH as (v & Ev). cbn [eval] in Ev. rewrite Ev, Q2R_ofZ. rewrite rpow_intnn by assumption. eauto. }
            now apply X. }
          change (eval r (Pow (Sum l) (Num (ofZ 0)))) with (match eval r (Sum l), eval r (Num (ofZ 0)) with Some v, Some w => rpow v w | _, _ => None end).
          rewrite Ev, evalNum, Q2R_ofZ. rewrite rpow_intnn by lia. rewrite polyV_cons. change (polyV r []) with 0%R.
          unfold monoV, keyV; cbn. rewrite Q2R_1. f_equal. ring.
        * apply ev_S. apply ev_all. intros F k. reflexivity.
      + cbn [degreeBound] in D. unfold ofZ in D at 1; cbn [Qnum] in D.
        assert (Db : degreeBound (Sum l) <= degreeBound (Sum l) * Z.abs z).
        { pose proof (degreeBound_nonneg (Sum l) H). nia. }
        cbn [degreeBound] in Db. destruct IH as (p & Op & Vp & Dp & Ep); [cbn [degreeBound]; lia|].
        set (m := Z.to_nat z). assert (Dps : polysDeg (repeat p m) = polyDeg p * Z.of_nat m).
        { clear. induction m as [|m IHm]; [cbn; lia|]. cbn [repeat polysDeg fold_right]. unfold polysDeg in IHm. rewrite IHm. lia. }
        assert (Hm : Z.of_nat m = Z.abs z) by (unfold m; lia).
        cbn [degreeBound] in Dp. pose proof (polyDeg_nonneg p) as Np.
        destruct (asProduct_ev (repeat (Sum l) m) (repeat p m)) as (s & Os & Vs & Ds & Es).
        * clear -Ep. induction m as [|m IHm]; constructor; auto.
        * apply Forall_forall. intros q Hq. apply repeat_spec in Hq as ->. exact Op.
        * rewrite Dps, Hm. nia.
        * exists s. split; [exact Os|]. split; [|split].
          -- intros r Hr. change (eval r (Pow (Sum l) (Num (ofZ z)))) with (match eval r (Sum l), eval r (Num (ofZ z)) with Some v, Some w => rpow v w | _, _ => None end).
             rewrite Vp, evalNum, Q2R_ofZ by assumption. rewrite rpow_intnn by assumption. f_equal. rewrite Vs by assumption.
             replace z with (Z.of_nat m) by lia. rewrite <- pow_powerRZ. clear. induction m as [|m IHm]; [reflexivity|].
             cbn [pow repeat polysProd fold_right]. rewrite IHm. reflexivity.
          -- cbn [degreeBound]. unfold ofZ; cbn [Qnum]. rewrite Dps, Hm in Ds. nia.
          -- apply ev_S. eapply ev_imp; [exact Es|]. intros F k E. cbn [world step w_expand expandExpr numericEval].
             replace (qIsInt (ofZ z)) with true by reflexivity. cbn [relyInt]. unfold ret at 1. rewrite bind_ret. rewrite ofZ_num.
             replace (Z.to_nat (Z.abs z)) with m by (unfold m; f_equal; lia). rewrite E, bind_ret.
             replace (z <? 0) with false by (symmetry; apply Z.ltb_ge; lia). reflexivity.
  Qed.
End Main.
