(** Derivatives of expanded polynomials for users. *)
From Verif Require Import LaurentSpec LaurentOrder LaurentProd LaurentIdent LaurentSum LaurentExpand LaurentMain LaurentApi DerivSpec LaurentDiff DiffModel DiffSpec DiffFacts DiffApi FuelMono FuelApi SimplApi ExprProofs NumberProofs OrderProofs World RPow.
From Coq Require Import Lia Lra Bool Permutation.
From Verif Require Import Run LaurentSpec.
Open Scope R_scope.

(** diff of e with respect to the symbol t returns d. *)
Definition diffsTo (Y : sys) (e : expr) (t : sym) (d : expr) : Prop :=
  exists F k n facts, diffTop (world Y F k) n e (symE t) = Ok d facts.

Lemma diffsTo_unique Y e t d d' : diffsTo Y e t d -> diffsTo Y e t d' -> d = d'.
Proof.
  intros (F & k & n & a & E) (F' & k' & n' & a' & E'). pose proof (diff_unique Y F F' k k' n n' e (symE t)) as H. rewrite E, E' in H.
  apply H; discriminate.
Qed.
Lemma diff_only Y F k n F0 k0 n0 e t d a : diffTop (world Y F0 k0) n0 e (symE t) = Ok d a ->
  diffTop (world Y F k) n e (symE t) = Fuel \/ exists facts, diffTop (world Y F k) n e (symE t) = Ok d facts.
Proof.
  intros E. pose proof (diff_unique Y F F0 k k0 n n0 e (symE t)) as H. rewrite E in H.
  destruct (diffTop (world Y F k) n e (symE t)) as [y b| | |s]; [right|now left|..].
  - exists b. f_equal. apply H; discriminate.
  - exfalso. apply H; discriminate.
  - exfalso. apply H; discriminate.
Qed.

(** ** Normal forms are polynomials *)
Lemma facE_laurent f : laurent (facE f).
Proof. unfold facE, symE. destruct (snd f =? 1)%Z; [apply l_sym | apply l_symPow]. Qed.
Lemma factorsE_laurent m x : monoOK m -> In x (factorsE m) -> laurent x.
Proof.
  intros (C & _) H. apply factorsE_in in H as [[-> _]|(f & _ & ->)]; [now apply l_num | apply facE_laurent].
Qed.
Lemma monoE_laurent m : monoOK m -> laurent (monoE m).
Proof.
  intros O. pose proof (fun x => factorsE_laurent m x O) as H. unfold monoE. destruct (factorsE m) as [|x [|y l]].
  - apply l_num. reflexivity.
  - apply H. now left.
  - apply l_prod; [discriminate | exact H].
Qed.
Lemma polyE_laurent p : polyOK p -> laurent (polyE p).
Proof.
  intros [O _]. assert (H : forall x, In x (map monoE p) -> laurent x).
  { intros x Hx. apply in_map_iff in Hx as (m & <- & Hm). apply monoE_laurent. rewrite Forall_forall in O. now apply O. }
  unfold polyE. destruct (map monoE p) as [|x [|y l]].
  - apply l_num. reflexivity.
  - apply H. now left.
  - apply l_sum; [discriminate | exact H].
Qed.
Lemma facE_degree f : degreeBound (facE f) = Z.abs (snd f).
Proof.
  unfold facE, symE. destruct (Z.eqb_spec (snd f) 1) as [->|_]; [reflexivity|]. cbn [degreeBound ofZ Qnum]. lia.
Qed.
Lemma factorsE_degree m : fold_right (fun x a => degreeBound x + a)%Z 0%Z (factorsE m) = kdeg (snd m).
Proof.
  assert (X : forall k, fold_right (fun x a => degreeBound x + a)%Z 0%Z (map facE k) = kdeg k).
  { induction k as [|f k IH]; [reflexivity|]. cbn [map fold_right kdeg]. rewrite IH, facE_degree. reflexivity. }
  unfold factorsE. destruct (qeqb (fst m) 1); cbn [app fold_right degreeBound]; rewrite X; reflexivity.
Qed.
Lemma monoE_degree m : degreeBound (monoE m) = kdeg (snd m).
Proof.
  rewrite <- factorsE_degree. unfold monoE. destruct (factorsE m) as [|x [|y l]]; [reflexivity|cbn [fold_right]; lia|reflexivity].
Qed.
Lemma polyE_degree p : degreeBound (polyE p) = polyDeg p.
Proof.
  assert (X : fold_right (fun x a => Z.max (degreeBound x) a)%Z 0%Z (map monoE p) = polyDeg p).
  { induction p as [|m p IH]; [reflexivity|]. cbn [map fold_right polyDeg]. rewrite IH, monoE_degree. reflexivity. }
  pose proof (polyDeg_nonneg p). unfold polyE. destruct (map monoE p) as [|x [|y l]] eqn:E; [exact X| |exact X].
  cbn [fold_right] in X. destruct p as [|m [|]]; try discriminate E. injection E as <-. rewrite monoE_degree in *. pose proof (kdeg_nonneg (snd m)). lia.
Qed.

(** ** Calculus *)
Lemma upd_sym r t v s : symV (upd r (fst t) (snd t) v) s = if sym_dec s t then v else symV r s.
Proof.
  unfold symV, upd. destruct (sym_dec s t) as [->|N].
  - replace (nameEq (fst t) (fst t)) with true by (symmetry; now apply nameEq_eq). now rewrite eqb_reflx.
  - destruct (nameEq (fst t) (fst s)) eqn:E; [|reflexivity]. apply nameEq_eq in E. destruct (Bool.eqb (snd t) (snd s)) eqn:E2; [|reflexivity].
    apply eqb_prop in E2. exfalso. apply N. destruct s, t; cbn in *; congruence.
Qed.
Lemma upd_allPos r t v : allPos r -> 0 < v -> allPos (upd r (fst t) (snd t) v).
Proof. intros Hr Hv n p. unfold upd. destruct (nameEq _ _ && _); [exact Hv | apply Hr]. Qed.

Definition someDeriv (r : env) (t : sym) (e : expr) (v : R) : Prop := hasDeriv (fun s => eval (upd r (fst t) (snd t) s) e) (symV r t) v.

Lemma hasDeriv_unique g t a b : hasDeriv g t a -> hasDeriv g t b -> a = b.
Proof.
  intros (h & (d1 & P1 & N1) & D1) (h' & (d2 & P2 & N2) & D2). apply (uniqueness_limite h t); [exact D1|].
  intros eps He. destruct (D2 eps He) as [delta HD].
  assert (Hm : 0 < Rmin delta (Rmin d1 d2)) by (repeat apply Rmin_glb_lt; auto; apply (cond_pos delta)).
  exists (mkposreal _ Hm). intros x Hx Hlt. cbn in Hlt.
  assert (X : forall s, Rabs (s - t) < Rmin delta (Rmin d1 d2) -> h s = h' s).
  { intros s Hs. assert (A1 : Some (h s) = Some (h' s)); [|now injection A1]. rewrite <- N1, <- N2; [reflexivity| |].
    - eapply Rlt_le_trans; [exact Hs|]. eapply Rle_trans; [apply Rmin_r|apply Rmin_r].
    - eapply Rlt_le_trans; [exact Hs|]. eapply Rle_trans; [apply Rmin_r|apply Rmin_l]. }
  rewrite (X (t + x)), (X t).
  - apply HD; [exact Hx|]. eapply Rlt_le_trans; [exact Hlt | apply Rmin_l].
  - replace (t - t) with 0 by ring. now rewrite Rabs_R0.
  - replace (t + x - t) with x by ring. exact Hlt.
Qed.
Lemma near_pos t : 0 < t -> near t (fun s => 0 < s).
Proof. intros H. exists t. split; [exact H|]. intros s Hs. apply Rabs_def2 in Hs. lra. Qed.
Lemma hasDeriv_near g g' t d : near t (fun s => g s = g' s) -> hasDeriv g t d -> hasDeriv g' t d.
Proof.
  intros (d1 & P1 & N1) (h & (d2 & P2 & N2) & D). exists h. split; [|exact D]. exists (Rmin d1 d2). split; [now apply Rmin_glb_lt|].
  intros s Hs. rewrite <- N1, N2; [reflexivity| |]; (eapply Rlt_le_trans; [exact Hs|]); [apply Rmin_r | apply Rmin_l].
Qed.

(** The formal derivative is the derivative. *)
Lemma keyV_upd r t a k : allPos r -> 0 < a ->
  keyV (upd r (fst t) (snd t) a) k = powerRZ a (exponentOf t k) * (keyV r k * powerRZ (symV r t) (- exponentOf t k)).
Proof.
  intros Hr Ha. pose proof (Hr (fst t) (snd t)) as Ht. fold (symV r t) in Ht. induction k as [|f k IH]; [cbn; ring|].
  change (keyV (upd r (fst t) (snd t) a) (f :: k)) with (powerRZ (symV (upd r (fst t) (snd t) a) (fst f)) (snd f) * keyV (upd r (fst t) (snd t) a) k).
  change (keyV r (f :: k)) with (powerRZ (symV r (fst f)) (snd f) * keyV r k). rewrite IH, upd_sym.
  change (exponentOf t (f :: k)) with ((if sym_dec (fst f) t then snd f else 0) + exponentOf t k)%Z. destruct (sym_dec (fst f) t) as [->|_].
  - rewrite Z.opp_add_distr, !powerRZ_add by lra.
    assert (X : powerRZ (symV r t) (snd f) * powerRZ (symV r t) (- snd f) = 1) by (rewrite <- powerRZ_add by lra; now rewrite Z.add_opp_diag_r).
    replace (powerRZ a (snd f) * powerRZ a (exponentOf t k) * (powerRZ (symV r t) (snd f) * keyV r k * (powerRZ (symV r t) (- snd f) * powerRZ (symV r t) (- exponentOf t k))))
      with (powerRZ a (snd f) * powerRZ a (exponentOf t k) * (keyV r k * powerRZ (symV r t) (- exponentOf t k)) * (powerRZ (symV r t) (snd f) * powerRZ (symV r t) (- snd f))) by ring.
    rewrite X. ring.
  - rewrite Z.add_0_l. ring.
Qed.
Lemma powerRZ_deriv x z : 0 < x -> derivable_pt_lim (fun a => powerRZ a z) x (powerRZ x z * IZR z / x).
Proof.
  intros Hx. destruct (hd_pow_pos (fun s => Some s) (fun _ => Some (IZR z)) x 1 0 x (IZR z)) as (h & N & D);
    [apply hd_id | now apply (hd_const _ _ (IZR z)) | reflexivity | reflexivity | exact Hx|].
  rewrite <- powerRZ_Rpower in D by exact Hx. replace (powerRZ x z * IZR z / x) with (powerRZ x z * (ln x * 0 + IZR z * / x * 1)) by (unfold Rdiv; ring).
  revert D. generalize (powerRZ x z * (ln x * 0 + IZR z * / x * 1)) as v. intros v D.
  destruct (near_pos x Hx) as (d1 & P1 & N1). destruct N as (d2 & P2 & N2).
  intros eps He. destruct (D eps He) as [delta HD].
  assert (Hm : 0 < Rmin delta (Rmin d1 d2)) by (repeat apply Rmin_glb_lt; auto; apply (cond_pos delta)).
  assert (X : forall s, Rabs (s - x) < Rmin delta (Rmin d1 d2) -> h s = powerRZ s z).
  { intros s Hs. assert (A1 : Some (h s) = Some (powerRZ s z)); [|now injection A1]. rewrite <- N2.
    - cbn [opow]. apply rpow_int. assert (0 < s); [|lra]. apply N1. eapply Rlt_le_trans; [exact Hs|]. eapply Rle_trans; [apply Rmin_r|apply Rmin_l].
    - eapply Rlt_le_trans; [exact Hs|]. eapply Rle_trans; [apply Rmin_r|apply Rmin_r]. }
  exists (mkposreal _ Hm). intros u Hu Hl. cbn in Hl. rewrite <- (X (x + u)), <- (X x).
  - apply HD; [exact Hu|]. eapply Rlt_le_trans; [exact Hl | apply Rmin_l].
  - replace (x - x) with 0 by ring. now rewrite Rabs_R0.
  - replace (x + u - x) with u by ring. exact Hl.
Qed.
Definition valDeriv (r : env) (t : sym) (f : env -> R) (v : R) : Prop := hasDeriv (fun s => Some (f (upd r (fst t) (snd t) s))) (symV r t) v.
Lemma valDeriv_ext r t f g v : allPos r -> (forall r, allPos r -> f r = g r) -> valDeriv r t f v -> valDeriv r t g v.
Proof.
  intros Hr H. apply hasDeriv_near. destruct (near_pos (symV r t) (Hr _ _)) as (dl & P & N). exists dl. split; [exact P|].
  intros s Hs. rewrite H; [reflexivity|]. apply upd_allPos; auto.
Qed.
Lemma upd_same r t : forall n p, upd r (fst t) (snd t) (symV r t) n p = r n p.
Proof.
  intros n p. change (symV (upd r (fst t) (snd t) (symV r t)) (n, p) = symV r (n, p)). rewrite upd_sym. now destruct (sym_dec (n, p) t) as [->|].
Qed.
Lemma keyV_ext r r' k : (forall n p, r n p = r' n p) -> keyV r k = keyV r' k.
Proof. intros H. unfold keyV, facV. induction k as [|f k IH]; [reflexivity|]. cbn [fold_right]. now rewrite H, IH. Qed.
Lemma polyV_ext r r' p : (forall n p, r n p = r' n p) -> polyV r p = polyV r' p.
Proof. intros H. induction p as [|m p IH]; [reflexivity|]. rewrite !polyV_cons, IH. unfold monoV. now rewrite (keyV_ext r r'). Qed.
Lemma mono_deriv r t m : allPos r -> keyOK (snd m) -> valDeriv r t (fun r => monoV r m) (monoV r (derivMono t m)).
Proof.
  intros Hr O. pose proof (Hr (fst t) (snd t)) as Ht. fold (symV r t) in Ht. rewrite deriv_key_V by auto.
  exists (fun a => Q2R (fst m) * (keyV r (snd m) * powerRZ (symV r t) (- exponentOf t (snd m))) * powerRZ a (exponentOf t (snd m))). split.
  - destruct (near_pos (symV r t) Ht) as (dl & P & N). exists dl. split; [exact P|]. intros s Hs. f_equal. unfold monoV. rewrite keyV_upd by auto. ring.
  - replace (monoV r m * IZR (exponentOf t (snd m)) / symV r t) with
      (Q2R (fst m) * (keyV r (snd m) * powerRZ (symV r t) (- exponentOf t (snd m))) * (powerRZ (symV r t) (exponentOf t (snd m)) * IZR (exponentOf t (snd m)) / symV r t)).
    + apply (derivable_pt_lim_scal (fun a => powerRZ a (exponentOf t (snd m)))). now apply powerRZ_deriv.
    + assert (X : powerRZ (symV r t) (- exponentOf t (snd m)) * powerRZ (symV r t) (exponentOf t (snd m)) = 1) by (rewrite <- powerRZ_add by lra; now rewrite Z.add_opp_diag_l).
      unfold monoV, Rdiv. replace (Q2R (fst m) * (keyV r (snd m) * powerRZ (symV r t) (- exponentOf t (snd m))) * (powerRZ (symV r t) (exponentOf t (snd m)) * IZR (exponentOf t (snd m)) * / symV r t))
        with (Q2R (fst m) * keyV r (snd m) * (powerRZ (symV r t) (- exponentOf t (snd m)) * powerRZ (symV r t) (exponentOf t (snd m))) * IZR (exponentOf t (snd m)) * / symV r t) by ring.
      rewrite X. ring.
Qed.
Definition keysOK (p : poly) : Prop := Forall (fun m => keyOK (snd m)) p.
Lemma poly_deriv r t p : allPos r -> keysOK p -> valDeriv r t (fun r => polyV r p) (polyV r (derivPoly t p)).
Proof.
  intros Hr. induction 1 as [|m p O _ IH]; [now apply (hd_const _ _ 0)|]. cbn [derivPoly map]. rewrite polyV_cons. fold (derivPoly t p).
  pose proof (hd_plus _ _ _ _ _ (mono_deriv r t m Hr O) IH) as H. eapply hd_ext; [|exact H]. intros s. cbn [oplus]. now rewrite polyV_cons.
Qed.
Lemma polyOK_keys p : polyOK p -> keysOK p.
Proof. intros [O _]. eapply Forall_impl; [|exact O]. intros m (_ & _ & K). exact K. Qed.
Lemma deriv_same p p' t : keysOK p -> keysOK p' -> (forall r, allPos r -> polyV r p = polyV r p') ->
  forall r, allPos r -> polyV r (derivPoly t p) = polyV r (derivPoly t p').
Proof.
  intros O O' H r Hr. eapply hasDeriv_unique; [apply (poly_deriv r t p Hr O)|]. eapply valDeriv_ext; [exact Hr| |apply (poly_deriv r t p' Hr O')].
  intros r' Hr'. now rewrite H.
Qed.
Lemma lower_incl t k f : In f (lowerKey t k) -> In (fst f) (map fst k).
Proof.
  unfold lowerKey. intros H. apply in_flat_map in H as (g & Hg & H). apply in_map_iff. exists g. split; [|exact Hg].
  destruct (sym_dec (fst g) t) as [E|_]; [destruct (snd g =? 1)%Z|]; repeat destruct H as [<-|H]; try destruct H; reflexivity.
Qed.
Lemma lower_OK t k : keyOK k -> keyOK (lowerKey t k).
Proof.
  induction k as [|f k IH]; intros O; [exact O|]. specialize (IH (keyOK_tl f k O)). unfold lowerKey. cbn [flat_map]. fold (lowerKey t k).
  assert (C : forall z, z <> 0%Z -> keyOK ((fst f, z) :: lowerKey t k)).
  { intros z Hz. destruct IH as [S N]. split; constructor; auto. destruct O as [SO _]. inversion SO as [|? ? _ A]; subst.
    apply Forall_forall. intros g Hg. apply lower_incl, in_map_iff in Hg as (g' & E & Hg). rewrite Forall_forall in A. specialize (A g' Hg). cbn. now rewrite <- E. }
  destruct (sym_dec (fst f) t) as [E|_].
  - destruct (Z.eqb_spec (snd f) 1) as [_|N]; [exact IH|]. apply C. lia.
  - cbn [app]. destruct f as [s z]. apply (C z). destruct O as [_ NO]. now inversion NO.
Qed.
Lemma derivPoly_keys t p : keysOK p -> keysOK (derivPoly t p).
Proof. intros H. apply Forall_map. eapply Forall_impl; [|exact H]. intros m K. now apply lower_OK. Qed.
Lemma exponentOf_lower t s k : t <> s -> exponentOf s (lowerKey t k) = exponentOf s k.
Proof.
  intros N. induction k as [|f k IH]; [reflexivity|]. unfold lowerKey. cbn [flat_map]. fold (lowerKey t k).
  change (exponentOf s (f :: k)) with ((if sym_dec (fst f) s then snd f else 0) + exponentOf s k)%Z. rewrite <- IH.
  destruct (sym_dec (fst f) t) as [Ef|_]; [|reflexivity].
  destruct (sym_dec (fst f) s) as [|Ns]; [congruence|]. destruct (snd f =? 1)%Z; [reflexivity|].
  change (exponentOf s ([(fst f, (snd f - 1)%Z)] ++ lowerKey t k)) with ((if sym_dec (fst f) s then snd f - 1 else 0) + exponentOf s (lowerKey t k))%Z.
  destruct (sym_dec (fst f) s); [congruence | reflexivity].
Qed.
Lemma deriv_commute p s t r : keysOK p -> allPos r -> polyV r (derivPoly s (derivPoly t p)) = polyV r (derivPoly t (derivPoly s p)).
Proof.
  intros O Hr. destruct (sym_dec s t) as [->|N]; [reflexivity|]. induction O as [|m p K _ IH]; [reflexivity|].
  cbn [derivPoly map]. rewrite !polyV_cons. unfold derivPoly in IH. rewrite IH. f_equal.
  rewrite !deriv_key_V by (auto; cbn [derivMono snd]; now apply lower_OK). cbn [derivMono snd].
  rewrite !exponentOf_lower by congruence.  unfold Rdiv. ring.
Qed.

(** The code's derivative of a normal form is its derivative wherever no symbol is zero. *)
Definition nonzero (r : env) : Prop := forall n p, r n p <> 0.
Lemma smooth_all L r n p (l : list expr) : (forall x, In x l -> smooth L r n p x) ->
  (fix all l := match l with [] => True | x :: s => smooth L r n p x /\ all s end) l.
Proof. induction l as [|x l IH]; [easy|]. intros H. split; [apply H; now left | apply IH; intros; apply H; now right]. Qed.
Lemma smooth_facE Y F k r n p f : (2 <= k)%nat -> nonzero r -> smooth (fun b => forall fs, w_log (world Y F k) b <> Ok Undef fs) r n p (facE f).
Proof.
  intros Hk Hr. unfold facE. destruct (snd f =? 1)%Z; [exact I|]. refine (conj I (conj I _)). exists (r (fst (fst f)) (snd (fst f))).
  split; [reflexivity|]. pose proof (Hr (fst (fst f)) (snd (fst f))) as N. destruct (Rtotal_order (r (fst (fst f)) (snd (fst f))) 0) as [H|[H|H]]; [right|lra|left; lra].
  split; [exact H|]. split; [reflexivity|]. split.
  - cbn [eval symE]. rewrite Q2R_ofZ, rpow_int by lra. discriminate.
  - intros fs. rewrite log_sym by exact Hk. discriminate.
Qed.
Lemma smooth_polyE Y F k r n p q : (2 <= k)%nat -> nonzero r -> smooth (fun b => forall fs, w_log (world Y F k) b <> Ok Undef fs) r n p (polyE q).
Proof.
  intros Hk Hr. set (L := fun b => forall fs, w_log (world Y F k) b <> Ok Undef fs).
  assert (M : forall m, smooth L r n p (monoE m)).
  { intros m. assert (H : forall x, In x (factorsE m) -> smooth L r n p x).
    { intros x Hx. apply factorsE_in in Hx as [[-> _]|(f & _ & ->)]; [exact I | now apply smooth_facE]. }
    unfold monoE. destruct (factorsE m) as [|x [|y l]]; [exact I|apply H; now left|]. apply smooth_all in H. exact H. }
  assert (H : forall x, In x (map monoE q) -> smooth L r n p x) by (intros x Hx; apply in_map_iff in Hx as (m & <- & _); apply M).
  unfold polyE. destruct (map monoE q) as [|x [|y l]]; [exact I|apply H; now left|]. apply smooth_all in H. exact H.
Qed.

(** ** Symbols of normal forms *)
Lemma mentions_symE t s : mentions (fst t) (snd t) (symE s) = symEqb t s.
Proof. reflexivity. Qed.
Lemma mentions_facE t f : mentions (fst t) (snd t) (facE f) = symEqb t (fst f).
Proof. unfold facE. destruct (snd f =? 1)%Z; [reflexivity|]. cbn [mentions]. rewrite orb_false_r. reflexivity. Qed.
Lemma mentions_monoE t m : mentions (fst t) (snd t) (monoE m) = false <-> ~ In t (map fst (snd m)).
Proof.
  assert (X : existsb (mentions (fst t) (snd t)) (factorsE m) = existsb (symEqb t) (map fst (snd m))).
  { assert (K : forall k, existsb (mentions (fst t) (snd t)) (map facE k) = existsb (symEqb t) (map fst k)).
    { induction k as [|f k IH]; [reflexivity|]. cbn [map existsb]. now rewrite IH, mentions_facE. }
    unfold factorsE. destruct (qeqb (fst m) 1); cbn [app existsb mentions orb]; apply K. }
  assert (Z : mentions (fst t) (snd t) (monoE m) = existsb (symEqb t) (map fst (snd m))).
  { rewrite <- X. unfold monoE. destruct (factorsE m) as [|x [|y l]]; [reflexivity|cbn [existsb]; now rewrite orb_false_r|reflexivity]. }
  rewrite Z, <- not_true_iff_false, existsb_exists. split; intros H I; apply H.
  - exists t. split; [exact I | apply symEqb_refl].
  - destruct I as (s & Hs & I). apply symEqb_eq in I as ->. exact Hs.
Qed.
Lemma mentions_polyE t p : mentions (fst t) (snd t) (polyE p) = false <-> forall m, In m p -> ~ In t (map fst (snd m)).
Proof.
  assert (X : existsb (mentions (fst t) (snd t)) (map monoE p) = false <-> forall m, In m p -> ~ In t (map fst (snd m))).
  { induction p as [|m p IH]; [easy|]. cbn [map existsb]. rewrite orb_false_iff, IH, mentions_monoE. split.
    - intros [A C] n [<-|Hn]; auto.
    - intros H. split; [apply H; now left | intros; apply H; now right]. }
  rewrite <- X. unfold polyE. destruct (map monoE p) as [|x [|y l]]; [easy|cbn [existsb]; rewrite orb_false_r; easy|easy].
Qed.
Lemma kget_in k t : keyOK k -> In t (map fst k) -> kget k t <> 0%Z.
Proof.
  induction k as [|f k IH]; intros O H; [destruct H|]. pose proof (keyOK_hd f k O) as Nf. unfold kget. cbn [fold_right]. fold (kget k t). cbn [map In] in H.
  destruct (sym_dec (fst f) t) as [E|E].
  - rewrite kget_notin by (now rewrite <- E). destruct O as [_ N]. inversion N; subst. lia.
  - destruct H as [H|H]; [congruence|]. rewrite Z.add_0_l. apply IH; [now apply keyOK_tl in O | exact H].
Qed.
(** t times the derivative has the same products of powers. *)
Lemma euler_zero t p : polyOK p -> (forall r, allPos r -> polyV r (derivPoly t p) = 0) -> forall m, In m p -> ~ In t (map fst (snd m)).
Proof.
  intros O H.
  set (f := fun m : mono => (qmul (fst m) (ofZ (exponentOf t (snd m))), snd m)).
  set (g := fun m : mono => negb (exponentOf t (snd m) =? 0)%Z).
  assert (V : forall r, allPos r -> polyV r (map f (filter g p)) = polyV r (derivPoly t p) * symV r t).
  { intros r Hr. pose proof (Hr (fst t) (snd t)) as Ht. fold (symV r t) in Ht. destruct O as [O _]. clear H. induction O as [|m p Om _ IH]; [cbn; ring|].
    cbn [derivPoly map filter]. rewrite polyV_cons. fold (derivPoly t p). rewrite deriv_mono_V by auto.
    replace ((monoV r m * IZR (exponentOf t (snd m)) / symV r t + polyV r (derivPoly t p)) * symV r t)
      with (monoV r m * IZR (exponentOf t (snd m)) + polyV r (derivPoly t p) * symV r t) by (field; lra).
    rewrite <- IH. unfold g at 1. destruct (Z.eqb_spec (exponentOf t (snd m)) 0) as [->|N]; cbn [negb]; [ring|]. cbn [map]. rewrite polyV_cons. f_equal.
    unfold monoV, f. cbn [fst snd]. rewrite Q2R_qmul, Q2R_ofZ. ring. }
  assert (N : map f (filter g p) = []).
  { apply poly_unique; [|apply polyOK_nil|].
    - destruct O as [O S]. split.
      + apply Forall_map. apply Forall_forall. intros m Hm. apply filter_In in Hm as [Hm G]. rewrite Forall_forall in O. destruct (O m Hm) as (C & N & K).
        split; [apply canon_Qred|]. split; [|exact K]. apply qmul_neq0; auto; [apply canon_ofZ|]. unfold g in G. intros X. injection X as X. rewrite X in G. discriminate G.
      + clear O H V. induction S as [|m p S IH A]; [constructor|]. cbn [filter]. destruct (g m); [|exact IH]. cbn [map]. constructor; [exact IH|].
        apply Forall_map. rewrite Forall_forall in *. intros n Hn. apply filter_In in Hn as [Hn _]. cbn [snd f]. now apply A.
    - intros r Hr. rewrite V, H by exact Hr. change (polyV r []) with 0. ring. }
  intros m Hm I. assert (G : g m = true).
  { unfold g. rewrite exponentOf_kget. destruct O as [O _]. rewrite Forall_forall in O. destruct (O m Hm) as (_ & _ & K).
    now rewrite (proj2 (Z.eqb_neq _ _) (kget_in _ _ K I)). }
  assert (X : In (f m) (map f (filter g p))) by (apply in_map, filter_In; auto). rewrite N in X. destruct X.
Qed.

Section Api.
  Variables (Y : sys) (B : Z).
  Hypothesis Hlt : exactUpTo B (s_nlt Y).

  (** x is the expansion of e and has the derivative d. *)
  Lemma exact_less : exactUpTo (B - 1) (s_nlt Y).
  Proof. intros a b Ha Hb. apply Hlt; lia. Qed.
  Lemma degree_nonneg e : laurent e -> (0 <= degreeBound e)%Z.
  Proof.
    induction 1 as [q C|n p|l N H IH|l N H IH|n p z|l z Hz H IH]; cbn [degreeBound ofZ Qnum]; try lia.
    - clear N H. induction l as [|x l IHl]; cbn [fold_right]; [lia|]. pose proof (IH x (or_introl eq_refl)). lia.
    - clear N H. induction l as [|x l IHl]; cbn [fold_right]; [lia|]. pose proof (IH x (or_introl eq_refl)).
      assert (0 <= fold_right (fun x a => degreeBound x + a) 0 l)%Z by (apply IHl; intros; apply IH; now right). lia.
    - apply Z.mul_nonneg_nonneg; [exact IH | lia].
  Qed.

  Definition derivOf (e : expr) (t : sym) (x d : expr) (p q : poly) : Prop :=
    polyOK p /\ polyOK q /\ x = polyE p /\ d = polyE q /\ (polyDeg p <= degreeBound e)%Z /\ (polyDeg q <= degreeBound e + 1)%Z /\
    (forall r, allPos r -> eval r e = Some (polyV r p)) /\ (forall r, allPos r -> polyV r q = polyV r (derivPoly t p)) /\
    ev (fun F k => diffTop (world Y F k) 4 x (symE t) = Ok d []).

  Lemma deriv_exists e t x : laurent e -> (degreeBound e < B)%Z -> expandsTo Y e x -> exists d p q, derivOf e t x d p q.
  Proof.
    intros L D E. pose proof (degree_nonneg e L) as D0.
    destruct (expand_laurent Y B Hlt e L ltac:(lia)) as (p & O & V & Dp & Ev).
    assert (x = polyE p) as ->.
    { destruct (ev_ex _ Ev) as (F & k & E'). eapply expandsTo_unique; [exact E | now exists F, k, []]. }
    assert (Pd : pdeg (B - 1) p) by (eapply pdeg_le; [|apply polyDeg_pdeg]; lia).
    destruct (derive_poly Y B Hlt 0 t p O Pd) as (q & Oq & Dq & Vq & Eq); [lia|].
    exists (polyE q), p, q. split; [exact O|]. split; [exact Oq|]. split; [reflexivity|]. split; [reflexivity|]. split; [exact Dp|].
    pose proof (polyDeg_nonneg p). split; [apply pdeg_polyDeg; [lia|]; eapply pdeg_le; [|exact Dq]; lia|].
    split; [exact V|]. split; [exact Vq|].
    exact Eq.
  Qed.
  Lemma derivOf_diffsTo e t x d p q : derivOf e t x d p q -> diffsTo Y x t d.
  Proof. intros (_ & _ & _ & _ & _ & _ & _ & _ & H). destruct (ev_ex _ H) as (F & k & E). now exists F, k, 4%nat, []. Qed.
  Lemma deriv_is e t x d : laurent e -> (degreeBound e < B)%Z -> expandsTo Y e x -> diffsTo Y x t d -> exists p q, derivOf e t x d p q.
  Proof.
    intros L D E Ed. destruct (deriv_exists e t x L D E) as (d' & p & q & H). exists p, q.
    now rewrite (diffsTo_unique Y x t d d' Ed (derivOf_diffsTo _ _ _ _ _ _ H)).
  Qed.

  (** diff ends, and its result is expanded. *)
  Theorem diff_ends e t x : laurent e -> (degreeBound e < B)%Z -> expandsTo Y e x ->
    exists d, diffsTo Y x t d /\ laurent d /\ (degreeBound d <= degreeBound e + 1)%Z /\ expandsTo Y d d /\
      (exists F0 k0 n0, forall F k n, (F0 <= F)%nat -> (k0 <= k)%nat -> (n0 <= n)%nat -> exists facts, diffTop (world Y F k) n x (symE t) = Ok d facts) /\
      (forall F k n, diffTop (world Y F k) n x (symE t) = Fuel \/ exists facts, diffTop (world Y F k) n x (symE t) = Ok d facts).
  Proof.
    intros L D E. destruct (deriv_exists e t x L D E) as (d & p & q & H). exists d. split; [eapply derivOf_diffsTo, H|].
    destruct H as (Op & Oq & -> & -> & Dp & Dq & Vp & Vq & Ev). split; [now apply polyE_laurent|]. split; [now rewrite polyE_degree|].
    split; [apply (polyE_expanded_ev Y B Hlt); [exact Oq|]; eapply pdeg_le; [|apply polyDeg_pdeg]; lia|].
    split.
    - destruct Ev as (F0 & k0 & Ev). exists F0, k0, 4%nat. intros F k n HF Hk Hn. specialize (Ev F k HF Hk).
      pose proof (m_diffTop (world Y F k) (world Y F k) ltac:(constructor; intros; apply rle_refl) 4 n (polyE p) (symE t) Hn) as R. rewrite Ev in R.
      exact R.
    - intros F k n. destruct (ev_ex _ Ev) as (F0 & k0 & E0). eapply diff_only, E0.
  Qed.

  (** Its value is the derivative. *)
  Lemma derivOf_value e t x d p q r : derivOf e t x d p q -> posEnv r -> nonzero r -> exists v, eval r d = Some v /\ someDeriv r t x v.
  Proof.
    intros (Op & Oq & -> & -> & _ & _ & _ & _ & (F0 & k0 & Ev)) Hp Hr. specialize (Ev F0 (k0 + 2)%nat ltac:(lia) ltac:(lia)).
    destruct (diff_smooth_value Y F0 (k0 + 2) r Hp 4 (fst t) (snd t) (polyE p) (polyE q) []) as (v & V & D).
    - now apply laurent_wf, polyE_laurent.
    - exact Ev.
    - exists true. constructor.
    - apply smooth_polyE; [lia | exact Hr].
    - exists v. split; [exact V | exact D].
  Qed.
  Theorem diff_value e t x d r : laurent e -> (degreeBound e < B)%Z -> expandsTo Y e x -> diffsTo Y x t d -> posEnv r -> nonzero r ->
    exists v, eval r d = Some v /\ someDeriv r t x v.
  Proof. intros L D E Ed Hp Hr. destruct (deriv_is e t x d L D E Ed) as (p & q & H). eapply derivOf_value; eauto. Qed.

  Lemma allPos_posEnv r : allPos r -> posEnv r.
  Proof. intros H n. apply H. Qed.
  Lemma allPos_nonzero r : allPos r -> nonzero r.
  Proof. intros H n p. specialize (H n p). lra. Qed.
  Lemma derivOf_deriv e t x d p q r : derivOf e t x d p q -> allPos r -> someDeriv r t e (polyV r q).
  Proof.
    intros H Hr. destruct (derivOf_value e t x d p q r H (allPos_posEnv r Hr) (allPos_nonzero r Hr)) as (v & V & D).
    destruct H as (_ & _ & -> & -> & _ & _ & Vp & _). rewrite polyE_value in V by exact Hr. injection V as <-.
    eapply hasDeriv_near; [|exact D]. destruct (near_pos (symV r t) (Hr _ _)) as (dl & P & N). exists dl. split; [exact P|].
    intros s Hs. pose proof (upd_allPos r t s Hr (N s Hs)) as A. now rewrite polyE_value, Vp.
  Qed.
  Theorem diff_deriv e t x d r : laurent e -> (degreeBound e < B)%Z -> expandsTo Y e x -> diffsTo Y x t d -> allPos r ->
    exists v, eval r d = Some v /\ someDeriv r t e v.
  Proof.
    intros L D E Ed Hr. destruct (deriv_is e t x d L D E Ed) as (p & q & H). exists (polyV r q). split; [|eapply derivOf_deriv; eauto].
    destruct H as (_ & _ & _ & -> & _). now apply polyE_value.
  Qed.
  Theorem diff_formal e t x d : laurent e -> (degreeBound e < B)%Z -> expandsTo Y e x -> diffsTo Y x t d ->
    exists p q, polyOK p /\ polyOK q /\ x = polyE p /\ d = polyE q /\ forall r, allPos r -> polyV r q = polyV r (derivPoly t p).
  Proof. intros L D E Ed. destruct (deriv_is e t x d L D E Ed) as (p & q & O & O' & ? & ? & _ & _ & _ & V & _). exists p, q. auto 6. Qed.

  (** Two derivatives are equal if the functions have the same derivative. *)
  Lemma deriv_equal e e' t t' x x' d d' p p' q q' : derivOf e t x d p q -> derivOf e' t' x' d' p' q' ->
    (forall r, allPos r -> polyV r q = polyV r q') -> d = d'.
  Proof. intros (_ & O & _ & -> & _) (_ & O' & _ & -> & _) H. now rewrite (poly_unique q q' O O' H). Qed.

  (** The order of differentiation doesn't matter. *)
  Theorem diff_commutes e s t x ds dt dst dts : laurent e -> (degreeBound e + 1 < B)%Z -> expandsTo Y e x ->
    diffsTo Y x s ds -> diffsTo Y ds t dst -> diffsTo Y x t dt -> diffsTo Y dt s dts -> dst = dts.
  Proof.
    intros L D E Es Est Et Ets. destruct (deriv_is e s x ds L ltac:(lia) E Es) as (p & q & H). destruct (deriv_is e t x dt L ltac:(lia) E Et) as (p' & q' & H').
    assert (X : forall u d a b c f, derivOf e u x d a b -> diffsTo Y d c f -> exists g, polyOK g /\ f = polyE g /\ forall r, allPos r -> polyV r g = polyV r (derivPoly c b)).
    { intros u d a b c f (_ & Ob & _ & -> & _ & Db & _) Ef.
      destruct (deriv_is (polyE b) c (polyE b) f) as (a' & g & (Oa & Og & Ea & -> & _ & _ & _ & Vg & _)); auto.
      - now apply polyE_laurent.
      - rewrite polyE_degree. lia.
      - apply (polyE_expanded_ev Y B Hlt); [exact Ob|]. eapply pdeg_le; [|apply polyDeg_pdeg]. lia.
      - apply polyE_inj in Ea as <-; auto. eauto. }
    destruct (X s ds p q t dst H Est) as (g & Og & -> & Vg). destruct (X t dt p' q' s dts H' Ets) as (g' & Og' & -> & Vg').
    destruct H as (Op & Oq & -> & _ & _ & _ & _ & Vq & _). destruct H' as (Op' & Oq' & Ep & _ & _ & _ & _ & Vq' & _).
    apply polyE_inj in Ep as <-; auto. f_equal. apply poly_unique; auto. intros r Hr. rewrite Vg, Vg' by exact Hr.
    rewrite (deriv_same q (derivPoly s p) t); auto; [|now apply polyOK_keys | now apply derivPoly_keys, polyOK_keys].
    rewrite (deriv_same q' (derivPoly t p) s); auto; [|now apply polyOK_keys | now apply derivPoly_keys, polyOK_keys].
    apply deriv_commute; auto. now apply polyOK_keys.
  Qed.

  (** The rules for sums and products. *)
  Lemma derivOf_val e t x d p q r : derivOf e t x d p q -> allPos r -> valDeriv r t (fun r => polyV r p) (polyV r q).
  Proof. intros (O & _ & _ & _ & _ & _ & _ & V & _) Hr. rewrite V by exact Hr. apply poly_deriv; [exact Hr | now apply polyOK_keys]. Qed.
  Theorem diff_sum e1 e2 t x1 x2 x d1 d2 d : laurent e1 -> laurent e2 -> (degreeBound e1 < B)%Z -> (degreeBound e2 < B)%Z ->
    expandsTo Y e1 x1 -> expandsTo Y e2 x2 -> expandsTo Y (Sum [e1; e2]) x -> diffsTo Y x1 t d1 -> diffsTo Y x2 t d2 -> diffsTo Y x t d ->
    sumsTo Y [d1; d2] d.
  Proof.
    intros L1 L2 D1 D2 E1 E2 E F1 F2 F.
    assert (L : laurent (Sum [e1; e2])) by (apply l_sum; [discriminate|]; intros y [<-|[<-|[]]]; assumption).
    assert (D : (degreeBound (Sum [e1; e2]) < B)%Z) by (cbn [degreeBound fold_right]; pose proof (degree_nonneg e1 L1); lia).
    destruct (deriv_is _ t x1 d1 L1 D1 E1 F1) as (p1 & q1 & H1). destruct (deriv_is _ t x2 d2 L2 D2 E2 F2) as (p2 & q2 & H2).
    destruct (deriv_is _ t x d L D E F) as (p & q & H).
    pose proof (fun r => derivOf_val _ _ _ _ _ _ r H1) as V1. pose proof (fun r => derivOf_val _ _ _ _ _ _ r H2) as V2. pose proof (fun r => derivOf_val _ _ _ _ _ _ r H) as V.
    destruct H1 as (_ & O1 & _ & -> & _ & G1 & W1 & _). destruct H2 as (_ & O2 & _ & -> & _ & G2 & W2 & _). destruct H as (_ & O & _ & -> & _ & _ & W & _).
    destruct (sum_of_polys Y B Hlt [q1; q2]) as (s & Os & _ & Vs & Es).
    { discriminate. }
    { repeat (constructor; auto). }
    { repeat constructor; (eapply pdeg_le; [|apply polyDeg_pdeg]; lia). }
    assert (q = s) as ->; [|exact Es]. apply poly_unique; auto. intros r Hr.
    specialize (Vs r Hr). rewrite sumVal_polys in Vs by exact Hr. injection Vs as <-. cbn [polysV fold_right].
    eapply hasDeriv_unique; [apply (V r Hr)|]. replace (polyV r q1 + (polyV r q2 + 0)) with (polyV r q1 + polyV r q2) by ring.
    pose proof (hd_plus _ _ _ _ _ (V1 r Hr) (V2 r Hr)) as S. apply (valDeriv_ext r t (fun r => polyV r p1 + polyV r p2) (fun r => polyV r p)); [exact Hr| |exact S].
    intros r' Hr'. specialize (W r' Hr'). cbn [eval fold_right] in W. rewrite (W1 r' Hr'), (W2 r' Hr') in W. cbn in W. injection W as <-. ring.
  Qed.
  Theorem diff_product e1 e2 t x1 x2 x d1 d2 d : laurent e1 -> laurent e2 -> (degreeBound e1 + degreeBound e2 < B)%Z ->
    expandsTo Y e1 x1 -> expandsTo Y e2 x2 -> expandsTo Y (Prod [e1; e2]) x -> diffsTo Y x1 t d1 -> diffsTo Y x2 t d2 -> diffsTo Y x t d ->
    expandsTo Y (Sum [Prod [d1; e2]; Prod [e1; d2]]) d.
  Proof.
    intros L1 L2 D12 E1 E2 E F1 F2 F. pose proof (degree_nonneg e1 L1) as N1. pose proof (degree_nonneg e2 L2) as N2.
    assert (L : laurent (Prod [e1; e2])) by (apply l_prod; [discriminate|]; intros y [<-|[<-|[]]]; assumption).
    assert (D : (degreeBound (Prod [e1; e2]) < B)%Z) by (cbn [degreeBound fold_right]; lia).
    destruct (deriv_is _ t x1 d1 L1 ltac:(lia) E1 F1) as (p1 & q1 & H1). destruct (deriv_is _ t x2 d2 L2 ltac:(lia) E2 F2) as (p2 & q2 & H2).
    destruct (deriv_is _ t x d L D E F) as (p & q & H).
    pose proof (fun r => derivOf_val _ _ _ _ _ _ r H1) as V1. pose proof (fun r => derivOf_val _ _ _ _ _ _ r H2) as V2. pose proof (fun r => derivOf_val _ _ _ _ _ _ r H) as V.
    destruct H1 as (_ & O1 & _ & -> & _ & G1 & W1 & _). destruct H2 as (_ & O2 & _ & -> & _ & G2 & W2 & _). destruct H as (_ & O & _ & -> & _ & _ & W & _).
    set (g := Sum [Prod [polyE q1; e2]; Prod [e1; polyE q2]]).
    destruct (normalForm Y B Hlt g) as (s & Hs).
    { apply l_sum; [discriminate|]. intros y [<-|[<-|[]]]; (apply l_prod; [discriminate|]); intros z [<-|[<-|[]]]; auto; now apply polyE_laurent. }
    { cbn [g degreeBound fold_right]. rewrite !polyE_degree. lia. }
    assert (q = s) as ->; [|now apply (normal_expandsTo Y B)]. destruct Hs as (Os & _ & Vs & _). apply poly_unique; auto. intros r Hr.
    specialize (Vs r Hr). cbn [g eval fold_right] in Vs. rewrite !polyE_value in Vs by exact Hr. rewrite (W1 r Hr), (W2 r Hr) in Vs. cbn in Vs. injection Vs as <-.
    eapply hasDeriv_unique; [apply (V r Hr)|].
    assert (A : forall p, polyV (upd r (fst t) (snd t) (symV r t)) p = polyV r p) by (intros; apply polyV_ext, upd_same).
    pose proof (hd_mult _ _ _ _ _ (polyV r p1) (polyV r p2) (V1 r Hr) (V2 r Hr) (f_equal Some (A p1)) (f_equal Some (A p2))) as S.
    apply (valDeriv_ext r t (fun r => polyV r p1 * polyV r p2) (fun r => polyV r p)); [exact Hr| |].
    - intros r' Hr'. specialize (W r' Hr'). cbn [eval fold_right] in W. rewrite (W1 r' Hr'), (W2 r' Hr') in W. cbn in W. injection W as <-. ring.
    - eapply hd_eq; [exact S|]. ring.
  Qed.

  (** The derivative is zero if and only if the symbol doesn't occur. *)
  Theorem diff_zero e t x d : laurent e -> (degreeBound e < B)%Z -> expandsTo Y e x -> diffsTo Y x t d ->
    (d = zero <-> mentions (fst t) (snd t) x = false).
  Proof.
    intros L D E Ed. destruct (deriv_is e t x d L D E Ed) as (p & q & (O & Oq & -> & -> & _ & _ & _ & V & _)). rewrite mentions_polyE. split.
    - intros H. assert (q = []) as -> by (apply polyE_inj; auto; apply polyOK_nil). intros m Hm. apply (euler_zero t p O); [|exact Hm].
      intros r Hr. rewrite <- (V r Hr). reflexivity.
    - intros H. assert (q = []) as ->; [|reflexivity]. apply poly_unique; [exact Oq | apply polyOK_nil|]. intros r Hr. rewrite V by exact Hr.
      change (polyV r []) with 0. destruct O as [O _]. clear -O H Hr. induction O as [|m p Om _ IH]; [reflexivity|]. cbn [derivPoly map]. rewrite polyV_cons.
      fold (derivPoly t p). rewrite IH by (intros; apply H; now right). rewrite deriv_mono_V by auto.
      rewrite exponentOf_kget, kget_notin by (apply H; now left). unfold Rdiv. ring.
  Qed.
End Api.
