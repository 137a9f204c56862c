(** Polynomials as polynomials in one symbol: degrees and coefficients of normal forms. *)
From Verif Require Import LaurentSpec LaurentOrder LaurentProd LaurentIdent LaurentSum LaurentExpand LaurentMain LaurentApi RingPos ExprProofs NumberProofs World RPow.
From Coq Require Import Lia Lra Bool Permutation Classical_Prop Sorted.
From Verif Require Import Run LaurentSpec.
Open Scope Z_scope.

Definition dropSym (t : sym) (k : key) : key := filter (fun f => if sym_dec (fst f) t then false else true) k.
Definition degIn (t : sym) (p : poly) : Z := fold_right (fun m a => Z.max (kget (snd m) t) a) 0 p.
Definition cTerms (t : sym) (r : env) (p : poly) : list term :=
  map (fun m => ((Q2R (fst m) * keyV r (dropSym t (snd m)))%R, kget (snd m) t)) p.
Definition coefV (t : sym) (i : Z) (r : env) (p : poly) : R := coefAt i (cTerms t r p).
Definition atDeg (t : sym) (i : Z) (p : poly) : poly := filter (fun m => kget (snd m) t =? i) p.
Definition offDeg (t : sym) (i : Z) (p : poly) : poly := filter (fun m => negb (kget (snd m) t =? i)) p.
Definition symV (r : env) (t : sym) : R := r (fst t) (snd t).
Definition updS (r : env) (t : sym) (T : R) : env := fun n p => if sym_dec (n, p) t then T else r n p.

Lemma updS_same r t T : symV (updS r t T) t = T.
Proof. unfold symV, updS. rewrite <- surjective_pairing. destruct (sym_dec t t); congruence. Qed.
Lemma updS_other r t T s : s <> t -> symV (updS r t T) s = symV r s.
Proof. intros N. unfold symV, updS. rewrite <- surjective_pairing. destruct (sym_dec s t); congruence. Qed.
Lemma updS_pos r t T : allPos r -> (0 < T)%R -> allPos (updS r t T).
Proof. intros Hr HT n p. unfold updS. destruct (sym_dec _ _); auto. Qed.
Lemma updS_id r t : forall n p, updS r t (symV r t) n p = r n p.
Proof. intros n p. unfold updS, symV. destruct (sym_dec (n, p) t) as [<-|]; reflexivity. Qed.

Lemma keyV_ext r r' k : (forall s, In s (map fst k) -> symV r s = symV r' s) -> keyV r k = keyV r' k.
Proof.
  intros H. unfold keyV. induction k as [|f k IH]; [reflexivity|]. cbn [fold_right]. rewrite IH by (intros; apply H; now right). f_equal.
  unfold facV. f_equal. apply (H (fst f)). now left.
Qed.
Lemma keyV_cons r f k : keyV r (f :: k) = (facV r f * keyV r k)%R.
Proof. reflexivity. Qed.
Lemma kget_cons f k t : kget (f :: k) t = (if sym_dec (fst f) t then snd f else 0) + kget k t.
Proof. reflexivity. Qed.
Lemma keyV_split r t k : allPos r -> keyV r k = (powerRZ (symV r t) (kget k t) * keyV r (dropSym t k))%R.
Proof.
  intros Hr. assert (N : symV r t <> 0%R) by (unfold symV; pose proof (Hr (fst t) (snd t)); lra).
  induction k as [|f k IH]; [cbn; ring|]. rewrite keyV_cons, kget_cons. cbn [dropSym filter]. fold (dropSym t k).
  destruct (sym_dec (fst f) t) as [E|E].
  - rewrite powerRZ_add by exact N. rewrite IH. unfold facV. rewrite E. fold (symV r t). ring.
  - rewrite keyV_cons, IH, Z.add_0_l. ring.
Qed.
Lemma dropSym_in t k s : In s (map fst (dropSym t k)) -> s <> t /\ In s (map fst k).
Proof.
  intros H. apply in_map_iff in H as (f & <- & H). apply filter_In in H as [H E]. destruct (sym_dec (fst f) t); [discriminate|].
  split; [assumption | now apply in_map].
Qed.
Lemma monoV_split r t m : allPos r -> monoV r m = (Q2R (fst m) * keyV r (dropSym t (snd m)) * powerRZ (symV r t) (kget (snd m) t))%R.
Proof. intros Hr. unfold monoV. rewrite (keyV_split r t) by exact Hr. ring. Qed.
Lemma polyV_terms r t p : allPos r -> polyV r p = uV (symV r t) (cTerms t r p).
Proof.
  intros Hr. unfold polyV, uV, cTerms. induction p as [|m p IH]; cbn [map fold_right fst snd]; [reflexivity|].
  rewrite IH, (monoV_split r t) by exact Hr. ring.
Qed.
Lemma cTerms_upd r t T p : cTerms t (updS r t T) p = cTerms t r p.
Proof.
  unfold cTerms. apply map_ext. intros m. f_equal. f_equal. apply keyV_ext. intros s Hs. apply dropSym_in in Hs as [N _]. now apply updS_other.
Qed.
Lemma polyV_upd r t T p : allPos r -> (0 < T)%R -> polyV (updS r t T) p = uV T (cTerms t r p).
Proof. intros Hr HT. rewrite (polyV_terms _ t) by now apply updS_pos. now rewrite updS_same, cTerms_upd. Qed.

(** A part of a normal form is a normal form. *)
Lemma filter_polyOK b p : polyOK p -> polyOK (filter b p).
Proof.
  intros [O S]. split; [now apply incl_Forall with (2 := O), incl_filter|].
  clear O. induction S as [|m p S IH F]; cbn [filter]; [constructor|]. destruct (b m); [|exact IH]. constructor; [exact IH|]. now apply incl_Forall with (2 := F), incl_filter.
Qed.
Lemma filter_posPoly b p : posPoly p -> posPoly (filter b p).
Proof. intros H. unfold posPoly in *. now apply incl_Forall with (2 := H), incl_filter. Qed.
Lemma polyDeg_incl p q : incl (map snd p) (map snd q) -> polyDeg p <= polyDeg q.
Proof.
  intros H. apply pdeg_polyDeg; [apply polyDeg_nonneg|]. apply Forall_forall. intros m Hm. assert (I : In (snd m) (map snd q)) by now apply H, in_map.
  apply in_map_iff in I as (n & <- & Hn). pose proof (polyDeg_pdeg q) as P. unfold pdeg in P. rewrite Forall_forall in P. now apply P.
Qed.
Lemma filter_polyDeg b p : polyDeg (filter b p) <= polyDeg p.
Proof. apply polyDeg_incl. apply incl_map, incl_filter. Qed.

Lemma at_off_V r t i p : polyV r p = (polyV r (atDeg t i p) + polyV r (offDeg t i p))%R.
Proof.
  induction p as [|m p IH]; [cbn; ring|]. rewrite polyV_cons, IH. unfold atDeg, offDeg. cbn [filter].
  destruct (kget (snd m) t =? i); cbn [negb]; rewrite polyV_cons; ring.
Qed.
Lemma atDeg_V r t i p : allPos r -> polyV r (atDeg t i p) = (coefV t i r p * powerRZ (symV r t) i)%R.
Proof.
  intros Hr. unfold coefV, cTerms, coefAt. induction p as [|m p IH]; [cbn; ring|]. unfold atDeg in *. cbn [filter map fold_right fst snd].
  destruct (Z.eqb_spec (kget (snd m) t) i) as [E|E].
  - rewrite polyV_cons, IH, (monoV_split r t) by exact Hr. destruct (Z.eq_dec _ _); [|contradiction]. rewrite E. ring.
  - rewrite IH. destruct (Z.eq_dec _ _); [contradiction|]. ring.
Qed.
Lemma coefV_upd t i r T p : coefV t i (updS r t T) p = coefV t i r p.
Proof. unfold coefV. now rewrite cTerms_upd. Qed.

Lemma kget_nonneg k t : posKey k -> 0 <= kget k t.
Proof. induction 1 as [|f k Hf _ IH]; [cbn; lia|]. rewrite kget_cons. destruct (sym_dec _ _); lia. Qed.
Lemma degIn_nonneg t p : 0 <= degIn t p.
Proof. induction p as [|m p IH]; cbn [degIn fold_right]; [lia|]. unfold degIn in IH. lia. Qed.
Lemma degIn_ge t p m : In m p -> kget (snd m) t <= degIn t p.
Proof. induction p as [|n p IH]; intros H; [destruct H|]. cbn [degIn fold_right]. unfold degIn in IH. destruct H as [->|H]; [lia | specialize (IH H); lia]. Qed.
Lemma degIn_attained t p : posPoly p -> p <> [] -> exists m, In m p /\ kget (snd m) t = degIn t p.
Proof.
  intros P. induction p as [|n p IH]; [congruence|]. intros _. unfold posPoly in P. inversion P as [|? ? Pn Pp]; subst.
  pose proof (kget_nonneg (snd n) t Pn) as N. cbn [degIn fold_right]. fold (degIn t p). destruct p as [|m p].
  - exists n. split; [now left|]. cbn. lia.
  - destruct IH as (x & Hx & Ex); [exact Pp | discriminate|]. destruct (Z_le_gt_dec (degIn t (m :: p)) (kget (snd n) t)).
    + exists n. split; [now left | lia].
    + exists x. split; [now right | lia].
Qed.
Lemma degIn_le t p d : 0 <= d -> (forall m, In m p -> kget (snd m) t <= d) -> degIn t p <= d.
Proof. intros H0 H. induction p as [|m p IH]; cbn [degIn fold_right]; [exact H0|]. assert (degIn t p <= d) by (apply IH; intros; apply H; now right). unfold degIn in *. specialize (H m (or_introl eq_refl)). lia. Qed.
Lemma degIn_polyDeg t p : degIn t p <= polyDeg p.
Proof.
  apply degIn_le; [apply polyDeg_nonneg|]. intros m Hm. pose proof (polyDeg_pdeg p) as P. unfold pdeg in P. rewrite Forall_forall in P.
  specialize (P m Hm). pose proof (kget_deg (snd m) t). lia.
Qed.
Lemma cTerms_le t r p u : In u (cTerms t r p) -> snd u <= degIn t p.
Proof. intros H. apply in_map_iff in H as (m & <- & Hm). now apply degIn_ge. Qed.

(** Not all values of a polynomial are zero. *)
Lemma nonzero_value p : polyOK p -> p <> [] -> exists r, allPos r /\ polyV r p <> 0%R.
Proof.
  intros O N. apply NNPP. intros H. apply N. apply poly_unique; [exact O | apply polyOK_nil|]. intros r Hr. apply NNPP. intros E. apply H. now exists r.
Qed.
Lemma coef_nonzero t i p m : polyOK p -> In m p -> kget (snd m) t = i -> exists r, allPos r /\ coefV t i r p <> 0%R.
Proof.
  intros O Hm E. destruct (nonzero_value (atDeg t i p)) as (r & Hr & N).
  - now apply filter_polyOK.
  - intros A. assert (I : In m (atDeg t i p)) by (apply filter_In; split; [exact Hm | now apply Z.eqb_eq]). rewrite A in I. destruct I.
  - exists r. split; [exact Hr|]. intros C. apply N. rewrite atDeg_V, C by exact Hr. ring.
Qed.

(** Products of polynomials that are not zero are not zero. *)
Lemma mul_nonzero p q s : polyOK p -> polyOK q -> p <> [] -> q <> [] -> (forall r, allPos r -> polyV r s = polyV r p * polyV r q)%R -> s <> [].
Proof.
  intros Op Oq Np Nq H ->. pose (ks := map snd (p ++ q)).
  assert (Ip : forall n, In n p -> In (snd n) ks) by (intros; apply in_map, in_or_app; auto).
  assert (Iq : forall n, In n q -> In (snd n) ks) by (intros; apply in_map, in_or_app; auto).
  assert (E : forall d, coefAt d (uTerms ks []) = coefAt d (uMul (uTerms ks p) (uTerms ks q))).
  { apply same_coefs. intros T HT. rewrite uMul_V by lra. rewrite <- !uTerms_V by assumption. apply H. now apply weightEnv_pos. }
  assert (Top : forall a, polyOK a -> a <> [] -> (forall n, In n a -> In (snd n) ks) ->
    exists D, coefAt D (uTerms ks a) <> 0%R /\ forall t, In t (uTerms ks a) -> (snd t <= D)%Z).
  { clear -ks. intros a Oa La Ia. assert (NE : uTerms ks a <> []) by (destruct a; [congruence | discriminate]).
    destruct (max_exists _ NE) as (t & Ht & Mt). apply in_map_iff in Ht as (m & <- & Hm). cbn [snd] in *. exists (weight ks (snd m)).
    split; [|exact Mt]. rewrite (coef_in ks a) by assumption. destruct Oa as [Oa _]. rewrite Forall_forall in Oa. destruct (Oa m Hm) as (A & C & _). now apply Q2R_nonzero. }
  destruct (Top p Op Np Ip) as (D & C & Bp). destruct (Top q Oq Nq Iq) as (D' & C' & Bq).
  specialize (E (D + D')). rewrite uMul_coef in E by (intros t u Ht Hu; specialize (Bp t Ht); specialize (Bq u Hu); lia).
  change (coefAt (D + D') (uTerms ks [])) with 0%R in E. symmetry in E. apply Rmult_integral in E. tauto.
Qed.

(** ** The product of two polynomials *)
Section Product.
  Variables (t : sym) (p q s : poly).
  Hypothesis H : forall r, allPos r -> (polyV r s = polyV r p * polyV r q)%R.
  Lemma mul_coefs r d : allPos r -> coefV t d r s = coefAt d (uMul (cTerms t r p) (cTerms t r q)).
  Proof.
    intros Hr. apply same_coefs. intros T HT. rewrite uMul_V by lra. rewrite <- !polyV_upd by (assumption || lra).
    apply H. apply updS_pos; [exact Hr | lra].
  Qed.
  Lemma mul_lead r : allPos r -> coefV t (degIn t p + degIn t q) r s = (coefV t (degIn t p) r p * coefV t (degIn t q) r q)%R.
  Proof.
    intros Hr. rewrite mul_coefs by exact Hr. apply uMul_coef. intros a b Ha Hb. apply cTerms_le in Ha, Hb. lia.
  Qed.
  Lemma mul_above r d : allPos r -> degIn t p + degIn t q < d -> coefV t d r s = 0%R.
  Proof.
    intros Hr Hd. rewrite mul_coefs by exact Hr. apply coefAt_none. intros a Ha. apply in_flat_map in Ha as (x & Hx & Ha). apply in_map_iff in Ha as (y & <- & Hy).
    apply cTerms_le in Hx, Hy. cbn [snd]. lia.
  Qed.
  Hypotheses (Op : polyOK p) (Oq : polyOK q) (Os : polyOK s) (Pp : posPoly p) (Pq : posPoly q) (Np : p <> []) (Nq : q <> []).
  Lemma mul_degIn : degIn t s = degIn t p + degIn t q.
  Proof.
    pose proof (degIn_nonneg t p). pose proof (degIn_nonneg t q). apply Z.le_antisymm.
    - apply degIn_le; [lia|]. intros m Hm. destruct (Z_le_gt_dec (kget (snd m) t) (degIn t p + degIn t q)) as [|G]; [assumption|].
      destruct (coef_nonzero t _ s m Os Hm eq_refl) as (r & Hr & C). exfalso. apply C. apply mul_above; [exact Hr | lia].
    - destruct (Z_le_gt_dec (degIn t p + degIn t q) (degIn t s)) as [|G]; [assumption|]. exfalso.
      destruct (degIn_attained t p Pp Np) as (m & Hm & Em), (degIn_attained t q Pq Nq) as (n & Hn & En).
      apply (mul_nonzero (atDeg t (degIn t p) p) (atDeg t (degIn t q) q) []); [now apply filter_polyOK | now apply filter_polyOK | | | | reflexivity].
      + intros A. assert (I : In m (atDeg t (degIn t p) p)) by (apply filter_In; split; [exact Hm | now apply Z.eqb_eq]). rewrite A in I. destruct I.
      + intros A. assert (I : In n (atDeg t (degIn t q) q)) by (apply filter_In; split; [exact Hn | now apply Z.eqb_eq]). rewrite A in I. destruct I.
      + intros r Hr. rewrite !atDeg_V by exact Hr. pose proof (mul_lead r Hr) as L.
        assert (Z0 : coefV t (degIn t p + degIn t q) r s = 0%R).
        { apply coefAt_none. intros u Hu. apply cTerms_le in Hu. lia. }
        rewrite Z0 in L. change (polyV r []) with 0%R.
        replace (coefV t (degIn t p) r p * powerRZ (symV r t) (degIn t p) * (coefV t (degIn t q) r q * powerRZ (symV r t) (degIn t q)))%R
          with (coefV t (degIn t p) r p * coefV t (degIn t q) r q * (powerRZ (symV r t) (degIn t p) * powerRZ (symV r t) (degIn t q)))%R by ring.
        rewrite <- L. ring.
  Qed.
End Product.

(** ** The coefficients as polynomials *)
Lemma dropSym_OK t k : keyOK k -> keyOK (dropSym t k).
Proof.
  intros [S N]. split; [|now apply incl_Forall with (2 := N), incl_filter]. clear N.
  induction S as [|f k S IH F]; cbn [dropSym filter]; [constructor|]. destruct (sym_dec (fst f) t); [exact IH|]. constructor; [exact IH|].
  now apply incl_Forall with (2 := F), incl_filter.
Qed.
Lemma dropSym_pos t k : posKey k -> posKey (dropSym t k).
Proof. intros H. unfold posKey in *. now apply incl_Forall with (2 := H), incl_filter. Qed.
Lemma dropSym_kdeg t k : posKey k -> kdeg (dropSym t k) + kget k t = kdeg k.
Proof.
  induction 1 as [|f k Hf _ IH]; [reflexivity|]. rewrite kget_cons. cbn [dropSym filter]. fold (dropSym t k).
  destruct (sym_dec (fst f) t); cbn [kdeg fold_right]; unfold kdeg in *; lia.
Qed.
Lemma dropSym_kget_same t k : kget (dropSym t k) t = 0.
Proof. apply kget_notin. intros H. now apply dropSym_in in H as [N _]. Qed.
Lemma dropSym_kget t k s : s <> t -> kget (dropSym t k) s = kget k s.
Proof.
  intros N. induction k as [|f k IH]; [reflexivity|]. cbn [dropSym filter]. fold (dropSym t k). rewrite kget_cons, <- IH.
  destruct (sym_dec (fst f) t) as [E|E]; [|now rewrite kget_cons]. destruct (sym_dec (fst f) s); [congruence | lia].
Qed.
Definition dropT (t : sym) (m : mono) : mono := (fst m, dropSym t (snd m)).
Definition coefL (t : sym) (i : Z) (p : poly) : poly := map (dropT t) (atDeg t i p).
Lemma dropT_OK t m : monoOK m -> monoOK (dropT t m).
Proof. intros (A & B & C). split; [exact A|]. split; [exact B|]. now apply dropSym_OK. Qed.
Lemma coefL_OK t i p : Forall monoOK p -> Forall monoOK (coefL t i p).
Proof. intros H. apply Forall_map. apply incl_Forall with (1 := incl_filter _ p). eapply Forall_impl; [|exact H]. intros m. apply dropT_OK. Qed.
Lemma coefL_pos t i p : posPoly p -> posPoly (coefL t i p).
Proof. intros H. unfold posPoly. apply Forall_map. apply incl_Forall with (1 := incl_filter _ p). eapply Forall_impl; [|exact H]. intros m. apply dropSym_pos. Qed.
Lemma coefL_V t i r p : polyV r (coefL t i p) = coefV t i r p.
Proof.
  unfold coefL, coefV, cTerms, coefAt. induction p as [|m p IH]; [reflexivity|]. unfold atDeg in *. cbn [filter map fold_right fst snd].
  destruct (Z.eqb_spec (kget (snd m) t) i) as [E|E]; destruct (Z.eq_dec _ _); try contradiction.
  - cbn [map]. rewrite polyV_cons, IH. reflexivity.
  - rewrite IH. ring.
Qed.
Lemma coefL_deg t i p : posPoly p -> pdeg (polyDeg p - i) (coefL t i p).
Proof.
  intros P. apply Forall_forall. intros m Hm. apply in_map_iff in Hm as (n & <- & Hn). apply filter_In in Hn as [Hn E]. apply Z.eqb_eq in E.
  unfold posPoly in P. rewrite Forall_forall in P. pose proof (dropSym_kdeg t (snd n) (P n Hn)) as D. pose proof (polyDeg_pdeg p) as Q. unfold pdeg in Q. rewrite Forall_forall in Q.
  specialize (Q n Hn). cbn [dropT snd]. lia.
Qed.

(** Splitting off the leading terms. *)
Lemma split_lead r t p : allPos r -> polyV r p = (coefV t (degIn t p) r p * powerRZ (symV r t) (degIn t p) + polyV r (offDeg t (degIn t p) p))%R.
Proof. intros Hr. rewrite (at_off_V r t (degIn t p)), atDeg_V by exact Hr. reflexivity. Qed.
Lemma offDeg_less t p : posPoly p -> offDeg t (degIn t p) p <> [] -> degIn t (offDeg t (degIn t p) p) < degIn t p.
Proof.
  intros P N. destruct (degIn_attained t (offDeg t (degIn t p) p) (filter_posPoly _ p P) N) as (m & Hm & E). rewrite <- E. clear E N.
  apply filter_In in Hm as [Hm B]. apply negb_true_iff, Z.eqb_neq in B. pose proof (degIn_ge t p m Hm). lia.
Qed.
(** The sum of all coefficients times powers. *)
Fixpoint horner (r : env) (t : sym) (p : poly) (n : nat) : R :=
  match n with O => 0%R | S n' => (horner r t p n' + coefV t (Z.of_nat n') r p * symV r t ^ n')%R end.
Lemma coef_sum r t p n : allPos r -> posPoly p -> degIn t p < Z.of_nat n -> polyV r p = horner r t p n.
Proof.
  intros Hr P D. assert (X : forall k, horner r t p k = polyV r (filter (fun m => kget (snd m) t <? Z.of_nat k) p)).
  { clear D. induction k as [|k IH]; cbn [horner].
    - rewrite filter_none; [reflexivity|]. intros m Hm. apply Z.ltb_ge. unfold posPoly in P. rewrite Forall_forall in P. apply kget_nonneg. auto.
    - rewrite IH. pose proof (atDeg_V r t (Z.of_nat k) p Hr) as A. rewrite <- pow_powerRZ in A. rewrite <- A. clear. induction p as [|m p IHp]; [cbn; ring|].
      unfold atDeg in *. cbn [filter].
      destruct (Z.ltb_spec (kget (snd m) t) (Z.of_nat k)), (Z.eqb_spec (kget (snd m) t) (Z.of_nat k)), (Z.ltb_spec (kget (snd m) t) (Z.of_nat (S k))); try lia; rewrite ?polyV_cons, <- ?IHp; ring. }
  rewrite X, filter_all; [reflexivity|]. intros m Hm. apply Z.ltb_lt. pose proof (degIn_ge t p m Hm). lia.
Qed.
