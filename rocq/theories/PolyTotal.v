(** The total degree of a product of polynomials. *)
From Verif Require Import LaurentSpec LaurentOrder LaurentProd LaurentIdent LaurentSum LaurentExpand LaurentMain RingPos LaurentCoeff NumberProofs RPow NumberSpec.
From Coq Require Import Lia Lra Bool.
From Verif Require Import Run LaurentSpec.
Open Scope Z_scope.

(** All symbols multiplied by T. *)
Definition scale (r : env) (T : R) : env := fun n p => (T * r n p)%R.
Lemma scale_pos r T : allPos r -> (0 < T)%R -> allPos (scale r T).
Proof. intros H HT n p. apply Rmult_lt_0_compat; auto. Qed.
Lemma scale_key r T k : (0 < T)%R -> posKey k -> (keyV (scale r T) k = keyV r k * powerRZ T (kdeg k))%R.
Proof.
  intros HT. induction 1 as [|f k Hf _ IH]; [cbn; ring|]. unfold keyV in *. cbn [fold_right kdeg]. fold (kdeg k). rewrite IH. unfold facV, scale.
  rewrite powerRZ_mult. rewrite Z.abs_eq by lia. rewrite powerRZ_add by lra. ring.
Qed.
Definition tTerms (r : env) (p : poly) : list term := map (fun m => (monoV r m, kdeg (snd m))) p.
Definition topV (r : env) (d : Z) (p : poly) : R := coefAt d (tTerms r p).
Definition topP (d : Z) (p : poly) : poly := filter (fun m => kdeg (snd m) =? d) p.
Lemma scale_poly r T p : (0 < T)%R -> posPoly p -> polyV (scale r T) p = uV T (tTerms r p).
Proof.
  intros HT. induction 1 as [|m p Hm _ IH]; [reflexivity|]. rewrite polyV_cons, IH. unfold tTerms. cbn [map uV fold_right fst snd]. unfold monoV. rewrite scale_key by assumption. unfold uV. ring.
Qed.
Lemma topP_V r d p : polyV r (topP d p) = topV r d p.
Proof.
  unfold topV, tTerms, coefAt. induction p as [|m p IH]; [reflexivity|]. unfold topP in *. cbn [filter map fold_right fst snd].
  destruct (Z.eqb_spec (kdeg (snd m)) d); destruct (Z.eq_dec _ _); try contradiction; rewrite ?polyV_cons, IH; ring.
Qed.
Lemma kdeg_le p m : In m p -> kdeg (snd m) <= polyDeg p.
Proof. intros H. pose proof (polyDeg_pdeg p) as P. unfold pdeg in P. rewrite Forall_forall in P. now apply P. Qed.
Lemma tTerms_le r p u : In u (tTerms r p) -> snd u <= polyDeg p.
Proof. intros H. apply in_map_iff in H as (m & <- & Hm). now apply kdeg_le. Qed.
Lemma polyDeg_attained p : p <> [] -> exists m, In m p /\ kdeg (snd m) = polyDeg p.
Proof.
  induction p as [|n p IH]; [congruence|]. intros _. pose proof (kdeg_nonneg (snd n)) as N. cbn [polyDeg fold_right]. fold (polyDeg p). destruct p as [|m p].
  - exists n. split; [now left|]. cbn. lia.
  - destruct IH as (x & Hx & Ex); [discriminate|]. destruct (Z_le_gt_dec (polyDeg (m :: p)) (kdeg (snd n))).
    + exists n. split; [now left | lia].
    + exists x. split; [now right | lia].
Qed.
Lemma topP_nonempty p : p <> [] -> topP (polyDeg p) p <> [].
Proof.
  intros N. destruct (polyDeg_attained p N) as (m & Hm & E). intros A. assert (I : In m (topP (polyDeg p) p)) by (apply filter_In; split; [exact Hm | now apply Z.eqb_eq]).
  rewrite A in I. destruct I.
Qed.

Lemma mul_polyDeg p q s : (forall r, allPos r -> polyV r s = polyV r p * polyV r q)%R -> polyOK p -> polyOK q -> posPoly p -> posPoly q -> posPoly s ->
  p <> [] -> q <> [] -> polyDeg p + polyDeg q <= polyDeg s.
Proof.
  intros H Op Oq Pp Pq Ps Np Nq. destruct (Z_le_gt_dec (polyDeg p + polyDeg q) (polyDeg s)) as [|G]; [assumption|]. exfalso.
  apply (mul_nonzero (topP (polyDeg p) p) (topP (polyDeg q) q) []); [now apply filter_polyOK | now apply filter_polyOK | now apply topP_nonempty | now apply topP_nonempty | | reflexivity].
  intros r Hr. change (polyV r []) with 0%R. rewrite !topP_V.
  assert (E : forall d, coefAt d (tTerms r s) = coefAt d (uMul (tTerms r p) (tTerms r q))).
  { apply same_coefs. intros T HT. rewrite uMul_V by lra. rewrite <- !scale_poly by (assumption || lra). apply H. apply scale_pos; [exact Hr | lra]. }
  specialize (E (polyDeg p + polyDeg q)). rewrite uMul_coef in E by (intros t u Ht Hu; apply tTerms_le in Ht, Hu; lia).
  rewrite coefAt_none in E; [exact E|]. intros t Ht. apply tTerms_le in Ht. lia.
Qed.
