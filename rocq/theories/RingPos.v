(** The normal form of a polynomial has no negative exponents. *)
From Verif Require Import LaurentSpec LaurentOrder LaurentProd LaurentIdent LaurentSum LaurentExpand LaurentMain LaurentApi RingProd RingSum ExprProofs NumberProofs World RPow.
From Coq Require Import Lia Lra Bool Permutation.
From Verif Require Import Run LaurentSpec.
Open Scope Z_scope.

Definition posKey (k : key) : Prop := Forall (fun f => 0 < snd f) k.
Definition posPoly (p : poly) : Prop := Forall (fun m => posKey (snd m)) p.

Lemma kinsert_pos f k : 0 < snd f -> posKey k -> posKey (kinsert f k).
Proof.
  intros Hf. induction 1 as [|g k Hg Hk IH]; cbn [kinsert]; [repeat constructor; exact Hf|].
  destruct (symEqb _ _).
  - destruct (_ =? 0); [exact Hk|]. constructor; [cbn [snd]; lia | exact Hk].
  - destruct (symLtb _ _); constructor; auto; now constructor.
Qed.

(** ** Multiplication of monomials *)
Definition mmul (m n : mono) : mono := minsert (AN (fst m)) (fold_right (fun f x => minsert (AF f) x) n (snd m)).
Lemma mmul_OK m n : monoOK m -> monoOK n -> monoOK (mmul m n).
Proof.
  intros (C & N & S & K) On. apply minsert_OK; [split; assumption|]. clear S. induction K as [|f k Hf _ IH]; cbn [fold_right]; [exact On|]. now apply minsert_OK.
Qed.
Lemma mmul_V r m n : allPos r -> (monoV r (mmul m n) = monoV r m * monoV r n)%R.
Proof.
  intros Hr. unfold mmul. rewrite minsert_V by assumption. destruct m as [c k]; cbn [fst snd atomV]. unfold monoV at 2; cbn [fst snd]. rewrite Rmult_assoc. f_equal.
  induction k as [|f k IH]; cbn [fold_right keyV]; [ring|]. rewrite minsert_V by assumption. rewrite IH. cbn [atomV]. unfold keyV. ring.
Qed.
Lemma mmul_pos m n : posKey (snd m) -> posKey (snd n) -> posKey (snd (mmul m n)).
Proof.
  intros Hm Hn. unfold mmul, minsert at 1; cbn [snd]. induction Hm as [|f k Hf _ IH]; cbn [fold_right]; [exact Hn|].
  cbn [minsert snd]. now apply kinsert_pos.
Qed.

Section Pos.
  (** A library whose comparison is right. *)
  Variable Y0 : sys.
  Definition exactSys : sys := mkSys (sD Y0) (s_fl Y0) (s_limit Y0) qltb (s_cst Y0) (s_add Y0) (s_mul Y0) (s_pow Y0) (s_fct Y0) (s_atan2 Y0) (s_lt Y0) (s_eq Y0).
  Lemma exactSys_ok B : exactUpTo B (s_nlt exactSys).
  Proof. intros a b _ _. cbn. unfold qltb. cbn. now rewrite !Z.mul_1_r. Qed.

  Lemma collect l : Forall monoOK l -> posPoly l -> exists s, polyOK s /\ posPoly s /\ forall r, allPos r -> polyV r s = polyV r l.
  Proof.
    intros O P. assert (D : l = [] \/ l <> []) by (destruct l; [now left | now right]). destruct D as [->|D].
    { exists []. split; [apply polyOK_nil|]. split; [constructor | reflexivity]. }
    destruct (sum_monos_ev exactSys (polyDeg l) (exactSys_ok _) l) as (s & Os & Vs & Is & _); [exact D | exact O | apply polyDeg_pdeg|].
    exists s. split; [exact Os|]. split; [|intros r _; apply Vs]. apply Forall_forall. intros n Hn. unfold posPoly in P. rewrite Forall_forall in P.
    apply (in_map snd) in Hn. apply Is in Hn. apply in_map_iff in Hn as (n' & E' & Hn'). rewrite <- E'. now apply P.
  Qed.

  (** Functions of the symbols that are given by a polynomial. *)
  Definition isPoly (v : env -> R) : Prop := exists s, polyOK s /\ posPoly s /\ forall r, allPos r -> polyV r s = v r.
  Lemma polyV_app r p q : (polyV r (p ++ q) = polyV r p + polyV r q)%R.
  Proof. induction p as [|m p IH]; cbn [app]; [change (polyV r []) with 0%R; ring|]. rewrite !polyV_cons, IH. ring. Qed.
  Lemma isPoly_sum v w : isPoly v -> isPoly w -> isPoly (fun r => v r + w r)%R.
  Proof.
    intros (s & Os & Ps & Vs) (t & Ot & Pt & Vt). destruct (collect (s ++ t)) as (u & Ou & Pu & Vu).
    - apply Forall_app. split; [apply Os | apply Ot].
    - apply Forall_app. split; assumption.
    - exists u. split; [exact Ou|]. split; [exact Pu|]. intros r Hr. rewrite Vu, polyV_app, Vs, Vt by assumption. reflexivity.
  Qed.
  Lemma isPoly_prod v w : isPoly v -> isPoly w -> isPoly (fun r => v r * w r)%R.
  Proof.
    intros (s & Os & Ps & Vs) (t & Ot & Pt & Vt). destruct (collect (flat_map (fun m => map (mmul m) t) s)) as (u & Ou & Pu & Vu).
    - apply Forall_forall. intros x Hx. apply in_flat_map in Hx as (m & Hm & Hx). apply in_map_iff in Hx as (n & <- & Hn).
      destruct Os as [Os _], Ot as [Ot _]. rewrite Forall_forall in Os, Ot. auto using mmul_OK.
    - apply Forall_forall. intros x Hx. apply in_flat_map in Hx as (m & Hm & Hx). apply in_map_iff in Hx as (n & <- & Hn).
      unfold posPoly in *. rewrite Forall_forall in Ps, Pt. auto using mmul_pos.
    - exists u. split; [exact Ou|]. split; [exact Pu|]. intros r Hr. rewrite Vu by assumption. rewrite <- Vs, <- Vt by assumption. clear -Hr.
      induction s as [|m s IH]; cbn [flat_map]; [change (polyV r []) with 0%R; ring|]. rewrite polyV_app, IH, polyV_cons.
      replace (polyV r (map (mmul m) t)) with (monoV r m * polyV r t)%R; [ring|]. clear -Hr.
      induction t as [|n t IHt]; cbn [map]; [change (polyV r []) with 0%R; ring|]. rewrite !polyV_cons, <- IHt. rewrite mmul_V by exact Hr. ring.
  Qed.
  Lemma isPoly_ext v w : (forall r, allPos r -> v r = w r) -> isPoly v -> isPoly w.
  Proof. intros H (s & O & P & V). exists s. split; [exact O|]. split; [exact P|]. intros r Hr. now rewrite V, H. Qed.
  Lemma isPoly_const q : canon q -> isPoly (fun _ => Q2R q).
  Proof.
    intros C. destruct (qeqb q 0) eqn:E.
    - apply qeqb_eq in E as ->. exists []. split; [apply polyOK_nil|]. split; [constructor|]. intros r _. now rewrite Q2R_0.
    - apply qeqb_neq in E. exists [(q, [])]. split; [apply mono_polyOK; split; [exact C | split; [exact E | apply keyOK_nil]]|]. split; [repeat constructor|].
      intros r _. rewrite polyV_cons. change (polyV r []) with 0%R. unfold monoV, keyV; cbn. ring.
  Qed.
  Lemma isPoly_sym n p : isPoly (fun r => r n p).
  Proof.
    exists [(1%Q, [((n, p), 1)])]. split; [apply mono_polyOK; split; [apply canon_1 | split; [discriminate | apply keyOK_one; discriminate]]|].
    split; [repeat constructor|]. intros r _. rewrite polyV_cons. change (polyV r []) with 0%R. unfold monoV, keyV, facV; cbn [fst snd fold_right]. rewrite Q2R_1, powerRZ_1. ring.
  Qed.
  Lemma isPoly_pow v n : isPoly v -> isPoly (fun r => v r ^ n)%R.
  Proof.
    intros H. induction n as [|n IH]; cbn [pow]; [|now apply isPoly_prod].
    apply isPoly_ext with (2 := isPoly_const 1 canon_1). intros r _. now rewrite Q2R_1.
  Qed.

  Definition polyExpr (e : expr) : Prop := exists v, isPoly v /\ forall r, allPos r -> eval r e = Some (v r).
  Lemma polyExpr_sum l : (forall x, In x l -> polyExpr x) -> polyExpr (Sum l).
  Proof.
    induction l as [|x l IH]; intros H.
    - exists (fun _ => Q2R 0). split; [apply isPoly_const, canon_0|]. intros r _. cbn [eval fold_right]. now rewrite Q2R_0.
    - destruct (H x) as (v & Pv & Vv); [now left|]. destruct IH as (w & Pw & Vw); [intros; apply H; now right|].
      exists (fun r => v r + w r)%R. split; [now apply isPoly_sum|]. intros r Hr. specialize (Vv r Hr). specialize (Vw r Hr). cbn [eval fold_right] in *. now rewrite Vv, Vw.
  Qed.
  Lemma polyExpr_prod l : (forall x, In x l -> polyExpr x) -> polyExpr (Prod l).
  Proof.
    induction l as [|x l IH]; intros H.
    - exists (fun _ => Q2R 1). split; [apply isPoly_const, canon_1|]. intros r _. cbn [eval fold_right]. now rewrite Q2R_1.
    - destruct (H x) as (v & Pv & Vv); [now left|]. destruct IH as (w & Pw & Vw); [intros; apply H; now right|].
      exists (fun r => v r * w r)%R. split; [now apply isPoly_prod|]. intros r Hr. specialize (Vv r Hr). specialize (Vw r Hr). cbn [eval fold_right] in *. now rewrite Vv, Vw.
  Qed.
  Lemma ring_polyExpr e : ring e -> polyExpr e.
  Proof.
    induction 1 as [q C|n p|b n Hb Rb IH Hn|l L H IH NP N NE|l L H IH NS N].
    - exists (fun _ => Q2R q). split; [now apply isPoly_const | reflexivity].
    - exists (fun r => r n p). split; [apply isPoly_sym | reflexivity].
    - destruct IH as (v & Pv & Vv). exists (fun r => v r ^ Z.to_nat n)%R. split; [now apply isPoly_pow|]. intros r Hr.
      cbn [eval]. rewrite Vv, Q2R_ofZ by assumption. rewrite rpow_intnn by lia. f_equal. rewrite pow_powerRZ. f_equal. lia.
    - now apply polyExpr_prod.
    - now apply polyExpr_sum.
  Qed.
  Lemma normal_pos e p : polyExpr e -> polyOK p -> (forall r, allPos r -> eval r e = Some (polyV r p)) -> posPoly p.
  Proof.
    intros (v & (s & Os & Ps & Vs) & Ve) Op Vp. assert (p = s) as ->; [|exact Ps]. apply poly_unique; auto.
    intros r Hr. rewrite Vs by assumption. specialize (Ve r Hr). rewrite Vp in Ve by assumption. congruence.
  Qed.
End Pos.

(** ** Normal forms of polynomials *)
Definition gfOf (f : fac) : gf := GF (symE (fst f)) (snd f).
Lemma gfOf_E f : gfE (gfOf f) = facE f.
Proof. reflexivity. Qed.
Lemma gfOf_OK f : 0 < snd f -> gfOK 1 (gfOf f).
Proof. intros H. repeat split; [constructor | cbn; lia | lia]. Qed.
Definition gfsOf (m : mono) : list gf := (if qeqb (fst m) 1 then [] else [GN (fst m)]) ++ map gfOf (snd m).
Lemma gfsOf_E m : map gfE (gfsOf m) = factorsE m.
Proof. unfold gfsOf, factorsE. rewrite map_app, map_map. destruct (qeqb _ _); reflexivity. Qed.
Lemma gfsOf_OK m : monoOK m -> posKey (snd m) -> Forall (gfOK 1) (gfsOf m).
Proof.
  intros (C & _) P. unfold gfsOf. apply Forall_app. split; [destruct (qeqb _ _); repeat constructor; exact C|].
  apply Forall_map. eapply Forall_impl; [|exact P]. apply gfOf_OK.
Qed.
Lemma gfs_nums k : nums (map gfOf k) = 0%nat.
Proof. induction k as [|f k IH]; [reflexivity|]. cbn [map]. rewrite nums_cons. exact IH. Qed.
Lemma gfs_sum k : wt sum1 (map gfOf k) = 0.
Proof. induction k as [|f k IH]; [reflexivity|]. cbn [map]. rewrite wt_cons, IH. destruct f as [[n p] z]. cbn. destruct z; reflexivity. Qed.
Lemma gfs_deg k : posKey k -> wt degreeBound (map gfOf k) = kdeg k.
Proof. induction 1 as [|f k Hf _ IH]; [reflexivity|]. cbn [map]. rewrite wt_cons, IH. unfold gfOf. cbn [gwt degreeBound symE kdeg fold_right]. unfold kdeg. lia. Qed.
Lemma mono_ring m : monoOK m -> posKey (snd m) -> ring (monoE m) /\ isSum (monoE m) = false /\ degreeBound (monoE m) = kdeg (snd m) /\ (snd m <> [] -> isNumeric (monoE m) = false).
Proof.
  intros O P. pose proof (gfsOf_OK m O P) as G.
  assert (D : wt degreeBound (gfsOf m) = kdeg (snd m)) by (unfold gfsOf; rewrite wt_app, gfs_deg by assumption; destruct (qeqb _ _); cbn; lia).
  destruct (gfsOf m) as [|g l] eqn:E.
  - assert (monoE m = one) as -> by (unfold monoE; rewrite <- gfsOf_E, E; reflexivity).
    split; [apply rg_num, canon_1|]. split; [reflexivity|]. split; [exact D|]. intros N. exfalso. apply N. unfold gfsOf in E. apply app_eq_nil in E as [_ E]. now apply map_eq_nil in E.
  - assert (X : monoE m = tE (g :: l)) by (unfold monoE; rewrite <- gfsOf_E, E; destruct l; reflexivity).
    assert (T : nums l = 0%nat).
    { pose proof (gfs_nums (snd m)) as A. unfold gfsOf in E. destruct (qeqb _ _); cbn [app] in E.
      - rewrite E, nums_cons in A. lia.
      - injection E as _ <-. exact A. }
    assert (S : wt sum1 (g :: l) = 0) by (rewrite <- E; unfold gfsOf; rewrite wt_app, gfs_sum; destruct (qeqb _ _); reflexivity).
    assert (TK : tOK 1 (g :: l)). { split; [exact G|]. split; [discriminate|]. split; [exact T|]. intros [_ S2]. lia. }
    destruct (tOK_ring 1 _ TK) as [R N]. rewrite X. split; [exact R|]. split; [exact N|]. split; [now rewrite (deg_tE 1)|].
    intros Hk. rewrite (tE_numeric 1) by (auto; discriminate). apply Z.eqb_neq. intros Z. apply (wt_num 1) in Z; [|exact G].
    rewrite <- E in Z. unfold gfsOf in Z. rewrite nums_app, app_length, gfs_nums, map_length in Z. destruct (snd m); [congruence|]. destruct (qeqb _ _); cbn in Z; lia.
Qed.
Lemma poly_ring p : polyOK p -> posPoly p -> ring (polyE p) /\ degreeBound (polyE p) <= polyDeg p.
Proof.
  intros O P. destruct p as [|m [|m' p]].
  - split; [apply rg_num, canon_0 | cbn; lia].
  - unfold posPoly in P. inversion P as [|? ? Pm _]; subst. destruct (mono_ring m (polyOK_one _ _ O) Pm) as (R & _ & D & _). change (polyE [m]) with (monoE m).
    split; [exact R|]. rewrite D. unfold polyDeg. cbn [fold_right]. lia.
  - assert (M : forall x, In x (m :: m' :: p) -> monoOK x /\ posKey (snd x)).
    { intros x Hx. destruct O as [O _]. unfold posPoly in P. rewrite Forall_forall in O, P. auto. }
    change (polyE (m :: m' :: p)) with (Sum (map monoE (m :: m' :: p))). split.
    + apply rg_sum.
      * rewrite map_length. cbn. lia.
      * intros x Hx. apply in_map_iff in Hx as (y & <- & Hy). apply M in Hy as [A1 A2]. now apply mono_ring.
      * intros x Hx. apply in_map_iff in Hx as (y & <- & Hy). apply M in Hy as [A1 A2]. now apply mono_ring.
      * intros x Hx. cbn [map tl] in Hx. change (monoE m' :: map monoE p) with (map monoE (m' :: p)) in Hx. apply in_map_iff in Hx as (y & <- & Hy).
        destruct (M y (or_intror Hy)) as [A1 A2]. apply mono_ring; auto.
        pose proof (polyOK_head _ _ O (snd y) (in_map snd _ _ Hy)) as L. intros E. rewrite E in L. unfold keyLt in L. inversion L.
    + remember (m :: m' :: p) as l. clear Heql O P. cbn [degreeBound]. induction l as [|x l IH]; [cbn; lia|].
      cbn [map fold_right]. destruct (M x (or_introl eq_refl)) as [A1 A2]. destruct (mono_ring x A1 A2) as (_ & _ & D & _). rewrite D.
      unfold polyDeg in *. cbn [fold_right]. assert (fold_right (fun x a => Z.max (degreeBound x) a) 0 (map monoE l) <= fold_right (fun m a => Z.max (kdeg (snd m)) a) 0 l) by (apply IH; intros; apply M; now right). lia.
Qed.
