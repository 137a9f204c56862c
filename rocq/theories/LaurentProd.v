(** Products of powers of symbols and rational numbers: the code computes the normal form, relies on no
    fact and needs no more than a fixed number of nested calls. *)
From Verif Require Import LaurentSpec LaurentOrder ExprProofs NumberProofs OrderModel OrderProofs World.
From Coq Require Import Lia Lra Bool Permutation.
From Verif Require Import Run.
Open Scope Z_scope.

Lemma qadd_ofZ a b : qadd (ofZ a) (ofZ b) = ofZ (a + b).
Proof.
  apply canon_eq; [apply qadd_spec | apply canon_ofZ |].
  rewrite (proj2 (qadd_spec (ofZ a) (ofZ b))). unfold ofZ, Qeq, Qplus; cbn. lia.
Qed.
Lemma qadd_0_l b : canon b -> qadd 0 b = b.
Proof. intros H. apply canon_eq; [apply qadd_spec | assumption |]. rewrite (proj2 (qadd_spec 0 b)). apply Qplus_0_l. Qed.
Lemma qadd_0_r a : canon a -> qadd a 0 = a.
Proof. intros H. apply canon_eq; [apply qadd_spec | assumption |]. rewrite (proj2 (qadd_spec a 0)). apply Qplus_0_r. Qed.
Lemma qmul_1_l b : canon b -> qmul 1 b = b.
Proof. intros H. apply canon_eq; [apply qmul_spec | assumption |]. rewrite (proj2 (qmul_spec 1 b)). apply Qmult_1_l. Qed.
Lemma qmul_1_r a : canon a -> qmul a 1 = a.
Proof. intros H. apply canon_eq; [apply qmul_spec | assumption |]. rewrite (proj2 (qmul_spec a 1)). apply Qmult_1_r. Qed.
Lemma canon_0 : canon 0. Proof. reflexivity. Qed.
Lemma canon_1 : canon 1. Proof. reflexivity. Qed.
Lemma qmul_neq0 a b : canon a -> canon b -> a <> 0%Q -> b <> 0%Q -> qmul a b <> 0%Q.
Proof.
  intros Ca Cb Na Nb E. assert (H : (a * b == 0)%Q) by (rewrite <- (proj2 (qmul_spec a b)), E; reflexivity).
  apply Qmult_integral in H as [H|H]; apply canon_eq in H; auto using canon_0.
Qed.

Lemma bind_ok {A B} (a : A) (f : A -> res B) b : f a = Ok b [] -> bind (Ok a []) f = Ok b [].
Proof. intros H. cbn [bind]. rewrite H. reflexivity. Qed.
Lemma bind_ret {A B} (a : A) (f : A -> res B) : bind (Ok a []) f = f a.
Proof. cbn [bind]. destruct (f a); reflexivity. Qed.

(** ** Atoms: the factors that occur *)
Inductive atom := AN (q : Q) | AF (f : fac).
Definition atomE (a : atom) : expr := match a with AN q => Num q | AF f => facE f end.
Definition atomOK (a : atom) : Prop := match a with AN q => canon q /\ q <> 0%Q | AF f => snd f <> 0 end.
Definition atomV (r : env) (a : atom) : R := match a with AN q => Q2R q | AF f => facV r f end.
Definition atomDeg (a : atom) : Z := match a with AN q => 0 | AF f => Z.abs (snd f) end.

Fixpoint kinsert (f : fac) (k : key) : key :=
  match k with
  | [] => [f]
  | g :: r => if symEqb (fst f) (fst g) then if snd f + snd g =? 0 then r else (fst f, snd f + snd g) :: r
              else if symLtb (fst f) (fst g) then f :: k else g :: kinsert f r
  end.
Definition minsert (a : atom) (m : mono) : mono :=
  match a with AN q => (qmul q (fst m), snd m) | AF f => (fst m, kinsert f (snd m)) end.
Definition msem (l : list atom) : mono := fold_right minsert (1%Q, []) l.
Definition kdeg (k : key) : Z := fold_right (fun f a => Z.abs (snd f) + a) 0 k.

Lemma kinsert_first f k x : In x (kinsert f k) -> fst x = fst f \/ In (fst x) (map fst k).
Proof.
  induction k as [|g r IH]; cbn [kinsert].
  - intros [<-|[]]. auto.
  - destruct (symEqb (fst f) (fst g)) eqn:E.
    + apply symEqb_eq in E. destruct (_ =? 0); cbn [In map].
      * intros H. right. right. now apply in_map.
      * intros [<-|H]; [auto|]. right. right. now apply in_map.
    + destruct (symLtb (fst f) (fst g)); cbn [In map].
      * intros [<-|[<-|H]]; auto. right. right. now apply in_map.
      * intros [<-|H]; auto. destruct (IH H); auto.
Qed.

Lemma kinsert_OK f k : snd f <> 0 -> keyOK k -> keyOK (kinsert f k).
Proof.
  intros Hf [S N]. split.
  - induction S as [|g r S IH H]; cbn [kinsert]; [repeat constructor|].
    inversion N; subst.
    destruct (symEqb (fst f) (fst g)) eqn:E.
    + apply symEqb_eq in E. destruct (_ =? 0); [assumption|]. constructor; [assumption|]. cbn [fst]. now rewrite E.
    + apply symEqb_neq in E. destruct (symLtb (fst f) (fst g)) eqn:L.
      * apply symLtb_lt in L. constructor; [now constructor|]. constructor; [assumption|].
        rewrite Forall_forall in *. intros x Hx. eapply symLt_trans; eauto.
      * apply symLtb_false in L; [|assumption]. constructor; [now apply IH|].
        rewrite Forall_forall in *. intros x Hx. apply kinsert_first in Hx as [-> | Hx]; [assumption|].
        apply in_map_iff in Hx as (y & <- & Hy). now apply H.
  - clear S. induction N as [|g r Hg N IH]; cbn [kinsert]; [now repeat constructor|].
    destruct (symEqb _ _); [destruct (Z.eqb_spec (snd f + snd g) 0); [assumption | now constructor]|].
    destruct (symLtb _ _); constructor; auto.
Qed.
Lemma minsert_OK a m : atomOK a -> monoOK m -> monoOK (minsert a m).
Proof.
  destruct a as [q|f]; intros Ha (C & N & K); unfold minsert; (split; [|split]); cbn [fst snd] in *; auto.
  - apply qmul_spec.
  - apply qmul_neq0; destruct Ha; assumption.
  - now apply kinsert_OK.
Qed.
Lemma one_OK : monoOK (1%Q, []).
Proof. repeat split; auto using canon_1; try discriminate; constructor. Qed.
Lemma msem_OK l : Forall atomOK l -> monoOK (msem l).
Proof. induction 1; [apply one_OK | now apply minsert_OK]. Qed.

Lemma kinsert_V r f k : allPos r -> keyV r (kinsert f k) = (facV r f * keyV r k)%R.
Proof.
  intros Hr. induction k as [|g k IH]; cbn [kinsert keyV fold_right]; [reflexivity|].
  destruct (symEqb (fst f) (fst g)) eqn:E.
  - apply symEqb_eq in E. rewrite <- Rmult_assoc.
    assert (P : (facV r f * facV r g = powerRZ (r (fst (fst f)) (snd (fst f))) (snd f + snd g))%R).
    { unfold facV. rewrite <- E. rewrite powerRZ_add; [reflexivity|]. specialize (Hr (fst (fst f)) (snd (fst f))). lra. }
    rewrite P. destruct (Z.eqb_spec (snd f + snd g) 0) as [->|N].
    + cbn [powerRZ]. unfold keyV. lra.
    + reflexivity.
  - destruct (symLtb _ _); cbn [fold_right]; [reflexivity|]. unfold keyV in IH. rewrite IH. lra.
Qed.
Lemma minsert_V r a m : allPos r -> monoV r (minsert a m) = (atomV r a * monoV r m)%R.
Proof.
  intros Hr. destruct a as [q|f]; unfold monoV, minsert, atomV; cbn [fst snd].
  - rewrite Q2R_qmul. lra.
  - rewrite kinsert_V by assumption. lra.
Qed.
Lemma msem_V r l : allPos r -> monoV r (msem l) = fold_right (fun a v => atomV r a * v)%R 1%R l.
Proof.
  intros Hr. induction l as [|a l IH]; cbn [msem fold_right].
  - unfold monoV; cbn. rewrite Q2R_1. lra.
  - rewrite minsert_V by assumption. unfold msem in IH. now rewrite IH.
Qed.

Lemma kdeg_nonneg k : 0 <= kdeg k.
Proof. induction k as [|f k IH]; cbn [kdeg fold_right]; [lia|]. unfold kdeg in IH. lia. Qed.
Lemma kinsert_deg f k : kdeg (kinsert f k) <= Z.abs (snd f) + kdeg k.
Proof.
  induction k as [|g k IH]; cbn [kinsert kdeg fold_right]; [lia|].
  unfold kdeg in IH. destruct (symEqb _ _); [destruct (Z.eqb_spec (snd f + snd g) 0)|destruct (symLtb _ _)];
    cbn [fold_right snd]; lia.
Qed.
Lemma msem_deg l : kdeg (snd (msem l)) <= fold_right (fun a v => atomDeg a + v) 0 l.
Proof.
  induction l as [|[q|f] l IH]; cbn [msem fold_right minsert snd atomDeg]; [cbn; lia | exact IH |].
  pose proof (kinsert_deg f (snd (msem l))). unfold msem in *. lia.
Qed.
Lemma kdeg_in k f : In f k -> Z.abs (snd f) <= kdeg k.
Proof.
  induction k as [|g k IH]; intros H; [destruct H|]. cbn [kdeg fold_right]. pose proof (kdeg_nonneg k). unfold kdeg in *.
  destruct H as [->|H]; [lia | specialize (IH H); lia].
Qed.

(** ** The steps of the algorithm *)
Section Prod.
  Variables (Y : sys) (F : nat).
  Notation Wk := (world Y F).

  Lemma num_sum k a b : (1 <= F)%nat -> (1 <= k)%nat -> canon a -> canon b ->
    w_sum (Wk k) [Num a; Num b] = Ok (Num (qadd a b)) [].
  Proof.
    destruct k as [|k]; [lia|]. destruct F as [|F']; [lia|]. intros _ _ Ca Cb.
    cbn [world step w_sum sumCreate existsb isUndefined orb simplifySum simplTwoSummands isSum simplTwoSummandsWithoutSum].
    unfold simplTwoSummandsWithoutSum, isZero. destruct (qeqb a 0) eqn:Ea.
    - apply qeqb_eq in Ea as ->. rewrite qadd_0_l by assumption. reflexivity.
    - destruct (qeqb b 0) eqn:Eb.
      + apply qeqb_eq in Eb as ->. rewrite qadd_0_r by assumption. reflexivity.
      + cbn zeta. destruct (qeqb (qadd a b) 0) eqn:E; cbn [ret bind app]; [|reflexivity].
        apply qeqb_eq in E. rewrite E. reflexivity.
  Qed.

  Definition powE (s : sym) (z : Z) : expr := if z =? 0 then one else facE (s, z).
  Lemma pow_sym k s z : (3 <= k)%nat -> w_pow (Wk k) (symE s) (Num (ofZ z)) = Ok (powE s z) [].
  Proof.
    destruct k as [|[|[|k]]]; try lia. intros _. unfold powE, facE; cbn [fst snd].
    cbn [world step w_pow powCreate isUndefined orb symE isOne isZero].
    replace (qeqb (ofZ z) 0) with (z =? 0) by (unfold qeqb, ofZ; cbn; now rewrite andb_true_r).
    replace (qeqb (ofZ z) 1) with (z =? 1) by (unfold qeqb, ofZ; cbn; now rewrite andb_true_r).
    destruct (Z.eqb_spec z 0) as [->|N0]; [reflexivity|]. cbn [orb].
    destruct (Z.eqb_spec z 1) as [->|N1]; [reflexivity|].
    assert (P : w_spow (Wk (S (S k))) (symE s) (Num (ofZ z)) = Ok (symE s, Num (ofZ z)) []) by reflexivity.
    cbn [world step w_spow symE] in P |- *. rewrite P, bind_ret. unfold isOne at 1.
    replace (qeqb (ofZ z) 1) with (z =? 1) by (unfold qeqb, ofZ; cbn; now rewrite andb_true_r).
    rewrite (proj2 (Z.eqb_neq z 1) N1). reflexivity.
  Qed.

  Lemma atomE_noUndef a : noUndef (atomE a) = true.
  Proof. destruct a; [reflexivity | apply facE_noUndef]. Qed.
  Lemma atomE_isProduct a : isProduct (atomE a) = false.
  Proof. destruct a; [reflexivity | apply facE_noProd]. Qed.
  Lemma atomE_isSum a : isSum (atomE a) = false.
  Proof. destruct a; [reflexivity | apply facE_noSum]. Qed.
  Lemma atomE_isUndefined a : isUndefined (atomE a) = false.
  Proof. destruct a; [reflexivity | apply facE_isUndefined]. Qed.
  Lemma atomE_isZero a : atomOK a -> isZero (atomE a) = false.
  Proof. destruct a as [q|f]; [intros [_ H]; now apply qeqb_neq | intros _; apply facE_isZero]. Qed.

  Notation pairP k := (simplTwoFactorsWithoutProduct Y (Wk k)).

  Lemma permuted_num_fac q f : permuted Y (Num q) (facE f) = false.
  Proof. apply dp_num_left, facE_isNumeric. Qed.
  Lemma permuted_fac_num q f : permuted Y (facE f) (Num q) = true.
  Proof. apply dp_num_right; [apply facE_isNumeric | apply facE_isUndefined]. Qed.

  (** Two powers of the same symbol. *)
  Lemma pair_same k s z w : (1 <= F)%nat -> (3 <= k)%nat ->
    pairP k (facE (s, z)) (facE (s, w)) = Ok [powE s (z + w)] [].
  Proof.
    intros HF Hk. unfold simplTwoFactorsWithoutProduct. rewrite !facE_isOne, !facE_isConst. cbn [andb].
    unfold haveEqualBases. rewrite !facE_base, isEqual_symE. cbn [fst]. rewrite symEqb_refl.
    unfold simplTwoEqualBases. rewrite !facE_expo, !facE_base. cbn [fst snd].
    rewrite num_sum by (auto using canon_ofZ; lia). rewrite qadd_ofZ, bind_ret.
    assert (P : quiet (w_pos (Wk k) (symE s)) = Ok (snd s) []) by (destruct k; [lia | reflexivity]).
    assert (G : quiet (w_neg (Wk k) (symE s)) = Ok false []) by (destruct k; [lia | reflexivity]).
    rewrite P, bind_ret. rewrite G.
    assert (I : forall x, isFractionNumeric Y (Num (ofZ x)) = false) by reflexivity.
    rewrite !I. rewrite pow_sym by lia.
    destruct (snd s); (try change (ret true) with (Ok true [])); rewrite bind_ret; reflexivity.
  Qed.

  (** Powers of different symbols. *)
  Lemma pair_diff k f g : fst f <> fst g ->
    pairP k (facE f) (facE g) = Ok (if symLtb (fst g) (fst f) then [facE g; facE f] else [facE f; facE g]) [].
  Proof.
    intros N. unfold simplTwoFactorsWithoutProduct. rewrite !facE_isOne, !facE_isConst. cbn [andb].
    unfold haveEqualBases. rewrite !facE_base, isEqual_symE. rewrite (proj2 (symEqb_neq _ _) N).
    unfold ordered, permuted. rewrite dp_fac_diff by assumption. reflexivity.
  Qed.

  Lemma pair_num_num k a b : canon a -> canon b ->
    pairP k (Num a) (Num b) = Ok (if qeqb (qmul a b) 1 then if qeqb a 1 then [Num b] else [] else [Num (qmul a b)]) [].
  Proof.
    intros Ca Cb. unfold simplTwoFactorsWithoutProduct, isOne. destruct (qeqb a 1) eqn:Ea.
    - apply qeqb_eq in Ea as ->. rewrite qmul_1_l by assumption. destruct (qeqb b 1) eqn:Eb; reflexivity.
    - destruct (qeqb b 1) eqn:Eb.
      + apply qeqb_eq in Eb as ->. rewrite qmul_1_r by assumption. rewrite Ea. reflexivity.
      + cbn [isConst andb simplTwoConst]. unfold simplTwoNumerics. cbn zeta. destruct (qeqb (qmul a b) 1); reflexivity.
  Qed.
  Lemma pair_num_fac k q f : pairP k (Num q) (facE f) = Ok (if qeqb q 1 then [facE f] else [Num q; facE f]) [].
  Proof.
    unfold simplTwoFactorsWithoutProduct. rewrite facE_isOne, facE_isConst. cbn [isOne]. destruct (qeqb q 1); [reflexivity|].
    cbn [isConst andb]. unfold haveEqualBases. rewrite facE_base. cbn [base isEqual symE].
    unfold ordered. rewrite permuted_num_fac. reflexivity.
  Qed.
  Lemma pair_fac_num k q f : pairP k (facE f) (Num q) = Ok (if qeqb q 1 then [facE f] else [Num q; facE f]) [].
  Proof.
    unfold simplTwoFactorsWithoutProduct. rewrite facE_isOne, facE_isConst. cbn [isOne]. destruct (qeqb q 1); [reflexivity|].
    cbn [isConst andb]. unfold haveEqualBases. rewrite facE_base. cbn [base isEqual symE].
    unfold ordered. rewrite permuted_fac_num. reflexivity.
  Qed.

  (** ** Merging one atom into a normal form *)
  Definition okList (m : mono) (l : list expr) : Prop := l = factorsE m \/ (m = (1%Q, []) /\ l = [one]).

  Lemma areEqual_refl2 a b : noUndef a = true -> noUndef b = true -> areEqual [a; b] [a; b] = true.
  Proof. intros Ha Hb. apply areEqual_refl. intros x [<-|[<-|[]]]; now apply isEqual_refl. Qed.
  Lemma areEqual_swap a b : a <> b -> areEqual [b; a] [a; b] = false.
  Proof.
    intros N. cbn [areEqual]. destruct (isEqual b a) eqn:E; [|reflexivity].
    apply isEqual_eq in E. congruence.
  Qed.

  Lemma two_nonprod k n a b : isProduct a = false -> isProduct b = false ->
    simplTwoFactors Y (Wk k) (S n) a b = pairP k a b.
  Proof. intros Ha Hb. cbn [simplTwoFactors]. now rewrite Ha, Hb. Qed.

  Lemma merge_nil_l n u p q : merge (S n) u p [] q = ret q.
  Proof. reflexivity. Qed.
  Lemma merge_nil_r n u p q : merge (S n) u p q [] = ret q.
  Proof. destruct q; reflexivity. Qed.

  (** A power of a symbol into a sorted list of these. *)
  Lemma merge_fac k n' f l : forall n, (1 <= F)%nat -> (3 <= k)%nat -> (length l + 2 <= n)%nat -> snd f <> 0 -> keyOK l ->
    merge n isOne (simplTwoFactors Y (Wk k) (S n')) [facE f] (map facE l) = Ok (map facE (kinsert f l)) [].
  Proof.
    induction l as [|g l IH]; intros n HF Hk Hn Hf [S N].
    - destruct n as [|n]; [cbn in Hn; lia|]. reflexivity.
    - destruct n as [|[|n]]; cbn [length] in Hn; try lia. cbn [map kinsert].
      inversion S as [|? ? S' H]; inversion N as [|? ? Hg N']; subst.
      change (merge (Datatypes.S (Datatypes.S n)) isOne (simplTwoFactors Y (Wk k) (Datatypes.S n')) [facE f] (facE g :: map facE l))
        with (r <- simplTwoFactors Y (Wk k) (Datatypes.S n') (facE f) (facE g) ;;
              match r with
              | [] => merge (Datatypes.S n) isOne (simplTwoFactors Y (Wk k) (Datatypes.S n')) [] (map facE l)
              | [x] => if isOne x then merge (Datatypes.S n) isOne (simplTwoFactors Y (Wk k) (Datatypes.S n')) [] (map facE l)
                       else t <- merge (Datatypes.S n) isOne (simplTwoFactors Y (Wk k) (Datatypes.S n')) [] (map facE l) ;; ret (x :: t)
              | _ => if areEqual r [facE f; facE g] then
                       t <- merge (Datatypes.S n) isOne (simplTwoFactors Y (Wk k) (Datatypes.S n')) [] (facE g :: map facE l) ;; ret (facE f :: t)
                     else if areEqual r [facE g; facE f] then
                       t <- merge (Datatypes.S n) isOne (simplTwoFactors Y (Wk k) (Datatypes.S n')) [facE f] (map facE l) ;; ret (facE g :: t)
                     else _ <- rely (CBug "mergeNonEmpty"%string) ;; ret []
              end).
      rewrite two_nonprod by apply facE_noProd. rewrite !merge_nil_l.
      destruct (symEqb (fst f) (fst g)) eqn:E.
      + apply symEqb_eq in E. destruct f as [s z], g as [t w]; cbn [fst snd] in *. subst t.
        rewrite pair_same by assumption. rewrite bind_ret. unfold powE.
        destruct (z + w =? 0); [reflexivity|]. rewrite facE_isOne. reflexivity.
      + apply symEqb_neq in E. rewrite pair_diff by assumption. rewrite bind_ret.
        assert (NE : facE f <> facE g) by (intros X; apply facE_inj in X; congruence).
        destruct (symLtb (fst g) (fst f)) eqn:L.
        * apply symLtb_lt in L. rewrite (symLtb_not _ _ L). rewrite areEqual_swap by assumption.
          rewrite areEqual_refl2 by apply facE_noUndef. rewrite IH by (auto; try lia; split; assumption).
          reflexivity.
        * apply symLtb_false in L; [|congruence]. apply symLtb_lt in L. rewrite L.
          rewrite areEqual_refl2 by apply facE_noUndef. reflexivity.
  Qed.

  Lemma merge_step n u pair p1 pr q1 qr r : pair p1 q1 = Ok r [] ->
    merge (S n) u pair (p1 :: pr) (q1 :: qr) =
    match r with
    | [] => merge n u pair pr qr
    | [x] => if u x then merge n u pair pr qr else t <- merge n u pair pr qr ;; ret (x :: t)
    | _ => if areEqual r [p1; q1] then t <- merge n u pair pr (q1 :: qr) ;; ret (p1 :: t)
           else if areEqual r [q1; p1] then t <- merge n u pair (p1 :: pr) qr ;; ret (q1 :: t)
           else _ <- rely (CBug "mergeNonEmpty"%string) ;; ret []
    end.
  Proof. intros H. cbn [merge]. rewrite H. apply bind_ret. Qed.

  Lemma factorsE_1 k : factorsE (1%Q, k) = map facE k.
  Proof. reflexivity. Qed.
  Lemma factorsE_c c k : c <> 1%Q -> factorsE (c, k) = Num c :: map facE k.
  Proof. intros H. unfold factorsE; cbn [fst snd]. now rewrite (proj2 (qeqb_neq c 1) H). Qed.

  Lemma merge_atom k n' n a m s : (1 <= F)%nat -> (3 <= k)%nat -> (length s + 3 <= n)%nat -> atomOK a -> monoOK m ->
    okList m s ->
    exists l, merge n isOne (simplTwoFactors Y (Wk k) (S n')) [atomE a] s = Ok l [] /\ okList (minsert a m) l.
  Proof.
    intros HF Hk Hn Ha Hm Hs. destruct m as [c l]. destruct Hm as (Cc & Nc & Kl); cbn [fst snd] in *.
    destruct n as [|n]; [lia|].
    assert (P : forall x y, isProduct x = false -> isProduct y = false ->
      simplTwoFactors Y (Wk k) (S n') x y = pairP k x y) by (intros; now apply two_nonprod).
    destruct Hs as [-> | [[= -> ->] ->]].
    - destruct (qeqb c 1) eqn:Ec.
      + apply qeqb_eq in Ec as ->. rewrite factorsE_1 in *. destruct a as [q|f]; cbn [atomE minsert fst snd].
        * destruct Ha as [Cq Nq]. rewrite qmul_1_r by assumption. destruct l as [|g l].
          -- cbn [map]. rewrite merge_nil_r. eexists; split; [reflexivity|].
             destruct (qeqb q 1) eqn:E; [right | left].
             ++ apply qeqb_eq in E as ->. auto.
             ++ apply qeqb_neq in E. now rewrite factorsE_c.
          -- cbn [map length] in *. destruct n as [|n]; [lia|].
             erewrite merge_step by (rewrite P by (reflexivity || apply facE_noProd); apply pair_num_fac).
             destruct (qeqb q 1) eqn:E.
             ++ apply qeqb_eq in E as ->. rewrite facE_isOne, merge_nil_l. unfold ret. rewrite bind_ret.
                eexists; split; [reflexivity|]. left. reflexivity.
             ++ rewrite areEqual_refl2 by (reflexivity || apply facE_noUndef). rewrite merge_nil_l.
                unfold ret. rewrite bind_ret. eexists; split; [reflexivity|]. left. apply qeqb_neq in E.
                now rewrite factorsE_c.
        * eexists. split; [apply merge_fac; auto; rewrite map_length in Hn; lia|]. left. reflexivity.
      + apply qeqb_neq in Ec. rewrite factorsE_c in * by assumption. cbn [length] in Hn. destruct n as [|n]; [lia|].
        destruct a as [q|f]; cbn [atomE minsert fst snd].
        * destruct Ha as [Cq Nq].
          erewrite merge_step by (rewrite P by reflexivity; now apply pair_num_num).
          destruct (qeqb (qmul q c) 1) eqn:E.
          -- apply qeqb_eq in E. destruct (qeqb q 1) eqn:E1.
             ++ apply qeqb_eq in E1 as ->. rewrite qmul_1_l in E by assumption. congruence.
             ++ rewrite merge_nil_l. eexists; split; [reflexivity|]. left. rewrite E. reflexivity.
          -- unfold isOne at 1. rewrite E, merge_nil_l. unfold ret; rewrite bind_ret. eexists; split; [reflexivity|].
             left. apply qeqb_neq in E. now rewrite factorsE_c.
        * erewrite merge_step by (rewrite P by (reflexivity || apply facE_noProd); apply pair_fac_num).
          rewrite (proj2 (qeqb_neq c 1) Ec).
          rewrite areEqual_swap by apply facE_noNum. rewrite areEqual_refl2 by (reflexivity || apply facE_noUndef).
          rewrite merge_fac by (auto; rewrite map_length in Hn; lia).
          rewrite bind_ret. eexists; split; [reflexivity|]. left. now rewrite factorsE_c.
    - destruct a as [q|f]; cbn [atomE minsert fst snd].
      + destruct Ha as [Cq Nq]. unfold one.
        erewrite merge_step by (rewrite P by reflexivity; apply pair_num_num; auto using canon_1).
        rewrite qmul_1_r by assumption. cbn [length] in Hn. destruct n as [|n]; [lia|].
        destruct (qeqb q 1) eqn:E.
        * apply qeqb_eq in E as ->. cbn [isOne qeqb Qnum Qden Z.eqb Pos.eqb andb].
          rewrite merge_nil_l. eexists; split; [reflexivity|]. now left.
        * unfold isOne at 1. rewrite E, merge_nil_l. unfold ret; rewrite bind_ret. eexists; split; [reflexivity|].
          left. apply qeqb_neq in E. now rewrite factorsE_c.
      + unfold one. erewrite merge_step by (rewrite P by (reflexivity || apply facE_noProd); apply pair_fac_num).
        cbn [length] in Hn. destruct n as [|n]; [lia|].
        replace (qeqb 1 1) with true by reflexivity. rewrite facE_isOne, merge_nil_l. unfold ret; rewrite bind_ret.
        eexists; split; [reflexivity|]. left. reflexivity.
  Qed.

  (** Two atoms: the same pair rule. *)
  Lemma two_atoms k n a b : (1 <= F)%nat -> (3 <= k)%nat -> atomOK a -> atomOK b ->
    exists l, simplTwoFactors Y (Wk k) (S n) (atomE a) (atomE b) = Ok l [] /\ okList (msem [a; b]) l.
  Proof.
    intros HF Hk Ha Hb. rewrite two_nonprod by apply atomE_isProduct.
    destruct a as [q|f], b as [q'|g]; cbn [atomE msem fold_right minsert fst snd kinsert].
    - destruct Ha, Hb. rewrite pair_num_num by assumption. eexists; split; [reflexivity|].
      rewrite (qmul_1_r q') by assumption.
      destruct (qeqb (qmul q q') 1) eqn:E.
      + apply qeqb_eq in E. destruct (qeqb q 1) eqn:E1.
        * apply qeqb_eq in E1 as ->. rewrite qmul_1_l in * by assumption. subst. right. auto.
        * left. rewrite E. reflexivity.
      + left. apply qeqb_neq in E. now rewrite factorsE_c.
    - destruct Ha. rewrite pair_num_fac. rewrite qmul_1_r by assumption. eexists; split; [reflexivity|].
      destruct (qeqb q 1) eqn:E; left.
      + apply qeqb_eq in E as ->. reflexivity.
      + apply qeqb_neq in E. now rewrite factorsE_c.
    - destruct Hb. rewrite pair_fac_num. rewrite qmul_1_r by assumption. eexists; split; [reflexivity|].
      destruct (qeqb q' 1) eqn:E; left.
      + apply qeqb_eq in E as ->. reflexivity.
      + apply qeqb_neq in E. now rewrite factorsE_c.
    - destruct (symEqb (fst f) (fst g)) eqn:E.
      + apply symEqb_eq in E. destruct f as [s z], g as [t w]; cbn [fst snd] in *. subst t.
        rewrite pair_same by assumption. eexists; split; [reflexivity|]. unfold powE.
        destruct (z + w =? 0); [right; auto | left; reflexivity].
      + apply symEqb_neq in E. rewrite pair_diff by assumption. eexists; split; [reflexivity|]. left.
        destruct (symLtb (fst g) (fst f)) eqn:L.
        * apply symLtb_lt in L. rewrite (symLtb_not _ _ L). reflexivity.
        * apply symLtb_false in L; [|congruence]. apply symLtb_lt in L. rewrite L. reflexivity.
  Qed.

  (** ** Loops that find nothing to do *)
  Lemma contractInner_none check simpl i u found : (forall a b, In a u -> In b u -> check a b = false) ->
    forall n j, (length u - j < n)%nat -> contractInner n check simpl i j u found = Ok (u, found) [].
  Proof.
    intros H. induction n as [|n IH]; intros j Hj; [lia|]. cbn [contractInner].
    destruct (nth_error u i) as [a|] eqn:Ei; [|reflexivity].
    destruct (nth_error u j) as [b|] eqn:Ej; [|reflexivity].
    rewrite (H a b) by (eapply nth_error_In; eassumption). apply IH.
    assert (j < length u)%nat by (apply nth_error_Some; congruence). lia.
  Qed.
  Lemma contractOuter_none check simpl u changed : (forall a b, In a u -> In b u -> check a b = false) ->
    forall n i, (length u - i < n)%nat -> contractOuter n check simpl i u changed = Ok (u, changed) [].
  Proof.
    intros H. induction n as [|n IH]; intros i Hi; [lia|]. cbn [contractOuter].
    destruct (Nat.ltb_spec i (length u)); [|reflexivity].
    rewrite contractInner_none by (auto; lia). rewrite bind_ret. apply IH. lia.
  Qed.
  Lemma contract_none check simpl u n : (forall a b, In a u -> In b u -> check a b = false) ->
    (length u < n)%nat -> contract n check simpl u = Ok u [].
  Proof.
    intros H Hn. destruct n as [|n]; [lia|]. cbn [contract]. rewrite contractOuter_none by (auto; lia).
    rewrite bind_ret. reflexivity.
  Qed.

  Definition noConstPair (u : list expr) : Prop := forall i j a b, (i < j)%nat ->
    nth_error u i = Some a -> nth_error u j = Some b -> isContractableConst a && isContractableConst b = false.
  Lemma contractConstInner_none W u i : noConstPair u ->
    forall n j, (i <= j)%nat -> (length u - j < n)%nat -> contractConstInner Y W n i j u = Ok (u, i) [].
  Proof.
    intros H. induction n as [|n IH]; intros j Hij Hj; [lia|]. cbn [contractConstInner].
    destruct (nth_error u i) as [a|] eqn:Ei; [|reflexivity].
    destruct (nth_error u j) as [b|] eqn:Ej; [|reflexivity].
    assert (j < length u)%nat by (apply nth_error_Some; congruence).
    destruct (Nat.eqb_spec i j) as [->|N]; [apply IH; lia|].
    rewrite (H i j a b) by (auto; lia). apply IH; lia.
  Qed.
  Lemma contractConst_none W u : noConstPair u ->
    forall n i, (length u - i < n)%nat -> contractConst Y W n i u = Ok u [].
  Proof.
    intros H. induction n as [|n IH]; intros i Hi; [lia|]. cbn [contractConst].
    destruct (Nat.ltb_spec i (length u)); [|reflexivity].
    rewrite contractConstInner_none by (auto; lia). rewrite bind_ret. apply IH. lia.
  Qed.

  (** ** Preparation *)
  Lemma insertSorted_perm x l : Permutation (insertSorted Y x l) (x :: l).
  Proof.
    induction l as [|y l IH]; cbn [insertSorted]; [reflexivity|]. destruct (permuted Y y x); [|reflexivity].
    rewrite IH. apply perm_swap.
  Qed.
  Lemma sortFactors_perm l : Permutation (sortFactors Y l) l.
  Proof. induction l as [|x l IH]; cbn [sortFactors]; [reflexivity|]. now rewrite insertSorted_perm, IH. Qed.

  Definition isAF (a : atom) : bool := match a with AF _ => true | AN _ => false end.
  Definition numsOf (x : Q) (l : list atom) : Q := fold_left (fun x a => match a with AN q => qmul x q | AF _ => x end) l x.
  Definition conNum (l : list atom) : list atom :=
    let r := numsOf 1 l in
    if negb (qeqb r 1) then AN r :: filter isAF l else match filter isAF l with [] => [AN r] | u => u end.

  Lemma numsOf_E l : forall x,
    fold_left (fun a e => match e with Num q => qmul a q | _ => a end) (map atomE l) x = numsOf x l.
  Proof.
    induction l as [|[q|f] l IH]; intros x; cbn [map fold_left numsOf atomE]; try apply IH; [reflexivity|].
    unfold facE. destruct (snd f =? 1); cbn [symE]; apply IH.
  Qed.
  Lemma filter_E l : filter (fun e => negb (isNumeric e)) (map atomE l) = map atomE (filter isAF l).
  Proof.
    induction l as [|[q|f] l IH]; cbn [map filter atomE isAF isNumeric negb]; [reflexivity | exact IH |].
    rewrite facE_isNumeric. cbn [negb map atomE]. now rewrite IH.
  Qed.
  Lemma contractNumerics_E l : contractNumerics (map atomE l) = map atomE (conNum l).
  Proof.
    unfold contractNumerics, conNum. rewrite numsOf_E, filter_E. cbn zeta.
    destruct (negb _); [reflexivity|]. destruct (filter isAF l); reflexivity.
  Qed.

  Definition atomsV (r : env) (l : list atom) : R := fold_right (fun a v => atomV r a * v)%R 1%R l.
  Definition atomsDeg (l : list atom) : Z := fold_right (fun a v => atomDeg a + v) 0 l.

  Lemma numsOf_V r l : forall x, (Q2R (numsOf x l) * atomsV r (filter isAF l) = Q2R x * atomsV r l)%R.
  Proof.
    induction l as [|[q|f] l IH]; intros x; cbn [numsOf fold_left filter isAF atomsV fold_right atomV]; [reflexivity| |].
    - unfold numsOf in IH. rewrite IH, Q2R_qmul. unfold atomsV. lra.
    - specialize (IH x). unfold numsOf, atomsV in *.
      rewrite <- Rmult_assoc, (Rmult_comm (Q2R _)), Rmult_assoc, IH. ring.
  Qed.
  Lemma numsOf_OK l : forall x, Forall atomOK l -> canon x -> x <> 0%Q -> canon (numsOf x l) /\ numsOf x l <> 0%Q.
  Proof.
    induction l as [|[q|f] l IH]; intros x H Cx Nx; cbn [numsOf fold_left]; [auto| |]; inversion H as [|? ? Ha Hl]; subst.
    - destruct Ha. apply (IH _ Hl); [apply qmul_spec | now apply qmul_neq0].
    - now apply IH.
  Qed.
  Lemma numsOf_noNum l x : filter isAF l = l -> numsOf x l = x.
  Proof.
    induction l as [|[q|f] l IH]; cbn [numsOf fold_left filter isAF]; intros H; [reflexivity| |].
    - exfalso. assert (L : (length (filter isAF l) <= length l)%nat).
      { clear. induction l as [|a l IH]; cbn; [lia|]. destruct (isAF a); cbn; lia. }
      rewrite H in L. cbn in L. lia.
    - injection H as H. now apply IH.
  Qed.
  Lemma filter_len l : (length (filter isAF l) < length l)%nat \/ filter isAF l = l.
  Proof.
    induction l as [|a l IH]; cbn [filter]; [auto|]. destruct (isAF a); cbn [length].
    - destruct IH as [H|H]; [left; lia | right; now rewrite H].
    - left. assert (length (filter isAF l) <= length l)%nat by (destruct IH as [|H]; [lia | rewrite H; lia]). lia.
  Qed.

  Lemma conNum_OK l : l <> [] -> Forall atomOK l ->
    Forall atomOK (conNum l) /\ conNum l <> [] /\ (length (conNum l) <= length l)%nat /\
    (forall r, atomsV r (conNum l) = atomsV r l) /\ atomsDeg (conNum l) = atomsDeg l /\
    filter isAF (tl (conNum l)) = tl (conNum l).
  Proof.
    intros Hl H. destruct (numsOf_OK l 1 H canon_1 ltac:(discriminate)) as [C N].
    assert (FF : Forall atomOK (filter isAF l)).
    { rewrite Forall_forall in *. intros x Hx. apply filter_In in Hx. now apply H. }
    assert (D : atomsDeg (filter isAF l) = atomsDeg l).
    { clear. induction l as [|[q|f] l IH]; cbn [filter isAF atomsDeg fold_right atomDeg]; [reflexivity| |];
        unfold atomsDeg in IH; lia. }
    assert (I : filter isAF (filter isAF l) = filter isAF l).
    { clear. induction l as [|[q|f] l IH]; cbn [filter isAF]; [reflexivity | exact IH | now rewrite IH]. }
    assert (T : forall a u, filter isAF (a :: u) = a :: u -> filter isAF u = u).
    { clear. intros a u. cbn [filter]. destruct (isAF a) eqn:E; [congruence|]. intros H.
      assert (L : (length (filter isAF u) <= length u)%nat) by (destruct (filter_len u) as [|X]; [lia | rewrite X; lia]).
      rewrite H in L. cbn in L. lia. }
    assert (V := fun r => numsOf_V r l 1).
    unfold conNum. cbn zeta. destruct (qeqb (numsOf 1 l) 1) eqn:E; cbn [negb].
    - apply qeqb_eq in E. rewrite E in V. destruct (filter isAF l) as [|a u] eqn:Fl.
      + rewrite E. split; [|split; [|split; [|split; [|split]]]]; auto; try discriminate.
        * constructor; auto. split; [apply canon_1 | discriminate].
        * destruct l; [congruence | cbn; lia].
        * intros r. specialize (V r). rewrite Q2R_1 in V. cbn [atomsV fold_right atomV] in *. rewrite Q2R_1. lra.
      + split; [|split; [|split; [|split; [|split]]]]; auto; try discriminate.
        * rewrite <- Fl. destruct (filter_len l) as [|X]; [lia | rewrite X; lia].
        * intros r. specialize (V r). rewrite Q2R_1 in V. lra.
        * cbn [tl]. now apply T with a.
    - apply qeqb_neq in E. split; [|split; [|split; [|split; [|split]]]]; auto; try discriminate.
      + constructor; auto. split; auto.
      + cbn [length]. destruct (filter_len l) as [|X]; [lia|]. exfalso. apply E. now apply numsOf_noNum.
      + intros r. specialize (V r). rewrite Q2R_1 in V. unfold atomsV in *. cbn [fold_right atomV]. rewrite V. ring.
  Qed.

  Lemma atomsV_perm r l l' : Permutation l l' -> atomsV r l = atomsV r l'.
  Proof. unfold atomsV. induction 1; cbn [fold_right]; [reflexivity | now rewrite IHPermutation | ring | congruence]. Qed.
  Lemma atomsDeg_perm l l' : Permutation l l' -> atomsDeg l = atomsDeg l'.
  Proof. unfold atomsDeg. induction 1; cbn [fold_right]; lia. Qed.

  Lemma trig_none a b : areContractableTrigFctPowers Y (atomE a) (atomE b) = false.
  Proof.
    unfold areContractableTrigFctPowers, isContractableTrigFctPower. destruct a as [q|f]; cbn [atomE].
    - reflexivity.
    - rewrite facE_base. reflexivity.
  Qed.
  Lemma equalExp_none a b : areNumPowersWithEqualExp (atomE a) (atomE b) = false.
  Proof. destruct a as [q|f]; cbn [atomE]; [reflexivity|]. unfold facE. destruct (snd f =? 1); reflexivity. Qed.
  Lemma equalDenom_none a b : areNumPowersWithEqualExpDenom (atomE a) (atomE b) = false.
  Proof. destruct a as [q|f]; cbn [atomE]; [reflexivity|]. unfold facE. destruct (snd f =? 1); reflexivity. Qed.

  Lemma extract_atoms l : extractProducts (map atomE l) = map atomE l.
  Proof.
    unfold extractProducts. induction l as [|[q|f] l IH]; cbn [map flat_map atomE extractProduct app]; [reflexivity| |].
    - now rewrite IH.
    - rewrite facE_extract. cbn [app]. now rewrite IH.
  Qed.
  Lemma in_atoms (P : expr -> expr -> bool) l : (forall a b, P (atomE a) (atomE b) = false) ->
    forall x y, In x (map atomE l) -> In y (map atomE l) -> P x y = false.
  Proof. intros H x y Hx Hy. apply in_map_iff in Hx as (a & <- & _), Hy as (b & <- & _). apply H. Qed.

  Lemma prepare_atoms k n l : (length l < n)%nat -> prepare Y (Wk k) n (map atomE l) = Ok (map atomE l) [].
  Proof.
    intros Hn. unfold prepare. rewrite extract_atoms. apply contract_none.
    - apply in_atoms. apply trig_none.
    - now rewrite map_length.
  Qed.

  Lemma noConstPair_atoms l : filter isAF (tl l) = tl l -> noConstPair (map atomE l).
  Proof.
    intros H i j a b Hij Hi Hj. destruct l as [|x l]; [now destruct i|]. cbn [tl] in H.
    destruct j as [|j]; [lia|]. cbn [map nth_error] in Hj.
    rewrite nth_error_map in Hj. destruct (nth_error l j) as [y|] eqn:E; [|discriminate].
    injection Hj as <-. apply nth_error_In in E. rewrite <- H in E. apply filter_In in E as [_ E].
    destruct y as [q|f]; [discriminate|]. cbn [atomE]. unfold isContractableConst. rewrite facE_isConst.
    apply andb_false_r.
  Qed.

  Lemma prepareConst_atoms k n l : l <> [] -> Forall atomOK l -> (length l < n)%nat ->
    exists l', prepareConst Y (Wk k) n (map atomE l) = Ok (map atomE l') [] /\
      Forall atomOK l' /\ l' <> [] /\ (length l' <= length l)%nat /\
      (forall r, atomsV r l' = atomsV r l) /\ atomsDeg l' = atomsDeg l.
  Proof.
    intros Hl H Hn.
    destruct (Permutation_map_inv atomE l (sortFactors_perm (map atomE l))) as (l1 & E1 & P1).
    assert (H1 : Forall atomOK l1) by (rewrite Forall_forall in *; intros x Hx; apply H; eapply Permutation_in; [symmetry|]; eassumption).
    assert (N1 : l1 <> []) by (intros ->; apply Permutation_sym, Permutation_nil in P1; congruence).
    assert (L1 : length l1 = length l) by (symmetry; now apply Permutation_length).
    destruct (conNum_OK l1 N1 H1) as (A & B & C & D & G & I).
    exists (conNum l1). split; [|split; [|split; [|split; [|split]]]]; auto; try lia.
    - unfold prepareConst. rewrite E1, contractNumerics_E.
      rewrite contractConst_none by (try (now apply noConstPair_atoms); rewrite map_length; lia).
      rewrite bind_ret. rewrite contract_none by (try (apply in_atoms, equalExp_none); rewrite map_length; lia).
      rewrite bind_ret. apply contract_none; [apply in_atoms, equalDenom_none | rewrite map_length; lia].
    - intros r. rewrite D. symmetry. now apply atomsV_perm.
    - rewrite G. symmetry. now apply atomsDeg_perm.
  Qed.

  (** ** simplifyProduct, Product::create *)
  Lemma simplifyProduct_atoms k : (1 <= F)%nat -> (3 <= k)%nat ->
    forall n l, l <> [] -> Forall atomOK l -> (length l + 4 <= n)%nat ->
    exists u m, simplifyProduct Y (Wk k) n (map atomE l) = Ok u [] /\ okList m u /\ monoOK m /\
      (forall r, allPos r -> monoV r m = atomsV r l) /\ kdeg (snd m) <= atomsDeg l /\ (length u <= length l)%nat.
  Proof.
    intros HF Hk. induction n as [|n IH]; intros l Hl H Hn; [lia|].
    assert (Two : forall a b, Forall atomOK [a; b] -> exists u m,
      simplTwoFactors Y (Wk k) (S n) (atomE a) (atomE b) = Ok u [] /\ okList m u /\ monoOK m /\
      (forall r, allPos r -> monoV r m = atomsV r [a; b]) /\ kdeg (snd m) <= atomsDeg [a; b] /\ (length u <= 2)%nat).
    { intros a b Hab. destruct (two_atoms k n a b) as (u & E & O); auto; try (inversion Hab; auto).
      { inversion H3; auto. }
      exists u, (msem [a; b]). split; [exact E|]. split; [exact O|]. split; [now apply msem_OK|].
      split; [intros r Hr; now apply msem_V|]. split; [apply msem_deg|].
      destruct O as [-> | [_ ->]]; [|cbn; lia]. unfold factorsE. rewrite app_length, map_length.
      destruct a as [q|f], b as [q'|g]; cbn [msem fold_right minsert fst snd kinsert length]; try (destruct (qeqb _ 1); cbn; lia).
      replace (qeqb 1 1) with true by reflexivity. cbn [length].
      destruct (symEqb _ _); [destruct (_ =? 0); cbn; lia|]. destruct (symLtb _ _); cbn; lia. }
    cbn [simplifyProduct]. rewrite prepare_atoms by lia. rewrite bind_ret.
    destruct (prepareConst_atoms k (S n) l Hl H ltac:(lia)) as (l' & E & H' & N' & L' & V' & D').
    assert (Gen : exists u m, (g <- prepareConst Y (Wk k) (S n) (map atomE l);;
      match g with
      | [] => UB "front of empty list of factors"%string
      | [x] => ret g
      | [x; b] => simplTwoFactors Y (Wk k) (S n) x b
      | x :: (_ :: _ :: _) as r => s <- simplifyProduct Y (Wk k) n r;; merge (S n) isOne (simplTwoFactors Y (Wk k) (S n)) [x] s
      end) = Ok u [] /\ okList m u /\ monoOK m /\
      (forall r, allPos r -> monoV r m = atomsV r l) /\ kdeg (snd m) <= atomsDeg l /\ (length u <= length l)%nat).
    { rewrite E, bind_ret.
      destruct l' as [|a [|b [|c l']]]; cbn [map]; [congruence| | |].
      - exists [atomE a], (msem [a]). split; [reflexivity|]. inversion H' as [|? ? Ha _]; subst. split; [|split; [|split; [|split]]].
        + destruct a as [q|f]; cbn [msem fold_right minsert fst snd atomE kinsert].
          * destruct Ha. rewrite qmul_1_r by assumption. destruct (qeqb q 1) eqn:Q1.
            -- apply qeqb_eq in Q1 as ->. right; auto.
            -- left. apply qeqb_neq in Q1. now rewrite factorsE_c.
          * left. reflexivity.
        + now apply msem_OK.
        + intros r Hr. rewrite <- V'. now apply msem_V.
        + rewrite <- D'. apply msem_deg.
        + cbn in *. lia.
      - destruct (Two a b H') as (u & m & X1 & X2 & X3 & X4 & X5 & X6). exists u, m.
        split; [exact X1|]. split; [exact X2|]. split; [exact X3|]. split; [intros r Hr; rewrite <- V'; auto|].
        split; [lia|]. cbn in L'. lia.
      - inversion H' as [|? ? Ha Hr]; subst. cbn [length] in L'.
        destruct (IH (b :: c :: l')) as (u & m & X1 & X2 & X3 & X4 & X5 & X6); auto; [discriminate | cbn [length]; lia |].
        cbn [map] in X1. rewrite X1, bind_ret. cbn [length] in X6.
        destruct (merge_atom k n (S n) a m u) as (u' & Y1 & Y2); auto; [lia|].
        exists u', (minsert a m). split; [exact Y1|]. split; [exact Y2|]. split; [now apply minsert_OK|].
        split; [|split].
        + intros r Hr'. rewrite minsert_V by assumption. rewrite X4 by assumption. rewrite <- V'. reflexivity.
        + rewrite <- D'. cbn [atomsDeg fold_right]. destruct a as [q|f]; cbn [minsert snd atomDeg].
          * unfold atomsDeg in X5. cbn [fold_right] in X5. lia.
          * pose proof (kinsert_deg f (snd m)). unfold atomsDeg in X5. cbn [fold_right] in X5. lia.
        + destruct Y2 as [-> | [_ ->]]; [|cbn; lia]. destruct X2 as [-> | [-> ->]].
          * assert (LL : (length (factorsE (minsert a m)) <= S (length (factorsE m)))%nat).
            { unfold factorsE. rewrite !app_length, !map_length.
              assert (KI : forall f k0, (length (kinsert f k0) <= S (length k0))%nat).
              { clear. intros f. induction k0 as [|g k0 IH]; cbn [kinsert length]; [lia|].
                destruct (symEqb _ _); [destruct (_ =? 0); cbn; lia|]. destruct (symLtb _ _); cbn; lia. }
              destruct a as [q|f]; cbn [minsert fst snd].
              - destruct (qeqb (qmul q (fst m)) 1), (qeqb (fst m) 1); cbn; lia.
              - pose proof (KI f (snd m)). lia. }
            lia.
          * cbn [length] in *. unfold factorsE. destruct a as [q|f]; cbn [minsert fst snd kinsert]; rewrite app_length, map_length.
            -- destruct (qeqb _ 1); cbn; lia.
            -- cbn. lia. }
    destruct l as [|a [|b [|c l]]]; cbn [map] in *; try exact Gen.
    exact (Two a b H).
  Qed.

  Lemma extract_idem : forall e, flat_map extractProduct (extractProduct e) = extractProduct e.
  Proof.
    induction e as [q|n p|c| |f l IH|l IH|l IH|x y IHx IHy] using expr_ind2; cbn [extractProduct flat_map app]; try reflexivity.
    induction l as [|x l IHl]; [reflexivity|]. cbn [flat_map]. rewrite flat_map_app. rewrite (IH x) by (now left).
    f_equal. apply IHl. intros y Hy. apply IH. now right.
  Qed.
  Lemma extracts_idem u : extractProducts (extractProducts u) = extractProducts u.
  Proof.
    unfold extractProducts. induction u as [|x u IH]; [reflexivity|]. cbn [flat_map]. rewrite flat_map_app.
    now rewrite extract_idem, IH.
  Qed.
  Lemma simplifyProduct_ext W n u u' : extractProducts u = extractProducts u' ->
    simplifyProduct Y W n u = simplifyProduct Y W n u'.
  Proof. intros H. destruct n; [reflexivity|]. cbn [simplifyProduct]. unfold prepare. now rewrite H. Qed.

  Definition atomsOf (m : mono) : list atom :=
    match (if qeqb (fst m) 1 then [] else [AN (fst m)]) ++ map AF (snd m) with [] => [AN 1] | l => l end.
  Lemma extract_mono m : extractProduct (monoE m) = map atomE (atomsOf m).
  Proof.
    destruct m as [c k]. unfold monoE, factorsE, atomsOf; cbn [fst snd].
    assert (X : forall k, flat_map extractProduct (map facE k) = map atomE (map AF k)).
    { clear. induction k as [|f k IH]; [reflexivity|]. cbn [map flat_map atomE]. rewrite facE_extract. cbn [app]. now rewrite IH. }
    destruct (qeqb c 1); cbn [app].
    - destruct k as [|f [|g k]]; cbn [map]; [reflexivity | apply facE_extract |]. cbn [extractProduct].
      exact (X (f :: g :: k)).
    - destruct k as [|f k]; cbn [map]; [reflexivity|]. cbn [extractProduct flat_map atomE map app].
      f_equal. exact (X (f :: k)).
  Qed.
  Lemma extract_monos ms : extractProducts (map monoE ms) = map atomE (flat_map atomsOf ms).
  Proof.
    unfold extractProducts. induction ms as [|m ms IH]; [reflexivity|]. cbn [map flat_map].
    now rewrite extract_mono, IH, map_app.
  Qed.
  Lemma atomsOf_OK m : monoOK m -> Forall atomOK (atomsOf m).
  Proof.
    intros (C & N & _ & K). unfold atomsOf.
    assert (X : Forall atomOK ((if qeqb (fst m) 1 then [] else [AN (fst m)]) ++ map AF (snd m))).
    { apply Forall_app. split.
      - destruct (qeqb (fst m) 1); repeat constructor; auto.
      - apply Forall_map. eapply Forall_impl; [|exact K]. auto. }
    destruct (_ ++ _); [|exact X]. repeat constructor; try apply canon_1. discriminate.
  Qed.
  Lemma atomsOf_nil m : atomsOf m <> [].
  Proof. unfold atomsOf. destruct (_ ++ _); discriminate. Qed.
  Lemma atomsV_app r a b : atomsV r (a ++ b) = (atomsV r a * atomsV r b)%R.
  Proof. unfold atomsV. induction a as [|x a IH]; cbn [app fold_right]; [lra|]. rewrite IH. ring. Qed.
  Lemma atomsDeg_app a b : atomsDeg (a ++ b) = atomsDeg a + atomsDeg b.
  Proof. unfold atomsDeg. induction a as [|x a IH]; cbn [app fold_right]; lia. Qed.
  Lemma atomsV_AF r k : atomsV r (map AF k) = keyV r k.
  Proof. unfold atomsV, keyV. induction k as [|f k IH]; cbn [map fold_right atomV]; [reflexivity|]. now rewrite IH. Qed.
  Lemma atomsDeg_AF k : atomsDeg (map AF k) = kdeg k.
  Proof. unfold atomsDeg, kdeg. induction k as [|f k IH]; cbn [map fold_right atomDeg]; [reflexivity|]. now rewrite IH. Qed.
  Lemma atomsOf_V r m : atomsV r (atomsOf m) = monoV r m.
  Proof.
    unfold monoV. rewrite <- atomsV_AF. unfold atomsOf. destruct (qeqb (fst m) 1) eqn:E; cbn [app].
    - apply qeqb_eq in E. rewrite E, Q2R_1. destruct (snd m) as [|f k]; cbn [map].
      + unfold atomsV; cbn [fold_right atomV]. rewrite Q2R_1. lra.
      + lra.
    - reflexivity.
  Qed.
  Lemma atomsOf_deg m : atomsDeg (atomsOf m) = kdeg (snd m).
  Proof.
    rewrite <- atomsDeg_AF. unfold atomsOf. destruct (qeqb (fst m) 1); cbn [app]; [|reflexivity].
    destruct (snd m); reflexivity.
  Qed.
  Definition monosV (r : env) (l : list mono) : R := fold_right (fun m v => monoV r m * v)%R 1%R l.
  Definition monosDeg (l : list mono) : Z := fold_right (fun m v => kdeg (snd m) + v) 0 l.
  Definition monosSize (l : list mono) : nat := length (flat_map atomsOf l).
  Lemma atomsOf_monosV r l : atomsV r (flat_map atomsOf l) = monosV r l.
  Proof. induction l as [|m l IH]; [reflexivity|]. cbn [flat_map monosV fold_right]. rewrite atomsV_app, atomsOf_V, IH. reflexivity. Qed.
  Lemma atomsOf_monosDeg l : atomsDeg (flat_map atomsOf l) = monosDeg l.
  Proof. induction l as [|m l IH]; [reflexivity|]. cbn [flat_map monosDeg fold_right]. rewrite atomsDeg_app, atomsOf_deg, IH. reflexivity. Qed.

  Lemma monoE_isUndefined m : isUndefined (monoE m) = false.
  Proof.
    destruct (monoE_cases m) as [[_ ->]|[(f & _ & ->)|(_ & -> & _)]]; auto using facE_isUndefined.
  Qed.
  Lemma monoE_isSum m : isSum (monoE m) = false.
  Proof. destruct (monoE_cases m) as [[_ ->]|[(f & _ & ->)|(_ & -> & _)]]; auto using facE_noSum. Qed.
  Lemma monoE_isZero m : monoOK m -> isZero (monoE m) = false.
  Proof.
    intros (C & N & _). destruct (monoE_cases m) as [[_ ->]|[(f & _ & ->)|(_ & -> & _)]]; auto using facE_isZero.
    now apply qeqb_neq.
  Qed.
  Lemma factorsE_noSum m : existsb isSum (factorsE m) = false.
  Proof.
    unfold factorsE. rewrite existsb_app. apply orb_false_iff. split.
    - destruct (qeqb _ _); reflexivity.
    - induction (snd m) as [|f k IH]; [reflexivity|]. cbn [map existsb]. now rewrite facE_noSum.
  Qed.
  Lemma existsb_filter {A} (p q : A -> bool) l : existsb p l = false -> existsb p (filter q l) = false.
  Proof.
    induction l as [|x l IH]; [reflexivity|]. cbn [existsb filter]. intros H. apply orb_false_iff in H as [H1 H2].
    destruct (q x); cbn [existsb]; [rewrite H1|]; auto.
  Qed.
  Lemma needsExpansion_mono m : needsExpansion (factorsE m) = false.
  Proof.
    unfold needsExpansion, constElements, nonConstElements. cbn zeta. pose proof (factorsE_noSum m) as H.
    rewrite !(existsb_filter _ _ _ H). destruct (filter isConst (factorsE m)); reflexivity.
  Qed.

  (** Product::create on products of powers of symbols. *)
  Lemma prod_monos k ms : (4 <= k)%nat -> (monosSize ms + 5 <= F)%nat -> ms <> [] -> Forall monoOK ms ->
    exists m, w_prod (Wk k) (map monoE ms) = Ok (monoE m) [] /\ monoOK m /\
      (forall r, allPos r -> monoV r m = monosV r ms) /\ kdeg (snd m) <= monosDeg ms.
  Proof.
    intros Hk HF Hms H. destruct k as [|k]; [lia|]. cbn [world step w_prod].
    unfold prodCreate.
    assert (U : existsb isUndefined (map monoE ms) = false).
    { clear. induction ms as [|m ms IH]; [reflexivity|]. cbn [map existsb]. now rewrite monoE_isUndefined. }
    assert (Z : existsb isZero (map monoE ms) = false).
    { clear -H. induction H as [|m ms Hm _ IH]; [reflexivity|]. cbn [map existsb]. now rewrite monoE_isZero. }
    rewrite U, Z.
    assert (X : exists m, (r <- simplifyProduct Y (Wk k) F (map monoE ms);;
      match r with
      | [] => ret one | [x] => ret x
      | _ => if needsExpansion r then expandAsProduct (Wk k) F r else ret (Prod r)
      end) = Ok (monoE m) [] /\ monoOK m /\ (forall r, allPos r -> monoV r m = monosV r ms) /\ kdeg (snd m) <= monosDeg ms).
    { destruct (simplifyProduct_atoms k ltac:(lia) ltac:(lia) F (flat_map atomsOf ms)) as (u & m & E & O & M & V & D & _).
      - destruct ms as [|m ms]; [congruence|]. cbn [flat_map]. pose proof (atomsOf_nil m). destruct (atomsOf m); [congruence | discriminate].
      - clear -H. induction H as [|m ms Hm _ IH]; [constructor|]. cbn [flat_map]. apply Forall_app. split; auto using atomsOf_OK.
      - unfold monosSize in HF. lia.
      - exists m. split; [|split; [exact M | split]].
        + rewrite (simplifyProduct_ext _ _ _ (map atomE (flat_map atomsOf ms))).
          2:{ rewrite extract_atoms. apply extract_monos. }
          rewrite E, bind_ret. destruct O as [-> | [-> ->]]; [|reflexivity].
          unfold monoE. destruct (factorsE m) as [|x [|y l]] eqn:Fm; [reflexivity | reflexivity |].
          rewrite <- Fm, needsExpansion_mono. reflexivity.
        + intros r Hr. rewrite V by assumption. apply atomsOf_monosV.
        + rewrite <- atomsOf_monosDeg. exact D. }
    destruct ms as [|m1 [|m2 ms]]; cbn [map] in *; [congruence | | exact X].
    exists m1. split; [reflexivity|]. inversion H; subst. split; [assumption|]. split.
    - intros r _. cbn. lra.
    - cbn. lia.
  Qed.
End Prod.
