(** Sums of products of powers of symbols: the code computes the normal form and relies on no fact. *)
From Verif Require Import LaurentSpec LaurentOrder LaurentProd LaurentIdent ExprProofs NumberProofs OrderModel OrderProofs World.
From Coq Require Import Lia Lra Bool Permutation.
From Verif Require Import Run LaurentSpec.
Open Scope Z_scope.

Lemma Num_monoE c : Num c = monoE (c, []).
Proof. unfold monoE, factorsE; cbn [fst snd map]. destruct (qeqb c 1) eqn:E; [|reflexivity]. apply qeqb_eq in E as ->. reflexivity. Qed.
Lemma facE_monoE f : facE f = monoE (1%Q, [f]).
Proof. reflexivity. Qed.

Lemma monoE_noUndef m : noUndef (monoE m) = true.
Proof.
  destruct (monoE_cases m) as [[_ ->]|[(f & _ & ->)|(_ & -> & _ & c & -> & H)]]; auto using facE_noUndef.
  cbn [noUndef]. rewrite forallb_app. apply andb_true_iff. split; apply forallb_forall; intros x Hx.
  - destruct (H x Hx) as [q ->]. reflexivity.
  - apply in_map_iff in Hx as (f & <- & _). apply facE_noUndef.
Qed.
Lemma factorsE_inj m n : canon (fst m) -> canon (fst n) -> factorsE m = factorsE n -> m = n.
Proof.
  destruct m as [c k], n as [d l]. unfold factorsE; cbn [fst snd]. intros _ _.
  destruct (qeqb c 1) eqn:Ec, (qeqb d 1) eqn:Ed; cbn [app]; intros H.
  - apply qeqb_eq in Ec, Ed. apply map_facE_inj in H. congruence.
  - destruct k as [|f k]; [discriminate|]. cbn [map] in H. injection H as H _. now apply facE_noNum in H.
  - destruct l as [|f l]; [discriminate|]. cbn [map] in H. injection H as H _. symmetry in H. now apply facE_noNum in H.
  - injection H as -> H. apply map_facE_inj in H. congruence.
Qed.
Lemma monoE_inj m n : canon (fst m) -> canon (fst n) -> monoE m = monoE n -> m = n.
Proof.
  intros Cm Cn H.
  destruct (monoE_cases m) as [[Em E]|[(f & -> & E)|(Nm & E & Lm & _)]]; rewrite E in H;
  destruct (monoE_cases n) as [[En E']|[(g & -> & E')|(Nn & E' & Ln & _)]]; rewrite E' in H.
  - injection H as H. destruct m, n; cbn in *; congruence.
  - symmetry in H. now apply facE_noNum in H.
  - discriminate.
  - now apply facE_noNum in H.
  - apply facE_inj in H. congruence.
  - pose proof (facE_noProd f) as X. rewrite H in X. discriminate.
  - discriminate.
  - pose proof (facE_noProd g) as X. rewrite <- H in X. discriminate.
  - injection H as H. now apply factorsE_inj.
Qed.

Lemma filter_facs l : filter isConst (map facE l) = [] /\ filter (fun e => negb (isConst e)) (map facE l) = map facE l.
Proof.
  induction l as [|f l [IH1 IH2]]; [auto|]. cbn [map filter]. rewrite facE_isConst. cbn [negb]. split; congruence.
Qed.

Section SumS.
  Variables (Y : sys) (F : nat) (B : Z).
  Hypothesis Hlt : exactUpTo B (s_nlt Y).
  Notation Wk := (world Y F).

  Definition fits (k : key) : Prop := (length k + 8 <= F)%nat /\ kdeg k <= B.
  Lemma fits_in k : fits k -> Forall (facIn B) k.
  Proof. intros [_ H]. apply Forall_forall. intros f Hf. apply kdeg_in in Hf. unfold facIn. lia. Qed.

  Lemma size_facs l : monosSize (map (fun f => (1%Q, [f])) l) = length l.
  Proof. unfold monosSize. induction l as [|f l IH]; [reflexivity|]. cbn [map flat_map]. rewrite app_length. cbn. now rewrite <- IH. Qed.

  Lemma prod_facs k l : (4 <= k)%nat -> fits l -> keyOK l -> l <> [] -> w_prod (Wk k) (map facE l) = Ok (monoE (1%Q, l)) [].
  Proof.
    intros Hk [Hf _] [Sl Nl] Hl.
    destruct (prod_monos Y F k (map (fun f => (1%Q, [f])) l)) as (m & E & O & V & _).
    - assumption.
    - rewrite size_facs. lia.
    - destruct l; [congruence | discriminate].
    - apply Forall_map. eapply Forall_impl; [|exact Nl]. intros f Hf'. split; [apply canon_1|]. split; [discriminate|].
      split; repeat constructor; auto.
    - rewrite map_map in E. change (map (fun x => monoE (1%Q, [x])) l) with (map facE l) in E. rewrite E.
      assert (m = (1%Q, l)) as ->; [|reflexivity]. apply mono_unique; auto.
      + split; [apply canon_1|]. split; [discriminate|]. split; assumption.
      + intros r Hr. rewrite V by assumption. unfold monoV; cbn [fst snd]. clear. rewrite Q2R_1, Rmult_1_l.
        induction l as [|f l IH]; [reflexivity|]. cbn [map monosV keyV fold_right]. unfold monosV, keyV in IH. rewrite IH.
        unfold monoV; cbn. rewrite Q2R_1. ring.
  Qed.
  Lemma prod_num k c : (1 <= k)%nat -> c <> 0%Q -> w_prod (Wk k) [Num c] = Ok (Num c) [].
  Proof.
    destruct k as [|k]; [lia|]. intros _ N. cbn [world step w_prod]. unfold prodCreate. cbn [existsb isUndefined isZero orb].
    rewrite (proj2 (qeqb_neq c 0) N). reflexivity.
  Qed.
  Lemma prod_zero k l : (1 <= k)%nat -> existsb isUndefined l = false -> existsb isZero l = true -> w_prod (Wk k) l = Ok zero [].
  Proof. destruct k as [|k]; [lia|]. intros _ U Z. cbn [world step w_prod]. unfold prodCreate. now rewrite U, Z. Qed.
  Lemma prod_num_key k s l : (4 <= k)%nat -> fits l -> keyOK l -> canon s -> s <> 0%Q ->
    w_prod (Wk k) [Num s; monoE (1%Q, l)] = Ok (monoE (s, l)) [].
  Proof.
    intros Hk [Hf _] Kl Cs Ns. destruct (prod_monos Y F k [(s, []); (1%Q, l)]) as (m & E & O & V & _).
    - assumption.
    - unfold monosSize. cbn [flat_map]. rewrite !app_length. unfold atomsOf; cbn [fst snd app map length].
      replace (qeqb 1 1) with true by reflexivity. destruct (qeqb s 1); cbn [app map length]; destruct l; cbn [map length] in *; rewrite ?map_length; lia.
    - discriminate.
    - assert (keyOK []) by (split; constructor). repeat constructor; auto using canon_1; try discriminate; apply Kl.
    - cbn [map] in E. rewrite <- Num_monoE in E. rewrite E. assert (m = (s, l)) as ->; [|reflexivity].
      apply mono_unique; auto.
      + split; [assumption|]. split; assumption.
      + intros r Hr. rewrite V by assumption. unfold monosV, monoV; cbn. rewrite Q2R_1. ring.
  Qed.

  (** ** Terms of a product *)
  Lemma elements m : constElements (factorsE m) = (if qeqb (fst m) 1 then [] else [Num (fst m)]) /\
    nonConstElements (factorsE m) = map facE (snd m).
  Proof.
    unfold constElements, nonConstElements, factorsE. destruct (filter_facs (snd m)) as [F1 F2].
    rewrite !filter_app, F1, F2. destruct (qeqb (fst m) 1); cbn; auto.
  Qed.
  Lemma nonConst_mono k m : (4 <= k)%nat -> fits (snd m) -> monoOK m -> nonConstTerm (Wk k) (monoE m) = Ok (monoE (1%Q, snd m)) [].
  Proof.
    intros Hk Hf (C & N & K). destruct (monoE_cases m) as [[Em E]|[(f & -> & E)|(Nm & E & _)]]; rewrite E.
    - destruct m; cbn in Em; subst. reflexivity.
    - unfold nonConstTerm. pose proof (facE_noProd f). pose proof (facE_isConst f) as X. destruct (facE f) eqn:Ef; try discriminate;
        rewrite X, <- Ef; reflexivity.
    - cbn [nonConstTerm]. rewrite (proj2 (elements m)). rewrite <- prod_facs with (k := k) by auto.
      destruct m as [c l]; cbn [fst snd] in *. destruct l; [congruence | reflexivity].
  Qed.
  Lemma const_mono k m : (4 <= k)%nat -> monoOK m -> constTerm (Wk k) (monoE m) = Ok (Num (fst m)) [].
  Proof.
    intros Hk (C & N & K). destruct (monoE_cases m) as [[Em E]|[(f & -> & E)|(Nm & E & _)]]; rewrite E.
    - reflexivity.
    - unfold constTerm. pose proof (facE_noProd f). pose proof (facE_isConst f) as X. destruct (facE f) eqn:Ef; try discriminate;
        rewrite X; reflexivity.
    - cbn [constTerm]. rewrite (proj1 (elements m)). destruct (qeqb (fst m) 1) eqn:E1.
      + apply qeqb_eq in E1. rewrite E1. reflexivity.
      + apply prod_num; auto. lia.
  Qed.
  Lemma nonNumeric_mono k m : (4 <= k)%nat -> fits (snd m) -> monoOK m -> nonNumericTerm (Wk k) (monoE m) = Ok (monoE (1%Q, snd m)) [].
  Proof.
    intros Hk Hf (C & N & K). destruct (monoE_cases m) as [[Em E]|[(f & -> & E)|(Nm & E & _)]]; rewrite E.
    - destruct m; cbn in Em; subst. reflexivity.
    - unfold nonNumericTerm. pose proof (facE_noProd f). pose proof (facE_isNumeric f). cbn [snd]. rewrite <- facE_monoE.
      destruct (facE f) eqn:Ef; try discriminate; reflexivity.
    - destruct m as [c l]; cbn [fst snd] in *. unfold factorsE; cbn [fst snd]. destruct (qeqb c 1) eqn:E1; cbn [app].
      + apply qeqb_eq in E1 as ->. rewrite E. unfold factorsE; cbn [fst snd].
        replace (qeqb 1 1) with true by reflexivity. cbn [app].
        destruct l as [|f l]; [congruence|]. cbn [map nonNumericTerm]. rewrite facE_isNumeric. reflexivity.
      + cbn [nonNumericTerm isNumeric]. now apply prod_facs.
  Qed.

  (** ** Two summands *)
  Definition pairOK (m n : mono) (l : list expr) : Prop :=
    if key_dec (snd m) (snd n) then
      let c := qadd (fst m) (fst n) in
      if qeqb c 0 then l = [] \/ l = [zero] else l = [monoE (c, snd m)]
    else (keyLt (snd m) (snd n) /\ l = [monoE m; monoE n]) \/ (keyLt (snd n) (snd m) /\ l = [monoE n; monoE m]).

  Lemma pair_monos k n m1 m2 : (4 <= k)%nat -> monoOK m1 -> monoOK m2 -> fits (snd m1) -> fits (snd m2) ->
    exists l, simplTwoSummands Y (Wk k) (S n) (monoE m1) (monoE m2) = Ok l [] /\ pairOK m1 m2 l.
  Proof.
    intros Hk O1 O2 F1 F2. cbn [simplTwoSummands]. rewrite !monoE_isSum. cbn [orb].
    unfold simplTwoSummandsWithoutSum. rewrite !monoE_isZero by assumption.
    set (R := c <- haveEqualNonConstTerms (Wk k) (monoE m1) (monoE m2);; _).
    assert (Gen : snd m1 <> [] \/ snd m2 <> [] -> exists l, R = Ok l [] /\ pairOK m1 m2 l).
    { intros Hne. unfold R, haveEqualNonConstTerms.
      rewrite !nonConst_mono by assumption. rewrite !bind_ret.
      unfold pairOK. destruct (key_dec (snd m1) (snd m2)) as [Ek|Nk].
      - assert (N1 : snd m1 <> []) by (destruct Hne; congruence).
        assert (One : isOne (monoE (1%Q, snd m1)) = false).
        { destruct (monoE_cases (1%Q, snd m1)) as [[X _]|[(f & _ & ->)|(_ & -> & _)]]; [now cbn in X | apply facE_isOne | reflexivity]. }
        rewrite <- Ek, One. cbn [orb]. rewrite isEqual_refl by apply monoE_noUndef. unfold ret. rewrite bind_ret.
        unfold simplEqualNonConstTerms. rewrite !const_mono by assumption. rewrite !bind_ret.
        rewrite num_sum by (try apply O1; try apply O2; destruct F1; lia). rewrite bind_ret. cbn [isSum negb].
        rewrite nonConst_mono by assumption. rewrite bind_ret. cbn zeta.
        destruct (qeqb (qadd (fst m1) (fst m2)) 0) eqn:E0.
        + rewrite prod_zero; [|lia| |].
          * rewrite bind_ret. eexists; split; [reflexivity|]. now right.
          * cbn [existsb isUndefined orb]. now rewrite monoE_isUndefined.
          * cbn [existsb isZero]. rewrite E0. reflexivity.
        + rewrite prod_num_key; auto; [|apply O1|apply qadd_spec|now apply qeqb_neq].
          rewrite bind_ret. eexists; split; [reflexivity|]. reflexivity.
      - assert (NE : isEqual (monoE (1%Q, snd m1)) (monoE (1%Q, snd m2)) = false).
        { apply isEqual_false; [apply monoE_noUndef|]. intros X. apply monoE_inj in X; [congruence|apply canon_1|apply canon_1]. }
        rewrite NE. replace (if isOne (monoE (1%Q, snd m1)) || isOne (monoE (1%Q, snd m2)) then false else false) with false by (destruct (isOne _ || isOne _); reflexivity).
        unfold ret. rewrite bind_ret. unfold haveEqualNonNumericTerms. rewrite !nonNumeric_mono by assumption. rewrite !bind_ret, NE.
        unfold ret. rewrite bind_ret. unfold haveContractableSinCos. rewrite !nonConst_mono, !const_mono by assumption. rewrite !bind_ret.
        assert (SC : areSinAndCosSquare Y (monoE (1%Q, snd m1)) (monoE (1%Q, snd m2)) = false).
        { destruct (monoE_cases (1%Q, snd m1)) as [[_ ->]|[(f & _ & ->)|(_ & -> & _)]]; try reflexivity.
          unfold facE. destruct (snd f =? 1); reflexivity. }
        rewrite SC, andb_false_r. unfold ret. rewrite bind_ret. unfold ordered, permuted.
        pose proof (dp_mono (s_nlt Y) B Hlt m1 m2 (fits_in _ F1) (fits_in _ F2) Nk) as D.
        destruct (doPermute (s_nlt Y) (monoE m1) (monoE m2)); eexists; (split; [reflexivity|]).
        + right. split; auto. now apply D.
        + left. split; auto. destruct (keyLt_tri _ _ Nk) as [|G]; auto. apply D in G. discriminate. }
    destruct (monoE_cases m1) as [[E1 M1]|[(f & -> & M1)|(N1 & M1 & _)]].
    - destruct (monoE_cases m2) as [[E2 M2]|[(g & -> & M2)|(N2 & M2 & _)]].
      + rewrite M1, M2. eexists; split; [reflexivity|]. unfold pairOK. clear - E1 E2. destruct m1 as [c1 k1], m2 as [c2 k2]; cbn [fst snd] in *; subst.
        destruct (key_dec [] []) as [_|]; [|congruence]. cbn zeta. destruct (qeqb _ 0); [now left|]. now rewrite Num_monoE.
      + destruct Gen as (l & El & Pl); [right; discriminate|]. exists l. split; [|exact Pl]. rewrite <- El. unfold R.
        rewrite M1, M2. unfold facE. destruct (snd g =? 1); reflexivity.
      + destruct Gen as (l & El & Pl); [now right|]. exists l. split; [|exact Pl]. rewrite <- El. unfold R. rewrite M1, M2. reflexivity.
    - destruct Gen as (l & El & Pl); [left; discriminate|]. exists l. split; [|exact Pl]. rewrite <- El. unfold R. rewrite M1.
      unfold facE. destruct (snd f =? 1); reflexivity.
    - destruct Gen as (l & El & Pl); [now left|]. exists l. split; [|exact Pl]. rewrite <- El. unfold R. rewrite M1. reflexivity.
  Qed.

  (** ** Merging two sums *)
  Definition pfits (p : poly) : Prop := Forall (fun m => fits (snd m)) p.
  Definition isSumOf (s p q : poly) : Prop :=
    polyOK s /\ (forall r, polyV r s = polyV r p + polyV r q)%R /\
    incl (map snd s) (map snd p ++ map snd q) /\ (length s <= length p + length q)%nat.

  Lemma pfits_incl s l : incl (map snd s) l -> Forall fits l -> pfits s.
  Proof.
    intros I H. apply Forall_forall. intros m Hm. rewrite Forall_forall in H. apply H, I. now apply in_map.
  Qed.
  Lemma pfits_keys p : pfits p -> Forall fits (map snd p).
  Proof. intros H. now apply Forall_map. Qed.
  Lemma isSumOf_fits s p q : isSumOf s p q -> pfits p -> pfits q -> pfits s.
  Proof. intros (_ & _ & I & _) Hp Hq. eapply pfits_incl; [exact I|]. apply Forall_app. split; now apply pfits_keys. Qed.
  Lemma polyOK_tail m p : polyOK (m :: p) -> polyOK p.
  Proof. intros [A S]. inversion A; inversion S; subst. now split. Qed.
  Lemma polyOK_cons m p : monoOK m -> polyOK p -> (forall k, In k (map snd p) -> keyLt (snd m) k) -> polyOK (m :: p).
  Proof.
    intros Hm [A S] H. split; constructor; auto. apply Forall_forall. intros n Hn. apply H. now apply in_map.
  Qed.
  Lemma polyOK_head m p : polyOK (m :: p) -> forall k, In k (map snd p) -> keyLt (snd m) k.
  Proof.
    intros [_ S] k Hk. inversion S as [|? ? _ H]; subst. apply in_map_iff in Hk as (n & <- & Hn).
    rewrite Forall_forall in H. now apply H.
  Qed.
  Lemma polyOK_one m p : polyOK (m :: p) -> monoOK m.
  Proof. intros [A _]. now inversion A. Qed.
  Lemma polyOK_nil : polyOK [].
  Proof. split; constructor. Qed.
  Lemma monoV_add r c d k : monoV r (qadd c d, k) = (monoV r (c, k) + monoV r (d, k))%R.
  Proof. unfold monoV; cbn [fst snd]. rewrite Q2R_qadd. ring. Qed.

  Lemma polyV_cons r m p : polyV r (m :: p) = (monoV r m + polyV r p)%R.
  Proof. reflexivity. Qed.

  Lemma isSumOf_l p : polyOK p -> isSumOf p p [].
  Proof. intros H. split; [exact H|]. split; [|split]. - intros r. cbn. ring. - cbn. rewrite app_nil_r. apply incl_refl. - cbn. lia. Qed.
  Lemma isSumOf_r p : polyOK p -> isSumOf p [] p.
  Proof. intros H. split; [exact H|]. split; [|split]. - intros r. cbn. ring. - cbn. apply incl_refl. - cbn. lia. Qed.
  Lemma isSumOf_lt m p q s : isSumOf s p q -> polyOK (m :: p) -> (forall k, In k (map snd q) -> keyLt (snd m) k) -> isSumOf (m :: s) (m :: p) q.
  Proof.
    intros (O & V & I & L) Hp Hq. split; [|split; [|split]].
    - apply polyOK_cons; [now apply polyOK_one in Hp | exact O |]. intros k Hk. apply I, in_app_or in Hk as [Hk|Hk]; auto.
      revert Hk. now apply polyOK_head.
    - intros r. rewrite !polyV_cons, V. ring.
    - cbn. intros k [<-|Hk]; [now left|]. right. now apply I.
    - cbn. lia.
  Qed.
  Lemma isSumOf_comm s p q : isSumOf s p q -> isSumOf s q p.
  Proof.
    intros (O & V & I & L). split; [exact O|]. split; [|split; [|lia]].
    - intros r. rewrite V. ring.
    - intros k Hk. apply I, in_app_or in Hk. apply in_or_app. tauto.
  Qed.
  Lemma isSumOf_eq c d k p q s : isSumOf s p q -> polyOK ((c, k) :: p) -> polyOK ((d, k) :: q) ->
    isSumOf (if qeqb (qadd c d) 0 then s else (qadd c d, k) :: s) ((c, k) :: p) ((d, k) :: q).
  Proof.
    intros (O & V & I & L) Hp Hq. destruct (qeqb (qadd c d) 0) eqn:E.
    - apply qeqb_eq in E. split; [exact O|]. split; [|split].
      + intros r. rewrite V, !polyV_cons. pose proof (monoV_add r c d k) as X. rewrite E in X. unfold monoV at 1 in X; cbn in X. rewrite Q2R_0 in X.
        lra.
      + intros j Hj. apply I, in_app_or in Hj. cbn. right. apply in_or_app. cbn. tauto.
      + cbn. lia.
    - apply qeqb_neq in E. split; [|split; [|split]].
      + apply polyOK_cons.
        * split; [apply qadd_spec|]. split; [exact E|]. apply polyOK_one in Hp. apply Hp.
        * exact O.
        * intros j Hj. apply I, in_app_or in Hj as [Hj|Hj]; [apply (polyOK_head _ _ Hp) | apply (polyOK_head _ _ Hq)]; auto.
      + intros r. rewrite !polyV_cons, monoV_add, V. ring.
      + cbn. intros j [<-|Hj]; [now left|]. right. apply I, in_app_or in Hj. apply in_or_app. cbn. tauto.
      + cbn. lia.
  Qed.

  Lemma isZero_zero : isZero zero = true. Proof. reflexivity. Qed.

  Lemma merge_polys k n' : forall n p q, (4 <= k)%nat -> (length p + length q < n)%nat -> polyOK p -> polyOK q -> pfits p -> pfits q ->
    exists s, merge n isZero (simplTwoSummands Y (Wk k) (S n')) (map monoE p) (map monoE q) = Ok (map monoE s) [] /\ isSumOf s p q.
  Proof.
    induction n as [|n IH]; intros p q Hk Hn Op Oq Fp Fq; [lia|].
    destruct p as [|m1 p]; [exists q; split; [reflexivity | now apply isSumOf_r]|].
    destruct q as [|m2 q]; [exists (m1 :: p); split; [reflexivity | now apply isSumOf_l]|].
    cbn [length] in Hn. inversion Fp as [|? ? F1 Fp']; inversion Fq as [|? ? F2 Fq']; subst.
    pose proof (polyOK_one _ _ Op) as O1. pose proof (polyOK_one _ _ Oq) as O2.
    pose proof (polyOK_tail _ _ Op) as Op'. pose proof (polyOK_tail _ _ Oq) as Oq'.
    destruct (pair_monos k n' m1 m2 Hk O1 O2 F1 F2) as (l & El & Pl). cbn [map].
    rewrite (merge_step _ _ _ _ _ _ _ _ El). unfold pairOK in Pl. destruct (key_dec (snd m1) (snd m2)) as [Ek|Nk].
    - destruct (IH p q Hk ltac:(lia) Op' Oq' Fp' Fq') as (s & Es & Hs). cbn zeta in Pl.
      destruct m1 as [c k1], m2 as [d k2]; cbn [fst snd] in *; subst k2.
      pose proof (isSumOf_eq c d k1 p q s Hs Op Oq) as R. destruct (qeqb (qadd c d) 0) eqn:E.
      + exists s. split; [|exact R]. destruct Pl as [-> | ->]; [exact Es|]. rewrite isZero_zero. exact Es.
      + subst l. exists ((qadd c d, k1) :: s). split; [|exact R]. rewrite monoE_isZero.
        * rewrite Es, bind_ret. reflexivity.
        * destruct R as (R & _). now apply polyOK_one in R.
    - assert (NE : monoE m1 <> monoE m2).
      { intros X. apply monoE_inj in X; [congruence|apply O1|apply O2]. }
      destruct Pl as [[L ->]|[L ->]].
      + rewrite areEqual_refl2 by apply monoE_noUndef.
        destruct (IH p (m2 :: q) Hk ltac:(cbn [length]; lia) Op' Oq Fp' Fq) as (s & Es & Hs).
        cbn [map] in Es. rewrite Es, bind_ret. exists (m1 :: s). split; [reflexivity|]. apply isSumOf_lt; auto.
        intros j [<-|Hj]; auto. apply keyLt_trans with (1 := L). revert Hj. now apply polyOK_head.
      + rewrite areEqual_swap by auto. rewrite areEqual_refl2 by apply monoE_noUndef.
        destruct (IH (m1 :: p) q Hk ltac:(cbn [length]; lia) Op Oq' Fp Fq') as (s & Es & Hs).
        cbn [map] in Es. rewrite Es, bind_ret. exists (m2 :: s). split; [reflexivity|].
        apply isSumOf_comm, isSumOf_lt; auto using isSumOf_comm.
        intros j [<-|Hj]; auto. apply keyLt_trans with (1 := L). revert Hj. now apply polyOK_head.
  Qed.

  (** The lists that stand for a polynomial between the steps. *)
  Definition okSum (p : poly) (l : list expr) : Prop := l = map monoE p \/ (p = [] /\ l = [zero]).

  Lemma merge_ok k n' n p q lp lq : (4 <= k)%nat -> (length p + length q + 2 <= n)%nat -> polyOK p -> polyOK q -> pfits p -> pfits q ->
    okSum p lp -> okSum q lq ->
    exists s l, merge n isZero (simplTwoSummands Y (Wk k) (S n')) lp lq = Ok l [] /\ okSum s l /\ isSumOf s p q.
  Proof.
    intros Hk Hn Op Oq Fp Fq Hp Hq. destruct n as [|n]; [lia|].
    assert (Z1 : forall x, isSum x = false -> simplTwoSummands Y (Wk k) (S n') zero x = Ok [x] []).
    { intros x Hx. cbn [simplTwoSummands]. rewrite Hx. reflexivity. }
    assert (Z2 : forall m, monoOK m -> simplTwoSummands Y (Wk k) (S n') (monoE m) zero = Ok [monoE m] []).
    { intros m Hm. cbn [simplTwoSummands]. rewrite monoE_isSum. cbn [isSum zero orb]. unfold simplTwoSummandsWithoutSum.
      rewrite monoE_isZero by assumption. reflexivity. }
    destruct Hp as [-> | [-> ->]], Hq as [-> | [-> ->]].
    - destruct (merge_polys k n' (S n) p q) as (s & Es & Hs); auto; [lia|]. exists s, (map monoE s). split; [exact Es|]. split; [now left | exact Hs].
    - destruct p as [|m p].
      + exists [], [zero]. split; [reflexivity|]. split; [right; auto | now apply isSumOf_l].
      + pose proof (polyOK_one _ _ Op) as O1. cbn [map]. rewrite (merge_step _ _ _ _ _ _ _ _ (Z2 m O1)). rewrite monoE_isZero by assumption.
        destruct n as [|n]; [cbn [length] in Hn; lia|]. rewrite merge_nil_r. unfold ret. rewrite bind_ret.
        exists (m :: p), (monoE m :: map monoE p). split; [reflexivity|]. split; [now left | now apply isSumOf_l].
    - destruct q as [|m q].
      + exists [], [zero]. split; [reflexivity|]. split; [right; auto | now apply isSumOf_l].
      + pose proof (polyOK_one _ _ Oq) as O1. cbn [map]. rewrite (merge_step _ _ _ _ _ _ _ _ (Z1 (monoE m) (monoE_isSum m))).
        rewrite monoE_isZero by assumption.
        destruct n as [|n]; [cbn [length] in Hn; lia|]. rewrite merge_nil_l. unfold ret. rewrite bind_ret.
        exists (m :: q), (monoE m :: map monoE q). split; [reflexivity|]. split; [now left | now apply isSumOf_r].
    - rewrite (merge_step _ _ _ _ _ _ _ _ (Z1 zero eq_refl)). rewrite isZero_zero. destruct n as [|n]; [cbn in Hn; lia|].
      exists [], []. split; [reflexivity|]. split; [now left | now apply isSumOf_l].
  Qed.

  Definition listOf (e : expr) : list expr := match e with Sum l => l | _ => [e] end.
  Lemma polyE_cases p : (p = [] /\ polyE p = zero) \/ (exists m, p = [m] /\ polyE p = monoE m) \/
    (2 <= length p)%nat /\ polyE p = Sum (map monoE p).
  Proof.
    destruct p as [|m [|m' p]]; [left | right; left | right; right]; auto.
    - now exists m.
    - split; [cbn; lia | reflexivity].
  Qed.
  Lemma listOf_mono m : listOf (monoE m) = [monoE m].
  Proof. pose proof (monoE_isSum m). destruct (monoE m); try discriminate; reflexivity. Qed.
  Lemma listOf_poly p : okSum p (listOf (polyE p)).
  Proof.
    destruct (polyE_cases p) as [[-> ->]|[(m & -> & ->)|[_ ->]]].
    - right. auto.
    - left. apply listOf_mono.
    - left. reflexivity.
  Qed.
  Lemma polyE_isUndefined p : isUndefined (polyE p) = false.
  Proof. destruct (polyE_cases p) as [[-> ->]|[(m & -> & ->)|[_ ->]]]; auto using monoE_isUndefined. Qed.

  Lemma two_polys k n p q : (4 <= k)%nat -> (length p + length q + 4 <= n)%nat -> polyOK p -> polyOK q -> pfits p -> pfits q ->
    exists s l, simplTwoSummands Y (Wk k) n (polyE p) (polyE q) = Ok l [] /\ okSum s l /\ isSumOf s p q.
  Proof.
    intros Hk Hn Op Oq Fp Fq. destruct n as [|[|n]]; [lia|lia|].
    destruct (isSum (polyE p) || isSum (polyE q)) eqn:E.
    - cbn [simplTwoSummands]. rewrite E. fold (listOf (polyE p)) (listOf (polyE q)).
      apply (merge_ok k n (S n) p q); auto using listOf_poly. lia.
    - apply orb_false_iff in E as [Ep Eq].
      destruct (polyE_cases p) as [[Xp Hp]|[(m & Xp & Hp)|[_ Hp]]]; [| |rewrite Hp in Ep; discriminate];
      destruct (polyE_cases q) as [[Xq Hq]|[(m' & Xq & Hq)|[_ Hq]]]; try (rewrite Hq in Eq; discriminate); rewrite Hp, Hq; subst p q.
      + exists [], [zero]. split; [reflexivity|]. split; [right; auto | now apply isSumOf_l].
      + exists [m'], [monoE m']. split; [|split; [now left | now apply isSumOf_r]].
        cbn [simplTwoSummands]. rewrite monoE_isSum. reflexivity.
      + exists [m], [monoE m]. split; [|split; [now left | now apply isSumOf_l]].
        cbn [simplTwoSummands]. rewrite monoE_isSum. cbn [isSum zero orb]. unfold simplTwoSummandsWithoutSum.
        rewrite monoE_isZero by now apply polyOK_one in Op. reflexivity.
      + pose proof (polyOK_one _ _ Op) as O1. pose proof (polyOK_one _ _ Oq) as O2.
        inversion Fp as [|? ? F1 _]; inversion Fq as [|? ? F2 _]; subst.
        destruct (pair_monos k (S n) m m' Hk O1 O2 F1 F2) as (l & El & Pl). exists (
          if key_dec (snd m) (snd m') then if qeqb (qadd (fst m) (fst m')) 0 then [] else [(qadd (fst m) (fst m'), snd m)]
          else match l with x :: _ => if isEqual x (monoE m) then [m; m'] else [m'; m] | [] => [] end), l.
        split; [exact El|]. unfold pairOK in Pl. destruct (key_dec (snd m) (snd m')) as [Ek|Nk].
        * destruct m as [c k1], m' as [d k2]; cbn [fst snd] in *; subst k2.
          pose proof (isSumOf_eq c d k1 [] [] [] (isSumOf_l [] polyOK_nil) Op Oq) as R. destruct (qeqb (qadd c d) 0).
          -- split; [|exact R]. destruct Pl as [-> | ->]; [now left | right; auto].
          -- split; [|exact R]. subst l. now left.
        * assert (NE : monoE m <> monoE m').
          { intros X. apply monoE_inj in X; [congruence|apply O1|apply O2]. }
          destruct Pl as [[L ->]|[L ->]].
          -- rewrite isEqual_refl by apply monoE_noUndef. split; [now left|]. apply (isSumOf_lt m [] [m'] [m']); auto using isSumOf_r.
             intros j [<-|[]]. exact L.
          -- rewrite (proj2 (isEqual_false (monoE m') (monoE m) (monoE_noUndef m')) (fun X => NE (eq_sym X))). split; [now left|].
             apply isSumOf_comm, (isSumOf_lt m' [] [m] [m]); auto using isSumOf_r. intros j [<-|[]]. exact L.
  Qed.

  Definition polysV (r : env) (ps : list poly) : R := fold_right (fun p a => polyV r p + a)%R 0%R ps.
  Definition isSumsOf (s : poly) (ps : list poly) : Prop :=
    polyOK s /\ (forall r, polyV r s = polysV r ps) /\ incl (map snd s) (map snd (concat ps)) /\ (length s <= length (concat ps))%nat.

  Lemma isSumsOf_cons s t p ps : isSumsOf t ps -> isSumOf s p t -> isSumsOf s (p :: ps).
  Proof.
    intros (_ & V & I & L) (O' & V' & I' & L'). split; [exact O'|]. split; [|split].
    - intros r. cbn. rewrite V', V. reflexivity.
    - intros j Hj. cbn. rewrite map_app. apply in_or_app. apply I', in_app_or in Hj as [H|H]; auto.
    - cbn. rewrite app_length. lia.
  Qed.
  Lemma isSumsOf_one p : polyOK p -> isSumsOf p [p].
  Proof.
    intros O. split; [exact O|]. split; [|split].
    - intros r. cbn. ring.
    - cbn. rewrite app_nil_r. apply incl_refl.
    - cbn. rewrite app_nil_r. lia.
  Qed.
  Lemma isSumsOf_two s p q : polyOK q -> isSumOf s p q -> isSumsOf s [p; q].
  Proof. intros Hq Hs. eapply isSumsOf_cons; [apply isSumsOf_one | ]; eassumption. Qed.
  Lemma isSumsOf_fits s ps : isSumsOf s ps -> Forall pfits ps -> pfits s.
  Proof.
    intros (_ & _ & I & _) H. eapply pfits_incl; [exact I|]. apply Forall_map. apply Forall_concat. exact H.
  Qed.

  Lemma simplifySum_polys k n ps : (4 <= k)%nat -> (length (concat ps) + 4 <= n)%nat -> (2 <= length ps)%nat ->
    Forall polyOK ps -> Forall pfits ps ->
    exists s l, simplifySum Y (Wk k) n (map polyE ps) = Ok l [] /\ okSum s l /\ isSumsOf s ps.
  Proof.
    intros Hk. induction ps as [|p ps IH]; intros Hn H2 O Fi; [cbn in H2; lia|].
    inversion O as [|? ? Op O']; inversion Fi as [|? ? Fp F']; subst. cbn [concat] in Hn. rewrite app_length in Hn.
    destruct ps as [|q [|q' ps]]; [cbn in H2; lia| |].
    - inversion O' as [|? ? Oq _]; inversion F' as [|? ? Fq _]; subst.
      cbn [concat] in Hn. rewrite app_nil_r in Hn.
      destruct (two_polys k n p q) as (s & l & E & Hl & Hs); auto; try lia. exists s, l. split; [exact E|]. split; auto using isSumsOf_two.
    - destruct IH as (t & l & E & Hl & Ht); auto; [lia | cbn [length]; lia|].
      pose proof (isSumsOf_fits _ _ Ht F') as Ft. destruct Ht as (Ot & Vt & It & Lt).
      change (simplifySum Y (Wk k) n (map polyE (p :: q :: q' :: ps))) with
        (s <- simplifySum Y (Wk k) n (map polyE (q :: q' :: ps)) ;; merge n isZero (simplTwoSummands Y (Wk k) n) (listOf (polyE p)) s).
      rewrite E, bind_ret. destruct n as [|n]; [lia|].
      destruct (merge_ok k n (S n) p t (listOf (polyE p)) l) as (s & l' & E' & Hl' & Hs); auto using listOf_poly; [lia|].
      exists s, l'. split; [exact E'|]. split; [exact Hl'|]. eapply isSumsOf_cons; [split; eauto | exact Hs].
  Qed.

  Lemma okSum_expr p l : okSum p l -> match l with [] => zero | [x] => x | _ => Sum l end = polyE p.
  Proof. intros [-> | [-> ->]]; [|reflexivity]. destruct p as [|m [|m' p]]; reflexivity. Qed.

  (** The sum of sums is the normal form of the sum. *)
  Theorem sum_polys k ps : (5 <= k)%nat -> (length (concat ps) + 4 <= F)%nat -> ps <> [] ->
    Forall polyOK ps -> Forall pfits ps ->
    exists s, w_sum (Wk k) (map polyE ps) = Ok (polyE s) [] /\ isSumsOf s ps.
  Proof.
    destruct k as [|k]; [lia|]. intros Hk Hn N O Fi. cbn [world step w_sum]. unfold sumCreate.
    assert (existsb isUndefined (map polyE ps) = false) as ->.
    { clear. induction ps; [reflexivity|]. cbn. now rewrite polyE_isUndefined. }
    destruct ps as [|p [|q ps]]; [congruence| |].
    - exists p. split; [reflexivity|]. apply isSumsOf_one. now inversion O.
    - destruct (simplifySum_polys k F (p :: q :: ps)) as (s & l & E & Hl & Hs); auto; [lia | cbn; lia|].
      exists s. split; [|exact Hs]. cbn [map] in *. rewrite E, bind_ret. unfold ret. now rewrite (okSum_expr s l Hl).
  Qed.
End SumS.
