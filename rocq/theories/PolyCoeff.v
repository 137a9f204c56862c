(** Degree and coefficients of expanded polynomials (C20). *)
From Verif Require Export PolySpec PolyProofs SimplApi.
From Coq Require Import Lra Lia Reals.
From Verif Require Import Run.
Open Scope R_scope.

Lemma mentions_has n p e : mentions n p e = false -> has e (Sym n p) = false.
Proof.
  assert (Ex : forall l, (forall x, In x l -> mentions n p x = false -> has x (Sym n p) = false) ->
    existsb (mentions n p) l = false -> existsb (fun x => has x (Sym n p)) l = false).
  { induction l as [|a l IH]; intros H; [reflexivity|]. cbn. rewrite !Bool.orb_false_iff. intros [H1 H2].
    split; [apply H; auto with datatypes|apply IH; auto with datatypes]. }
  induction e as [q|m b|c| |f l IH|l IH|l IH|b y IHb IHy] using expr_ind2; cbn [mentions has]; intros H; try reflexivity.
  - cbn. destruct (nameEq m n) eqn:E; [|reflexivity]. apply nameEq_eq in E. subst. rewrite nameEq_refl in H. cbn in H.
    destruct p, b; cbn in *; congruence.
  - cbn [isEqual]. cbn [orb]. now apply Ex.
  - cbn [isEqual]. cbn [orb]. now apply Ex.
  - cbn [isEqual]. cbn [orb]. now apply Ex.
  - cbn [isEqual]. cbn [orb]. apply Bool.orb_false_iff in H as [H1 H2]. now rewrite IHb, IHy.
Qed.

Section Coeff.
  Variables (Y : sys) (F k : nat).
  Notation W := (world Y F k).
  Variables (n : name) (p : bool).
  Notation x := (Sym n p).

  Definition xpow (j : Z) : expr := if (j =? 0)%Z then one else if (j =? 1)%Z then x else Pow x (numZ j).

  Lemma qeqb_ofZ a b : qeqb (ofZ a) (ofZ b) = (a =? b)%Z.
  Proof. unfold qeqb, ofZ. cbn. now rewrite ?Bool.andb_true_r. Qed.

  Lemma isOne_Z j : isOne (numZ j) = (j =? 1)%Z.
  Proof. exact (qeqb_ofZ j 1). Qed.
  Lemma isZero_Z j : isZero (numZ j) = (j =? 0)%Z.
  Proof. exact (qeqb_ofZ j 0). Qed.

  Lemma monomial_gives j : gives (monomial W x j) (xpow j).
  Proof.
    unfold monomial. destruct k as [|k1]; [intros ?; exact I|]. cbn [world step w_pow]. unfold powCreate.
    cbn [isUndefined numZ orb]. change (Num (ofZ j)) with (numZ j). rewrite isZero_Z, isOne_Z. unfold xpow. destruct (j =? 0)%Z; [apply gives_ret|].
    cbn [isOne isZero orb]. destruct (j =? 1)%Z eqn:E1; [apply gives_ret|].
    destruct k1 as [|k2]; [intros ?; exact I|]. cbn [world step w_spow]. unfold simplifyPower, doesInvolveComplexNumbers.
    cbn [numZ numericEval nIsInt qIsInt qden ofZ Qden Z.eqb Pos.eqb].
    destruct k2 as [|k3]; [intros ?; exact I|]. cbn [world step w_neg isNegative ret bind quiet].
    change (Num (ofZ j)) with (numZ j). rewrite isOne_Z, E1. intros H. cbn. auto.
  Qed.

  Lemma atom_neq e : mentions n p e = false -> isEqual e x = false.
  Proof.
    intros H. destruct (isEqual e x) eqn:E; [|reflexivity]. apply isEqual_eq in E. subst. cbn in H.
    rewrite nameEq_refl, Bool.eqb_reflx in H. discriminate.
  Qed.
  Lemma mentions_x : mentions n p x = true.
  Proof. cbn. now rewrite nameEq_refl, Bool.eqb_reflx. Qed.
  Lemma factor_xpow e j : factor n p e -> isEqual e (xpow j) = false.
  Proof.
    intros [[H _] H1]. destruct (isEqual e (xpow j)) eqn:E; [|reflexivity]. apply isEqual_eq in E. subst. unfold xpow in *.
    destruct (j =? 0)%Z; [now elim H1|]. destruct (j =? 1)%Z; [now rewrite mentions_x in H|].
    cbn [mentions] in H. fold (mentions n p x) in H. now rewrite mentions_x in H.
  Qed.
  Lemma free_xpow l j : Forall (factor n p) l -> withoutFirst (xpow j) l = None.
  Proof. induction 1 as [|a l Ha Hl IH]; cbn [withoutFirst]; [reflexivity|]. now rewrite factor_xpow, IH. Qed.
  Lemma xpower_xpow d e : xpower n p d e -> e = xpow (Z.of_nat d) /\ (1 <= d)%nat /\ (Z.of_nat d < 2147483647)%Z.
  Proof.
    intros [|d' H1 H2]; [repeat split; lia|]. split; [|lia]. unfold xpow.
    destruct (Z.eqb_spec (Z.of_nat d') 0); [lia|]. destruct (Z.eqb_spec (Z.of_nat d') 1); [lia|]. reflexivity.
  Qed.
  Lemma x_refl : isEqual x x = true.
  Proof. cbn. now rewrite nameEq_refl, Bool.eqb_reflx. Qed.
  Lemma xpow_eq d j : (1 <= d)%Z -> isEqual (xpow d) (xpow j) = (d =? j)%Z.
  Proof.
    intros Hd. unfold xpow. destruct (Z.eqb_spec d 0) as [|N0]; [lia|]. destruct (Z.eqb_spec d 1) as [E|N1].
    - subst. destruct (Z.eqb_spec j 0) as [->|M0]; [reflexivity|]. destruct (Z.eqb_spec j 1) as [->|M1]; [apply x_refl|].
      destruct (Z.eqb_spec 1 j); [congruence|reflexivity].
    - destruct (Z.eqb_spec j 0) as [->|M0]; [now destruct (Z.eqb_spec d 0)|]. destruct (Z.eqb_spec j 1) as [->|M1]; [now destruct (Z.eqb_spec d 1)|].
      cbn [isEqual numZ]. rewrite nameEq_refl, Bool.eqb_reflx. cbn [andb]. now rewrite qeqb_ofZ, Bool.andb_true_r.
  Qed.
  Lemma match_xpow a d b j : Forall (factor n p) a -> Forall (factor n p) b -> (1 <= d)%Z ->
    withoutFirst (xpow j) (a ++ xpow d :: b) = if (d =? j)%Z then Some (a ++ b) else None.
  Proof.
    intros Ha Hb Hd. induction Ha as [|e l He Hl IH]; cbn [app withoutFirst].
    - rewrite xpow_eq by assumption. destruct (d =? j)%Z; [reflexivity|]. now rewrite free_xpow.
    - rewrite factor_xpow, IH by assumption. now destruct (d =? j)%Z.
  Qed.
  Lemma xpow_mentions d : (1 <= d)%Z -> has (xpow d) x = true.
  Proof.
    intros H. unfold xpow. destruct (Z.eqb_spec d 0); [lia|]. destruct (d =? 1)%Z; [apply x_refl|].
    cbn [has]. rewrite x_refl. cbn [orb]. now rewrite Bool.orb_true_r.
  Qed.

  (** ** Values *)
  Variable r : env.
  Hypothesis Hr : posEnv r.
  Notation sp st := (spec (holds st r)).
  Notation P := anySym.
  Notation X := (r n p).

  Lemma xpow_val d : (0 <= d)%Z -> eval r (xpow d) = Some (powerRZ X d).
  Proof.
    intros H. unfold xpow. destruct (Z.eqb_spec d 0) as [->|]; [apply eval_one|]. destruct (Z.eqb_spec d 1) as [->|].
    - cbn [eval]. now rewrite powerRZ_1.
    - cbn [eval]. fold (eval r (numZ d)). change (Num (ofZ d)) with (numZ d). rewrite eval_num_z. now apply rpow_intnn.
  Qed.

  Definition coeffIs (e : expr) (d : nat) (a : R) : Prop :=
    forall st j, sp st (coeff W e x j) (fun c => wf P c /\ eval r c = Some (if (Z.of_nat d =? j)%Z then a else 0)).

  Lemma omult_some a b v : omult a b = Some v -> exists u w, a = Some u /\ b = Some w /\ v = u * w.
  Proof. destruct a, b; cbn; try discriminate. intros [= <-]. eauto. Qed.
  Lemma oplus_some a b v : oplus a b = Some v -> exists u w, a = Some u /\ b = Some w /\ v = u + w.
  Proof. destruct a, b; cbn; try discriminate. intros [= <-]. eauto. Qed.

  Lemma sel_val (b : bool) e v : eval r e = Some v -> eval r (if b then e else zero) = Some (if b then v else 0).
  Proof. intros. destruct b; [assumption|apply eval_zero]. Qed.

  Lemma term_coeff d e v : wf P e -> monom n p d e -> eval r e = Some v ->
    exists a, v = a * X ^ d /\ coeffIs e d a.
  Proof.
    intros Hw Ht Ev. destruct Ht as [e [Hm [Hs Hp]]|l Hl|d e He|d a e b Ha He Hb].
    - exists v. split; [cbn; ring|]. intros st j. rewrite Z.eqb_sym. change (Z.of_nat 0) with 0%Z.
      assert (G : sp st (ret (if (j =? 0)%Z then e else zero)) (fun c => wf P c /\ eval r c = Some (if (j =? 0)%Z then v else 0))).
      { apply spec_ret. split; [destruct (j =? 0)%Z; auto with sp|now apply sel_val]. }
      pose proof (atom_neq _ Hm) as Hn. pose proof (mentions_has _ _ _ Hm) as Hh.
      destruct e as [q|m b|c| |f l|l|l|b y]; cbn [coeff]; rewrite ?Hn, ?Hh; cbn [negb andb]; try exact G;
        [now elim (Hs l)|now elim (Hp l)|].
      unfold coeffPower. eapply spec_bind; [apply monomial_gives|]. intros p' ->.
      destruct (isEqual (Pow b y) (xpow j)) eqn:E.
      { assert (Hf : factor n p (Pow b y)) by (split; [split; [exact Hm|split; discriminate]|discriminate]).
        rewrite factor_xpow in E by exact Hf. discriminate. }
      cbn [mentions] in Hm. apply Bool.orb_false_iff in Hm as [Hb _]. rewrite (atom_neq _ Hb). exact G.
    - exists v. split; [cbn; ring|]. intros st j. rewrite Z.eqb_sym. change (Z.of_nat 0) with 0%Z. cbn [coeff].
      assert (Hh : has (Prod l) x = false).
      { apply mentions_has. cbn. clear -Hl. induction Hl as [|a l [[Ha _] _] Hl IH]; [reflexivity|]. cbn. now rewrite Ha. }
      rewrite Hh. cbn [isEqual negb andb]. destruct (j =? 0)%Z; [apply spec_ret; now split|].
      unfold coeffFactorMatch. eapply spec_bind; [apply monomial_gives|]. intros p' ->. rewrite free_xpow by assumption.
      apply spec_ret. split; [auto with sp|apply eval_zero].
    - exists 1. destruct (xpower_xpow _ _ He) as (Ee & Hd & Hd2). split.
      + rewrite Ee, xpow_val, <- pow_powerRZ in Ev by lia. injection Ev as <-. ring.
      + intros st j. assert (Hzo : forall b : bool, wf P (if b then one else zero) /\ eval r (if b then one else zero) = Some (if b then 1 else 0)).
        { intros []; split; auto using eval_one, eval_zero with sp. }
        destruct He as [|d H1 H2].
        * cbn [coeff]. rewrite x_refl. unfold coeffSelf. rewrite Z.eqb_sym. apply spec_ret. apply Hzo.
        * cbn [coeff]. cbn [isEqual]. unfold coeffPower. eapply spec_bind; [apply monomial_gives|]. intros p' ->.
          rewrite Ee, xpow_eq by lia. rewrite x_refl. cbn [negb].
          destruct (Z.of_nat d =? j)%Z; apply spec_ret; [exact (Hzo true)|exact (Hzo false)].
    - destruct (xpower_xpow _ _ He) as (Ee & Hd & Hd2). subst e.
      change (prodVal r (a ++ xpow (Z.of_nat d) :: b) = Some v) in Ev.
      rewrite prodVal_app, prodVal_cons in Ev. apply omult_some in Ev as (u & w & Eu & Ew & ->).
      apply omult_some in Ew as (y & w2 & Ey & Ew & ->).
      rewrite xpow_val, <- pow_powerRZ in Ey by lia. injection Ey as <-.
      exists (u * w2). split; [ring|]. intros st j. cbn [coeff]. cbn [isEqual].
      assert (Hh : has (Prod (a ++ xpow (Z.of_nat d) :: b)) x = true).
      { cbn [has]. apply Bool.orb_true_iff. right. apply existsb_exists. exists (xpow (Z.of_nat d)).
        split; [auto with datatypes|apply xpow_mentions; lia]. }
      rewrite Hh. cbn [negb andb]. unfold coeffFactorMatch. eapply spec_bind; [apply monomial_gives|]. intros p' ->.
      rewrite match_xpow by (auto; lia). destruct (Z.of_nat d =? j)%Z; [|apply spec_ret; split; [auto with sp|apply eval_zero]].
      apply wf_prod in Hw. apply Forall_app in Hw as [Hwa Hwb]. inversion_clear Hwb as [|? ? _ Hwb'].
      eapply spec_weaken; [apply (so_prod W (world_sound Y F k) st r P (a ++ b)); auto using posEnv_good; now apply Forall_app|].
      intros c [Hc Vc]. split; [assumption|]. rewrite prodVal_app, Eu, Ew in Vc. exact Vc.
  Qed.

  (** ** Degrees *)
  Lemma degree_atom e : mentions n p e = false -> (forall l, e <> Sum l) -> (forall l, e <> Prod l) -> degree Y e x = 0%Z.
  Proof.
    intros Hm Hs Hp. pose proof (atom_neq _ Hm) as Hn.
    destruct e as [q|m b|c| |f l|l|l|b y]; cbn [degree]; rewrite ?Hn; try reflexivity; [now elim (Hs l)|now elim (Hp l)|].
    cbn [mentions] in Hm. apply Bool.orb_false_iff in Hm as [Hb _].
    assert (Hd : (degree Y b x <= 0)%Z).
    { clear -Hb. revert Hb. induction b as [q|m b|c| |f l IH|l IH|l IH|b y IHb IHy] using expr_ind2; intros Hm;
        pose proof (atom_neq _ Hm) as Hn; cbn [degree]; rewrite ?Hn; try lia.
      - cbn [mentions] in Hm. assert (G : forall a, (a <= 0)%Z -> (fold_left (fun a s => Z.max a (degree Y s x)) l a <= 0)%Z); [|apply G; unfold intMin; lia].
        induction l as [|s l IHl]; intros a Ha; cbn [fold_left]; [exact Ha|]. cbn in Hm. apply Bool.orb_false_iff in Hm as [H1 H2].
        apply IHl; auto with datatypes. specialize (IH s (or_introl eq_refl) H1). lia.
      - cbn [mentions] in Hm. assert (G : forall a, (a <= 0)%Z -> (fold_left (fun a s => a + degree Y s x) l a <= 0)%Z); [|apply G; lia].
        induction l as [|s l IHl]; intros a Ha; cbn [fold_left]; [exact Ha|]. cbn in Hm. apply Bool.orb_false_iff in Hm as [H1 H2].
        apply IHl; auto with datatypes. specialize (IH s (or_introl eq_refl) H1). lia.
      - cbn [mentions] in Hm. apply Bool.orb_false_iff in Hm as [Hb _]. specialize (IHb Hb). unfold powerDegree.
        destruct (_ =? 0)%Z; [lia|]. destruct (Z.ltb_spec 0 (degree Y b x)); [lia|]. rewrite Bool.andb_false_r. cbn [andb]. lia. }
    unfold powerDegree. destruct (_ =? 0)%Z; [lia|]. destruct (Z.ltb_spec 0 (degree Y b x)); [lia|]. rewrite Bool.andb_false_r. reflexivity.
  Qed.
  Lemma degree_factors l c : Forall (factor n p) l -> fold_left (fun a s => (a + degree Y s x)%Z) l c = c.
  Proof.
    intros H. revert c. induction H as [|a l [(H1 & H2 & H3) _] Hl IH]; intros c; cbn [fold_left]; [reflexivity|].
    rewrite degree_atom by assumption. now rewrite Z.add_0_r.
  Qed.
  Lemma degree_xpower d e : xpower n p d e -> degree Y e x = Z.of_nat d.
  Proof.
    intros [|d' H1 H2]; cbn [degree]; rewrite ?x_refl; [reflexivity|]. cbn [isEqual]. unfold powerDegree, expNumerator.
    assert (Hnum : forall z, numericEval Y (Num (inject_Z z)) = Some (NQ (inject_Z z))) by reflexivity. rewrite Hnum.
    cbn [qIsInt inject_Z Qden qnum Qnum]. cbn -[Z.of_nat Z.ltb Z.leb Z.mul].
    unfold fitsInt, intMin, intMax. rewrite Z.mul_1_r.
    destruct (Z.leb_spec (-2147483648) (Z.of_nat d')); [|lia]. destruct (Z.leb_spec (Z.of_nat d') 2147483647); [|lia].
    destruct (Z.ltb_spec (Z.of_nat d') 2147483647); [|lia]. destruct (Z.ltb_spec (-2147483648) (Z.of_nat d')); [|lia]. reflexivity.
  Qed.
  Lemma degree_term d e : monom n p d e -> degree Y e x = Z.of_nat d.
  Proof.
    intros [e' (H1 & H2 & H3)|l Hl|d' e' He|d' a e' b Ha He Hb].
    - now apply degree_atom.
    - cbn [degree isEqual]. now rewrite degree_factors.
    - now apply degree_xpower.
    - cbn [degree isEqual]. rewrite fold_left_app. cbn [fold_left]. rewrite !degree_factors by assumption.
      now rewrite (degree_xpower _ _ He).
  Qed.

  Lemma degree_sum l : l <> [] -> Forall (fun t => exists d, monom n p d t) l ->
    exists d e, In e l /\ monom n p d e /\ degree Y (Sum l) x = Z.of_nat d /\
      forall d' e', In e' l -> monom n p d' e' -> (d' <= d)%nat.
  Proof.
    intros Hne Hl. cbn [degree isEqual].
    assert (G : forall a, fold_left (fun a s => Z.max a (degree Y s x)) l a = a \/
        exists d e, In e l /\ monom n p d e /\ fold_left (fun a s => Z.max a (degree Y s x)) l a = Z.of_nat d).
    { clear Hne. induction Hl as [|e l [d Hd] Hl IH]; intros a; cbn [fold_left]; [now left|].
      destruct (IH (Z.max a (degree Y e x))) as [->|(d' & e' & H1 & H2 & H3)].
      - rewrite (degree_term _ _ Hd). destruct (Z.max_spec a (Z.of_nat d)) as [[_ ->]|[_ ->]]; [right; exists d, e; auto with datatypes|now left].
      - right. exists d', e'. auto with datatypes. }
    assert (B : forall a, (a <= fold_left (fun a s => Z.max a (degree Y s x)) l a)%Z /\
        forall d' e', In e' l -> monom n p d' e' -> (Z.of_nat d' <= fold_left (fun a s => Z.max a (degree Y s x)) l a)%Z).
    { clear. induction l as [|e l IH]; intros a; cbn [fold_left]; [split; [lia|contradiction]|].
      destruct (IH (Z.max a (degree Y e x))) as [H1 H2]. split; [lia|]. intros d' e' [->|Hin] Hm; [|eauto].
      rewrite (degree_term _ _ Hm) in *. lia. }
    destruct (B intMin) as [_ B2]. destruct (G intMin) as [E|(d & e & H1 & H2 & H3)].
    - exfalso. destruct l as [|e l]; [congruence|]. inversion_clear Hl as [|? ? [d Hd] _].
      specialize (B2 d e (or_introl eq_refl) Hd). rewrite E in B2. unfold intMin in B2. lia.
    - exists d, e. repeat split; auto. intros d' e' Hin Hm. specialize (B2 d' e' Hin Hm). rewrite H3 in B2. lia.
  Qed.

  (** ** Sums *)
  Definition picks (q : list (nat * R)) (j : Z) : R := fold_right (fun t s => (if (Z.of_nat (fst t) =? j)%Z then snd t else 0) + s) 0 q.
  Definition total (q : list (nat * R)) : R := fold_right (fun t s => snd t * X ^ fst t + s) 0 q.

  Lemma sum_terms l v : Forall (wf P) l -> Forall (fun t => exists d, monom n p d t) l -> sumVal r l = Some v ->
    exists q, v = total q /\ Forall2 (fun e t => monom n p (fst t) e /\ coeffIs e (fst t) (snd t)) l q.
  Proof.
    intros Hw Ht. revert v. induction Ht as [|e l [d Hd] Hl IH]; intros v Ev.
    - exists []. split; [|constructor]. injection Ev as <-. reflexivity.
    - inversion_clear Hw as [|? ? He Hwl]. rewrite sumVal_cons in Ev. apply oplus_some in Ev as (u & w & Eu & Ew & ->).
      destruct (IH Hwl w Ew) as (q & -> & HF). destruct (term_coeff d e u He Hd Eu) as (a & -> & Hc).
      exists ((d, a) :: q). split; [reflexivity|]. constructor; auto.
  Qed.

  Lemma fold_coeff st l q j : Forall2 (fun e t => monom n p (fst t) e /\ coeffIs e (fst t) (snd t)) l q ->
    forall m u, sp st m (fun c => wf P c /\ eval r c = Some u) ->
    sp st (fold_left (fun a s => c <- a ;; d <- coeff W s x j ;; w_sum W [c; d]) l m)
       (fun c => wf P c /\ eval r c = Some (u + picks q j)).
  Proof.
    induction 1 as [|e t l q [_ He] Hl IH]; intros m u Hm; cbn [fold_left].
    - eapply spec_weaken; [exact Hm|]. cbn. intros c [H1 ->]. split; [assumption|]. f_equal. ring.
    - cbn [picks fold_right]. fold (picks q j). rewrite <- Rplus_assoc. apply IH.
      eapply spec_bind; [exact Hm|]. intros c [Hc Ec]. eapply spec_bind; [apply He|]. intros d [Hd Ed].
      eapply spec_weaken; [apply (so_sum W (world_sound Y F k) st r P [c; d]); auto using posEnv_good|].
      intros s [Hs Vs]. split; [assumption|]. rewrite sum2, Ec, Ed in Vs. exact Vs.
  Qed.

  Lemma picks_total q D : Forall (fun t => (fst t <= D)%nat) q ->
    sum_f_R0 (fun i => picks q (Z.of_nat i) * X ^ i) D = total q.
  Proof.
    induction 1 as [|[d a] q Hd Hq IH].
    - cbn [total fold_right]. rewrite (sum_eq _ (fun _ => 0)); [rewrite sum_cte; ring|]. intros i _. cbn. ring.
    - cbn [fst] in Hd. cbn [total fold_right fst snd]. fold (total q). rewrite <- IH.
      rewrite (sum_eq _ (fun i => (if (Z.of_nat d =? Z.of_nat i)%Z then a else 0) * X ^ i + picks q (Z.of_nat i) * X ^ i)).
      2:{ intros i _. cbn [picks fold_right fst snd]. fold (picks q (Z.of_nat i)). ring. }
      rewrite sum_plus. f_equal. clear -Hd. induction D as [|D IHD].
      + assert (d = 0)%nat by lia. subst. cbn. ring.
      + rewrite tech5. destruct (Nat.eq_dec d (S D)) as [->|Hne].
        * rewrite Z.eqb_refl. rewrite (sum_eq _ (fun _ => 0)); [rewrite sum_cte; ring|].
          intros i Hi. destruct (Z.eqb_spec (Z.of_nat (S D)) (Z.of_nat i)); [lia|]. ring.
        * rewrite IHD by lia. destruct (Z.eqb_spec (Z.of_nat d) (Z.of_nat (S D))); [lia|]. ring.
  Qed.

  (** The coefficients of a polynomial: values and bounds do not depend on the execution. *)
  Lemma poly_coeffs e v : wf P e -> polynomial n p e -> eval r e = Some v ->
    exists a : nat -> R, (forall st i, sp st (coeff W e x (Z.of_nat i)) (fun c => eval r c = Some (a i))) /\
      v = sum_f_R0 (fun i => a i * X ^ i) (Z.to_nat (degree Y e x)).
  Proof.
    intros Hw [[d Hd]|(l & -> & Hne & Hl)] Ev.
    - destruct (term_coeff d e v Hw Hd Ev) as (a & -> & Hc). exists (fun i => picks [(d, a)] (Z.of_nat i)). split.
      + intros st i. eapply spec_weaken; [apply Hc|]. cbn. intros c [_ ->]. f_equal. ring.
      + rewrite (degree_term d e Hd), Nat2Z.id, picks_total; [cbn; ring|]. repeat constructor.
    - apply wf_sum in Hw. change (sumVal r l = Some v) in Ev. destruct (sum_terms l v Hw Hl Ev) as (q & -> & HF).
      assert (Hdeg : degree Y (Sum l) x = fold_left (fun a s => Z.max a (degree Y s x)) l intMin) by reflexivity.
      assert (Hmax : forall l q a, Forall2 (fun e t => monom n p (fst t) e /\ coeffIs e (fst t) (snd t)) l q ->
        (a <= fold_left (fun a s => Z.max a (degree Y s x)) l a)%Z /\
        Forall (fun t => Z.of_nat (fst t) <= fold_left (fun a s => Z.max a (degree Y s x)) l a)%Z q).
      { clear. intros l q a H. revert a. induction H as [|e t l q [He _] Hl IH]; intros a; cbn [fold_left]; [split; [lia|constructor]|].
        destruct (IH (Z.max a (degree Y e x))) as [H1 H2]. rewrite (degree_term _ _ He) in *. split; [lia|]. constructor; [lia|exact H2]. }
      exists (fun i => picks q (Z.of_nat i)). split.
      + intros st i. cbn [coeff]. cbn [isEqual]. destruct (negb (has (Sum l) x) && (Z.of_nat i =? 0)%Z) eqn:E.
        * apply Bool.andb_true_iff in E as [E1 E2]. apply Bool.negb_true_iff in E1. apply Z.eqb_eq in E2. rewrite E2.
          apply spec_ret. change (eval r (Sum l)) with (sumVal r l). rewrite Ev. f_equal.
          cbn [has] in E1. apply Bool.orb_false_iff in E1 as [_ E1]. clear -HF E1. induction HF as [|e t l q [He _] HF IH]; [reflexivity|].
          cbn in E1. apply Bool.orb_false_iff in E1 as [E1 E3]. cbn [total picks fold_right]. fold (total q). fold (picks q 0%Z). rewrite IH by exact E3.
          f_equal. destruct t as [d a]. cbn [fst snd] in *.
          assert (d = 0)%nat; [|subst; cbn; ring].
          destruct He as [e' _|l' _|d e' He|d a' e' b Ha He Hb]; try reflexivity; exfalso.
          -- destruct (xpower_xpow _ _ He) as (Ee & H & _). subst. rewrite xpow_mentions in E1 by lia. discriminate.
          -- destruct (xpower_xpow _ _ He) as (Ee & H & _). subst. cbn [has] in E1. apply Bool.orb_false_iff in E1 as [_ E1].
             rewrite existsb_app in E1. apply Bool.orb_false_iff in E1 as [_ E1]. cbn [existsb] in E1. rewrite xpow_mentions in E1 by lia. discriminate.
        * eapply spec_weaken; [apply (fold_coeff st l q (Z.of_nat i) HF (ret zero) 0); apply spec_ret; split; [auto with sp|apply eval_zero]|].
          cbn. intros c [_ ->]. f_equal. ring.
      + rewrite picks_total; [reflexivity|]. rewrite Hdeg. destruct (Hmax l q intMin HF) as [_ H]. clear -H. rewrite Forall_forall in *.
        intros t Ht. specialize (H t Ht). lia.
  Qed.
End Coeff.

Lemma reconstruct Y F k r (Hr : posEnv r) n p e v (c : nat -> expr) facts : wf anySym e -> polynomial n p e ->
  (forall i, (i <= Z.to_nat (degree Y e (Sym n p)))%nat ->
    coeff (world Y F k) e (Sym n p) (Z.of_nat i) = Ok (c i) (facts i) /\ rightFacts r (facts i)) ->
  eval r e = Some v ->
  exists a : nat -> R, (forall i, (i <= Z.to_nat (degree Y e (Sym n p)))%nat -> eval r (c i) = Some (a i)) /\
    v = sum_f_R0 (fun i => a i * r n p ^ i) (Z.to_nat (degree Y e (Sym n p))).
Proof.
  intros Hw Hp Hc Ev.
  destruct (poly_coeffs Y F k n p r Hr e v Hw Hp Ev) as (a & Ha & Hv). exists a. split; [|exact Hv].
  intros i Hi. destruct (Hc i Hi) as [E [st Hf]]. exact (spec_ok st r _ _ _ _ (Ha st i) E Hf).
Qed.
