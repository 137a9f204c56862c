(** Division and gcd for users (C21, C22). *)
From Verif Require Export PolyCoeff NumberProofs.
From Coq Require Import Lia.
From Verif Require Import Run.
Open Scope Z_scope.

Lemma polyExpr_valid Y e : polyExpr e -> hasValidType Y e = true.
Proof.
  revert e. fix IH 2. intros e [q|n p|b k Hb Hk|l Hl|l Hl]; cbn [hasValidType].
  - reflexivity.
  - reflexivity.
  - rewrite (IH b Hb). cbn [andb]. unfold validExp. cbn [numericEval]. unfold fitsInt, intMin, intMax, qltb. cbn.
    rewrite Z.mul_1_r. repeat (apply Bool.andb_true_iff; split); lia.
  - apply forallb_forall. intros a Ha. exact (IH a (Hl a Ha)).
  - apply forallb_forall. intros a Ha. exact (IH a (Hl a Ha)).
Qed.
Lemma polys_valid Y u v : wf anySym u -> wf anySym v -> polyExpr u -> polyExpr v -> u <> Num 0 \/ v <> Num 0 -> isInputValid Y u v = true.
Proof.
  intros Hu Hv Pu Pv Hz. unfold isInputValid. rewrite !polyExpr_valid by assumption.
  destruct (isZero u) eqn:Eu; [|reflexivity]. destruct (isZero v) eqn:Ev; [|reflexivity].
  apply (isZero_eq anySym) in Eu, Ev; auto. subst. destruct Hz as [Hz|Hz]; now elim Hz.
Qed.

Lemma division_value Y F k r (Hr : posEnv r) n u v q s facts a b : wf anySym u -> wf anySym v ->
  polyExpr u -> polyExpr v -> (u <> Num 0 \/ v <> Num 0) ->
  polyDivide Y (world Y F k) n u v = Ok (q, s) facts -> rightFacts r facts ->
  eval r u = Some a -> eval r v = Some b ->
  exists c d, eval r q = Some c /\ eval r s = Some d /\ (a = c * b + d)%R.
Proof.
  intros Hu Hv Pu Pv Hz E Hf Ea Eb.
  pose proof (use r Hr _ (divOK Y r anySym u v) _ _
    (fun st Hg => polyDivide_sp Y (world Y F k) (world_sound Y F k) st r anySym Hg n u v Hu Hv) E Hf) as (_ & _ & [[H _]|H]).
  - rewrite polys_valid in H by assumption. discriminate.
  - exact (H a b Ea Eb).
Qed.
Lemma pseudo_value Y F k r (Hr : posEnv r) m u v n p q s facts : wf anySym u -> wf anySym v ->
  polyExpr u -> polyExpr v -> (u <> Num 0 \/ v <> Num 0) ->
  pseudoDivide Y (world Y F k) true m u v (Sym n p) = Ok (q, s) facts -> rightFacts r facts ->
  exists l fl i, leadingCoeff Y (world Y F k) v (Sym n p) = Ok l fl /\
    (let d := Z.max (degree Y u (Sym n p) - degree Y v (Sym n p) + 1) 0 in i = d \/ i = d + 1) /\
    forall a b c, eval r u = Some a -> eval r v = Some b -> eval r l = Some c ->
      exists x y, eval r q = Some x /\ eval r s = Some y /\ (powerRZ c i * a = x * b + y)%R.
Proof.
  intros Hu Hv Pu Pv Hz E Hf. eapply (use r Hr) in Hf; [|intros st Hg; refine (pseudoDivide_sp Y (world Y F k) (world_sound Y F k) st r anySym Hg m u v (Sym n p) I I Hu Hv)|exact E].
  destruct Hf as (_ & _ & [[H _]|(l & i & [fl El] & _ & Hi & H)]).
  - rewrite polys_valid in H by assumption. discriminate.
  - exists l, fl, i. auto.
Qed.

Lemma integerGcdN_ok b : forall n u v, Z.abs v < 2 ^ Z.of_nat b -> (2 * b + 1 <= n)%nat ->
  Z.abs (integerGcdN n u v) = Z.gcd u v.
Proof.
  induction b as [|b IH]; intros n u v Hv Hn.
  - assert (v = 0) by (cbn in Hv; lia). subst. destruct n; [lia|]. cbn. now rewrite Z.gcd_0_r.
  - destruct n as [|n]; [lia|]. cbn [integerGcdN]. destruct (Z.eqb_spec v 0) as [->|Hv0]; [now rewrite Z.gcd_0_r|].
    assert (G1 : Z.gcd u v = Z.gcd v (Z.rem u v)).
    { rewrite (Z.gcd_comm u v). pattern u at 1. rewrite (Z.quot_rem' u v). rewrite Z.add_comm, Z.mul_comm. apply Z.gcd_add_mult_diag_r. }
    destruct n as [|n]; [lia|]. cbn [integerGcdN]. set (w := Z.rem u v) in *.
    assert (Hw : Z.abs w < Z.abs v) by (apply Z.rem_bound_abs; lia).
    destruct (Z.eqb_spec w 0) as [E|Hw0]; [rewrite G1, E; now rewrite Z.gcd_0_r|].
    assert (G2 : Z.gcd v w = Z.gcd w (Z.rem v w)).
    { rewrite (Z.gcd_comm v w). pattern v at 1. rewrite (Z.quot_rem' v w). rewrite Z.add_comm, Z.mul_comm. apply Z.gcd_add_mult_diag_r. }
    rewrite G1, G2. apply IH; [|lia].
    pose proof (Z.rem_bound_abs v w ltac:(lia)) as Hr. pose proof (Z.quot_rem' v w) as Hq.
    assert (Z.abs (Z.rem v w) * 2 <= Z.abs v).
    { pose proof (Z.rem_abs v w ltac:(lia)) as Ha. rewrite <- Ha. rewrite Z.rem_mod_nonneg by lia.
      pose proof (Z.div_mod (Z.abs v) (Z.abs w) ltac:(lia)). pose proof (Z.mod_pos_bound (Z.abs v) (Z.abs w) ltac:(lia)).
      assert (1 <= Z.abs v / Z.abs w) by (apply Z.div_le_lower_bound; lia). nia. }
    rewrite Nat2Z.inj_succ, Z.pow_succ_r in Hv by lia. lia.
Qed.
Lemma integerGcd_ok u v : Z.abs (integerGcd u v) = Z.gcd u v.
Proof.
  unfold integerGcd. apply (integerGcdN_ok (Z.to_nat (Z.log2 (Z.abs v) + 1))).
  - rewrite Z2Nat.id by (pose proof (Z.log2_nonneg (Z.abs v)); lia). destruct (Z.eq_dec v 0) as [->|]; [reflexivity|].
    apply Z.log2_spec. lia.
  - pose proof (Z.log2_nonneg (Z.abs v)). lia.
Qed.

(** The product of two numbers *)
Lemma qeqb_true a b : qeqb a b = true -> a = b.
Proof. unfold qeqb. rewrite Bool.andb_true_iff, Z.eqb_eq, Pos.eqb_eq. destruct a, b. cbn. intros [-> ->]. reflexivity. Qed.
Lemma qmul_1_l b : canon b -> qmul 1 b = b.
Proof. intros H. apply canon_eq; [apply qmul_spec|assumption|]. rewrite (proj2 (qmul_spec 1 b)). ring. Qed.
Lemma qmul_1_r b : canon b -> qmul b 1 = b.
Proof. intros H. apply canon_eq; [apply qmul_spec|assumption|]. rewrite (proj2 (qmul_spec b 1)). ring. Qed.
Lemma qmul_ofZ a b : qmul (ofZ a) (ofZ b) = ofZ (a * b).
Proof.
  apply canon_eq; [apply qmul_spec|apply canon_ofZ|]. rewrite (proj2 (qmul_spec _ _)). unfold ofZ, Qeq. cbn. ring.
Qed.
Lemma prod_nums Y F k a b : canon a -> canon b -> gives (w_prod (world Y F k) [Num a; Num b]) (Num (qmul a b)).
Proof.
  intros Ha Hb. destruct k as [|k]; [intros ?; exact I|]. cbn [world step w_prod]. unfold prodCreate.
  cbn [existsb isUndefined isZero orb]. rewrite Bool.orb_false_r.
  destruct (qeqb a 0) eqn:E0.
  { apply qeqb_true in E0. subst. cbn [orb]. intros H. cbn -[qmul]. intros _. reflexivity. }
  destruct (qeqb b 0) eqn:E1.
  { apply qeqb_true in E1. subst. cbn [orb]. intros H. cbn -[qmul]. intros _. unfold zero. f_equal.
    apply canon_eq; [reflexivity|apply qmul_spec|]. rewrite (proj2 (qmul_spec _ _)). ring. }
  cbn [orb].
  destruct F as [|F]; [intros ?; exact I|]. cbn [simplifyProduct]. unfold prepare, extractProducts. cbn [flat_map extractProduct app contract].
  destruct F as [|F]; [cbn; intros ?; exact I|].
  destruct F as [|F]; [cbn; intros ?; exact I|].
  cbn -[qmul simplTwoFactorsWithoutProduct]. unfold simplTwoFactorsWithoutProduct. cbn [isOne].
  destruct (qeqb a 1) eqn:A1; [apply qeqb_true in A1; subst; rewrite qmul_1_l by assumption; intros H; cbn; auto|].
  destruct (qeqb b 1) eqn:B1; [apply qeqb_true in B1; subst; rewrite qmul_1_r by assumption; intros H; cbn; auto|].
  cbn -[qmul]. unfold simplTwoNumerics. destruct (qeqb (qmul a b) 1) eqn:E; [apply qeqb_true in E; rewrite E|]; intros H; cbn; auto.
Qed.

(** gcd of two integers: the nonnegative greatest common divisor. *)
Lemma expand_num Y F k q : gives (w_expand (world Y F k) (Num q)) (Num q).
Proof. destruct k; [intros ?; exact I|]. apply gives_ret. Qed.
Lemma normalize_num Y F k z : gives (gcdNormalize Y (world Y F k) (numZ z) []) (numZ (Z.abs z)).
Proof.
  intros H. unfold gcdNormalize. cbn [rev normalizationFactor]. eapply spec_bind; [apply spec_ret; exact eq_refl|]. intros f <-.
  eapply spec_weaken; [apply prod_nums; [apply canon_ofZ|apply canon_ofZ]|]. cbn beta. intros x ->.
  rewrite qmul_ofZ. unfold numZ. do 2 f_equal. unfold qsign, ofZ. cbn. destruct z; cbn; lia.
Qed.

Lemma gcd_ints Y F k sub a b : a <> 0 \/ b <> 0 ->
  gives (gcdCompute Y (world Y F k) sub (numZ a) (numZ b)) (numZ (Z.gcd a b)).
Proof.
  intros Hab. unfold gcdCompute, isInputValid. rewrite !isZero_Z.
  destruct ((a =? 0) && (b =? 0)) eqn:E0; [apply Bool.andb_true_iff in E0 as [E1 E2]; lia|].
  cbn [hasValidType numZ andb]. change (listOfSymbols Y (Num (ofZ a)) (Num (ofZ b))) with (@nil expr).
  destruct k as [|k]; [intros ?; exact I|]. cbn [world step w_gcd]. unfold gcdWith. intros H.
  eapply spec_bind; [apply expand_num|]. intros ue ->. eapply spec_bind; [apply expand_num|]. intros ve ->.
  change (Num (ofZ a)) with (numZ a). change (Num (ofZ b)) with (numZ b). rewrite !isOne_Z, !isZero_Z.
  destruct (Z.eqb_spec a 1) as [->|Na]; [rewrite Z.gcd_1_l; apply (normalize_num Y F k 1)|].
  destruct (Z.eqb_spec b 1) as [->|Nb]; [rewrite Z.gcd_1_r; apply (normalize_num Y F k 1)|]. cbn [orb].
  rewrite E0. destruct (Z.eqb_spec a 0) as [->|Za]; [rewrite Z.gcd_0_l; apply normalize_num|].
  destruct (Z.eqb_spec b 0) as [->|Zb]; [rewrite Z.gcd_0_r; apply normalize_num|].
  cbn [isEqual numZ]. rewrite qeqb_ofZ. destruct (Z.eqb_spec a b) as [->|Nab]; [rewrite Z.gcd_diag; apply normalize_num|].
  unfold computeNumerics. cbn [qIsInt ofZ Qden qnum Qnum andb]. 
  eapply spec_weaken; [apply normalize_num|]. cbn beta. intros x ->. f_equal. apply integerGcd_ok.
Qed.
