(** Exact results of the model's functions: Undefined operands, zero factors, sums of zeros.  These
    lemmas speak about the resulting expressions, not only about their values. *)
From Verif Require Export RunFacts World DiffModel.
Open Scope Z_scope.

Lemma existsb_undef l : In Undef l -> existsb isUndefined l = true.
Proof. intros H. apply existsb_exists. exists Undef. auto. Qed.
Lemma existsb_undef_inv l : existsb isUndefined l = true -> In Undef l.
Proof. intros H. apply existsb_exists in H. destruct H as [x [H1 H2]]. destruct x; try discriminate. exact H1. Qed.

Section Exact.
  Variables (Y : sys) (F : nat).
  Notation Wd := (world Y F).

  Lemma sum_undef W n l : In Undef l -> sumCreate Y W n l = ret Undef.
  Proof. intros H. unfold sumCreate. rewrite existsb_undef; auto. Qed.
  Lemma prod_undef W n l : In Undef l -> prodCreate Y W n l = ret Undef.
  Proof. intros H. unfold prodCreate. rewrite existsb_undef; auto. Qed.
  Lemma pow_undef W b x : b = Undef \/ x = Undef -> powCreate W b x = ret Undef.
  Proof. intros [->| ->]; unfold powCreate; cbn [isUndefined]; [rewrite Bool.orb_true_r|]; reflexivity. Qed.
  Lemma trig_undef W n f : trigCreate Y W n f Undef = ret Undef.
  Proof. reflexivity. Qed.
  Lemma atan2_undef W n y x : y = Undef \/ x = Undef -> atan2Create Y W n y x = ret Undef.
  Proof. intros [->| ->]; unfold atan2Create; cbn [isUndefined]; [rewrite Bool.orb_true_r|]; reflexivity. Qed.
  Lemma log_undef W : logCreate Y W Undef = ret Undef.
  Proof. reflexivity. Qed.

  Lemma prod_zero W n l : In zero l -> ~ In Undef l -> prodCreate Y W n l = ret zero.
  Proof.
    intros H1 H2. unfold prodCreate.
    destruct (existsb isUndefined l) eqn:E1; [exfalso; apply H2, existsb_undef_inv, E1|].
    assert (E2 : existsb isZero l = true) by (apply existsb_exists; exists zero; auto).
    rewrite E2. reflexivity.
  Qed.

  (** Sums of zeros. *)
  Definition nilZero (m : res (list expr)) : Prop :=
    match m with Ok r l => (r = [] \/ r = [zero]) /\ l = [] | UB _ | Fuel => True | Throw => False end.
  Lemma two_zero W n : nilZero (simplTwoSummands Y W n zero zero).
  Proof. destruct n; [exact I|]. cbn. auto. Qed.
  Lemma merge_zero W n s : s = [] \/ s = [zero] -> nilZero (merge n isZero (simplTwoSummands Y W F) [zero] s).
  Proof.
    intros [->| ->]; (destruct n; [exact I|]); cbn [merge].
    - cbn. auto.
    - pose proof (two_zero W F) as Hz. destruct (simplTwoSummands Y W F zero zero) as [r l| | |]; cbn [nilZero] in Hz; try exact I; try contradiction.
      destruct Hz as [[->| ->] ->]; cbn [bind]; (destruct n; [exact I|]); cbn; auto.
  Qed.
  Lemma simplifySum_zeros W l : Forall (eq zero) l -> nilZero (simplifySum Y W F l).
  Proof.
    induction l as [|a r IH]; intros H; [exact I|].
    inversion H; subst. destruct r as [|b r'].
    - cbn [simplifySum]. cbn. exact I.
    - destruct r' as [|c r''].
      + inversion H3; subst. apply two_zero.
      + specialize (IH H3). change (simplifySum Y W F (zero :: b :: c :: r'')) with
          (s <- simplifySum Y W F (b :: c :: r'') ;; merge F isZero (simplTwoSummands Y W F) [zero] s).
        destruct (simplifySum Y W F (b :: c :: r'')) as [s l| | |]; cbn [nilZero] in IH; try contradiction; try exact I.
        destruct IH as [IH ->]. cbn [bind].
        pose proof (merge_zero W F s IH) as Hm.
        destruct (merge F isZero (simplTwoSummands Y W F) [zero] s); auto.
  Qed.
  Lemma sum_zeros W l : Forall (eq zero) l ->
    match sumCreate Y W F l with Ok e _ => e = zero | Throw => False | _ => True end.
  Proof.
    intros H. unfold sumCreate.
    destruct (existsb isUndefined l) eqn:E.
    - apply existsb_undef_inv in E. rewrite Forall_forall in H. specialize (H _ E). discriminate.
    - destruct l as [|x [|y r]]; [exact I| |].
      + inversion H; subst. reflexivity.
      + pose proof (simplifySum_zeros W (x :: y :: r) H) as Hz.
        destruct (simplifySum Y W F (x :: y :: r)) as [s k| | |]; cbn [nilZero] in Hz; try contradiction; try exact I.
        destruct Hz as [[->| ->] ->]; reflexivity.
  Qed.

  (** At every depth. *)
  Definition gives (m : res expr) (e : expr) : Prop := forall H, spec H m (fun x => x = e).
  Lemma gives_ret e : gives (ret e) e.
  Proof. intros H. cbn. auto. Qed.
  Lemma gives_eq m e a l : gives m e -> m = Ok a l -> a = e.
  Proof. intros H E. specialize (H (fun _ => True)). rewrite E in H. apply H. apply Forall_forall. auto. Qed.

  Lemma wsum_undef k l : In Undef l -> gives (w_sum (Wd k) l) Undef.
  Proof. intros H. destruct k; [intros ?; exact I|]. cbn [world step w_sum]. rewrite sum_undef by exact H. apply gives_ret. Qed.
  Lemma wprod_undef k l : In Undef l -> gives (w_prod (Wd k) l) Undef.
  Proof. intros H. destruct k; [intros ?; exact I|]. cbn [world step w_prod]. rewrite prod_undef by exact H. apply gives_ret. Qed.
  Lemma wpow_undef k b x : b = Undef \/ x = Undef -> gives (w_pow (Wd k) b x) Undef.
  Proof. intros H. destruct k; [intros ?; exact I|]. cbn [world step w_pow]. rewrite pow_undef by exact H. apply gives_ret. Qed.
  Lemma wprod_zero k l : In zero l -> gives (w_prod (Wd k) l) zero \/ In Undef l.
  Proof.
    intros H. destruct (existsb isUndefined l) eqn:E; [right; apply existsb_undef_inv, E|left].
    assert (Hu : ~ In Undef l) by (intros Hu; apply existsb_undef in Hu; congruence).
    destruct k; [intros ?; exact I|]. cbn [world step w_prod]. rewrite prod_zero by assumption. apply gives_ret.
  Qed.
End Exact.

(** The exact results used later, as a property of the functions at hand. *)
Record exactOps (W : oper) : Prop := {
  xo_sum_u : forall l, In Undef l -> gives (w_sum W l) Undef;
  xo_prod_u : forall l, In Undef l -> gives (w_prod W l) Undef;
  xo_pow_u : forall b x, b = Undef \/ x = Undef -> gives (w_pow W b x) Undef;
  xo_trig_u : forall f, gives (w_trig W f Undef) Undef;
  xo_prod_0 : forall l, In zero l -> ~ In Undef l -> gives (w_prod W l) zero;
  xo_sum_0 : forall l, Forall (eq zero) l -> gives (w_sum W l) zero;
  xo_normal_0 : gives (w_normal W zero) zero;
  xo_normal_u : gives (w_normal W Undef) Undef
}.

Lemma gives_bind {A} H (m : res A) (f : A -> res expr) Q e :
  spec H m Q -> (forall a, Q a -> spec H (f a) (fun x => x = e)) -> spec H (bind m f) (fun x => x = e).
Proof. intros. eapply spec_bind; eauto. Qed.

Lemma replaceBack_nil W n b e H : isEqual e e = true \/ e = Undef ->
  spec H (replaceBack W n (mkMap b []) e) (fun x => x = e).
Proof.
  intros He. destruct n; [exact I|]. cbn [replaceBack m_list substAll]. cbn [inEnv ret map bind].
  destruct He as [He| ->]; [|cbn; auto].
  destruct (isUndefined e) eqn:E; [cbn; auto|]. rewrite He. cbn. auto.
Qed.

Lemma wpow_one Y F k : gives (w_pow (world Y F k) one mOne) one.
Proof. destruct k; [intros ?; exact I|]. intros H. cbn. auto. Qed.

Lemma exact_world Y F k : exactOps (world Y F k).
Proof.
  split.
  - intros l H. apply wsum_undef, H.
  - intros l H. apply wprod_undef, H.
  - intros b x H. apply wpow_undef, H.
  - intros f. destruct k; [intros ?; exact I|]. apply gives_ret.
  - intros l H1 H2. destruct (wprod_zero Y F k l H1) as [H|H]; [exact H|contradiction].
  - intros l Hl. destruct k; [intros ?; exact I|]. intros H. cbn [world step w_sum].
    pose proof (sum_zeros Y F (world Y F k) l Hl) as Hz.
    destruct (sumCreate Y (world Y F k) F l); cbn [spec]; auto.
  - intros H. destruct k as [|[|k]]; [exact I|exact I|].
    cbn [world step w_normal]. unfold normalTop.
    change (w_normalF (step Y F (world Y F k)) (mkMap (S (nameLen zero)) []) zero)
      with (ret (numZ 0, numZ 1, mkMap 1 [])).
    eapply spec_bind with (Q1 := fun x => x = (zero, one, mkMap 1 [])); [cbn; auto|].
    intros x ->. eapply spec_bind; [apply replaceBack_nil; left; reflexivity|]. intros n' ->.
    eapply spec_bind; [apply replaceBack_nil; left; reflexivity|]. intros d' ->.
    eapply spec_bind with (Q1 := fun _ => True); [cbn; auto|]. intros _ _.
    unfold fracEval, oneOver.
    eapply spec_bind; [apply (wpow_one Y F (S k))|]. intros i ->.
    destruct (wprod_zero Y F (S k) [zero; one]) as [Hz|Hz]; [left; reflexivity|apply Hz|].
    cbn in Hz. intuition discriminate.
  - intros H. destruct k as [|[|k]]; [exact I|exact I|].
    cbn [world step w_normal]. unfold normalTop.
    change (w_normalF (step Y F (world Y F k)) (mkMap (S (nameLen Undef)) []) Undef)
      with (ret (Undef, one, mkMap 1 [])).
    eapply spec_bind with (Q1 := fun x => x = (Undef, one, mkMap 1 [])); [cbn; auto|].
    intros x ->. eapply spec_bind; [apply replaceBack_nil; right; reflexivity|]. intros n' ->.
    eapply spec_bind; [apply replaceBack_nil; left; reflexivity|]. intros d' ->.
    eapply spec_bind with (Q1 := fun _ => True); [cbn; auto|]. intros _ _.
    unfold fracEval, oneOver.
    eapply spec_bind; [apply (wpow_one Y F (S k))|]. intros i ->.
    apply (wprod_undef Y F (S k)). left. reflexivity.
Qed.
