(** The decomposition of src/ludecomp.h on expressions has the values of the one over the reals. *)
From Verif Require Export LuModel.
From Verif Require Import LuReal SolveEntry ApiSpec SoundOps DiffProofs ApiProofs NumberProofs NormalProofs2 ExprProofs RPow RunFacts.
From Coq Require Import Lia Lra Reals.
From Verif Require Import Run.
Open Scope R_scope.
Local Notation upd := SolveModel.upd.

Lemma foldM_seq {S} H (f : S -> nat -> res S) (I : nat -> S -> Prop) m : forall a s, I a s ->
  (forall i s, (a <= i < a + m)%nat -> I i s -> spec H (f s i) (I (Datatypes.S i))) -> spec H (foldM f (seq a m) s) (I (a + m)%nat).
Proof.
  induction m as [|m IH]; intros a s Hs Hf; cbn [seq foldM].
  - apply spec_ret. now rewrite Nat.add_0_r.
  - eapply spec_bind; [apply Hf; [lia|exact Hs]|]. intros s' Hs'. replace (a + Datatypes.S m)%nat with (Datatypes.S a + m)%nat by lia.
    apply IH; [exact Hs'|]. intros i t Hi Ht. apply Hf; [lia|exact Ht].
Qed.
Lemma foldM_range {S} H (f : S -> nat -> res S) (I : nat -> S -> Prop) a b s : (a <= b)%nat -> I a s ->
  (forall i s, (a <= i < b)%nat -> I i s -> spec H (f s i) (I (Datatypes.S i))) -> spec H (foldM f (range a b) s) (I b).
Proof.
  intros Hab Hs Hf. unfold range. replace b with (a + (b - a))%nat at 2 by lia. apply foldM_seq; [exact Hs|]. intros i t Hi. apply Hf. lia.
Qed.
Lemma foldM_down {S} H (f : S -> nat -> res S) (I : nat -> S -> Prop) b : forall s, I b s ->
  (forall i s, (i < b)%nat -> I (Datatypes.S i) s -> spec H (f s i) (I i)) -> spec H (foldM f (rev (range 0 b)) s) (I O).
Proof.
  unfold range. rewrite Nat.sub_0_r. induction b as [|b IH]; intros s Hs Hf; [now apply spec_ret|].
  rewrite seq_S, rev_app_distr. cbn [rev app foldM plus]. eapply spec_bind; [apply Hf; [lia|exact Hs]|]. intros s' Hs'.
  apply IH; [exact Hs'|]. intros i t Hi Ht. apply Hf; [lia|exact Ht].
Qed.

Section Lu.
  Variables (W : oper) (HW : soundOps W) (n : nat) (st : bool) (r : env) (Hg : wgood st r) (dim : nat).
  Notation val e x := (wf anySym e /\ eval r e = Some x).
  Definition matV (M : nat -> nat -> expr) (m : nat -> nat -> R) : Prop := forall i k, (i < dim)%nat -> (k < dim)%nat -> val (M i k) (m i k).
  Definition vecV (v : nat -> expr) (x : nat -> R) : Prop := forall i, (i < dim)%nat -> val (v i) (x i).
  Ltac cmp := repeat match goal with
    | |- context [Nat.ltb ?x ?y] => destruct (Nat.ltb_spec x y); try lia
    | |- context [Nat.leb ?x ?y] => destruct (Nat.leb_spec x y); try lia
    | |- context [Nat.eqb ?x ?y] => destruct (Nat.eqb_spec x y); try lia end; cbn [andb].

  Lemma nonzero e x : val e x -> holds st r (CNonZero e) -> x <> 0.
  Proof. intros [_ E] H. cbn in H. rewrite E in H. congruence. Qed.
  Lemma simplify_val e x : val e x -> spec (holds st r) (simplifyVar W n e) (fun e' => val e' x).
  Proof. intros [H1 H2]. exact (simplifyVar_sp W HW n st r Hg e H1 x H2). Qed.

  Lemma luRow_val j M m i : (j < i)%nat -> (i < dim)%nat -> matV M m ->
    spec (holds st r) (luRow W dim j M i) (fun M' => m j j <> 0 /\
      matV M' (fun p k => if (p =? i)%nat then if (k =? j)%nat then m i j / m j j else if (j <? k)%nat then m i k - m i j / m j j * m j k else m i k else m p k)).
  Proof.
    intros Hj Hi HM. unfold luRow. eapply spec_bind; [apply spec_rely'|]. intros [] Hn. apply (nonzero _ (m j j)) in Hn; [|apply HM; lia].
    eapply spec_bind; [apply (varDiv_val W HW st r Hg _ _ (m i j) (m j j)); [apply HM; lia|apply HM; lia|exact Hn]|]. intros q Hq.
    eapply spec_weaken; [apply foldM_range with (I := fun c M' => matV M' (fun p k => if (p =? i)%nat then if (k =? j)%nat then m i j / m j j else if ((j <? k) && (k <? c))%nat%bool then m i k - m i j / m j j * m j k else m i k else m p k))|].
    - lia.
    - intros p k Hp Hk. unfold upd. cmp; subst; try exact Hq; now apply HM.
    - intros k M' Hk HM'.
      assert (A : val (M' i j) (m i j / m j j)) by (pose proof (HM' i j Hi ltac:(lia)) as H; cbn beta in H; rewrite !Nat.eqb_refl in H; exact H).
      assert (B : val (M' j k) (m j k)) by (pose proof (HM' j k ltac:(lia) ltac:(lia)) as H; cbn beta in H; revert H; cmp; auto).
      assert (C : val (M' i k) (m i k)) by (pose proof (HM' i k ltac:(lia) ltac:(lia)) as H; cbn beta in H; revert H; cmp; auto).
      eapply spec_bind; [apply (varMul_val W HW st r Hg); [exact A|exact B]|]. intros t Ht.
      eapply spec_bind; [apply (varSub_val W HW st r Hg); [exact C|exact Ht]|]. intros d Hd. apply spec_ret.
      intros p k' Hp Hk'. unfold upd. pose proof (HM' p k' Hp Hk') as H. cbn beta in H. revert H. cmp; subst; auto.
    - intros M' HM'. split; [exact Hn|]. intros p k Hp Hk. pose proof (HM' p k Hp Hk) as H. cbn beta in H. revert H. cmp; auto.
  Qed.
  Lemma luColumn_val j M m : (S j < dim)%nat -> matV M m ->
    spec (holds st r) (foldM (luRow W dim j) (range (S j) dim) M) (fun M' => exists m', matV M' m' /\ luColumn dim j m m').
  Proof.
    intros Hj HM. set (f := fun c p k => if ((j <? p) && (p <? c))%nat%bool then if (k =? j)%nat then m p j / m j j else if (j <? k)%nat then m p k - m p j / m j j * m j k else m p k else m p k).
    eapply spec_weaken; [apply foldM_range with (I := fun c M' => ((S j < c)%nat -> m j j <> 0) /\ matV M' (f c))|].
    - lia.
    - split; [lia|]. intros p k Hp Hk. unfold f. cmp; now apply HM.
    - intros i M' Hi [_ HM']. eapply spec_weaken; [apply (luRow_val j M' (f i) i); [lia|lia|exact HM']|].
      cbn beta. assert (E : f i j j = m j j) by (unfold f; cmp; reflexivity). rewrite E. intros M'' [Hn H]. split; [auto|].
      intros p k Hp Hk. specialize (H p k Hp Hk). revert H. unfold f. cmp; subst; auto.
    - intros M' [Hn HM']. exists (f dim). split; [exact HM'|]. split; [auto|]. intros i k Hi Hk. unfold f. cmp; auto.
  Qed.
  (** factorize: the product of the stored factors is the matrix. *)
  Lemma factorize_val A a : matV A a -> spec (holds st r) (factorizeE W dim A) (fun M => exists m, matV M m /\ luOf dim a m).
  Proof.
    intros HA. unfold factorizeE. eapply spec_weaken; [apply foldM_range with (I := fun j M => exists m, matV M m /\ partLu dim a j m)|].
    - lia.
    - exists a. split; [exact HA|]. now apply partLu_first.
    - intros j M Hj [m [HM P]]. eapply spec_weaken; [apply (luColumn_val j M m); [lia|exact HM]|]. cbn beta. intros M' [m' [HM' C]].
      exists m'. split; [exact HM'|]. apply (partLu_step dim a j m); [lia|exact P|exact C].
    - cbn beta. intros M [m [HM P]]. exists m. split; [exact HM|]. now apply partLu_last.
  Qed.

  Section Solve.
  Variables (M : nat -> nat -> expr) (m : nat -> nat -> R) (HM : matV M m).
  Lemma forward_val B b : vecV B b -> spec (holds st r) (luForward W dim M B) (fun F => exists y, vecV F y /\ forwardV dim m b y).
  Proof.
    intros HB. unfold luForward.
    eapply spec_weaken; [apply foldM_range with (I := fun c F => exists y, vecV F y /\ (forall i, (i < c)%nat -> y i = b i - rowSum (seq 0 i) (m i) y) /\ (forall i, (c <= i)%nat -> y i = b i))|].
    - lia.
    - exists b. split; [exact HB|]. split; [lia|reflexivity].
    - intros i F Hi [y [HF [Y1 Y2]]].
      eapply spec_weaken; [apply foldM_range with (I := fun c F' => vecV F' (fun p => if (p =? i)%nat then b i - rowSum (seq 0 c) (m i) y else y p))|].
      + lia.
      + intros p Hp. specialize (HF p Hp). cmp; [|exact HF]. subst p. cbn. rewrite Rminus_0_r. rewrite <- Y2 by lia. exact HF.
      + intros j F' Hj HF'.
        assert (A : val (F' j) (y j)) by (pose proof (HF' j ltac:(lia)) as H; cbn beta in H; revert H; cmp; auto).
        assert (C : val (F' i) (b i - rowSum (seq 0 j) (m i) y)) by (pose proof (HF' i ltac:(lia)) as H; cbn beta in H; rewrite Nat.eqb_refl in H; exact H).
        eapply spec_bind; [apply (varMul_val W HW st r Hg _ _ (m i j)); [apply HM; lia|exact A]|]. intros t Ht.
        eapply spec_bind; [apply (varSub_val W HW st r Hg); [exact C|exact Ht]|]. intros d Hd. apply spec_ret.
        intros p Hp. unfold updV. pose proof (HF' p Hp) as H. cbn beta in H. revert H. cmp; [|auto]. intros _. rewrite rowSum_S. cbn [plus].
        replace (b i - (rowSum (seq 0 j) (m i) y + m i j * y j)) with (b i - rowSum (seq 0 j) (m i) y - m i j * y j) by ring. exact Hd.
      + cbn beta. intros F' HF'. set (y' := fun p => if (p =? i)%nat then b i - rowSum (seq 0 i) (m i) y else y p).
        assert (E : forall c, (c <= i)%nat -> rowSum (seq 0 c) (m c) y' = rowSum (seq 0 c) (m c) y).
        { intros c Hc. apply rowSum_ext. intros k Hk. apply in_seq in Hk. unfold y'. cmp. reflexivity. }
        exists y'. split; [exact HF'|]. split; intros p Hp.
        * rewrite E by lia. unfold y'. cmp; [now subst|]. apply Y1. lia.
        * unfold y'. cmp. apply Y2. lia.
    - cbn beta. intros F [y [HF [Y1 _]]]. exists y. split; [exact HF|]. intros i Hi. now apply Y1.
  Qed.
End Solve.
  Lemma backRow_val F y M m X x i : matV M m -> vecV F y -> vecV X x -> (i < dim)%nat -> x i = 0 ->
    spec (holds st r) (luBackRow W n dim F (M, X) i) (fun s => m i i <> 0 /\ matV (fst s) m /\
      vecV (snd s) (fun p => if (p =? i)%nat then (y i - rowSum (seq (S i) (dim - S i)) (m i) x) / m i i else x p)).
  Proof.
    intros HM HF HX Hi Hx. unfold luBackRow.
    eapply spec_bind; [apply foldM_range with (I := fun c X' => vecV X' (fun p => if (p =? i)%nat then - rowSum (seq (S i) (c - S i)) (m i) x else x p))|].
    - lia.
    - intros p Hp. specialize (HX p Hp). cmp; [|exact HX]. subst p. rewrite Nat.sub_diag. cbn. rewrite Ropp_0, <- Hx. exact HX.
    - intros j X' Hj HX'.
      assert (A : val (X' j) (x j)) by (pose proof (HX' j ltac:(lia)) as H; cbn beta in H; revert H; cmp; auto).
      assert (C : val (X' i) (- rowSum (seq (S i) (j - S i)) (m i) x)) by (pose proof (HX' i ltac:(lia)) as H; cbn beta in H; rewrite Nat.eqb_refl in H; exact H).
      eapply spec_bind; [apply (varMul_val W HW st r Hg _ _ (m i j)); [apply HM; lia|exact A]|]. intros t Ht.
      eapply spec_bind; [apply (varSub_val W HW st r Hg); [exact C|exact Ht]|]. intros d Hd. apply spec_ret.
      intros p Hp. unfold updV. pose proof (HX' p Hp) as H. cbn beta in H. revert H. cmp; [|auto]. intros _. replace (S j - S i)%nat with (S (j - S i)) by lia. rewrite rowSum_S.
      replace (S i + (j - S i))%nat with j by lia.
      replace (- (rowSum (seq (S i) (j - S i)) (m i) x + m i j * x j)) with (- rowSum (seq (S i) (j - S i)) (m i) x - m i j * x j) by ring. exact Hd.
    - cbn beta. intros X1 HX1. eapply spec_bind; [apply simplify_val, HM; exact Hi|]. cbn beta. intros s Hs.
      destruct (isEqual s zero); [apply spec_throw|]. eapply spec_bind; [apply spec_rely'|]. intros [] Hn. apply (nonzero _ _ Hs) in Hn.
      assert (C : val (X1 i) (- rowSum (seq (S i) (dim - S i)) (m i) x)) by (pose proof (HX1 i Hi) as H; cbn beta in H; rewrite Nat.eqb_refl in H; exact H).
      eapply spec_bind; [apply (varAdd_val W HW st r Hg); [apply HF; exact Hi|exact C]|]. intros a Ha.
      eapply spec_bind; [apply (varDiv_val W HW st r Hg); [exact Ha|exact Hs|exact Hn]|]. intros q Hq.
      eapply spec_bind; [apply simplify_val; exact Hq|]. intros z Hz. apply spec_ret. cbn [fst snd]. split; [exact Hn|]. split.
      + intros p k Hp Hk. unfold upd. cmp; subst; auto; now apply HM.
      + intros p Hp. unfold updV. pose proof (HX1 p Hp) as H. cbn beta in H. revert H. cmp; auto.
  Qed.
  Lemma back_val F y M m X : matV M m -> vecV F y -> vecV X (fun _ => 0) ->
    spec (holds st r) (foldM (luBackRow W n dim F) (rev (range 0 dim)) (M, X)) (fun s => exists x, vecV (snd s) x /\ backwardV dim m y x).
  Proof.
    intros HM HF HX.
    eapply spec_weaken; [apply foldM_down with (I := fun c s => matV (fst s) m /\ exists x, vecV (snd s) x /\ (forall i, (i < c)%nat -> x i = 0) /\
      (forall i, (c <= i < dim)%nat -> m i i <> 0 /\ x i = (y i - rowSum (seq (S i) (dim - S i)) (m i) x) / m i i))|].
    - split; [exact HM|]. exists (fun _ => 0). split; [exact HX|]. split; [reflexivity|lia].
    - intros i [M' X'] Hi [HM' [x [HX' [X1 X2]]]]. cbn [fst snd] in *.
      eapply spec_weaken; [apply (backRow_val F y M' m X' x i); auto|]. cbn beta. intros [M'' X''] [Hn [A B]]. cbn [fst snd] in *. split; [exact A|].
      set (x' := fun p => if (p =? i)%nat then (y i - rowSum (seq (S i) (dim - S i)) (m i) x) / m i i else x p) in *.
      assert (E : forall c, (i <= c)%nat -> rowSum (seq (S c) (dim - S c)) (m c) x' = rowSum (seq (S c) (dim - S c)) (m c) x).
      { intros c Hc. apply rowSum_ext. intros k Hk. apply in_seq in Hk. unfold x'. cmp. reflexivity. }
      exists x'. split; [exact B|]. split; intros p Hp.
      + unfold x'. cmp. apply X1. lia.
      + rewrite E by lia. unfold x'. cmp; [now subst|]. apply X2. lia.
    - cbn beta. intros s [_ [x [H1 [_ H2]]]]. exists x. split; [exact H1|]. intros i Hi. apply H2. lia.
  Qed.
  (** computeSolution: the only solution of the system with the factorised matrix. *)
  Lemma luSolve_val a A0 b B X : (exists m, matV A0 m /\ luOf dim a m) -> vecV B b ->
    spec (holds st r) (luSolve W n dim A0 B X) (fun s => exists x, vecV (snd s) x /\ solution (seq 0 dim) a b x /\
      (forall z, solution (seq 0 dim) a b z -> forall i, In i (seq 0 dim) -> z i = x i)).
  Proof.
    intros [m [HM Hlu]] HB. unfold luSolve. eapply spec_bind; [apply (forward_val A0 m HM B b HB)|]. intros F [y [HF Y]].
    eapply spec_bind; [apply (back_val F y A0 m _ HM HF)|].
    - intros i Hi. cmp. split; [reflexivity|]. cbn. f_equal. unfold Q2R. cbn. lra.
    - intros [M' X'] [x [HX' Hx]]. apply spec_ret. exists x. split; [exact HX'|]. split.
      + exact (lu_solution dim a m b y x Hlu Y Hx).
      + exact (lu_unique dim a m b y x Hlu Y Hx).
  Qed.
End Lu.

(** Nothing else is written, whatever the operations do. *)
Section Frame.
  Variables (W : oper) (n dim : nat).
  Notation any := (fun _ : cond => True).
  Definition sameOut {T} (a b : nat -> nat -> T) : Prop := forall i k, ~ ((i < dim)%nat /\ (k < dim)%nat) -> a i k = b i k.
  Lemma upd_out (A M : nat -> nat -> expr) i j e : (i < dim)%nat -> (j < dim)%nat -> sameOut M A -> sameOut (upd M i j e) A.
  Proof. intros Hi Hj H p k N. unfold upd. destruct (Nat.eqb_spec p i), (Nat.eqb_spec k j); cbn [andb]; try (now apply H). subst. tauto. Qed.
  Lemma factorize_out A : spec any (factorizeE W dim A) (fun M => sameOut M A).
  Proof.
    unfold factorizeE. apply foldM_range with (I := fun _ M => sameOut M A); [lia|now intros i k|]. intros j M Hj HM.
    apply foldM_range with (I := fun _ M => sameOut M A); [lia|exact HM|]. intros i M1 Hi HM1. unfold luRow.
    eapply spec_bind; [apply spec_true|]. intros u _. eapply spec_bind; [apply spec_true|]. intros q _.
    apply foldM_range with (I := fun _ M => sameOut M A); [lia|apply upd_out; [lia|lia|exact HM1]|]. intros k M2 Hk HM2.
    eapply spec_bind; [apply spec_true|]. intros t _. eapply spec_bind; [apply spec_true|]. intros d _. apply spec_ret. apply upd_out; [lia|lia|exact HM2].
  Qed.
  Lemma updV_out (v x : nat -> expr) i e : (i < dim)%nat -> (forall p, (dim <= p)%nat -> v p = x p) -> forall p, (dim <= p)%nat -> updV v i e p = x p.
  Proof. intros Hi H p Hp. unfold updV. destruct (Nat.eqb_spec p i); [lia|now apply H]. Qed.
  Lemma luSolve_out M B X : spec any (luSolve W n dim M B X) (fun s =>
    (forall i k, ~ ((i < dim)%nat /\ i = k) -> fst (fst s) i k = M i k) /\ (forall i, (dim <= i)%nat -> snd (fst s) i = B i) /\ (forall i, (dim <= i)%nat -> snd s i = X i)).
  Proof.
    unfold luSolve. eapply spec_bind with (Q1 := fun F => forall i, (dim <= i)%nat -> F i = B i).
    - apply foldM_range with (I := fun _ F => forall i, (dim <= i)%nat -> F i = B i); [lia|reflexivity|]. intros i F Hi HF.
      apply foldM_range with (I := fun _ F => forall i, (dim <= i)%nat -> F i = B i); [lia|exact HF|]. intros j F' Hj HF'.
      eapply spec_bind; [apply spec_true|]. intros t _. eapply spec_bind; [apply spec_true|]. intros d _. apply spec_ret. apply updV_out; [lia|exact HF'].
    - intros F HF. eapply spec_bind with (Q1 := fun s => (forall i k, ~ ((i < dim)%nat /\ i = k) -> fst s i k = M i k) /\ (forall i, (dim <= i)%nat -> snd s i = X i)).
      + apply foldM_down with (I := fun _ s => (forall i k, ~ ((i < dim)%nat /\ i = k) -> fst s i k = M i k) /\ (forall i, (dim <= i)%nat -> snd s i = X i)).
        * cbn [fst snd]. split; [reflexivity|]. intros i Hi. destruct (Nat.ltb_spec i dim); [lia|reflexivity].
        * intros i [M1 X1] Hi [HM1 HX1]. cbn [fst snd] in *. unfold luBackRow.
          eapply spec_bind; [apply foldM_range with (I := fun _ x => forall p, (dim <= p)%nat -> x p = X p); [lia|exact HX1|]|].
          { intros j x Hj Hx. eapply spec_bind; [apply spec_true|]. intros t _. eapply spec_bind; [apply spec_true|]. intros d _. apply spec_ret. apply updV_out; [lia|exact Hx]. }
          cbn beta. intros x1 Hx1. eapply spec_bind; [apply spec_true|]. intros s _. destruct (isEqual s zero); [apply spec_throw|].
          do 4 (eapply spec_bind; [apply spec_true|]; intros ? _). apply spec_ret. cbn [fst snd]. split.
          -- intros p k N. unfold upd. destruct (Nat.eqb_spec p i), (Nat.eqb_spec k i); cbn [andb]; try (now apply HM1). subst. tauto.
          -- now apply updV_out.
      + intros [M1 X1] [H1 H2]. apply spec_ret. cbn [fst snd] in *. tauto.
  Qed.
End Frame.
