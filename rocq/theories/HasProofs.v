(** has and collectSymbols (C17). *)
From Verif Require Export ApiSpec DiffSpec ExprSpec ExprProofs ExprWitness.
Open Scope R_scope.

(** [occurs x e]: x is e or occurs in one of the operands of e. *)
Inductive occurs (x : expr) : expr -> Prop :=
| occ_self : occurs x x
| occ_op o e : In o (ops e) -> occurs x o -> occurs x e.

Lemma has_occurs x : defined x -> forall e, has e x = true <-> occurs x e.
Proof.
  intros Hx.
  assert (Eq : forall e, isEqual e x = true <-> e = x).
  { intros e. rewrite isEqual_sym, (equality_decides x e Hx). split; congruence. }
  assert (Occ : forall e, occurs x e <-> e = x \/ exists o, In o (ops e) /\ occurs x o).
  { intros e. split; [intros [|o e' H1 H2]; eauto|]. intros [->|(o & H1 & H2)]; [constructor|econstructor; eauto]. }
  induction e as [q|n p|c| |f l IH|l IH|l IH|b y IHb IHy] using expr_ind2; rewrite Occ; cbn [has ops].
  1-3: rewrite Eq; split; [auto|intros [H|(o & [] & _)]; exact H].
  - split; [discriminate|]. intros [<-|(o & [] & _)]. inversion Hx.
  - rewrite Bool.orb_true_iff, Eq, existsb_exists. 
    split; (intros [H|(o & H1 & H2)]; [left; exact H|right; exists o; split; [exact H1|apply IH; assumption]]).
  - rewrite Bool.orb_true_iff, Eq, existsb_exists. 
    split; (intros [H|(o & H1 & H2)]; [left; exact H|right; exists o; split; [exact H1|apply IH; assumption]]).
  - rewrite Bool.orb_true_iff, Eq, existsb_exists. 
    split; (intros [H|(o & H1 & H2)]; [left; exact H|right; exists o; split; [exact H1|apply IH; assumption]]).
  - rewrite !Bool.orb_true_iff, Eq, IHb, IHy. split.
    + intros [H|[H|H]]; [left; exact H|right; exists b; cbn; auto|right; exists y; cbn; auto].
    + intros [H|(o & [<-|[<-|[]]] & H)]; auto.
Qed.

Lemma has_absent_value e n p : has e (Sym n p) = false -> forall r v, eval (upd r n p v) e = eval r e.
Proof.
  intros H r v. revert H.
  assert (Ex : forall l, existsb (fun x => has x (Sym n p)) l = false -> forall x, In x l -> has x (Sym n p) = false).
  { intros l Hl x Hin. apply Bool.not_true_iff_false. intros E. apply Bool.not_true_iff_false in Hl. apply Hl.
    apply existsb_exists. eauto. }
  induction e as [q|m b|c| |f l IH|l IH|l IH|b y IHb IHy] using expr_ind2; cbn [has]; intros H; try reflexivity.
  - cbn [eval]. unfold upd. destruct (nameEq n m) eqn:E1; [|reflexivity]. destruct (Bool.eqb p b) eqn:E2; [|reflexivity].
    cbn in H. apply nameEq_eq in E1. apply Bool.eqb_prop in E2. subst. rewrite nameEq_refl, Bool.eqb_reflx in H. discriminate.
  - apply Bool.orb_false_iff in H as [_ H]. pose proof (Ex _ H) as K. 
    cbn [eval]. destruct f, l as [|a [|a2 [|a3 l]]]; try reflexivity;
      repeat rewrite IH; try apply K; try (left; reflexivity); try (right; left; reflexivity); reflexivity.
  - apply Bool.orb_false_iff in H as [_ H]. pose proof (Ex _ H) as K. clear H Ex. cbn [eval].
    induction l as [|a l IHl]; [reflexivity|]. cbn [fold_right].
    rewrite (IH a) by (first [apply K|idtac]; left; reflexivity). rewrite IHl; [reflexivity| |]; intros x Hx; [apply IH|apply K]; right; exact Hx.
  - apply Bool.orb_false_iff in H as [_ H]. pose proof (Ex _ H) as K. clear H Ex. cbn [eval].
    induction l as [|a l IHl]; [reflexivity|]. cbn [fold_right].
    rewrite (IH a) by (first [apply K|idtac]; left; reflexivity). rewrite IHl; [reflexivity| |]; intros x Hx; [apply IH|apply K]; right; exact Hx.
  - apply Bool.orb_false_iff in H as [_ H]. apply Bool.orb_false_iff in H as [H1 H2]. cbn [eval]. rewrite IHb, IHy; auto.
Qed.

(** collectSymbols lists each symbol that occurs once. *)
Lemma insertSymbol_in n p acc : (forall o, In o acc -> defined o) -> forall s,
  In s (insertSymbol (Sym n p) acc) <-> In s acc \/ s = Sym n p.
Proof.
  intros Hd s. unfold insertSymbol. destruct (existsb _ acc) eqn:E.
  - split; [auto|]. intros [H| ->]; [exact H|]. apply existsb_exists in E as (o & H1 & H2).
    apply equality_decides in H2; [subst; exact H1|auto].
  - rewrite in_app_iff. cbn. intuition congruence.
Qed.
Lemma insertSymbol_nodup n p acc : NoDup acc -> NoDup (insertSymbol (Sym n p) acc).
Proof.
  intros H. unfold insertSymbol. destruct (existsb _ acc) eqn:E; [exact H|].
  assert (~ In (Sym n p) acc).
  { intros Hin. apply Bool.not_true_iff_false in E. apply E. apply existsb_exists. exists (Sym n p). split; [exact Hin|].
    apply equality_reflexive. constructor. }
  apply (NoDup_Add (a := Sym n p) (l := acc)); [|split; assumption].
  rewrite <- (app_nil_r acc) at 1. apply Add_app.
Qed.
Lemma collectInto_spec : forall e acc, (forall o, In o acc -> isSymbol o = true) -> NoDup acc ->
  NoDup (collectInto e acc) /\ forall s, In s (collectInto e acc) <-> In s acc \/ isSymbol s = true /\ occurs s e.
Proof.
  assert (Leaf : forall s e, ops e = [] -> occurs s e -> s = e).
  { intros s e Ho H. destruct H as [|o e H1 _]; [reflexivity|]. rewrite Ho in H1. destruct H1. }
  assert (List : forall l, (forall e, In e l -> forall acc, (forall o, In o acc -> isSymbol o = true) -> NoDup acc ->
      NoDup (collectInto e acc) /\ forall s, In s (collectInto e acc) <-> In s acc \/ isSymbol s = true /\ occurs s e) ->
    forall acc, (forall o, In o acc -> isSymbol o = true) -> NoDup acc ->
      NoDup (fold_left (fun a x => collectInto x a) l acc) /\
      forall s, In s (fold_left (fun a x => collectInto x a) l acc) <-> In s acc \/ isSymbol s = true /\ exists o, In o l /\ occurs s o).
  { induction l as [|a l IHl]; intros IH acc Ha Hn; cbn [fold_left].
    - split; [exact Hn|]. intros s. split; [auto|]. intros [H|(_ & o & [] & _)]. exact H.
    - destruct (IH a (or_introl eq_refl) acc Ha Hn) as [N1 M1].
      destruct (IHl (fun e He => IH e (or_intror He)) (collectInto a acc)) as [N2 M2]; [|exact N1|].
      { intros o Ho. apply M1 in Ho. destruct Ho as [Ho|[Ho _]]; auto. }
      split; [exact N2|]. intros s. rewrite M2, M1. split.
      + intros [[H|[H1 H2]]|(H1 & o & H2 & H3)]; [left; exact H|right; split; [exact H1|exists a; cbn; auto]|].
        right. split; [exact H1|]. exists o. cbn. auto.
      + intros [H|(H1 & o & [<-|H2] & H3)]; [auto|auto|]. right. split; [exact H1|eauto]. }
  assert (Occ : forall s e, isSymbol s = true -> isSymbol e = false -> (occurs s e <-> exists o, In o (ops e) /\ occurs s o)).
  { intros s e H1 H2. split; [intros H; inversion H; subst; [congruence|eauto]|]. intros (o & H3 & H4). econstructor; eauto. }
  induction e as [q|n p|c| |f l IH|l IH|l IH|b y IHb IHy] using expr_ind2; intros acc Ha Hn; cbn [collectInto].
  - split; [exact Hn|]. intros s. split; [auto|]. intros [H|[H1 H2]]; [exact H|]. apply Leaf in H2; [|reflexivity]. subst. discriminate.
  - split; [apply insertSymbol_nodup, Hn|]. intros s. rewrite insertSymbol_in.
    + split; [intros [H| ->]; [auto|right; split; [reflexivity|constructor]]|].
      intros [H|[H1 H2]]; [auto|]. apply Leaf in H2; [|reflexivity]. auto.
    + intros o Ho. apply Ha in Ho. destruct o; try discriminate. constructor.
  - split; [exact Hn|]. intros s. split; [auto|]. intros [H|[H1 H2]]; [exact H|]. apply Leaf in H2; [|reflexivity]. subst. discriminate.
  - split; [exact Hn|]. intros s. split; [auto|]. intros [H|[H1 H2]]; [exact H|]. apply Leaf in H2; [|reflexivity]. subst. discriminate.
  - destruct (List l IH acc Ha Hn) as [N M]. split; [exact N|]. intros s. rewrite M.
    split; (intros [H|[H1 H2]]; [auto|right; split; [exact H1|]; apply (Occ s (Fct f l)); auto]).
  - destruct (List l IH acc Ha Hn) as [N M]. split; [exact N|]. intros s. rewrite M.
    split; (intros [H|[H1 H2]]; [auto|right; split; [exact H1|]; apply (Occ s (Sum l)); auto]).
  - destruct (List l IH acc Ha Hn) as [N M]. split; [exact N|]. intros s. rewrite M.
    split; (intros [H|[H1 H2]]; [auto|right; split; [exact H1|]; apply (Occ s (Prod l)); auto]).
  - destruct (List [b; y]) with (acc := acc) as [N M]; [intros e [<-|[<-|[]]]; assumption|exact Ha|exact Hn|]. split; [exact N|]. intros s.
    change (collectInto y (collectInto b acc)) with (fold_left (fun a x => collectInto x a) [b; y] acc). rewrite M.
    split; (intros [H|[H1 H2]]; [auto|right; split; [exact H1|]; apply (Occ s (Pow b y)); auto]).
Qed.
Lemma collectSymbols_spec e : NoDup (collectSymbols e) /\
  forall s, In s (collectSymbols e) <-> (exists n p, s = Sym n p) /\ occurs s e.
Proof.
  destruct (collectInto_spec e []) as [N M]; [intros o []|constructor|]. split; [exact N|].
  intros s. unfold collectSymbols. rewrite M. split.
  - intros [[]|[H1 H2]]. split; [|exact H2]. destruct s; try discriminate. eauto.
  - intros [(n & p & ->) H]. right. split; [reflexivity|exact H].
Qed.
