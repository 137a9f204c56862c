(** The order of src/order.cpp is a strict total order on orderable expressions. *)
From Verif Require Import ExprModel ExprProofs OrderModel.
From Coq Require Import Lia Wf_nat.
Open Scope Z_scope.

(** ** The fuel is sufficient *)
Lemma lexCompare_ext f g l : forall r,
  (forall x y, In x l -> In y r -> f x y = g x y /\ f y x = g y x) ->
  lexCompare f l r = lexCompare g l r.
Proof.
  induction l as [|x xs IH]; intros [|y ys] H; cbn; try reflexivity.
  destruct (H x y (or_introl eq_refl) (or_introl eq_refl)) as [-> ->].
  rewrite (IH ys); [reflexivity|]. intros. apply H; now right.
Qed.

Section Fuel.
  Variable nlt : Q -> Q -> bool.

  (** Does [permute] call itself with swapped arguments? *)
  Definition swaps (l r : expr) : bool :=
    match l, r with
    | Sym _ _, (Sym _ _ | Undef) => false
    | Sym _ _, _ => true
    | Fct _ _, (Sym _ _ | Fct _ _ | Undef) => false
    | Fct _ _, _ => true
    | Sum _, (Sym _ _ | Fct _ _ | Sum _ | Undef) => false
    | Sum _, _ => true
    | Pow _ _, (Sym _ _ | Fct _ _ | Sum _ | Pow _ _ | Undef) => false
    | Pow _ _, _ => true
    | Prod _, (Sym _ _ | Fct _ _ | Sum _ | Pow _ _ | Prod _ | Undef) => false
    | Prod _, _ => true
    | Cst _, Num _ => true
    | _, _ => false
    end.

  Definition mu (l r : expr) : nat :=
    (2 * (esize l + esize r) - (if swaps l r then 0 else 1))%nat.

  Lemma mu_le l r : (mu l r <= 2 * (esize l + esize r))%nat.
  Proof. unfold mu. destruct (swaps l r); lia. Qed.

  Lemma rev_head_in (l : list expr) x xs : rev l = x :: xs -> In x l.
  Proof. intros H. apply in_rev. rewrite H. now left. Qed.

  Lemma permute_fuel n : forall m l r, (mu l r <= n)%nat -> (mu l r <= m)%nat ->
    permute nlt n l r = permute nlt m l r.
  Proof.
    induction n as [|n IH]; intros m l r Hn Hm.
    - exfalso. unfold mu in Hn. pose proof (esize_pos l). pose proof (esize_pos r).
      destruct (swaps l r); lia.
    - destruct m as [|m].
      { exfalso. unfold mu in Hm. pose proof (esize_pos l). pose proof (esize_pos r).
        destruct (swaps l r); lia. }
      assert (IHd : forall a b, (esize a + esize b < esize l + esize r)%nat ->
        permute nlt n a b = permute nlt m a b).
      { intros a b Hab. pose proof (mu_le a b). apply IH; unfold mu in *; destruct (swaps l r); lia. }
      assert (HL : forall a b, lsize a = pred (esize l) -> lsize b = pred (esize r) ->
        lexCompare (fun x y => isDifferent x y && negb (permute nlt n x y)) (rev b) (rev a) =
        lexCompare (fun x y => isDifferent x y && negb (permute nlt m x y)) (rev b) (rev a)).
      { intros a b Ha Hb. apply lexCompare_ext. intros x y Hx Hy.
        apply in_rev, lsize_in in Hx. apply in_rev, lsize_in in Hy.
        pose proof (esize_pos l). pose proof (esize_pos r).
        rewrite (IHd x y), (IHd y x) by lia. auto. }
      assert (HE : forall a b, lsize a = pred (esize l) -> (esize b <= esize r)%nat ->
        match rev a with [] => false | x :: _ => if isEqual x b then true else permute nlt n x b end =
        match rev a with [] => false | x :: _ => if isEqual x b then true else permute nlt m x b end).
      { intros a b Ha Hb. destruct (rev a) as [|x xs] eqn:E; [reflexivity|].
        apply rev_head_in, lsize_in in E. destruct (isEqual x b); [reflexivity|].
        pose proof (esize_pos l). apply IHd. lia. }
      assert (HS : swaps l r = true -> swaps r l = false ->
        negb (permute nlt n r l) = negb (permute nlt m r l)).
      { intros S1 S2. f_equal. apply IH; unfold mu in *; rewrite S1 in *; rewrite S2; lia. }
      destruct l as [q|a p|c| |f a|a|a|b1 e1], r as [q'|a' p'|c'| |f' a'|a'|a'|b2 e2]; cbn [permute];
        try reflexivity; try (apply HS; reflexivity); try (apply HL; reflexivity);
        try (apply HE; [reflexivity | lia]).
      + destruct (nameNe _ _); [reflexivity|]. destruct a as [|x xs], a' as [|y ys]; try reflexivity.
        apply IHd. rewrite !esize_Fct. cbn. lia.
      + destruct (isDifferent b1 _); apply IHd; cbn; pose proof (esize_pos b1); lia.
      + destruct (isDifferent b1 _); apply IHd; cbn; pose proof (esize_pos b1); pose proof (esize_pos e1); lia.
      + destruct (isDifferent b1 _); apply IHd; cbn; pose proof (esize_pos b1); pose proof (esize_pos e1); lia.
      + destruct (isDifferent b1 _); apply IHd; cbn; pose proof (esize_pos b1); pose proof (esize_pos e1);
          pose proof (esize_pos b2); pose proof (esize_pos e2); lia.
  Qed.

  Lemma permute_enough n l r : (2 * (esize l + esize r) <= n)%nat -> permute nlt n l r = doPermute nlt l r.
  Proof.
    intros H. apply permute_fuel; pose proof (mu_le l r); lia.
  Qed.

  Definition less (a b : expr) : bool := isDifferent a b && isCorrect nlt a b.

  (** One step of [permute] without fuel. *)
  Definition permuteBody (l r : expr) : bool :=
    let permute := doPermute nlt in
    let listReverse a b := lexCompare less (rev b) (rev a) in
    let lastElement (a : list expr) b :=
      match rev a with [] => false | x :: _ => if isEqual x b then true else permute x b end in
    match l, r with
    | Sym a p, Sym b q => doPermuteBothSymbol a p b q
    | Num a, Num b => nlt b a
    | Pow b1 e1, Pow b2 e2 => if isDifferent b1 b2 then permute b1 b2 else permute e1 e2
    | Prod a, Prod b => listReverse a b
    | Sum a, Sum b => listReverse a b
    | Cst a, Cst b => nameGt (cstName a) (cstName b)
    | Fct f a, Fct g b =>
        if nameNe (fctName f) (fctName g) then nameGt (fctName f) (fctName g)
        else match a, b with x :: _, y :: _ => permute x y | _, _ => false end
    | Undef, Undef => false
    | Num _, _ => false
    | Cst _, (Sym _ _ | Undef | Fct _ _ | Sum _ | Prod _ | Pow _ _) => false
    | Prod a, (Pow _ _ | Sum _ | Sym _ _ | Fct _ _) => lastElement a r
    | Pow b e, (Sum _ | Sym _ _ | Fct _ _) =>
        if isDifferent b r then permute b r else permute e (Num 1)
    | Sum a, (Sym _ _ | Fct _ _) => lastElement a r
    | Fct f _, Sym m _ => if nameEq (fctName f) m then false else nameGt (fctName f) m
    | Undef, _ => false
    | _, Undef => false
    | _, _ => negb (permute r l)
    end.

  Lemma doPermute_eq l r : doPermute nlt l r = permuteBody l r.
  Proof.
    rewrite <- (permute_enough (S (2 * (esize l + esize r))) l r) by lia.
    set (n := (2 * (esize l + esize r))%nat).
    assert (IHd : forall a b, (esize a + esize b < esize l + esize r)%nat ->
      permute nlt n a b = doPermute nlt a b).
    { intros a b Hab. apply permute_enough. lia. }
    assert (HL : forall a b, lsize a = pred (esize l) -> lsize b = pred (esize r) ->
      lexCompare (fun x y => isDifferent x y && negb (permute nlt n x y)) (rev b) (rev a) =
      lexCompare less (rev b) (rev a)).
    { intros a b Ha Hb. apply lexCompare_ext. intros x y Hx Hy.
      apply in_rev, lsize_in in Hx. apply in_rev, lsize_in in Hy.
      pose proof (esize_pos l). pose proof (esize_pos r). unfold less, isCorrect.
      rewrite (IHd x y), (IHd y x) by lia. auto. }
    assert (HE : forall a b, lsize a = pred (esize l) -> (esize b <= esize r)%nat ->
      match rev a with [] => false | x :: _ => if isEqual x b then true else permute nlt n x b end =
      match rev a with [] => false | x :: _ => if isEqual x b then true else doPermute nlt x b end).
    { intros a b Ha Hb. destruct (rev a) as [|x xs] eqn:E; [reflexivity|].
      apply rev_head_in, lsize_in in E. destruct (isEqual x b); [reflexivity|].
      pose proof (esize_pos l). apply IHd. lia. }
    assert (HS : negb (permute nlt n r l) = negb (doPermute nlt r l)).
    { f_equal. apply permute_enough. lia. }
    destruct l as [q|a p|c| |f a|a|a|b1 e1], r as [q'|a' p'|c'| |f' a'|a'|a'|b2 e2]; cbn [permute permuteBody];
      try reflexivity; try exact HS; try (apply HL; reflexivity);
      try (apply HE; [reflexivity | lia]).
    + destruct (nameNe _ _); [reflexivity|]. destruct a as [|x xs], a' as [|y ys]; try reflexivity.
      apply IHd. rewrite !esize_Fct. cbn. lia.
    + destruct (isDifferent b1 _); apply IHd; cbn; pose proof (esize_pos b1); lia.
    + destruct (isDifferent b1 _); apply IHd; cbn; pose proof (esize_pos b1); pose proof (esize_pos e1); lia.
    + destruct (isDifferent b1 _); apply IHd; cbn; pose proof (esize_pos b1); pose proof (esize_pos e1); lia.
    + destruct (isDifferent b1 _); apply IHd; cbn; pose proof (esize_pos b1); pose proof (esize_pos e1);
        pose proof (esize_pos b2); pose proof (esize_pos e2); lia.
  Qed.

  Lemma swaps_eq l r : swaps l r = true -> permuteBody l r = negb (doPermute nlt r l).
  Proof. destruct l, r; try discriminate; reflexivity. Qed.
End Fuel.

From Verif Require Import ExprSpec.

Lemma defined_noUndef e : defined e <-> noUndef e = true.
Proof.
  split.
  - induction e as [q|n p|c| |f l IH|l IH|l IH|x y IHx IHy] using expr_ind2; intros H; inversion H; subst;
      cbn; try reflexivity; try (apply forallb_forall; auto).
    rewrite IHx, IHy by assumption. reflexivity.
  - induction e as [q|n p|c| |f l IH|l IH|l IH|x y IHx IHy] using expr_ind2; cbn; intros H;
      try discriminate; constructor; try (rewrite forallb_forall in H; auto);
      apply andb_true_iff in H as [H1 H2]; auto.
Qed.

Lemma orderable_noUndef N e : orderable N e -> noUndef e = true.
Proof.
  intros H. apply defined_noUndef. revert H.
  induction e as [q|n p|c| |f l IH|l IH|l IH|x y IHx IHy] using expr_ind2; intros H; inversion H; subst;
    constructor; auto.
  intros z [<- | []]. apply IH; [now left | assumption].
Qed.

(** ** The lexicographic comparison *)
Section Lex.
  Variable f : expr -> expr -> bool.

  Lemma lex_irrefl l : (forall x, In x l -> f x x = false) -> lexCompare f l l = false.
  Proof.
    induction l as [|x xs IH]; cbn; [reflexivity|]. intros H.
    rewrite H by now left. apply IH. auto.
  Qed.

  Lemma lex_tri l : forall r,
    (forall x y, In x l -> In y r -> x <> y -> f x y = negb (f y x)) ->
    (forall x, In x l -> f x x = false) ->
    l <> r -> lexCompare f l r = negb (lexCompare f r l).
  Proof.
    induction l as [|x xs IH]; intros [|y ys] HT HI N; cbn; try reflexivity; try congruence.
    destruct (expr_eq_dec x y) as [-> | Nxy].
    - rewrite HI by now left. apply IH; [intros; apply HT; cbn; auto | intros; apply HI; now right | congruence].
    - rewrite (HT x y) by (cbn; auto). destruct (f y x); reflexivity.
  Qed.

  Lemma lex_trans l : forall m r,
    (forall x y, In x l \/ In x m \/ In x r -> In y l \/ In y m \/ In y r -> x <> y -> f x y = negb (f y x)) ->
    (forall x, In x l \/ In x m \/ In x r -> f x x = false) ->
    (forall x y z, In x l -> In y m -> In z r -> f x y = true -> f y z = true -> f x z = true) ->
    lexCompare f l m = true -> lexCompare f m r = true -> lexCompare f l r = true.
  Proof.
    induction l as [|x xs IH]; intros [|y ys] [|z zs] HT HI HR; cbn; try discriminate; try reflexivity.
    destruct (expr_eq_dec x y) as [-> | Nxy].
    - rewrite (HI y) by (cbn; auto).
      destruct (expr_eq_dec y z) as [-> | Nyz].
      + rewrite (HI z) by (cbn; auto). apply IH; [intros; apply HT; cbn; tauto || assumption | intros; apply HI; cbn; tauto | intros ? y0 ? ? ? ?; apply HR; now right].
      + intros _. rewrite (HT y z) by (cbn; auto). destruct (f z y); cbn; congruence.
    - rewrite (HT x y) by (cbn; auto). destruct (f y x) eqn:Eyx; cbn; [discriminate|]. intros _.
      assert (Exy : f x y = true) by (rewrite (HT x y), Eyx by (cbn; auto); reflexivity).
      destruct (expr_eq_dec y z) as [-> | Nyz].
      + intros _. rewrite Exy. reflexivity.
      + rewrite (HT y z) by (cbn; auto). destruct (f z y) eqn:Ezy; cbn; [discriminate|].
        assert (Eyz : f y z = true) by (rewrite (HT y z), Ezy by (cbn; auto); reflexivity).
        intros _. rewrite (HR x y z) by (cbn; auto). reflexivity.
  Qed.
End Lex.

(** ** Trichotomy *)
Section Total.
  Variable nlt : Q -> Q -> bool.
  Variable N : Q -> Prop.
  Hypothesis Hnlt : strictTotal N (fun p q => nlt p q = true).

  Local Notation gt := (doPermute nlt).
  Local Notation ok := (orderable N).

  Lemma nlt_irrefl q : N q -> nlt q q = false.
  Proof. intros H. apply not_true_is_false. now apply (st_irrefl _ _ Hnlt). Qed.
  Lemma nlt_tri p q : N p -> N q -> p <> q -> nlt p q = negb (nlt q p).
  Proof.
    intros Hp Hq Npq. destruct (nlt p q) eqn:E, (nlt q p) eqn:F; try reflexivity.
    - exfalso. apply (st_irrefl _ _ Hnlt p Hp). apply (st_trans _ _ Hnlt p q p); assumption.
    - destruct (st_total _ _ Hnlt p q Hp Hq Npq); congruence.
  Qed.

  Lemma sym_irrefl n p : doPermuteBothSymbol n p n p = false.
  Proof.
    unfold doPermuteBothSymbol. rewrite eqb_reflx, andb_false_r. apply nameLt_irrefl.
  Qed.

  Lemma sym_tri n p m q : Sym n p <> Sym m q ->
    doPermuteBothSymbol n p m q = negb (doPermuteBothSymbol m q n p).
  Proof.
    intros H. unfold doPermuteBothSymbol, nameGt.
    destruct (nameEq n m) eqn:E.
    - apply nameEq_eq in E as ->. rewrite nameEq_refl. destruct p, q; cbn; try reflexivity; congruence.
    - assert (E2 : nameEq m n = false) by (rewrite nameEq_neq in *; congruence).
      rewrite E2. cbn. apply nameEq_neq in E.
      destruct (nameLt m n) eqn:F, (nameLt n m) eqn:G; try reflexivity.
      + rewrite (nameLt_asym _ _ F) in G. discriminate.
      + now rewrite (nameLt_tri _ _ F G) in E.
  Qed.

  Lemma ok_neq_isEqual a b : ok a -> a <> b -> isEqual a b = false.
  Proof. intros H. apply isEqual_false. eapply orderable_noUndef; eassumption. Qed.
  Lemma ok_isEqual a : ok a -> isEqual a a = true.
  Proof. intros H. apply isEqual_refl. eapply orderable_noUndef; eassumption. Qed.

  Lemma less_irrefl a : ok a -> less nlt a a = false.
  Proof. intros H. unfold less, isDifferent. now rewrite ok_isEqual. Qed.

  Lemma less_neq a b : ok a -> a <> b -> less nlt a b = negb (gt a b).
  Proof. intros H Nab. unfold less, isDifferent, isCorrect. now rewrite ok_neq_isEqual. Qed.

  Lemma gt_irrefl a : ok a -> gt a a = false.
  Proof.
    induction a as [q|n p|c| |f l IH|l IH|l IH|x y IHx IHy] using expr_ind2; intros H; inversion H; subst;
      rewrite doPermute_eq; cbn [permuteBody].
    - now apply nlt_irrefl.
    - apply sym_irrefl.
    - apply nameLt_irrefl.
    - unfold nameNe. rewrite nameEq_refl. cbn. apply IH; [now left|assumption].
    - apply lex_irrefl. intros z Hz % in_rev. apply less_irrefl. auto.
    - apply lex_irrefl. intros z Hz % in_rev. apply less_irrefl. auto.
    - unfold isDifferent. rewrite ok_isEqual by assumption. cbn. auto.
  Qed.

  Lemma gt_tri_n n : forall a b, (esize a + esize b <= n)%nat -> ok a -> ok b -> a <> b ->
    gt a b = negb (gt b a).
  Proof.
    induction n as [|n IH]; intros a b Hn Ha Hb Nab.
    { pose proof (esize_pos a). lia. }
    assert (HL : forall l m, (lsize l + lsize m <= n)%nat -> (forall z, In z l -> ok z) ->
      (forall z, In z m -> ok z) -> l <> m ->
      lexCompare (less nlt) (rev m) (rev l) = negb (lexCompare (less nlt) (rev l) (rev m))).
    { intros l m Hs Hl Hm Nlm. apply lex_tri.
      - intros x y Hx % in_rev Hy % in_rev Nxy. pose proof (lsize_in _ _ Hx). pose proof (lsize_in _ _ Hy).
        rewrite !less_neq by auto. f_equal. apply IH; auto. lia.
      - intros x Hx % in_rev. apply less_irrefl. auto.
      - intros E. apply Nlm. rewrite <- (rev_involutive l), <- (rev_involutive m). congruence. }
    destruct (swaps a b) eqn:Sab.
    { rewrite (doPermute_eq nlt a b). now apply swaps_eq. }
    destruct (swaps b a) eqn:Sba.
    { rewrite (doPermute_eq nlt b a), swaps_eq by assumption. now rewrite negb_involutive. }
    rewrite (doPermute_eq nlt a b), (doPermute_eq nlt b a).
    destruct Ha as [q Hq|s p|c|f x Hx|x y l Hl|x y l Hl|b1 e1 Ne1 Hb1 He1],
      Hb as [q' Hq'|s' p'|c'|f' x' Hx'|x' y' l' Hl'|x' y' l' Hl'|b2 e2 Ne2 Hb2 He2];
      try discriminate.
    - cbn [permuteBody]. apply nlt_tri; congruence.
    - cbn [permuteBody]. now apply sym_tri.
    - destruct c, c'; cbn; try reflexivity; congruence.
    - cbn [permuteBody]. unfold nameNe.
      destruct (nameEq (fctName f) (fctName f')) eqn:E.
      + apply nameEq_eq in E. rewrite E, nameEq_refl. cbn. apply fctName_inj in E as ->.
        apply IH; auto; [|congruence]. rewrite !esize_Fct in Hn. cbn in Hn. lia.
      + assert (E2 : nameEq (fctName f') (fctName f) = false) by (rewrite nameEq_neq in *; congruence).
        rewrite E2. cbn. apply nameEq_neq in E. unfold nameGt.
        destruct (nameLt (fctName f') (fctName f)) eqn:F, (nameLt (fctName f) (fctName f')) eqn:G; try reflexivity.
        * rewrite (nameLt_asym _ _ F) in G. discriminate.
        * now rewrite (nameLt_tri _ _ F G) in E.
    - cbn [permuteBody]. apply HL; auto; [|congruence]. rewrite !esize_Sum in Hn. lia.
    - cbn [permuteBody]. apply HL; auto; [|congruence]. rewrite !esize_Prod in Hn. lia.
    - cbn [permuteBody]. unfold isDifferent. destruct (expr_eq_dec b1 b2) as [-> | Nb].
      + rewrite ok_isEqual by assumption. cbn. apply IH; auto; [|congruence]. cbn in Hn. lia.
      + rewrite !ok_neq_isEqual by (auto; congruence). cbn. apply IH; auto. cbn in Hn. lia.
  Qed.

  Lemma gt_tri a b : ok a -> ok b -> a <> b -> gt a b = negb (gt b a).
  Proof. intros. eapply gt_tri_n; eauto. Qed.

  (** ** A uniform description of the comparison *)
  Definition rank (e : expr) : nat := match e with Num _ => 0 | Cst _ => 1 | _ => 2 end.
  Definition asProd (e : expr) := match e with Prod l => l | _ => [e] end.
  Definition asSum (e : expr) := match e with Sum l => l | _ => [e] end.
  Definition baseOf (e : expr) := match e with Pow b _ => b | _ => e end.
  Definition expOf (e : expr) := match e with Pow _ x => x | _ => Num 1 end.

  Hypothesis N1 : N 1%Q.

  Lemma gt_rank a b : ok a -> ok b -> rank a <> rank b -> gt a b = Nat.ltb (rank b) (rank a).
  Proof.
    intros Ha Hb. rewrite doPermute_eq. destruct Ha, Hb; cbn; intros H'; try lia; try reflexivity;
      rewrite doPermute_eq; reflexivity.
  Qed.

  Lemma less_single x y : ok x -> ok y -> lexCompare (less nlt) [x] [y] = gt y x.
  Proof.
    intros Hx Hy. cbn [lexCompare]. destruct (expr_eq_dec x y) as [-> | Nxy].
    - rewrite less_irrefl, gt_irrefl by assumption. reflexivity.
    - rewrite !less_neq by auto. rewrite (gt_tri x y) by auto. rewrite negb_involutive.
      destruct (gt y x); reflexivity.
  Qed.

  Lemma lastElement_lex x y l b : (forall z, In z (x :: y :: l) -> ok z) -> ok b ->
    match rev (x :: y :: l) with [] => false | x :: _ => if isEqual x b then true else gt x b end =
    lexCompare (less nlt) [b] (rev (x :: y :: l)).
  Proof.
    intros Hl Hb. destruct (rev (x :: y :: l)) as [|z zs] eqn:E.
    { apply (f_equal (@rev expr)) in E. rewrite rev_involutive in E. discriminate. }
    assert (Hz : ok z) by (apply Hl, in_rev; rewrite E; now left).
    assert (Hzs : zs <> []).
    { intros ->. apply (f_equal (@length expr)) in E. rewrite rev_length in E. discriminate. }
    cbn [lexCompare]. destruct (expr_eq_dec z b) as [-> | Nzb].
    - rewrite ok_isEqual, less_irrefl by assumption. destruct zs; congruence.
    - rewrite ok_neq_isEqual, !less_neq by (auto; congruence). rewrite (gt_tri b z) by (auto; congruence).
      rewrite negb_involutive. destruct (gt z b); reflexivity.
  Qed.

  Lemma lex_single_flip x y l b : (forall z, In z (x :: y :: l) -> ok z) -> ok b ->
    negb (lexCompare (less nlt) [b] (rev (x :: y :: l))) = lexCompare (less nlt) (rev (x :: y :: l)) [b].
  Proof.
    intros Hl Hb. symmetry. apply lex_tri.
    - intros u v Hu % in_rev [<- | []] Nuv. rewrite !less_neq by (auto; congruence). f_equal. apply gt_tri; auto.
    - intros u Hu % in_rev. apply less_irrefl; auto.
    - intros E. apply (f_equal (@length expr)) in E. rewrite rev_length in E. discriminate.
  Qed.

  Lemma gt_as_prod a b : ok a -> ok b -> rank a = 2%nat -> rank b = 2%nat ->
    gt a b = lexCompare (less nlt) (rev (asProd b)) (rev (asProd a)).
  Proof.
    intros Ha Hb Ra Rb.
    assert (HS : forall x y, ok x -> ok y -> gt x y = lexCompare (less nlt) (rev [y]) (rev [x])).
    { intros. symmetry. now apply less_single. }
    pose proof Ha as Ha'. pose proof Hb as Hb'.
    destruct Ha' as [q Hq|s p|c|f x Hx|x y l Hl|x y l Hl|b1 e1 Ne1 Hb1 He1],
      Hb' as [q' Hq'|s' p'|c'|f' x' Hx'|x' y' l' Hl'|x' y' l' Hl'|b2 e2 Ne2 Hb2 He2];
      try discriminate; try (apply HS; assumption);
      rewrite (doPermute_eq nlt); cbn [permuteBody asProd];
      try reflexivity; try (rewrite lastElement_lex by assumption; reflexivity);
      rewrite (doPermute_eq nlt); cbn [permuteBody asProd];
      rewrite lastElement_lex by assumption; apply (lex_single_flip x' y' l'); assumption.
  Qed.

  Lemma gt_as_pow a b : ok a -> ok b -> rank a = 2%nat -> rank b = 2%nat ->
    isProduct a = false -> isProduct b = false ->
    gt a b = if isDifferent (baseOf a) (baseOf b) then gt (baseOf a) (baseOf b) else gt (expOf a) (expOf b).
  Proof.
    intros Ha Hb Ra Rb Pa Pb.
    assert (HS : forall x y, ok x -> ok y -> gt x y = if isDifferent x y then gt x y else gt (Num 1) (Num 1)).
    { intros x y Hx Hy. unfold isDifferent. destruct (expr_eq_dec x y) as [-> | Nxy].
      - rewrite ok_isEqual by assumption. cbn [negb]. rewrite !gt_irrefl; auto. now constructor.
      - rewrite ok_neq_isEqual by assumption. reflexivity. }
    assert (HF : forall u v w z, ok u -> ok v -> ok w -> ok z -> (u <> v \/ w <> z) ->
      negb (if isDifferent u v then gt u v else gt w z) = if isDifferent v u then gt v u else gt z w).
    { intros u v w z Hu Hv Hw Hz Nuv. unfold isDifferent. destruct (expr_eq_dec u v) as [-> | N'].
      - rewrite ok_isEqual by assumption. cbn [negb]. symmetry. apply gt_tri; auto. destruct Nuv; congruence.
      - rewrite !ok_neq_isEqual by (auto; congruence). cbn [negb]. symmetry. apply gt_tri; auto. }
    pose proof Ha as Ha'. pose proof Hb as Hb'.
    destruct Ha' as [q Hq|s p|c|f x Hx|x y l Hl|x y l Hl|b1 e1 Ne1 Hb1 He1],
      Hb' as [q' Hq'|s' p'|c'|f' x' Hx'|x' y' l' Hl'|x' y' l' Hl'|b2 e2 Ne2 Hb2 He2];
      try discriminate; try (apply HS; assumption);
      rewrite (doPermute_eq nlt); cbn [permuteBody baseOf expOf]; try reflexivity;
      rewrite (doPermute_eq nlt); cbn [permuteBody]; apply HF; auto; now constructor.
  Qed.

  Lemma gt_as_sum a b : ok a -> ok b -> rank a = 2%nat -> rank b = 2%nat ->
    isProduct a = false -> isProduct b = false -> isPower a = false -> isPower b = false ->
    gt a b = lexCompare (less nlt) (rev (asSum b)) (rev (asSum a)).
  Proof.
    intros Ha Hb Ra Rb Pa Pb Wa Wb.
    assert (HS : forall x y, ok x -> ok y -> gt x y = lexCompare (less nlt) (rev [y]) (rev [x])).
    { intros. symmetry. now apply less_single. }
    pose proof Ha as Ha'. pose proof Hb as Hb'.
    destruct Ha' as [q Hq|s p|c|f x Hx|x y l Hl|x y l Hl|b1 e1 Ne1 Hb1 He1],
      Hb' as [q' Hq'|s' p'|c'|f' x' Hx'|x' y' l' Hl'|x' y' l' Hl'|b2 e2 Ne2 Hb2 He2];
      try discriminate; try (apply HS; assumption);
      rewrite (doPermute_eq nlt); cbn [permuteBody asSum];
      try reflexivity; try (rewrite lastElement_lex by assumption; reflexivity);
      rewrite (doPermute_eq nlt); cbn [permuteBody asSum];
      rewrite lastElement_lex by assumption; apply (lex_single_flip x' y' l'); assumption.
  Qed.

  (** ** Transitivity *)
  Lemma lex_gt_trans l m r :
    (forall z, In z l \/ In z m \/ In z r -> ok z) ->
    (forall x y z, In x l -> In y m -> In z r -> gt x y = true -> gt y z = true -> gt x z = true) ->
    lexCompare (less nlt) (rev m) (rev l) = true -> lexCompare (less nlt) (rev r) (rev m) = true ->
    lexCompare (less nlt) (rev r) (rev l) = true.
  Proof.
    intros Hok HT H1 H2.
    assert (HL : forall x y, ok x -> ok y -> less nlt x y = true -> gt y x = true).
    { intros x y Hx Hy H. destruct (expr_eq_dec x y) as [-> | Nxy].
      - rewrite less_irrefl in H by assumption. discriminate.
      - rewrite less_neq in H by auto. now rewrite (gt_tri y x) by (auto; congruence). }
    assert (HL2 : forall x y, ok x -> ok y -> gt y x = true -> less nlt x y = true).
    { intros x y Hx Hy H. destruct (expr_eq_dec x y) as [-> | Nxy].
      - rewrite gt_irrefl in H by assumption. discriminate.
      - rewrite less_neq by auto. now rewrite (gt_tri x y), H by auto. }
    apply (lex_trans (less nlt) (rev r) (rev m) (rev l)); auto.
    - intros x y Hx Hy Nxy. rewrite <- !in_rev in *. rewrite !less_neq by (try congruence; apply Hok; tauto).
      f_equal. apply gt_tri; auto; apply Hok; tauto.
    - intros x Hx. rewrite <- !in_rev in *. apply less_irrefl, Hok. tauto.
    - intros x y z Hx Hy Hz. rewrite <- in_rev in *. intros A B.
      apply HL in A; [|apply Hok; tauto..]. apply HL in B; [|apply Hok; tauto..].
      apply HL2; [apply Hok; tauto..|]. apply (HT z y x); auto.
  Qed.

  Lemma asProd_in e x : ok e -> In x (asProd e) ->
    ok x /\ (if isProduct e then esize x < esize e else esize x <= esize e)%nat.
  Proof.
    intros He Hx. destruct He; cbn in Hx; try (destruct Hx as [<- | []]; cbn [isProduct]; split; [now constructor|lia]).
    split; [auto|]. cbn [isProduct]. rewrite esize_Prod. apply Nat.lt_succ_r, lsize_in. exact Hx.
  Qed.
  Lemma asSum_in e x : ok e -> In x (asSum e) ->
    ok x /\ (if isSum e then esize x < esize e else esize x <= esize e)%nat.
  Proof.
    intros He Hx. destruct He; cbn in Hx; try (destruct Hx as [<- | []]; cbn [isSum]; split; [now constructor|lia]).
    split; [auto|]. cbn [isSum]. rewrite esize_Sum. apply Nat.lt_succ_r, lsize_in. exact Hx.
  Qed.

  Lemma gt_trans_n n : forall a b c, (esize a + esize b + esize c <= n)%nat -> ok a -> ok b -> ok c ->
    gt a b = true -> gt b c = true -> gt a c = true.
  Proof.
    induction n as [|n IH]; intros a b c Hn Ha Hb Hc.
    { pose proof (esize_pos a). lia. }
    assert (Rk : forall e, ok e -> (rank e = 0 \/ rank e = 1 \/ rank e = 2)%nat) by (intros []; cbn; auto).
    destruct (Nat.eq_dec (rank a) (rank b)) as [Rab | Rab].
    2: { rewrite (gt_rank a b) by assumption. rewrite Nat.ltb_lt. intros L1.
         destruct (Nat.eq_dec (rank b) (rank c)) as [Rbc | Rbc].
         - intros _. rewrite gt_rank by (auto; lia). apply Nat.ltb_lt. lia.
         - rewrite (gt_rank b c) by assumption. rewrite Nat.ltb_lt. intros L2.
           rewrite gt_rank by (auto; lia). apply Nat.ltb_lt. lia. }
    destruct (Nat.eq_dec (rank b) (rank c)) as [Rbc | Rbc].
    2: { intros _. rewrite (gt_rank b c) by assumption. rewrite Nat.ltb_lt. intros L2.
         rewrite gt_rank by (auto; lia). apply Nat.ltb_lt. lia. }
    destruct (Rk a Ha) as [Ra | [Ra | Ra]].
    { destruct Ha, Hb, Hc; try (cbn in *; lia). rewrite !doPermute_eq. cbn. intros A B.
      eapply (st_trans _ _ Hnlt); [| | |exact B|exact A]; assumption. }
    { destruct Ha, Hb, Hc; try (cbn in *; lia). rewrite !doPermute_eq. cbn. intros A B.
      eapply nameLt_trans; eassumption. }
    destruct (isProduct a || isProduct b || isProduct c) eqn:EP.
    { rewrite (gt_as_prod a b), (gt_as_prod b c), (gt_as_prod a c) by (auto; lia). apply lex_gt_trans.
      - intros z [Hz | [Hz | Hz]]; (apply asProd_in in Hz; [|assumption]); tauto.
      - intros x y z Hx Hy Hz. apply asProd_in in Hx as [? Sx]; [|assumption].
        apply asProd_in in Hy as [? Sy]; [|assumption]. apply asProd_in in Hz as [? Sz]; [|assumption].
        apply IH; auto. destruct (isProduct a), (isProduct b), (isProduct c); try discriminate; lia. }
    apply orb_false_iff in EP as [[EPa EPb] % orb_false_iff EPc].
    destruct (isPower a || isPower b || isPower c) eqn:EW.
    { rewrite (gt_as_pow a b), (gt_as_pow b c), (gt_as_pow a c) by (auto; lia).
      assert (HB : forall e, ok e -> isProduct e = false -> rank e = 2%nat ->
        ok (baseOf e) /\ ok (expOf e) /\
        (if isPower e then esize (baseOf e) + esize (expOf e) < esize e
         else esize (baseOf e) = esize e /\ expOf e = Num 1)%nat).
      { intros e He _ _. destruct He; cbn; repeat split; auto; try (now constructor); lia. }
      destruct (HB a Ha EPa Ra) as (Ba & Xa & Sa), (HB b Hb EPb ltac:(lia)) as (Bb & Xb & Sb),
        (HB c Hc EPc ltac:(lia)) as (Bc & Xc & Sc).
      pose proof (esize_pos (baseOf a)). pose proof (esize_pos (baseOf b)). pose proof (esize_pos (baseOf c)).
      pose proof (esize_pos (expOf a)). pose proof (esize_pos (expOf b)). pose proof (esize_pos (expOf c)).
      assert (SB : (esize (baseOf a) + esize (baseOf b) + esize (baseOf c) <= n)%nat).
      { destruct (isPower a), (isPower b), (isPower c); try discriminate; lia. }
      assert (SX : (esize (expOf a) + esize (expOf b) + esize (expOf c) <= n)%nat).
      { destruct (isPower a), (isPower b), (isPower c); try discriminate;
          repeat match goal with K : _ /\ _ |- _ => destruct K as [? K]; rewrite K in * end; cbn [esize] in *; lia. }
      unfold isDifferent.
      destruct (expr_eq_dec (baseOf a) (baseOf b)) as [Eab | Nab].
      - rewrite Eab. rewrite (ok_isEqual (baseOf b)) by assumption. cbn [negb]. intros A.
        destruct (expr_eq_dec (baseOf b) (baseOf c)) as [Ebc | Nbc].
        + rewrite Ebc, ok_isEqual by assumption. cbn [negb]. intros B.
          apply (IH _ (expOf b)); auto.
        + rewrite ok_neq_isEqual by assumption. cbn [negb]. auto.
      - rewrite (ok_neq_isEqual _ _ Ba Nab). cbn [negb]. intros A.
        destruct (expr_eq_dec (baseOf b) (baseOf c)) as [Ebc | Nbc].
        + rewrite Ebc, ok_isEqual by assumption. rewrite Ebc in *. rewrite (ok_neq_isEqual _ _ Ba Nab). cbn [negb]. auto.
        + rewrite (ok_neq_isEqual _ _ Bb Nbc). cbn [negb]. intros B.
          assert (G : gt (baseOf a) (baseOf c) = true) by (apply (IH _ (baseOf b)); auto).
          assert (Nac : baseOf a <> baseOf c) by (intros E; rewrite E, gt_irrefl in G by assumption; discriminate).
          rewrite (ok_neq_isEqual _ _ Ba Nac). exact G. }
    apply orb_false_iff in EW as [[EWa EWb] % orb_false_iff EWc].
    destruct (isSum a || isSum b || isSum c) eqn:ES.
    { rewrite (gt_as_sum a b), (gt_as_sum b c), (gt_as_sum a c) by (auto; lia). apply lex_gt_trans.
      - intros z [Hz | [Hz | Hz]]; (apply asSum_in in Hz; [|assumption]); tauto.
      - intros x y z Hx Hy Hz. apply asSum_in in Hx as [? Sx]; [|assumption].
        apply asSum_in in Hy as [? Sy]; [|assumption]. apply asSum_in in Hz as [? Sz]; [|assumption].
        apply IH; auto. destruct (isSum a), (isSum b), (isSum c); try discriminate; lia. }
    apply orb_false_iff in ES as [[ESa ESb] % orb_false_iff ESc].
    (* functions and symbols *)
    assert (FT : forall f g h, nameNe (fctName f) (fctName g) = true -> nameNe (fctName g) (fctName h) = true ->
       nameGt (fctName f) (fctName g) = true -> nameGt (fctName g) (fctName h) = true ->
       nameNe (fctName f) (fctName h) = true /\ nameGt (fctName f) (fctName h) = true).
    { intros f g h _ _ A B. unfold nameGt in *. pose proof (nameLt_trans _ _ _ B A) as C. split; [|exact C].
      unfold nameNe. destruct (nameEq (fctName f) (fctName h)) eqn:E; [|reflexivity].
      apply nameEq_eq in E. rewrite E, nameLt_irrefl in C. discriminate. }
    destruct Ha as [q Hq|s p|c0|f x Hx|x y l Hl|x y l Hl|b1 e1 Ne1 Hb1 He1]; try (cbn in *; discriminate);
    destruct Hb as [q' Hq'|s' p'|c'|f' x' Hx'|x' y' l' Hl'|x' y' l' Hl'|b2 e2 Ne2 Hb2 He2]; try (cbn in *; discriminate);
    destruct Hc as [q2 Hq2|s2 p2|c2|f2 x2 Hx2|x2 y2 l2 Hl2|x2 y2 l2 Hl2|b3 e3 Ne3 Hb3 He3]; try (cbn in *; discriminate);
    clear Rk Ra Rab Rbc EPa EPb EPc EWa EWb EWc ESa ESb ESc.
    - (* three symbols *)
      rewrite !doPermute_eq. cbn [permuteBody]. unfold doPermuteBothSymbol, nameGt.
      destruct (nameEq s s') eqn:E1, (nameEq s' s2) eqn:E2; cbn [andb negb].
      + apply nameEq_eq in E1 as ->. apply nameEq_eq in E2 as ->. rewrite nameEq_refl, nameLt_irrefl.
        destruct p, p', p2; cbn; auto.
      + apply nameEq_eq in E1 as ->. rewrite E2. cbn. auto.
      + apply nameEq_eq in E2 as ->. rewrite E1. cbn. auto.
      + intros A B. pose proof (nameLt_trans _ _ _ B A) as C.
        destruct (nameEq s s2) eqn:E3; [|exact C].
        apply nameEq_eq in E3 as ->. rewrite nameLt_irrefl in C. discriminate.
    - (* s s' fct *)
      rewrite !doPermute_eq. cbn [permuteBody]. rewrite !doPermute_eq. cbn [permuteBody].
      unfold doPermuteBothSymbol, nameGt. intros A B.
      destruct (nameEq s s') eqn:E1; cbn [andb] in A.
      + apply nameEq_eq in E1 as ->. exact B.
      + destruct (nameEq (fctName f2) s) eqn:E3; [reflexivity|]. cbn [negb] in *.
        destruct (nameEq (fctName f2) s') eqn:E4; cbn [negb] in *.
        * apply nameEq_eq in E4 as ->. now rewrite (nameLt_asym _ _ A).
        * apply negb_true_iff in B. apply negb_true_iff.
          destruct (nameLt s (fctName f2)) eqn:C; [|reflexivity].
          rewrite (nameLt_trans _ _ _ A C) in B. discriminate.
    - (* s fct s *)
      rewrite !doPermute_eq. cbn [permuteBody]. rewrite !doPermute_eq. cbn [permuteBody].
      unfold doPermuteBothSymbol, nameGt. intros A B.
      destruct (nameEq (fctName f') s2) eqn:E4; [discriminate|]. apply negb_true_iff in A.
      assert (C : nameLt s2 s = true).
      { destruct (nameEq (fctName f') s) eqn:E3.
        - apply nameEq_eq in E3 as <-. exact B.
        - destruct (nameLt (fctName f') s) eqn:D.
          + eapply nameLt_trans; eassumption.
          + apply nameEq_neq in E3. contradict E3. now apply nameLt_tri. }
      destruct (nameEq s s2) eqn:E3; [|exact C].
      apply nameEq_eq in E3 as ->. rewrite nameLt_irrefl in C. discriminate.
    - (* s fct fct *)
      rewrite !(doPermute_eq nlt (Sym s p)), !(doPermute_eq nlt (Fct f' [x'])).
      cbn [permuteBody]. rewrite !(doPermute_eq nlt _ (Sym s p)). cbn [permuteBody].
      unfold nameNe, nameGt. intros A B. apply negb_true_iff in A. apply negb_true_iff.
      destruct (nameEq (fctName f2) s) eqn:E3; [reflexivity|].
      destruct (nameEq (fctName f') (fctName f2)) eqn:E4; cbn [negb] in *.
      + apply nameEq_eq, fctName_inj in E4 as ->. rewrite E3 in A. exact A.
      + destruct (nameEq (fctName f') s) eqn:E5.
        * apply nameEq_eq in E5 as <-. now rewrite (nameLt_asym _ _ B).
        * destruct (nameLt s (fctName f2)) eqn:C; [|reflexivity].
          rewrite (nameLt_trans _ _ _ C B) in A. discriminate.
    - (* fct s s *)
      rewrite !doPermute_eq. cbn [permuteBody]. unfold doPermuteBothSymbol, nameGt. intros A B.
      destruct (nameEq (fctName f) s') eqn:E1; [discriminate|].
      destruct (nameEq s' s2) eqn:E2; cbn [andb] in B.
      + apply nameEq_eq in E2 as ->. now rewrite E1.
      + pose proof (nameLt_trans _ _ _ B A) as C.
        destruct (nameEq (fctName f) s2) eqn:E3; [|exact C].
        apply nameEq_eq in E3 as <-. rewrite nameLt_irrefl in C. discriminate.
    - (* fct s fct *)
      rewrite (doPermute_eq nlt (Fct f [x]) (Sym s' p')), (doPermute_eq nlt (Sym s' p') (Fct f2 [x2])),
        (doPermute_eq nlt (Fct f [x]) (Fct f2 [x2])). cbn [permuteBody].
      rewrite (doPermute_eq nlt (Fct f2 [x2]) (Sym s' p')). cbn [permuteBody].
      unfold nameNe, nameGt. intros A B. apply negb_true_iff in B.
      destruct (nameEq (fctName f) s') eqn:E1; [discriminate|].
      assert (C : nameLt (fctName f2) (fctName f) = true).
      { destruct (nameEq (fctName f2) s') eqn:E2.
        - apply nameEq_eq in E2 as ->. exact A.
        - destruct (nameLt (fctName f2) s') eqn:D.
          + eapply nameLt_trans; eassumption.
          + apply nameEq_neq in E2. contradict E2. now apply nameLt_tri. }
      destruct (nameEq (fctName f) (fctName f2)) eqn:E3; cbn [negb]; [|exact C].
      apply nameEq_eq in E3. rewrite E3, nameLt_irrefl in C. discriminate.
    - (* fct fct s *)
      rewrite (doPermute_eq nlt (Fct f [x]) (Fct f' [x'])), (doPermute_eq nlt (Fct f' [x']) (Sym s2 p2)),
        (doPermute_eq nlt (Fct f [x]) (Sym s2 p2)). cbn [permuteBody].
      unfold nameNe, nameGt. intros A B.
      destruct (nameEq (fctName f') s2) eqn:E1; [discriminate|].
      destruct (nameEq (fctName f) (fctName f')) eqn:E2; cbn [negb] in A.
      + apply nameEq_eq, fctName_inj in E2 as ->. now rewrite E1.
      + pose proof (nameLt_trans _ _ _ B A) as C.
        destruct (nameEq (fctName f) s2) eqn:E3; [|exact C].
        apply nameEq_eq in E3 as <-. rewrite nameLt_irrefl in C. discriminate.
    - (* three functions *)
      rewrite (doPermute_eq nlt (Fct f [x]) (Fct f' [x'])), (doPermute_eq nlt (Fct f' [x']) (Fct f2 [x2])),
        (doPermute_eq nlt (Fct f [x]) (Fct f2 [x2])). cbn [permuteBody].
      unfold nameNe. intros A B.
      destruct (nameEq (fctName f) (fctName f')) eqn:E1, (nameEq (fctName f') (fctName f2)) eqn:E2; cbn [negb] in *.
      + apply nameEq_eq, fctName_inj in E1 as ->. apply nameEq_eq, fctName_inj in E2 as ->.
        rewrite nameEq_refl. cbn. apply (IH x x' x2); auto. rewrite !esize_Fct in Hn. cbn in Hn. lia.
      + apply nameEq_eq, fctName_inj in E1 as ->. now rewrite E2.
      + apply nameEq_eq, fctName_inj in E2 as ->. now rewrite E1.
      + unfold nameGt in *. pose proof (nameLt_trans _ _ _ B A) as C.
        destruct (nameEq (fctName f) (fctName f2)) eqn:E3; cbn [negb]; [|exact C].
        apply nameEq_eq in E3. rewrite E3, nameLt_irrefl in C. discriminate.
  Qed.

  Lemma gt_trans a b c : ok a -> ok b -> ok c -> gt a b = true -> gt b c = true -> gt a c = true.
  Proof. eapply gt_trans_n; eauto. Qed.

  Lemma order_strictTotal : strictTotal ok (fun a b => less nlt a b = true).
  Proof.
    assert (HL : forall x y, ok x -> ok y -> less nlt x y = true <-> gt y x = true).
    { intros x y Hx Hy. destruct (expr_eq_dec x y) as [-> | Nxy].
      - rewrite less_irrefl, gt_irrefl by assumption. tauto.
      - rewrite less_neq by auto. rewrite (gt_tri x y), negb_involutive by auto. tauto. }
    constructor.
    - intros a Ha. rewrite less_irrefl by assumption. discriminate.
    - intros a b c Ha Hb Hc. rewrite !HL by assumption. intros A B. apply (gt_trans c b a); assumption.
    - intros a b Ha Hb Nab. rewrite !HL by assumption. rewrite (gt_tri a b) by assumption.
      destruct (gt b a); auto.
  Qed.
End Total.
