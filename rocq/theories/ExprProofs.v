(** Structural facts about expressions: induction principle, names, equality, has. *)
From Verif Require Import ExprModel.
From Coq Require Import Lia.
Open Scope Z_scope.

(** ** Induction over expressions with a hypothesis for every operand. *)
Section Ind.
  Variable P : expr -> Prop.
  Hypothesis HNum : forall q, P (Num q).
  Hypothesis HSym : forall n p, P (Sym n p).
  Hypothesis HCst : forall c, P (Cst c).
  Hypothesis HUndef : P Undef.
  Hypothesis HFct : forall f l, (forall x, In x l -> P x) -> P (Fct f l).
  Hypothesis HSum : forall l, (forall x, In x l -> P x) -> P (Sum l).
  Hypothesis HProd : forall l, (forall x, In x l -> P x) -> P (Prod l).
  Hypothesis HPow : forall b e, P b -> P e -> P (Pow b e).

  Fixpoint expr_ind2 (e : expr) : P e.
  Proof.
    assert (HL : forall l : list expr, forall x, In x l -> P x).
    { fix IHl 1. intros l. destruct l as [|y ys]; cbn.
      - intros x [].
      - intros x [<- | Hx]; [apply expr_ind2 | apply (IHl ys x Hx)]. }
    destruct e.
    - apply HNum. - apply HSym. - apply HCst. - apply HUndef.
    - apply HFct, HL. - apply HSum, HL. - apply HProd, HL.
    - apply HPow; apply expr_ind2.
  Defined.
End Ind.

(** ** Strings and names *)
Lemma strEq_eq a b : strEq a b = true <-> a = b.
Proof. apply String.eqb_eq. Qed.
Lemma strEq_refl a : strEq a a = true.
Proof. apply String.eqb_refl. Qed.

Lemma ascii_compare_refl a : Ascii.compare a a = Eq.
Proof. unfold Ascii.compare. apply N.compare_refl. Qed.
Lemma string_compare_refl s : String.compare s s = Eq.
Proof. induction s; cbn; [reflexivity | rewrite ascii_compare_refl; exact IHs]. Qed.

Lemma strLt_irrefl a : strLt a a = false.
Proof. unfold strLt. now rewrite string_compare_refl. Qed.

Lemma ascii_compare_lt_trans a b c :
  Ascii.compare a b = Lt -> Ascii.compare b c = Lt -> Ascii.compare a c = Lt.
Proof. unfold Ascii.compare. rewrite !N.compare_lt_iff. lia. Qed.

Lemma strLt_trans a b c : strLt a b = true -> strLt b c = true -> strLt a c = true.
Proof.
  unfold strLt. revert b c.
  induction a as [|x a IH]; intros [|y b] [|z c]; cbn; try discriminate; try reflexivity.
  destruct (Ascii.compare x y) eqn:Exy; try discriminate.
  - apply Ascii.compare_eq_iff in Exy as ->.
    destruct (Ascii.compare y z) eqn:Eyz; try discriminate; try reflexivity. apply IH.
  - intros _. destruct (Ascii.compare y z) eqn:Eyz; try discriminate.
    + apply Ascii.compare_eq_iff in Eyz as ->. now rewrite Exy.
    + now rewrite (ascii_compare_lt_trans _ _ _ Exy Eyz).
Qed.

Lemma strLt_tri a b : strLt a b = false -> strLt b a = false -> a = b.
Proof.
  unfold strLt. rewrite (String.compare_antisym b a).
  destruct (String.compare a b) eqn:E; try discriminate.
  intros _ _. now apply String.compare_eq_iff.
Qed.

Lemma strLt_asym a b : strLt a b = true -> strLt b a = false.
Proof.
  unfold strLt. rewrite (String.compare_antisym b a).
  now destruct (String.compare a b).
Qed.

Lemma nameEq_eq a b : nameEq a b = true <-> a = b.
Proof.
  unfold nameEq. destruct a as [a1 a2 a3], b as [b1 b2 b3]; cbn.
  rewrite !andb_true_iff, !strEq_eq. split.
  - intros [[-> ->] ->]. reflexivity.
  - intros [= -> -> ->]. auto.
Qed.
Lemma nameEq_refl a : nameEq a a = true.
Proof. now apply nameEq_eq. Qed.
Lemma nameEq_neq a b : nameEq a b = false <-> a <> b.
Proof.
  rewrite <- (nameEq_eq a b). destruct (nameEq a b); split; congruence.
Qed.

Lemma nameLt_irrefl a : nameLt a a = false.
Proof. unfold nameLt. now rewrite !strLt_irrefl. Qed.

Lemma nameLt_asym a b : nameLt a b = true -> nameLt b a = false.
Proof.
  unfold nameLt. destruct a as [a1 a2 a3], b as [b1 b2 b3]; cbn.
  destruct (strLt a1 b1) eqn:E1.
  - intros _. now rewrite (strLt_asym _ _ E1).
  - destruct (strLt b1 a1) eqn:E2; [discriminate|].
    destruct (strLt a2 b2) eqn:E3.
    + intros _. now rewrite (strLt_asym _ _ E3).
    + destruct (strLt b2 a2) eqn:E4; [discriminate|]. apply strLt_asym.
Qed.

Lemma nameLt_tri a b : nameLt a b = false -> nameLt b a = false -> a = b.
Proof.
  unfold nameLt. destruct a as [a1 a2 a3], b as [b1 b2 b3]; cbn.
  destruct (strLt a1 b1) eqn:E1; [discriminate|].
  destruct (strLt b1 a1) eqn:E2; [discriminate|].
  destruct (strLt a2 b2) eqn:E3; [discriminate|].
  destruct (strLt b2 a2) eqn:E4; [discriminate|].
  intros E5 E6. now rewrite (strLt_tri _ _ E1 E2), (strLt_tri _ _ E3 E4), (strLt_tri _ _ E5 E6).
Qed.

Lemma nameLt_trans a b c : nameLt a b = true -> nameLt b c = true -> nameLt a c = true.
Proof.
  unfold nameLt. destruct a as [a1 a2 a3], b as [b1 b2 b3], c as [c1 c2 c3]; cbn.
  assert (Htri : forall s t, strLt s t = true \/ s = t \/ strLt t s = true).
  { intros s t. destruct (strLt s t) eqn:E; auto. destruct (strLt t s) eqn:E2; auto.
    right; left. now apply strLt_tri. }
  destruct (Htri a1 b1) as [H1 | [-> | H1]].
  - rewrite H1. intros _.
    destruct (Htri b1 c1) as [H2 | [-> | H2]].
    + rewrite (strLt_trans _ _ _ H1 H2). reflexivity.
    + rewrite H1. reflexivity.
    + rewrite (strLt_asym _ _ H2), H2. discriminate.
  - rewrite !strLt_irrefl.
    destruct (Htri b1 c1) as [H2 | [-> | H2]].
    + rewrite H2. reflexivity.
    + rewrite !strLt_irrefl.
      destruct (Htri a2 b2) as [H3 | [-> | H3]].
      * rewrite H3. intros _.
        destruct (Htri b2 c2) as [H4 | [-> | H4]].
        -- rewrite (strLt_trans _ _ _ H3 H4). reflexivity.
        -- rewrite H3. reflexivity.
        -- rewrite (strLt_asym _ _ H4), H4. discriminate.
      * rewrite !strLt_irrefl.
        destruct (Htri b2 c2) as [H4 | [-> | H4]].
        -- rewrite H4. reflexivity.
        -- rewrite !strLt_irrefl. apply strLt_trans.
        -- rewrite (strLt_asym _ _ H4), H4. discriminate.
      * rewrite (strLt_asym _ _ H3), H3. discriminate.
    + rewrite (strLt_asym _ _ H2), H2. discriminate.
  - rewrite (strLt_asym _ _ H1), H1. discriminate.
Qed.

Lemma cstName_inj a b : cstName a = cstName b -> a = b.
Proof. destruct a, b; cbn; congruence || discriminate. Qed.
Lemma fctName_inj a b : fctName a = fctName b -> a = b.
Proof. destruct a, b; cbn; congruence || discriminate. Qed.

(** ** Equality *)
Lemma qeqb_leib p q : qeqb p q = true <-> p = q.
Proof.
  unfold qeqb. destruct p as [n d], q as [m e]; cbn.
  rewrite andb_true_iff, Z.eqb_eq, Pos.eqb_eq. split; [intros [-> ->] | intros [= -> ->]]; auto.
Qed.

Lemma isEqual_Fct f l g m :
  isEqual (Fct f l) (Fct g m) = nameEq (fctName f) (fctName g) && areEqual l m.
Proof. reflexivity. Qed.
Lemma isEqual_Sum l m : isEqual (Sum l) (Sum m) = areEqual l m.
Proof. reflexivity. Qed.
Lemma isEqual_Prod l m : isEqual (Prod l) (Prod m) = areEqual l m.
Proof. reflexivity. Qed.

Lemma areEqual_eq l : (forall x, In x l -> forall y, isEqual x y = true -> x = y) ->
  forall m, areEqual l m = true -> l = m.
Proof.
  induction l as [|x xs IH]; intros Hl [|y ys]; cbn; try discriminate; [reflexivity|].
  intros [H1 H2] % andb_true_iff. f_equal.
  - apply Hl; [now left | exact H1].
  - apply IH; [intros z Hz; apply Hl; now right | exact H2].
Qed.

Lemma isEqual_eq a : forall b, isEqual a b = true -> a = b.
Proof.
  induction a as [q|n p|c| |f l IH|l IH|l IH|x y IHx IHy] using expr_ind2; intros b; destruct b;
    try discriminate.
  - cbn. intros H. now apply qeqb_leib in H as ->.
  - cbn. destruct (nameEq n n0) eqn:E; [|discriminate]. apply nameEq_eq in E as ->.
    intros H % Bool.eqb_prop. now subst.
  - cbn. intros H % nameEq_eq. now apply cstName_inj in H as ->.
  - rewrite isEqual_Fct. intros [H1 H2] % andb_true_iff.
    apply nameEq_eq, fctName_inj in H1 as ->. f_equal. now apply areEqual_eq.
  - rewrite isEqual_Sum. intros H. f_equal. now apply areEqual_eq.
  - rewrite isEqual_Prod. intros H. f_equal. now apply areEqual_eq.
  - cbn. rewrite andb_true_r. intros [H1 H2] % andb_true_iff. f_equal; auto.
Qed.

(** No Undefined anywhere inside. *)
Fixpoint noUndef (e : expr) : bool :=
  match e with
  | Undef => false
  | Fct _ l | Sum l | Prod l => forallb noUndef l
  | Pow b x => noUndef b && noUndef x
  | _ => true
  end.

Lemma areEqual_refl l : (forall x, In x l -> isEqual x x = true) -> areEqual l l = true.
Proof.
  induction l as [|x xs IH]; cbn; [reflexivity|]. intros H.
  rewrite H by now left. cbn. apply IH. intros; apply H; now right.
Qed.

Lemma isEqual_refl a : noUndef a = true -> isEqual a a = true.
Proof.
  induction a as [q|n p|c| |f l IH|l IH|l IH|x y IHx IHy] using expr_ind2; intros H; try discriminate.
  - cbn. now apply qeqb_leib.
  - cbn. rewrite nameEq_refl. apply eqb_reflx.
  - cbn. apply nameEq_refl.
  - rewrite isEqual_Fct, nameEq_refl. cbn. cbn in H. rewrite forallb_forall in H.
    apply areEqual_refl. auto.
  - rewrite isEqual_Sum. cbn in H. rewrite forallb_forall in H. apply areEqual_refl. auto.
  - rewrite isEqual_Prod. cbn in H. rewrite forallb_forall in H. apply areEqual_refl. auto.
  - cbn in *. apply andb_true_iff in H as [H1 H2]. rewrite IHx, IHy by assumption. reflexivity.
Qed.

Lemma isEqual_self_noUndef a : isEqual a a = true -> noUndef a = true.
Proof.
  assert (HL : forall l, (forall x, In x l -> isEqual x x = true -> noUndef x = true) ->
    areEqual l l = true -> forallb noUndef l = true).
  { induction l as [|x xs IH]; cbn; [reflexivity|]. intros Hl [H1 H2] % andb_true_iff.
    rewrite Hl by auto. cbn. apply IH; auto. }
  induction a as [q|n p|c| |f l IH|l IH|l IH|x y IHx IHy] using expr_ind2; intros H;
    try reflexivity; try discriminate.
  - rewrite isEqual_Fct in H. apply andb_true_iff in H as [_ H]. cbn. auto.
  - rewrite isEqual_Sum in H. cbn. auto.
  - rewrite isEqual_Prod in H. cbn. auto.
  - cbn in *. rewrite andb_true_r in H. apply andb_true_iff in H as [H1 H2].
    rewrite IHx, IHy by assumption. reflexivity.
Qed.

Lemma isEqual_iff a b : noUndef a = true -> isEqual a b = true <-> a = b.
Proof.
  intros Ha. split; [apply isEqual_eq | intros <-; now apply isEqual_refl].
Qed.

Lemma isEqual_false a b : noUndef a = true -> isEqual a b = false <-> a <> b.
Proof.
  intros Ha. rewrite <- (isEqual_iff a b Ha). destruct (isEqual a b); split; congruence.
Qed.

Lemma isEqual_sym a b : isEqual a b = isEqual b a.
Proof.
  destruct (isEqual a b) eqn:E, (isEqual b a) eqn:F; try reflexivity.
  - pose proof (isEqual_eq _ _ E). subst. congruence.
  - pose proof (isEqual_eq _ _ F). subst. congruence.
Qed.

Lemma expr_eq_dec (a b : expr) : a = b \/ a <> b.
Proof.
  assert (HL : forall l : list expr, (forall x, In x l -> forall y, x = y \/ x <> y) ->
    forall m, l = m \/ l <> m).
  { induction l as [|x xs IHl]; intros IH [|y ys].
    - left; reflexivity. - right; discriminate. - right; discriminate.
    - destruct (IH x (or_introl eq_refl) y) as [-> | N]; [|right; congruence].
      destruct (IHl (fun z Hz => IH z (or_intror Hz)) ys) as [-> | N]; [left; reflexivity|right; congruence]. }
  revert b. induction a as [q|n p|c| |f l IH|l IH|l IH|x y IHx IHy] using expr_ind2; intros b;
    destruct b; try (right; discriminate).
  - destruct (qeqb q q0) eqn:E; [left|right].
    + f_equal. now apply qeqb_leib.
    + intros [= H]. apply qeqb_leib in H. congruence.
  - destruct (nameEq n n0) eqn:E.
    + apply nameEq_eq in E as ->. destruct (bool_dec p positive) as [-> | N]; [now left|right; congruence].
    + right. intros [= H _]. apply nameEq_eq in H. congruence.
  - destruct c, c0; try (left; reflexivity); right; discriminate.
  - left; reflexivity.
  - assert (D2 : {f = f0} + {f <> f0}) by decide equality.
    destruct (HL l IH args) as [-> | N], D2 as [-> | N2]; try (left; reflexivity); right; congruence.
  - destruct (HL l IH l0) as [-> | N]; [left; reflexivity|right; congruence].
  - destruct (HL l IH l0) as [-> | N]; [left; reflexivity|right; congruence].
  - destruct (IHx b1) as [-> | N], (IHy b2) as [-> | N2]; try (left; reflexivity); right; congruence.
Qed.

(** ** Sizes *)
Lemma esize_pos e : (1 <= esize e)%nat.
Proof. destruct e; cbn; lia. Qed.
Lemma lsize_in l x : In x l -> (esize x <= lsize l)%nat.
Proof.
  induction l as [|y ys IH]; cbn; [contradiction|].
  intros [<- | H]; [|specialize (IH H); unfold lsize in IH]; lia.
Qed.
Lemma esize_Fct f l : esize (Fct f l) = S (lsize l). Proof. reflexivity. Qed.
Lemma esize_Sum l : esize (Sum l) = S (lsize l). Proof. reflexivity. Qed.
Lemma esize_Prod l : esize (Prod l) = S (lsize l). Proof. reflexivity. Qed.
