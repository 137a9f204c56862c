(** Every expression the library hands out is well formed: sums. *)
From Verif Require Export ShapeSpec SoundOps.
From Verif Require Import ExprProofs NumPowerProofs NormalProofs.
From Coq Require Import Lia.
From Verif Require Import Run.
Open Scope Z_scope.

Notation syms := (name -> bool -> Prop).
(** Symbols in exponents satisfy [E], the others [P]. *)
Fixpoint shape (E P : syms) (e : expr) : Prop :=
  let all := fix all l := match l with [] => True | x :: r => shape E P x /\ all r end in
  match e with
  | Num q => canon q
  | Sym n p => P n p
  | Cst _ | Undef => True
  | Fct f l => length l = arity f /\ all l
  | Sum l | Prod l => (2 <= length l)%nat /\ all l
  | Pow b x => shape E P b /\ shape E E x /\ isOne b = false /\ isOne x = false
  end.
Definition sub (E P : syms) : Prop := forall n p, E n p -> P n p.

Lemma all_Forall {A} (Q : A -> Prop) l : (fix all l := match l with [] => True | x :: r => Q x /\ all r end) l <-> Forall Q l.
Proof. induction l as [|x l IH]; [split; auto|]. split; [intros [H1 H2]; constructor; [exact H1 | now apply IH]|intros H; inversion H; subst; split; [assumption | now apply IH]]. Qed.
Lemma shape_sum E P l : shape E P (Sum l) <-> (2 <= length l)%nat /\ Forall (shape E P) l.
Proof. cbn [shape]. rewrite all_Forall. reflexivity. Qed.
Lemma shape_prod E P l : shape E P (Prod l) <-> (2 <= length l)%nat /\ Forall (shape E P) l.
Proof. cbn [shape]. rewrite all_Forall. reflexivity. Qed.
Lemma shape_fct E P f l : shape E P (Fct f l) <-> length l = arity f /\ Forall (shape E P) l.
Proof. cbn [shape]. rewrite all_Forall. reflexivity. Qed.
Lemma shape_pow E P b x : shape E P (Pow b x) <-> shape E P b /\ shape E E x /\ isOne b = false /\ isOne x = false.
Proof. reflexivity. Qed.
Lemma sub_refl P : sub P P. Proof. intros n p H. exact H. Qed.
Lemma shape_mono2 E E' P P' e : sub E E' -> sub P P' -> shape E P e -> shape E' P' e.
Proof.
  intros HE HP. revert E E' P P' HE HP. induction e as [q|n p|c| |f l IH|l IH|l IH|b x IHb IHx] using expr_ind2; intros E E' P P' HE HP H; auto.
  - exact (HP _ _ H).
  - apply shape_fct in H as [Hl H]. apply shape_fct. split; [exact Hl|]. rewrite Forall_forall in *. intros y Hy. apply (IH y Hy E E' P P'); auto.
  - apply shape_sum in H as [Hl H]. apply shape_sum. split; [exact Hl|]. rewrite Forall_forall in *. intros y Hy. apply (IH y Hy E E' P P'); auto.
  - apply shape_prod in H as [Hl H]. apply shape_prod. split; [exact Hl|]. rewrite Forall_forall in *. intros y Hy. apply (IH y Hy E E' P P'); auto.
  - destruct H as (Hb & Hx & H1 & H2). repeat split; [apply (IHb E E' P P')|apply (IHx E E' E E')| |]; auto.
Qed.
Lemma shape_mono E P P' e : sub P P' -> shape E P e -> shape E P' e.
Proof. intros H. apply shape_mono2; [apply sub_refl | exact H]. Qed.
Lemma isOne_iff e : isOne e = false <-> e <> Num 1.
Proof.
  destruct e; try (split; [discriminate || congruence | reflexivity]). cbn [isOne]. split.
  - intros H E. injection E as ->. discriminate H.
  - intros H. destruct (qeqb q 1) eqn:E; [|reflexivity]. exfalso. apply H. f_equal. now apply qeqb_eq in E.
Qed.
Lemma shape_wellFormed P e : shape P P e <-> wellFormed P e.
Proof.
  induction e as [q|n p|c| |f l IH|l IH|l IH|b x IHb IHx] using expr_ind2; try reflexivity.
  - rewrite shape_fct. cbn [wellFormed]. rewrite all_Forall. rewrite !Forall_forall. split; intros [H1 H2]; (split; [exact H1|]); intros y Hy; apply IH; auto.
  - rewrite shape_sum. cbn [wellFormed]. rewrite all_Forall. rewrite !Forall_forall. split; intros [H1 H2]; (split; [exact H1|]); intros y Hy; apply IH; auto.
  - rewrite shape_prod. cbn [wellFormed]. rewrite all_Forall. rewrite !Forall_forall. split; intros [H1 H2]; (split; [exact H1|]); intros y Hy; apply IH; auto.
  - rewrite shape_pow. cbn [wellFormed]. now rewrite IHb, IHx, !isOne_iff.
Qed.

(** Executions *)
Notation sh := endsWell.
Lemma sh_bind {A B} (Q : A -> Prop) (Q' : B -> Prop) m f : sh Q m -> (forall a, Q a -> sh Q' (f a)) -> sh Q' (bind m f).
Proof. destruct m as [a l| | |s]; cbn; auto. intros H Hf. specialize (Hf a H). destruct (f a); exact Hf. Qed.
Lemma sh_weaken {A} (Q Q' : A -> Prop) m : sh Q m -> (forall a, Q a -> Q' a) -> sh Q' m.
Proof. destruct m; cbn; auto. Qed.
Lemma sh_quiet {A} (Q : A -> Prop) m : sh Q m -> sh Q (quiet m).
Proof. now destruct m. Qed.
Lemma sh_inEnv {A} (Q : A -> Prop) l m : sh Q m -> sh Q (inEnv l m).
Proof. now destruct m. Qed.
Lemma sh_mapM {A B} (R : A -> Prop) (Q : B -> Prop) f l : Forall R l -> (forall a, R a -> sh Q (f a)) ->
  sh (fun r => length r = length l /\ Forall Q r) (mapM f l).
Proof.
  intros Hl Hf. induction Hl as [|x l Hx Hl IH]; cbn [mapM]; [cbn; auto|].
  eapply sh_bind; [apply Hf; exact Hx|]. intros y Hy. eapply sh_bind; [exact IH|]. intros s [E Hs]. cbn. auto.
Qed.
Lemma sh_all {I A} (i : I) (Q : I -> A -> Prop) m : (forall i, sh (Q i) m) -> sh (fun a => forall i, Q i a) m.
Proof. destruct m; cbn; auto. Qed.
Lemma sh_and {A} (Q Q' : A -> Prop) m : sh Q m -> sh Q' m -> sh (fun a => Q a /\ Q' a) m.
Proof. destruct m; cbn; auto. Qed.
Lemma sh_rely (Q : Datatypes.unit -> Prop) c : Q tt -> sh Q (rely c). Proof. auto. Qed.
Lemma sh_relyIf (Q : Datatypes.unit -> Prop) b c : Q tt -> sh Q (relyIf b c). Proof. destruct b; auto. Qed.
Definition tr {A} (a : A) : Prop := True.
Lemma sh_tr_bind {A B} (Q' : B -> Prop) (m : res A) f : sh tr m -> (forall a, sh Q' (f a)) -> sh Q' (bind m f).
Proof. intros H Hf. eapply sh_bind; [exact H|]. intros a _. apply Hf. Qed.

(** The contract. *)
Definition pairSh (E P : syms) (x : expr * expr) : Prop := shape E P (fst x) /\ shape E P (snd x).
Definition mapSh (E P : syms) (m : smap) : Prop :=
  (forall n p, P n p -> (String.length (nvalue n) < m_base m)%nat) /\
  forall i n p t, nth_error (m_list m) i = Some (n, p, t) ->
    n = tmpNm (m_base m + i) /\ shape E (ptmp P (firstn i (m_list m))) t.
Definition fracSh (E P : syms) (m : smap) (x : expr * expr * smap) : Prop :=
  let '(n, d, m') := x in
  m_base m' = m_base m /\ (exists l, m_list m' = m_list m ++ l) /\ mapSh E P m' /\
  shape E (ptmp P (m_list m')) n /\ shape E (ptmp P (m_list m')) d.
Record shapely (W : oper) : Prop := {
  h_sum : forall E P l, sub E P -> Forall (shape E P) l -> sh (shape E P) (w_sum W l);
  h_prod : forall E P l, sub E P -> Forall (shape E P) l -> sh (shape E P) (w_prod W l);
  h_pow : forall E P b x, sub E P -> shape E P b -> shape E E x -> sh (shape E P) (w_pow W b x);
  h_spow : forall E P b x, sub E P -> shape E P b -> shape E E x ->
    sh (fun y => shape E P (fst y) /\ shape E E (snd y)) (w_spow W b x);
  h_trig : forall E P f a, sub E P -> trigF f = true -> shape E P a -> sh (shape E P) (w_trig W f a);
  h_atan2 : forall E P a b, sub E P -> shape E P a -> shape E P b -> sh (shape E P) (w_atan2 W a b);
  h_log : forall E P a, sub E P -> shape E P a -> sh (shape E P) (w_log W a);
  h_expand : forall E P a, sub E P -> shape E P a -> sh (shape E P) (w_expand W a);
  h_subst0 : forall E P n p a t, sub E P -> ~ P n p -> shape E P a -> sh (shape E P) (w_subst W a (Sym n p) t);
  h_subst1 : forall E P n p a t, sub E P -> ~ E n p -> shape E (plus1 P n p) a -> shape E P t ->
    sh (shape E P) (w_subst W a (Sym n p) t);
  h_subst2 : forall E P n p a t, sub E P -> shape (plus1 E n p) (plus1 P n p) a -> shape E E t ->
    sh (shape E P) (w_subst W a (Sym n p) t);
  h_pos : forall E P a, sub E P -> shape E P a -> sh tr (w_pos W a);
  h_neg : forall E P a, sub E P -> shape E P a -> sh tr (w_neg W a);
  h_normal : forall E P a, sub E P -> shape E P a -> sh (shape E P) (w_normal W a);
  h_normalF : forall E P m a, sub E P -> mapSh E P m -> shape E P a -> sh (fracSh E P m) (w_normalF W m a);
  h_gcd : forall E P b L u v, sub E P -> Forall (shape E P) L -> shape E P u -> shape E P v ->
    sh (shape E P) (w_gcd W b L u v)
}.

Lemma Forall_filter {A} (Q : A -> Prop) f l : Forall Q l -> Forall Q (filter f l).
Proof. intros H. apply incl_Forall with l; [|exact H]. intros x Hx. now apply filter_In in Hx. Qed.
Lemma Forall_firstn {A} (Q : A -> Prop) n l : Forall Q l -> Forall Q (firstn n l).
Proof. intros H. rewrite <- (firstn_skipn n l) in H. now apply Forall_app in H. Qed.
Lemma Forall_skipn {A} (Q : A -> Prop) n l : Forall Q l -> Forall Q (skipn n l).
Proof. intros H. rewrite <- (firstn_skipn n l) in H. now apply Forall_app in H. Qed.
Lemma Fnth {A} (Q : A -> Prop) l i x : Forall Q l -> nth_error l i = Some x -> Q x.
Proof. intros H Hi. apply nth_error_In in Hi. rewrite Forall_forall in H. auto. Qed.
Lemma Forall_last {A} (Q : A -> Prop) l x : Forall Q l -> Q x -> Q (last l x).
Proof. intros H. induction H as [|y l Hy Hl IH]; intros Hx; [exact Hx|]. destruct l; [exact Hy | now apply IH]. Qed.

Lemma shape_numZ E P z : shape E P (numZ z). Proof. cbn. unfold canon. cbn. apply Z.gcd_1_r. Qed.
Lemma shape_up E P e : sub E P -> shape E E e -> shape E P e. Proof. apply shape_mono. Qed.
Lemma shape_base E P e : shape E P e -> shape E P (base e).
Proof. destruct e; cbn [base]; auto. now intros (H & _). Qed.
Lemma shape_expo E P e : shape E P e -> shape E E (expo e).
Proof. destruct e; cbn [expo]; try (intros _; reflexivity). now intros (_ & H & _). Qed.
Lemma shape_ordered Y E P a b : shape E P a -> shape E P b -> Forall (shape E P) (ordered Y a b).
Proof. intros. unfold ordered. destruct (permuted Y a b); repeat constructor; auto. Qed.

Create HintDb sh discriminated.
#[global] Hint Constructors Forall : sh.
#[global] Hint Extern 0 (shape _ _ (Num 0)) => reflexivity : sh.
#[global] Hint Extern 0 (shape _ _ zero) => reflexivity : sh.
#[global] Hint Extern 0 (shape _ _ one) => reflexivity : sh.
#[global] Hint Extern 0 (shape _ _ two) => reflexivity : sh.
#[global] Hint Extern 0 (shape _ _ mOne) => reflexivity : sh.
#[global] Hint Extern 0 (shape _ _ half) => reflexivity : sh.
#[global] Hint Extern 0 (shape _ _ (Num (_ # _))) => reflexivity : sh.
#[global] Hint Extern 0 (shape _ _ pi) => exact I : sh.
#[global] Hint Extern 0 (shape _ _ (Cst _)) => exact I : sh.
#[global] Hint Extern 0 (shape _ _ Undef) => exact I : sh.
#[global] Hint Extern 0 (tr _) => exact I : sh.
#[global] Hint Extern 0 (sh _ Fuel) => exact I : sh.
#[global] Hint Extern 0 (sh _ Throw) => exact I : sh.
#[global] Hint Resolve shape_numZ shape_base sub_refl shape_ordered : sh.
#[global] Hint Resolve shape_expo : sh.
#[global] Hint Resolve h_sum h_prod h_pow h_spow h_trig h_atan2 h_log h_expand h_pos h_neg h_normal h_normalF h_gcd : sh.

(** Steps: [shs] for calls whose result matters, [Q] given by the hint. *)
Ltac shstep :=
  match goal with
  | |- forall _, _ => intro
  | |- sh _ (bind (rely _) _) => apply sh_tr_bind; [exact I|intros _]
  | |- sh _ (bind (relyIf _ _) _) => apply sh_tr_bind; [apply sh_relyIf; exact I|intros _]
  | |- sh _ (bind (quiet _) _) => eapply sh_bind; [apply sh_quiet; solve [eauto 6 with sh]|intros ? ?]
  | |- sh _ (bind (inEnv _ _) _) => eapply sh_bind; [apply sh_inEnv; solve [eauto 6 with sh]|intros ? ?]
  | |- sh _ (bind _ _) => eapply sh_bind; [solve [eauto 6 with sh]|intros ? ?]
  | |- sh _ (ret _) => cbn [endsWell ret]
  | |- Forall _ (match ?x with _ => _ end) => destruct x eqn:?
  | |- shape _ _ (match ?x with _ => _ end) => destruct x eqn:?
  | |- sh _ (let '_ := ?x in _) => destruct x
  | |- sh _ (match ?x with _ => _ end) => destruct x eqn:?
  end.
Ltac shgo := repeat first [solve [eauto 6 with sh] | shstep].

Section Sums.
  Variables (Y : sys) (W : oper).
  Hypothesis HW : shapely W.
  Hint Resolve HW : sh.
  Variables (E P : syms).
  Hypothesis HEP : sub E P.
  Hint Resolve HEP : sh.
  Notation S := (shape E P).
  Notation SL := (Forall (shape E P)).

  Lemma s_minus l : SL l -> sh S (minus W l). Proof. intros. apply (h_prod _ HW); auto with sh. Qed.
  Lemma s_oneOver e : S e -> sh S (oneOver W e). Proof. intros. apply (h_pow _ HW); auto with sh. Qed.
  Lemma s_sqrtE e : S e -> sh S (sqrtE W e). Proof. intros. apply (h_pow _ HW); auto with sh. Qed.
  Hint Resolve s_minus s_oneOver s_sqrtE : sh.
  Lemma s_numericTerm e : S e -> sh (fun x => S x) (numericTerm e).
  Proof.
    intros H. unfold numericTerm. destruct e as [q|nn pp|c| |f l|l|l|b x]; [exact H|reflexivity|reflexivity|reflexivity|reflexivity|reflexivity| |reflexivity].
    apply shape_prod in H as [H2 H]. destruct l as [|x l]; [cbn in H2; lia|]. inversion H; subst. cbn. destruct (isNumeric x); auto with sh.
  Qed.
  Lemma s_nonNumericTerm e : S e -> sh S (nonNumericTerm W e).
  Proof.
    intros H. unfold nonNumericTerm. destruct e as [q|nn pp|c| |f l|l|l|b x]; [reflexivity|exact H|exact H|exact H|exact H|exact H| |exact H].
    pose proof H as H0. apply shape_prod in H0 as [H2 H0]. destruct l as [|x l]; [cbn in H2; lia|]. inversion H0; subst. destruct (isNumeric x); [auto with sh|exact H].
  Qed.
  Lemma s_constTerm e : S e -> sh S (constTerm W e).
  Proof.
    intros H. unfold constTerm. destruct e; try (destruct (isConst _); cbn [sh ret]; auto; try exact H; reflexivity).
    apply shape_prod in H as [H2 H]. destruct (constElements l) eqn:Ec; [reflexivity|]. rewrite <- Ec.
    apply (h_prod _ HW); auto. now apply Forall_filter.
  Qed.
  Lemma s_nonConstTerm e : S e -> sh S (nonConstTerm W e).
  Proof.
    intros H. unfold nonConstTerm. destruct e; try (destruct (isConst _); cbn [sh ret]; auto; try exact H; reflexivity).
    apply shape_prod in H as [H2 H]. destruct (nonConstElements l) eqn:Ec; [reflexivity|]. rewrite <- Ec.
    apply (h_prod _ HW); auto. now apply Forall_filter.
  Qed.
  Hint Resolve s_numericTerm s_nonNumericTerm s_constTerm s_nonConstTerm : sh.

  Lemma s_merge n u pair p q : (forall a b, S a -> S b -> sh SL (pair a b)) -> SL p -> SL q -> sh SL (merge n u pair p q).
  Proof.
    intros Hp. revert p q. induction n as [|n IH]; intros p q Hl Hq; [exact I|]. cbn [merge].
    destruct p as [|p1 pr]; [exact Hq|]. destruct q as [|q1 qr]; [exact Hl|].
    inversion Hl; subst. inversion Hq; subst. eapply sh_bind; [apply Hp; assumption|]. intros r Hr.
    destruct r as [|x [|y r]].
    - auto.
    - inversion Hr; subst. destruct (u x); [auto|]. eapply sh_bind; [apply IH; assumption|]. intros t Ht. cbn. auto.
    - destruct (areEqual _ _); [eapply sh_bind; [apply IH; assumption|]; intros t Ht; cbn; auto|].
      destruct (areEqual _ _); [eapply sh_bind; [apply IH; assumption|]; intros t Ht; cbn; auto|]. cbn. auto.
  Qed.
  Lemma s_heqnct a b : S a -> S b -> sh tr (haveEqualNonConstTerms W a b).
  Proof. intros. unfold haveEqualNonConstTerms. shgo. Qed.
  Lemma s_seqnct a b : S a -> S b -> sh SL (simplEqualNonConstTerms Y W a b).
  Proof. intros. unfold simplEqualNonConstTerms. shgo. Qed.
  Lemma s_heqnnt a b : S a -> S b -> sh tr (haveEqualNonNumericTerms W a b).
  Proof. intros. unfold haveEqualNonNumericTerms. shgo. Qed.
  Lemma s_seqnnt a b : S a -> S b -> sh SL (simplEqualNonNumericTerms W a b).
  Proof. intros. unfold simplEqualNonNumericTerms. shgo. Qed.
  Lemma s_hefo a b : S a -> S b -> areSinAndCosSquare Y a b = true -> sh tr (haveEqualFirstOperands W a b).
  Proof.
    intros Ha Hb Hs. unfold areSinAndCosSquare in Hs. destruct a as [| | | | | | |a1 a2]; try discriminate Hs. destruct a1 as [| | | |f l| | |]; try discriminate Hs.
    destruct b as [| | | | | | |b1 b2]; try discriminate Hs. destruct b1 as [| | | |f0 l0| | |]; try discriminate Hs.
    destruct Ha as (Ha & _). destruct Hb as (Hb & _). apply shape_fct in Ha as [La Ha]. apply shape_fct in Hb as [Lb Hb].
    unfold haveEqualFirstOperands. cbn [base ops]. destruct l as [|x l]; [destruct f; discriminate La|].
    destruct l0 as [|y l0]; [destruct f0; discriminate Lb|]. inversion Ha; subst. inversion Hb; subst. shgo.
  Qed.
  Hint Resolve s_heqnct s_seqnct s_heqnnt s_seqnnt s_hefo : sh.
  Lemma s_relyTwo e : sh tr (relyTwo e). Proof. destruct e; exact I. Qed.
  Hint Resolve s_relyTwo : sh.
  Lemma s_hcsc a b : S a -> S b -> sh tr (haveContractableSinCos Y W a b).
  Proof.
    intros. unfold haveContractableSinCos. do 4 shstep. destruct (isEqual a2 a3 && areSinAndCosSquare Y a0 a1) eqn:Es; [|shgo].
    apply andb_true_iff in Es as [_ Es]. shstep. eapply sh_bind with (Q := tr); [|intros ? _; exact I]. shgo.
  Qed.
  Hint Resolve s_hcsc : sh.
  Lemma s_tsws a b : S a -> S b -> sh SL (simplTwoSummandsWithoutSum Y W a b).
  Proof.
    intros. unfold simplTwoSummandsWithoutSum. destruct (isZero a); [shgo|]. destruct (isZero b); [shgo|].
    assert (G : sh SL (c <- haveEqualNonConstTerms W a b ;;
      if (c : bool) then simplEqualNonConstTerms Y W a b
      else d <- haveEqualNonNumericTerms W a b ;;
      if (d : bool) then simplEqualNonNumericTerms W a b
      else e <- haveContractableSinCos Y W a b ;;
      if (e : bool) then t <- constTerm W a ;; ret [t]
      else ret (ordered Y a b))) by shgo.
    destruct a; try exact G. destruct b; try exact G. cbv zeta. cbn [endsWell ret]. destruct (qeqb (qadd q q0) 0); [constructor|]. constructor; [|constructor].
    apply (qadd_spec q q0).
  Qed.
  Hint Resolve s_tsws : sh.
  Lemma s_flatS a : S a -> SL (match a with Sum l => l | _ => [a] end).
  Proof. intros H. destruct a; try (constructor; [exact H|constructor]). now apply shape_sum in H. Qed.
  Lemma s_flatP a : S a -> SL (match a with Prod l => l | _ => [a] end).
  Proof. intros H. destruct a; try (constructor; [exact H|constructor]). now apply shape_prod in H. Qed.
  Hint Resolve s_flatS s_flatP : sh.
  Lemma s_tsum n a b : S a -> S b -> sh SL (simplTwoSummands Y W n a b).
  Proof.
    revert a b. induction n as [|n IH]; intros a b Ha Hb; [exact I|]. cbn [simplTwoSummands].
    destruct (isSum a || isSum b); [|auto with sh]. apply s_merge; auto with sh.
  Qed.
  Lemma s_ssum n l : SL l -> sh SL (simplifySum Y W n l).
  Proof.
    intros Hl. induction l as [|a [|b [|c l]] IH].
    - cbn. left. reflexivity.
    - cbn. left. reflexivity.
    - inversion Hl; subst. inversion H2; subst. cbn [simplifySum]. now apply s_tsum.
    - change (simplifySum Y W n (a :: b :: c :: l)) with
        (s <- simplifySum Y W n (b :: c :: l) ;; merge n isZero (simplTwoSummands Y W n) (match a with Sum l => l | _ => [a] end) s).
      inversion Hl; subst. eapply sh_bind; [now apply IH|]. intros s Hs. apply s_merge; auto with sh. intros. now apply s_tsum.
  Qed.
  Lemma s_sum n l : SL l -> sh S (sumCreate Y W n l).
  Proof.
    intros Hl. unfold sumCreate. destruct (existsb isUndefined l); [exact I|].
    assert (G : sh S (r <- simplifySum Y W n l ;; ret (match r with [] => zero | [x] => x | _ => Sum r end))).
    { eapply sh_bind; [now apply s_ssum|]. intros [|x [|y r]] Hr; cbn [sh ret]; [reflexivity|now inversion Hr|].
      apply shape_sum. split; [cbn; lia|exact Hr]. }
    destruct l as [|x [|y l]]; [exact G|now inversion Hl|exact G].
  Qed.
End Sums.
