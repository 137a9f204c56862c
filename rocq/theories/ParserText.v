(** Further facts about the parser: when it throws, names and digits. *)
From Verif Require Import ParserModel GrammarSpec ParserProofs ParserSound ParserComplete.
From Coq Require Import Ascii String ZArith List Lia.
Import ListNotations.
Open Scope Z_scope.

(** ** Exceptions *)
Definition ends (s' s : text) : Prop := exists p, s = p ++ s'.
Lemma ends_refl s : ends s s. Proof. now exists []. Qed.
Lemma ends_trans a b c : ends a b -> ends b c -> ends a c.
Proof. intros [p ->] [q ->]. exists (q ++ p). now rewrite app_assoc. Qed.
Lemma ends_span p s : ends (snd (span p s)) s.
Proof. exists (fst (span p s)). apply span_eq. Qed.
Lemma ends_skip s : ends (skip s) s. Proof. apply ends_span. Qed.
Lemma ends_cons c s : ends s (c :: s). Proof. now exists [c]. Qed.
Lemma ends_lit c s r : lit c s = Some r -> ends r s.
Proof. intros H. apply lit_some in H. eapply ends_trans; [apply (ends_cons c)|]. rewrite <- H. apply ends_skip. Qed.
Lemma ends_noCase w s r : noCase w s = Some r -> ends r s.
Proof.
  revert s. induction w as [|c w IH]; intros [|d s] H; cbn in H; try discriminate; try (injection H as <-; apply ends_refl).
  destruct (Ascii.eqb c (lower d)); [|discriminate]. eapply ends_trans; [exact (IH _ H)|apply ends_cons].
Qed.
Lemma ends_matchFct l s f r : matchFct l s = Some (f, r) -> ends r s.
Proof.
  induction l as [|g l IH]; cbn; [discriminate|]. destruct (noCase (pfctName g) s) eqn:E; [|exact IH].
  intros [= <- <-]. eapply ends_noCase; eauto.
Qed.
(** The digits of a number that begins with 0 and isn't octal. *)
Definition badDigits (s : text) : Prop :=
  exists p q ds c, s = p ++ "0"%char :: ds ++ c :: q /\ Forall aDigit ds /\ (c = "8"%char \/ c = "9"%char).
Lemma badDigits_ends s' s : ends s' s -> badDigits s' -> badDigits s.
Proof. intros [p ->] [p' [q [ds [c [-> H]]]]]. exists (p ++ p'), q, ds, c. split; [now rewrite app_assoc|exact H]. Qed.

Lemma big_digit c : isDigit c = true -> (digit c <? 8) = false -> c = "8"%char \/ c = "9"%char.
Proof.
  intros H K. enough (X : (negb (isDigit c) || (digit c <? 8) || Ascii.eqb c "8" || Ascii.eqb c "9")%bool = true).
  { rewrite H, K in X. cbn in X. apply Bool.orb_true_iff in X as [X|X]; apply Ascii.eqb_eq in X; auto. }
  clear. revert c. apply all_chars. now vm_compute.
Qed.
Lemma intOf_none ds : Forall aDigit ds -> ds <> [] -> intOf ds = None -> badDigits ds.
Proof.
  intros D N H. destruct ds as [|c ds]; [easy|]. unfold intOf in H. destruct (Ascii.eqb c "0") eqn:E; [|discriminate].
  apply Ascii.eqb_eq in E. subst c. destruct (forallb _ _) eqn:F; [discriminate|]. clear H.
  cbn [forallb] in F. change (digit "0" <? 8) with true in F. cbn [andb] in F.
  apply Forall_inv_tail in D. clear N.
  assert (exists a c b, ds = a ++ c :: b /\ (c = "8"%char \/ c = "9"%char)) as [a [c [b [-> Hc]]]].
  { induction ds as [|d ds IH]; [discriminate|]. cbn [forallb] in F. destruct (digit d <? 8) eqn:Ed.
    - destruct (IH (Forall_inv_tail D) F) as [a [c [b [-> Hc]]]]. now exists (d :: a), c, b.
    - exists [], d, ds. split; [reflexivity|]. apply big_digit; [|exact Ed]. apply digit_iff. now inversion D. }
  exists [], b, a, c. cbn. repeat split; auto. now apply Forall_app in D as [D _].
Qed.

Definition tame (s : text) (o : out) : Prop :=
  match o with Yes s' _ => ends s' s | Exception => badDigits s | _ => True end.
Lemma tame_ends s' s o : ends s' s -> tame s' o -> tame s o.
Proof. intros H. destruct o; cbn; eauto using ends_trans, badDigits_ends. Qed.
Lemma tame_andThen s o f : tame s o -> (forall s' st, ends s' s -> tame s' (f s' st)) -> tame s (andThen o f).
Proof. intros H K. destruct o; cbn in *; auto. eapply tame_ends; eauto. Qed.
Lemma tame_orElse s o f : tame s o -> (forall st, tame s (f st)) -> tame s (orElse o f).
Proof. intros H K. destruct o; cbn in *; auto. Qed.
Lemma tame_need c s st f : (forall r, ends r s -> tame r (f r)) -> tame s (need c s st f).
Proof. intros H. unfold need. destruct (lit c s) eqn:E; [|exact I]. apply ends_lit in E. eapply tame_ends; eauto. Qed.
Lemma tame_pop1 f s st : tame s (pop1 f s st).
Proof. destruct st; cbn; auto using ends_refl. Qed.
Lemma tame_pop2 f s st : tame s (pop2 f s st).
Proof. destruct st as [|? [|? ?]]; cbn; auto using ends_refl. Qed.
Lemma tame_yes s st : tame s (Yes s st). Proof. apply ends_refl. Qed.

Lemma ends_subscript s x r : subscript s = Some (x, r) -> ends r s.
Proof.
  intros H. apply subscript_sound in H as [_ [_ [->|[c [_ ->]]]]]; [|apply ends_cons].
  exists ("{"%char :: x ++ ["}"%char]). cbn. now rewrite <- app_assoc.
Qed.
Lemma ends_symbol s n x r : symbol s = Some (n, x, r) -> ends r s.
Proof.
  unfold symbol. destruct s as [|c s]; [discriminate|]. destruct (isAlpha c); [|discriminate].
  pose proof (ends_span isAlnum s) as E. destruct (span isAlnum s) as [a r1]; cbn [snd] in E.
  assert (E1 : ends r1 (c :: s)) by (eapply ends_trans; [exact E|apply ends_cons]).
  destruct r1 as [|u r2]; [now intros [= <- <- <-]|]. destruct (Ascii.eqb u "_"); [|now intros [= <- <- <-]].
  destruct (subscript r2) as [[y r3]|] eqn:S; intros [= <- <- <-]; [|exact E1].
  eapply ends_trans; [exact (ends_subscript _ _ _ S)|]. eapply ends_trans; [apply ends_cons|exact E1].
Qed.
Lemma ends_exponent s x r : exponent s = Some (x, r) -> ends r s.
Proof.
  unfold exponent. destruct s as [|e s]; [discriminate|]. destruct (Ascii.eqb (lower e) "e"); [|discriminate].
  set (u := match s with c :: r' => if (Ascii.eqb c "+" || Ascii.eqb c "-")%bool then ([c], r') else ([], s) | [] => ([], s) end).
  assert (E : ends (snd u) s).
  { unfold u. destruct s as [|c s']; [apply ends_refl|]. destruct (_ || _)%bool; [apply ends_cons|apply ends_refl]. }
  destruct u as [sg r1]; cbn [snd] in E. pose proof (ends_span isDigit r1) as E2.
  destruct (span isDigit r1) as [[|d ds] r2]; cbn [snd] in E2; intros [= <- <-]; [apply ends_refl|].
  eapply ends_trans; [exact E2|]. eapply ends_trans; [exact E|apply ends_cons].
Qed.
Lemma ends_floatingPoint s x r : floatingPoint s = Some (x, r) -> ends r s.
Proof.
  unfold floatingPoint. pose proof (ends_span isDigit s) as E. destruct (span isDigit s) as [ds s1]; cbn [snd] in E.
  destruct s1 as [|d s2]; [discriminate|]. destruct (Ascii.eqb d ".").
  - pose proof (ends_span isDigit s2) as E2. destruct (span isDigit s2) as [fs s3]; cbn [snd] in E2.
    assert (E3 : ends s3 s) by (eapply ends_trans; [exact E2|eapply ends_trans; [apply ends_cons|exact E]]).
    destruct ds, fs; try discriminate; (destruct (exponent s3) as [[y s4]|] eqn:X; intros [= <- <-]; [|exact E3];
      eapply ends_trans; [exact (ends_exponent _ _ _ X)|exact E3]).
  - destruct ds as [|c ds]; [discriminate|]. destruct (exponent (d :: s2)) as [[y s4]|] eqn:X; [|discriminate].
    intros [= <- <-]. eapply ends_trans; [exact (ends_exponent _ _ _ X)|exact E].
Qed.
Lemma tame_scalar s st : tame s (scalar s st).
Proof.
  unfold scalar. apply (tame_ends (skip s)); [apply ends_skip|]. generalize (skip s). clear s. intros s.
  destruct (noCase (txt "pi") s) eqn:E; [eapply ends_noCase; eauto|].
  destruct (noCase (txt "euler") s) eqn:E1; [eapply ends_noCase; eauto|].
  destruct (symbol s) as [[[n x] r]|] eqn:E2; [eapply ends_symbol; eauto|].
  destruct (floatingPoint s) as [[x r]|] eqn:E3; [eapply ends_floatingPoint; eauto|].
  pose proof (ends_span isDigit s) as E4. pose proof (span_all isDigit s) as A. pose proof (span_eq isDigit s) as Q.
  destruct (span isDigit s) as [[|d ds] r]; cbn [fst snd] in *; [exact I|].
  destruct (intOf (d :: ds)) eqn:I; [exact E4|]. cbn.
  apply intOf_none in I; [|now apply digits_iff|discriminate]. rewrite Q.
  destruct I as [p [q [l [c [-> H]]]]]. exists p, (q ++ r), l, c. split; [|exact H].
  rewrite <- app_assoc. cbn. now rewrite <- app_assoc.
Qed.

Lemma tame_parse n : forall k s st, tame s (parse n k s st).
Proof.
  induction n as [|m IH]; intros k s st; [exact I|]. destruct k; cbn [parse].
  - destruct (lit "+" s) eqn:E; [apply ends_lit in E; eapply tame_ends; [exact E|]|];
      apply tame_andThen; auto.
  - repeat first [apply tame_yes | apply tame_orElse; [|intros] | apply tame_need; intros | apply tame_andThen; [|intros]
                 | apply tame_pop2 | apply IH].
  - apply tame_andThen; auto.
  - repeat first [apply tame_yes | apply tame_orElse; [|intros] | apply tame_need; intros | apply tame_andThen; [|intros]
                 | apply tame_pop2 | apply IH].
  - repeat first [apply tame_yes | apply tame_orElse; [|intros] | apply tame_need; intros | apply tame_andThen; [|intros]
                 | apply tame_pop1 | apply IH].
  - apply tame_andThen; auto.
  - repeat first [apply tame_yes | apply tame_orElse; [|intros] | apply tame_need; intros | apply tame_andThen; [|intros]
                 | apply tame_pop2 | apply IH].
  - apply tame_orElse; [apply tame_orElse; [apply tame_orElse|]|]; intros.
    + destruct (matchFct pfcts (skip s)) as [[f r]|] eqn:E; [|exact I].
      apply ends_matchFct in E. apply (tame_ends r); [eapply ends_trans; [exact E|apply ends_skip]|].
      apply tame_need; intros. apply tame_andThen; [apply IH|intros]. apply tame_need; intros. apply tame_pop1.
    + destruct (noCase (txt "atan2") (skip s)) as [r|] eqn:E; [|exact I].
      apply ends_noCase in E. apply (tame_ends r); [eapply ends_trans; [exact E|apply ends_skip]|].
      apply tame_need; intros. apply tame_andThen; [apply IH|intros]. apply tame_need; intros. apply tame_andThen; [apply IH|intros].
      apply tame_need; intros. apply tame_pop2.
    + apply tame_scalar.
    + apply tame_need; intros. apply tame_andThen; [apply IH|intros]. apply tame_need; intros. apply tame_yes.
Qed.

Lemma parseFrom_throw s : parseFrom s = ParseThrow -> badDigits s.
Proof.
  unfold parseFrom. destruct (forallb _ s); [|discriminate]. pose proof (tame_parse (enough s) RExpression s []) as T.
  destruct (parse (enough s) RExpression s []); try discriminate. intros _. exact T.
Qed.
Lemma parseFrom_ok s : parseFrom s <> ParseUB /\ parseFrom s <> ParseStuck.
Proof.
  unfold parseFrom. destruct (forallb _ s); [|split; discriminate].
  pose proof (never_empty (enough s) s []) as A. pose proof (parse_decided s) as B.
  destruct (parse (enough s) RExpression s []); split; try discriminate; congruence.
Qed.

(** ** Digits denote nothing but integers *)
Definition onlyDigits (read : text -> Z -> Prop) (s : text) (t : ptree) : Prop :=
  Forall aDigit s -> exists z, t = PInt z /\ read s z.
Lemma digit_code c : aDigit c -> isDigit c = true. Proof. apply digit_iff. Qed.
Lemma blanks_digits w : blanks w -> Forall aDigit w -> w = [].
Proof.
  intros B D. destruct w as [|c w]; [reflexivity|]. inversion B as [|? ? Bc ?]; inversion D as [|? ? Dc ?]; subst.
  apply blank_iff in Bc. apply digit_code in Dc.
  assert (X : negb (isSpace c && isDigit c) = true) by (clear; revert c; apply all_chars; now vm_compute).
  rewrite Bc, Dc in X. discriminate.
Qed.
Lemma word_digits w s : smallWord w -> isWord w s -> Forall aDigit s -> forallb isDigit (chars w) = true.
Proof.
  intros S H D. apply isWord_lower in H; [|exact S]. rewrite <- H. clear H S. induction D as [|c s Hc D IH]; [reflexivity|].
  cbn. rewrite IH, andb_true_r. apply digit_code in Hc. revert Hc. by_chars c.
Qed.
Lemma identifier_digits s : identifier s -> ~ Forall aDigit s.
Proof.
  destruct s as [|c s]; [easy|]. intros [H _] D. apply Forall_inv in D. apply letter_iff in H. apply digit_code in D.
  assert (X : negb (isAlpha c && isDigit c) = true) by (clear; revert c; apply all_chars; now vm_compute).
  rewrite H, D in X. discriminate.
Qed.
Ltac noDigits := repeat match goal with
  | H : Forall aDigit (_ ++ _) |- _ => apply Forall_app in H as [? H]
  | H : Forall aDigit (?c :: _) |- _ => let K := fresh in pose proof (digit_code _ (Forall_inv H)) as K; try discriminate K; apply Forall_inv_tail in H
  end.
Lemma digits_denote read word :
  (forall s t, gOperand read word s t -> onlyDigits read s t) /\ (forall s t, gFactor read word s t -> onlyDigits read s t)
  /\ (forall s t, gSigned read word s t -> onlyDigits read s t) /\ (forall s t, gProduct read word s t -> onlyDigits read s t)
  /\ (forall s t, gSum read word s t -> onlyDigits read s t) /\ (forall s t, gExpr read word s t -> onlyDigits read s t).
Proof.
  apply grammar_ind; unfold onlyDigits; intros; auto; try (exfalso; now noDigits).
  - match goal with H : Forall aDigit (_ ++ _) |- _ => apply Forall_app in H as [Hw Hs] end.
    rewrite (blanks_digits w) by assumption. cbn.
    match goal with H : gToken _ _ _ _ |- _ => destruct H end.
    + exfalso. eapply word_digits in H0; [discriminate H0| |exact Hs]. now vm_compute.
    + exfalso. eapply word_digits in H0; [discriminate H0| |exact Hs]. now vm_compute.
    + now apply identifier_digits in H0.
    + exfalso. now noDigits.
    + exfalso. now noDigits.
    + eauto.
    + exfalso. destruct H0 as [[a [b [_ [_ [_ ->]]]]]|[a [b [_ [[e [sg [ds [He [_ [_ [_ ->]]]]]]] ->]]]]]; noDigits.
      assert (Forall aDigit [e]) as K by (constructor; [now apply digit_iff|constructor]).
      apply (word_digits "e") in K; [discriminate K| |exact He]. now vm_compute.
Qed.
Lemma digits_text read word s t : gText read word s t -> Forall aDigit s -> exists z, t = PInt z /\ read s z.
Proof.
  intros [p w u H B] D. apply Forall_app in D as [D1 D2]. rewrite (blanks_digits w) by assumption. rewrite app_nil_r.
  now apply (digits_denote read word).
Qed.

Lemma token_text read word s t : gToken read word s t -> gText read word s t.
Proof.
  intros H. rewrite <- (app_nil_r s). constructor; [|constructor]. do 5 constructor.
  now apply (g_token read word [] s t); [constructor|].
Qed.

(** ** The program of a tree has the value of the tree *)
From Verif Require Import TextSpec SimplApi.
From Coq Require Import Reals.

Lemma toTerm_value r t v : pval r t = Some v -> exists u, toTerm t = Some u /\ tval r u = Some v.
Proof.
  revert v. induction t; cbn [pval toTerm]; intros v0 H;
    repeat match goal with
    | H : omap2 _ (pval r ?a) (pval r ?b) = Some _ |- _ => destruct (pval r a) eqn:?; [|discriminate]; destruct (pval r b) eqn:?; [|discriminate]
    | H : omap _ (pval r ?a) = Some _ |- _ => destruct (pval r a) eqn:?; [|discriminate]
    | IH : forall v, Some ?x = Some v -> _ |- _ => destruct (IH _ eq_refl) as [? [-> ?]]; clear IH
    end; try discriminate; try (eexists; split; [reflexivity|]; cbn [tval omap omap2] in *;
      repeat match goal with E : tval r _ = Some _ |- _ => rewrite E end; exact H).
  destruct f; (eexists; split; [reflexivity|]); cbn [tval omap omap2 fct1] in *;
      repeat match goal with E : tval r _ = Some _ |- _ => rewrite E end; exact H.
Qed.
