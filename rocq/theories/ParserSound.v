(** What the parser accepts is in the language of GrammarSpec.v. *)
From Verif Require Import ParserModel GrammarSpec ParserProofs.
From Coq Require Import Ascii String ZArith List Lia Bool.
Import ListNotations.
Open Scope nat_scope.

(** ** Characters *)
Definition allChars : list ascii := map ascii_of_nat (seq 0 256).
Lemma all_chars (P : ascii -> bool) : forallb P allChars = true -> forall c, P c = true.
Proof.
  intros H c. rewrite forallb_forall in H. apply H. unfold allChars. rewrite <- (ascii_nat_embedding c). apply in_map.
  apply in_seq. pose proof (nat_ascii_bounded c). lia.
Qed.
Definition member (c : ascii) (l : list ascii) : bool := existsb (Ascii.eqb c) l.
Lemma member_in c l : member c l = true <-> In c l.
Proof.
  unfold member. rewrite existsb_exists. split.
  - intros [x [H K]]. apply Ascii.eqb_eq in K. now subst.
  - intros H. exists c. split; [exact H | apply Ascii.eqb_refl].
Qed.
Lemma same_class (p : ascii -> bool) l : forallb (fun c => Bool.eqb (p c) (member c l)) allChars = true -> forall c, p c = true <-> In c l.
Proof. intros H c. rewrite <- member_in. apply (all_chars _) with (c := c) in H. apply eqb_prop in H. now rewrite H. Qed.
Lemma digit_iff c : isDigit c = true <-> aDigit c.
Proof. apply same_class. now vm_compute. Qed.
Lemma letter_iff c : isAlpha c = true <-> aLetter c.
Proof. apply same_class. now vm_compute. Qed.
Lemma blank_iff c : isSpace c = true <-> blank c.
Proof. apply same_class. now vm_compute. Qed.
Lemma alnum_iff c : isAlnum c = true <-> alphaNum c.
Proof. unfold isAlnum, alphaNum. rewrite orb_true_iff, letter_iff, digit_iff. tauto. Qed.
Lemma forallb_iff (p : ascii -> bool) (P : ascii -> Prop) : (forall c, p c = true <-> P c) -> forall l, forallb p l = true <-> Forall P l.
Proof.
  intros H l. rewrite forallb_forall, Forall_forall. split; intros K c Hc; apply H; auto.
Qed.
Lemma blanks_iff w : forallb isSpace w = true <-> blanks w.
Proof. apply forallb_iff, blank_iff. Qed.
Lemma digits_iff w : forallb isDigit w = true <-> Forall aDigit w.
Proof. apply forallb_iff, digit_iff. Qed.
Lemma alnums_iff w : forallb isAlnum w = true <-> Forall alphaNum w.
Proof. apply forallb_iff, alnum_iff. Qed.

Lemma lower_self c : c = lower c \/ In (lower c, c) (combine smallLetters capitals).
Proof.
  enough (H : (Ascii.eqb c (lower c) || existsb (fun p => Ascii.eqb (fst p) (lower c) && Ascii.eqb (snd p) c) (combine smallLetters capitals))%bool = true).
  { apply orb_prop in H as [H|H]; [left; now apply Ascii.eqb_eq|]. right. apply existsb_exists in H as [[a b] [H K]].
    apply andb_prop in K as [K1 K2]. apply Ascii.eqb_eq in K1, K2. cbn in K1, K2. now subst. }
  revert c. apply all_chars. now vm_compute.
Qed.
Lemma capital_lower a c : In (a, c) (combine smallLetters capitals) -> lower c = a.
Proof.
  intros H. enough (K : forallb (fun p => Ascii.eqb (lower (snd p)) (fst p)) (combine smallLetters capitals) = true).
  { rewrite forallb_forall in K. apply K in H. now apply Ascii.eqb_eq in H. }
  now vm_compute.
Qed.
(** A word of small letters and digits. *)
Definition smallWord (w : string) : Prop := forallb (fun c => Ascii.eqb (lower c) c) (chars w) = true.
Lemma isWord_lower w s : smallWord w -> isWord w s <-> map lower s = chars w.
Proof.
  unfold smallWord, isWord. intros H. revert s. induction (chars w) as [|a l IH]; intros s.
  - split; [intros K; now inversion K | destruct s; [constructor | discriminate]].
  - cbn in H. apply andb_prop in H as [Ha H]. apply Ascii.eqb_eq in Ha. split.
    + intros K. inversion K as [|? c ? r [->|Hc] Hr]; subst; cbn; f_equal; auto; try (now apply IH). now apply capital_lower.
    + destruct s as [|c s]; [discriminate|]. cbn. intros [= <- K]. constructor; [apply lower_self | now apply IH].
Qed.
Lemma noCase_iff w s r : smallWord w -> noCase (chars w) s = Some r <-> exists p, isWord w p /\ s = p ++ r.
Proof.
  intros H. assert (K : noCase (chars w) s = Some r <-> exists p, map lower p = chars w /\ s = p ++ r).
  { clear H. revert s. induction (chars w) as [|a l IH]; intros s.
    - cbn. split; [intros [= ->]; now exists []|]. intros [p [E ->]]. now destruct p.
    - destruct s as [|c s]; cbn.
      + split; [discriminate|]. intros [p [E F]]. destruct p; discriminate.
      + destruct (Ascii.eqb_spec a (lower c)) as [->|N].
        * rewrite IH. split.
          -- intros [p [E ->]]. exists (c :: p). cbn. now rewrite E.
          -- intros [p [E F]]. destruct p as [|d p]; [discriminate|]. cbn in *. injection E as E1 E. injection F as -> ->. now exists p.
        * split; [discriminate|]. intros [p [E F]]. destruct p as [|d p]; [discriminate|]. cbn in *. injection E as E1 E. injection F as -> ->. now destruct N. }
  rewrite K. split; intros [p [E F]]; exists p; (split; [now apply isWord_lower|exact F]).
Qed.
Lemma pfct_small f : smallWord (fctName f).
Proof. destruct f; reflexivity. Qed.
Lemma pfct_name f : pfctName f = chars (fctName f).
Proof. destruct f; reflexivity. Qed.

(** ** Numbers *)
Lemma digit_value c : aDigit c -> digit c = digitValue c.
Proof.
  intros H. apply digit_iff in H. enough (K : (negb (isDigit c) || Z.eqb (digit c) (digitValue c))%bool = true) by (rewrite H in K; now apply Z.eqb_eq).
  clear H. revert c. apply all_chars. now vm_compute.
Qed.
Lemma numeral_iff radix ds z :
  numeral radix ds z <-> ds <> [] /\ Forall aDigit ds /\ Forall (fun c => (digit c < radix)%Z) ds /\ z = number radix ds.
Proof.
  split.
  - induction 1 as [c H L|ds z c H [N [D [B E]]] Hc L].
    + rewrite <- (digit_value c H) in *. repeat split; [discriminate|auto|auto|]. unfold number. cbn. lia.
    + rewrite <- (digit_value c Hc) in *. repeat split; [now destruct ds|now apply Forall_app; auto|now apply Forall_app; auto|].
      unfold number in *. rewrite fold_left_app. cbn. now rewrite <- E.
  - intros [N [D [B ->]]]. induction ds as [|c ds IH] using rev_ind; [now destruct N|]. clear N.
    apply Forall_app in D as [D Dc]. apply Forall_app in B as [B Bc]. inversion Dc as [|? ? Hc _]; subst. inversion Bc as [|? ? Lc _]; subst.
    rewrite (digit_value c Hc) in Lc. destruct ds as [|d ds].
    + replace (number radix ([] ++ [c])) with (digitValue c) by (rewrite <- (digit_value c Hc); unfold number; cbn; lia). now constructor.
    + replace (number radix ((d :: ds) ++ [c])) with (radix * number radix (d :: ds) + digitValue c)%Z.
      * constructor; auto. apply IH; auto. discriminate.
      * rewrite <- (digit_value c Hc). unfold number. now rewrite fold_left_app.
Qed.
Lemma digit_ten ds : Forall aDigit ds -> Forall (fun c => (digit c < 10)%Z) ds.
Proof.
  intros H. eapply Forall_impl; [|exact H]. intros c K. apply digit_iff in K. unfold isDigit, ParserModel.between, digit in *.
  apply andb_prop in K as [_ K]. apply Z.leb_le in K. lia.
Qed.
Lemma intOf_iff ds z : ds <> [] /\ Forall aDigit ds /\ intOf ds = Some z <-> asRead ds z.
Proof.
  unfold intOf, asRead. destruct ds as [|c ds]; [split; [intros [H _]; now destruct H | tauto]|].
  destruct (ascii_dec c "0") as [->|N].
  - cbn [Ascii.eqb Bool.eqb]. change (Ascii.eqb "0" "0") with true. cbn match. rewrite numeral_iff.
    set (l := "0"%char :: ds). clearbody l.
    assert (E : forallb (fun d => digit d <? 8)%Z l = true <-> Forall (fun c => (digit c < 8)%Z) l) by (apply forallb_iff; intros; apply Z.ltb_lt).
    destruct (forallb (fun d => digit d <? 8)%Z l).
    + split; [intros [H [D [= <-]]]; repeat split; auto; now apply E | intros [H [D [B ->]]]; auto].
    + split; [intros [_ [_ H]]; discriminate | intros [H [D [B _]]]; apply E in B; discriminate].
  - destruct (Ascii.eqb_spec c "0"); [contradiction|]. rewrite numeral_iff. split.
    + intros [H [D [= <-]]]. repeat split; auto. now apply digit_ten.
    + intros [H [D [B ->]]]. auto.
Qed.
Lemma asRead_decimal ds z : asRead ds z -> (forall r, ds = "0"%char :: r -> r = []) -> decimal ds z.
Proof.
  unfold asRead. destruct ds as [|c ds]; [tauto|]. destruct (ascii_dec c "0") as [->|]; [|trivial].
  intros H K. rewrite (K ds eq_refl) in *. apply numeral_iff in H as [H [D [B ->]]]. apply numeral_iff. repeat split; auto. now apply digit_ten.
Qed.

(** ** What may follow *)
Definition fol (l : list ascii) (s : text) : Prop := match skip s with [] => True | c :: _ => In c l end.
Definition folE : list ascii := [")"; ","]%char.
Definition folS : list ascii := ["+"; "-"]%char ++ folE.
Definition folP : list ascii := ["*"; "/"]%char ++ folS.
Definition folO : list ascii := "^"%char :: folP.
Lemma fol_more l m s : (forall c, In c l -> In c m) -> fol l s -> fol m s.
Proof. unfold fol. destruct (skip s); auto. Qed.
Lemma fol_lit c l s r : lit c s = Some r -> In c l -> fol l s.
Proof. intros H K. apply lit_some in H. unfold fol. now rewrite H. Qed.
Lemma fol_not_lit c l s r : lit c s = Some r -> fol l s -> In c l.
Proof. intros H. apply lit_some in H. unfold fol. now rewrite H. Qed.
(** A character that is neither white space nor in the list. *)
Lemma fol_head l c s : isSpace c = false -> fol l (c :: s) -> In c l.
Proof. unfold fol, skip. cbn. now intros ->. Qed.
Lemma folO_head (p : ascii -> bool) s : (forall c, p c = true -> isSpace c = false /\ member c folO = false) -> fol folO s ->
  match s with c :: _ => p c = false | [] => True end.
Proof.
  intros H F. destruct s as [|c s]; [exact I|]. destruct (p c) eqn:K; [|reflexivity]. destruct (H c K) as [S M].
  apply fol_head in F; [|exact S]. apply member_in in F. congruence.
Qed.
Lemma not_alnum c : isAlnum c = true -> isSpace c = false /\ member c folO = false.
Proof.
  intros H. enough (K : (negb (isAlnum c) || negb (isSpace c) && negb (member c folO))%bool = true).
  { rewrite H in K. cbn in K. apply andb_prop in K as [K1 K2]. split; now apply negb_true_iff. }
  clear H. revert c. apply all_chars. now vm_compute.
Qed.
Lemma not_digit c : isDigit c = true -> isSpace c = false /\ member c folO = false.
Proof. intros H. apply not_alnum. unfold isAlnum. now rewrite H, orb_true_r. Qed.
Lemma folO_not c s : isSpace c = false -> member c folO = false -> ~ fol folO (c :: s).
Proof. intros S M F. apply fol_head in F; [|exact S]. apply member_in in F. congruence. Qed.

(** ** Tokens *)
Notation token := (gToken asRead noPrefix).
Lemma subscript_sound s x r : subscript s = Some (x, r) ->
  x <> [] /\ Forall alphaNum x /\ (s = "{"%char :: x ++ "}"%char :: r \/ exists c, x = [c] /\ s = c :: r).
Proof.
  unfold subscript. destruct s as [|c s]; [discriminate|].
  assert (K : (if isAlnum c then Some ([c], s) else None) = Some (x, r) ->
     x <> [] /\ Forall alphaNum x /\ (c :: s = "{"%char :: x ++ "}"%char :: r \/ exists c0, x = [c0] /\ c :: s = c0 :: r)).
  { destruct (isAlnum c) eqn:E; [|discriminate]. intros [= <- <-]. repeat split; [discriminate | constructor; [now apply alnum_iff | constructor] | right; now exists c]. }
  destruct (Ascii.eqb_spec c "{") as [->|]; [|exact K].
  pose proof (span_eq isAlnum s) as E. pose proof (span_all isAlnum s) as A. destruct (span isAlnum s) as [a b]. cbn in E, A.
  destruct a as [|y a]; [exact K|]. destruct b as [|d b]; [exact K|]. destruct (Ascii.eqb_spec d "}") as [->|]; [|exact K].
  intros [= <- <-]. repeat split; [discriminate | now apply alnums_iff | left; now rewrite E].
Qed.
Lemma prefix_word w s : smallWord w -> noCase (chars w) s = None -> forall a b, s = a ++ b -> ~ isWord w a.
Proof. intros Hw H a b E K. enough (noCase (chars w) s = Some b) by congruence. apply noCase_iff; [exact Hw|]. now exists a. Qed.
Lemma symbol_sound s n x r : symbol s = Some (n, x, r) -> noCase (txt "pi") s = None -> noCase (txt "euler") s = None ->
  fol folO r -> exists p, s = p ++ r /\ token p (PSym n x).
Proof.
  unfold symbol. destruct s as [|c s]; [discriminate|]. destruct (isAlpha c) eqn:Hc; [|discriminate]. intros H P1 P2 F.
  pose proof (span_eq isAlnum s) as E. pose proof (span_all isAlnum s) as A. destruct (span isAlnum s) as [a b]. cbn in E, A.
  assert (I : identifier (c :: a)) by (split; [now apply letter_iff | now apply alnums_iff]).
  assert (W : forall q, s = a ++ q -> noPrefix (c :: a)).
  { intros q Eq u v Euv. assert (Es : c :: s = u ++ v ++ q) by (rewrite Eq, app_assoc, <- Euv; reflexivity).
    split; [now apply (prefix_word "pi" (c :: s) eq_refl P1 u (v ++ q)) | now apply (prefix_word "euler" (c :: s) eq_refl P2 u (v ++ q))]. }
  specialize (W b E).
  destruct b as [|u b]; [injection H as <- <- <-; exists (c :: a); split; [now rewrite E | now constructor]|].
  destruct (Ascii.eqb_spec u "_") as [->|]; [|injection H as <- <- <-; exists (c :: a); split; [now rewrite E | now constructor]].
  destruct (subscript b) as [[y q]|] eqn:Hs.
  - injection H as <- <- <-. apply subscript_sound in Hs as [N [Y [->|[d [-> ->]]]]].
    + exists ((c :: a) ++ ["_"; "{"]%char ++ y ++ ["}"%char]). split; [|now constructor]. rewrite E. cbn. rewrite <- !app_assoc. cbn. now rewrite <- app_assoc.
    + exists ((c :: a) ++ ["_"; d]%char). split; [rewrite E; cbn; now rewrite <- app_assoc|]. inversion Y; subst. now constructor.
  - injection H as <- <- <-. exfalso. now apply (folO_not "_" b).
Qed.

Lemma exponent_sound s x r : exponent s = Some (x, r) -> fol folO r -> s = x ++ r /\ anExponent x.
Proof.
  unfold exponent. destruct s as [|e s]; [discriminate|]. destruct (Ascii.eqb_spec (lower e) "e") as [He|]; [|discriminate].
  assert (We : isWord "e" [e]) by (apply isWord_lower; [reflexivity|]; cbn; now rewrite He).
  assert (G : forall sign r1, In sign [[]; ["+"%char]; ["-"%char]] -> s = sign ++ r1 ->
    match span isDigit r1 with ([], _) => Some ([], e :: s) | (ds, r2) => Some (e :: sign ++ ds, r2) end = Some (x, r) ->
    fol folO r -> e :: s = x ++ r /\ anExponent x).
  { intros sign r1 Hs E. pose proof (span_eq isDigit r1) as E1. pose proof (span_all isDigit r1) as A.
    destruct (span isDigit r1) as [ds r2]. cbn in E1, A. destruct ds as [|d ds].
    - intros [= <- <-] F. exfalso. assert (K : isAlnum e = true).
      { unfold isAlnum, isAlpha. destruct (isUpper e) eqn:U; [reflexivity|]. unfold lower in He. rewrite U in He. now subst. }
      destruct (not_alnum e K). now apply (folO_not e s).
    - intros [= <- <-] F. split; [rewrite E, E1; cbn; now rewrite <- app_assoc|]. exists e, sign, (d :: ds). repeat split; auto; [discriminate | now apply digits_iff]. }
  destruct s as [|c s'].
  - apply (G [] []); cbn; auto.
  - destruct (Ascii.eqb_spec c "+") as [->|].
    + cbn [orb]. apply (G ["+"%char] s'); cbn; auto.
    + destruct (Ascii.eqb_spec c "-") as [->|]; cbn [orb].
      * apply (G ["-"%char] s'); cbn; auto.
      * apply (G [] (c :: s')); cbn; auto.
Qed.
Lemma float_sound s x r : floatingPoint s = Some (x, r) -> fol folO r -> s = x ++ r /\ aFloat x.
Proof.
  unfold floatingPoint. pose proof (span_eq isDigit s) as E. pose proof (span_all isDigit s) as A. destruct (span isDigit s) as [a b]. cbn in E, A.
  apply digits_iff in A. destruct b as [|d b]; [discriminate|]. destruct (Ascii.eqb_spec d ".") as [->|].
  - pose proof (span_eq isDigit b) as E1. pose proof (span_all isDigit b) as A1. destruct (span isDigit b) as [f q]. cbn in E1, A1. apply digits_iff in A1.
    intros H F. assert (M : aMantissa (a ++ "."%char :: f)).
    { exists a, f. repeat split; auto. destruct a; [destruct f; [discriminate|] |]; discriminate. }
    assert (K : match exponent q with Some (x, s4) => Some (a ++ "."%char :: f ++ x, s4) | None => Some (a ++ "."%char :: f, q) end = Some (x, r))
      by (destruct a; [destruct f; [discriminate|] |]; exact H). clear H.
    destruct (exponent q) as [[y s4]|] eqn:X; injection K as <- <-.
    + destruct (exponent_sound q y s4 X F) as [-> Y]. split.
      * rewrite E, E1. rewrite <- app_assoc. cbn. now rewrite <- app_assoc.
      * right. exists (a ++ "."%char :: f), y. repeat split; auto. rewrite <- app_assoc. reflexivity.
    + split; [rewrite E, E1; now rewrite <- app_assoc | now left].
  - destruct a as [|a0 a]; [discriminate|]. destruct (exponent (d :: b)) as [[y s4]|] eqn:X; [|discriminate]. intros [= <- <-] F.
    destruct (exponent_sound (d :: b) y s4 X F) as [E2 Y]. split; [rewrite E, E2; cbn; now rewrite <- app_assoc|].
    right. exists (a0 :: a), y. repeat split; auto. right. split; [discriminate | exact A].
Qed.

Lemma scalar_sound s st s' st' : scalar s st = Yes s' st' ->
  exists t, st' = t :: st /\ (fol folO s' -> exists w p, blanks w /\ s = w ++ p ++ s' /\ token p t).
Proof.
  unfold scalar. destruct (skip_spec s) as [w [Hw E]]. apply blanks_iff in Hw. set (u := skip s) in *. clearbody u.
  change (txt "pi") with (chars "pi"). change (txt "euler") with (chars "euler").
  destruct (noCase (chars "pi") u) as [r|] eqn:H1.
  { intros [= <- <-]. exists PPi. split; [reflexivity|]. intros _. apply noCase_iff in H1 as [p [K ->]]; [|reflexivity].
    exists w, p. repeat split; auto. now constructor. }
  destruct (noCase (chars "euler") u) as [r|] eqn:H2.
  { intros [= <- <-]. exists PEuler. split; [reflexivity|]. intros _. apply noCase_iff in H2 as [p [K ->]]; [|reflexivity].
    exists w, p. repeat split; auto. now constructor. }
  destruct (symbol u) as [[[n x] r]|] eqn:H3.
  { intros [= <- <-]. exists (PSym n x). split; [reflexivity|]. intros F. destruct (symbol_sound u n x r H3 H1 H2 F) as [p [-> K]].
    now exists w, p. }
  destruct (floatingPoint u) as [[x r]|] eqn:H4.
  { intros [= <- <-]. exists (PFloat x). split; [reflexivity|]. intros F. destruct (float_sound u x r H4 F) as [-> K].
    exists w, x. repeat split; auto. now constructor. }
  pose proof (span_eq isDigit u) as Eu. pose proof (span_all isDigit u) as A. destruct (span isDigit u) as [ds r]. cbn in Eu, A. apply digits_iff in A.
  destruct ds as [|d ds]; [discriminate|]. destruct (intOf (d :: ds)) as [z|] eqn:H5; [|discriminate]. intros [= <- <-].
  exists (PInt z). split; [reflexivity|]. intros _. exists w, (d :: ds). rewrite <- Eu. repeat split; auto. constructor. apply intOf_iff.
  repeat split; auto. discriminate.
Qed.

(** ** Rules *)
Lemma lit_blank c s r : lit c s = Some r -> exists w, blanks w /\ s = w ++ c :: r.
Proof. intros H. apply lit_some in H. destruct (skip_spec s) as [w [Hw E]]. rewrite H in E. exists w. split; [now apply blanks_iff | exact E]. Qed.

Notation operand := (gOperand asRead noPrefix).
Notation factor := (gFactor asRead noPrefix).
Notation signed := (gSigned asRead noPrefix).
Notation product := (gProduct asRead noPrefix).
Notation sum := (gSum asRead noPrefix).
Notation expression := (gExpr asRead noPrefix).

(** The result of a rule that isn't a repetition. *)
Definition made (l : list ascii) (G : text -> ptree -> Prop) (s : text) (st : list ptree) (o : out) : Prop :=
  match o with
  | Yes s' st' => exists t g, st' = t :: g ++ st /\ (fol l s' -> g = [] /\ exists p, s = p ++ s' /\ G p t)
  | No st' => exists g, st' = g ++ st
  | _ => True
  end.
(** The result of a repetition, after a is on the stack.  m are the characters that may follow what came
    before the repetition. *)
Definition extended (l m : list ascii) (G : text -> ptree -> Prop) (s : text) (a : ptree) (st : list ptree) (o : out) : Prop :=
  match o with
  | Yes s' st' => exists t g, st' = t :: g ++ st
      /\ (fol l s' -> g = [] /\ fol m s /\ exists p, s = p ++ s' /\ forall q, G q a -> G (q ++ p) t)
  | No _ => False
  | _ => True
  end.

(** A rule and the repetition after it. *)
Lemma made_then l m (G G1 : text -> ptree -> Prop) s st (o : out) (f : text -> list ptree -> out) :
  made m G1 s st o -> (forall p t, G1 p t -> G p t) ->
  (forall s1 a st1, extended l m G s1 a st1 (f s1 (a :: st1))) -> made l G s st (andThen o f).
Proof.
  intros H1 Hi H2. destruct o as [s1 st1|st1| | |]; cbn [andThen made] in *; auto. destruct H1 as [t [g [-> H1]]].
  specialize (H2 s1 t (g ++ st)). destruct (f s1 (t :: g ++ st)) as [s2 st2|st2| | |]; cbn in *; try tauto.
  destruct H2 as [t2 [g2 [-> H2]]]. exists t2, (g2 ++ g). split; [now rewrite <- app_assoc|]. intros F.
  destruct (H2 F) as [-> [F1 [p2 [E2 K2]]]]. destruct (H1 F1) as [-> [p1 [E1 K1]]]. split; [reflexivity|].
  exists (p1 ++ p2). split; [rewrite E1, E2; now rewrite <- app_assoc|]. apply K2. now apply Hi.
Qed.
(** One round of a repetition. *)
Lemma round l m (G G1 : text -> ptree -> Prop) c (f : ptree -> ptree -> ptree) s r a st (p : list ptree -> out) (q : text -> list ptree -> out) :
  lit c s = Some r -> In c m -> ~ In c l ->
  made m G1 r (a :: st) (p (a :: st)) ->
  (forall s1 a1 st1, extended l m G s1 a1 st1 (q s1 (a1 :: st1))) ->
  (forall u w v b, G u a -> blanks w -> G1 v b -> G (u ++ w ++ c :: v) (f a b)) ->
  extended l m G s a st (orElse (andThen (andThen (p (a :: st)) (pop2 f)) q) (Yes s)).
Proof.
  intros Hc Hm Hl H1 H2 Hf. destruct (p (a :: st)) as [s1 st1|st1| | |]; cbn [andThen orElse made] in *; auto; try exact I.
  - destruct H1 as [t [g [-> H1]]]. rewrite topOf_eq. cbn [pop2 andThen].
    set (x := f (fst (topOf g a)) t). set (below := snd (topOf g a) ++ st). specialize (H2 s1 x below).
    destruct (q s1 (x :: below)) as [s2 st2|st2| | |]; cbn [orElse extended] in *; try tauto.
    destruct H2 as [t2 [g2 [-> H2]]]. exists t2, (g2 ++ snd (topOf g a)). split; [unfold below; now rewrite <- app_assoc|]. intros F.
    destruct (H2 F) as [-> [F1 [p2 [E2 K2]]]]. destruct (H1 F1) as [-> [p1 [E1 K1]]]. split; [reflexivity|].
    split; [eapply fol_lit; eauto|]. apply lit_blank in Hc as [w [Hw E]]. exists ((w ++ c :: p1) ++ p2). split.
    + rewrite E, E1, E2. rewrite <- !app_assoc. reflexivity.
    + intros u Hu. rewrite app_assoc. apply K2. now apply Hf.
  - destruct H1 as [g ->]. exists (fst (topOf g a)), (snd (topOf g a)). split; [apply topOf_eq|]. intros F. exfalso. apply Hl. eapply fol_not_lit; eauto.
Qed.
Lemma no_round l m (G : text -> ptree -> Prop) s a st : (forall c, In c l -> In c m) -> extended l m G s a st (Yes s (a :: st)).
Proof.
  intros H. exists a, []. split; [reflexivity|]. intros F. split; [reflexivity|]. split; [now apply fol_more with l|]. exists []. split; [reflexivity|].
  intros q. now rewrite app_nil_r.
Qed.

Lemma two_rounds l m (G G1 : text -> ptree -> Prop) c d f1 f2 s a st (p : text -> list ptree -> out) (q : text -> list ptree -> out) :
  c <> d -> In c m -> ~ In c l -> In d m -> ~ In d l -> (forall c, In c l -> In c m) ->
  (forall r st, made m G1 r st (p r st)) ->
  (forall s1 a1 st1, extended l m G s1 a1 st1 (q s1 (a1 :: st1))) ->
  (forall u w v b, G u a -> blanks w -> G1 v b -> G (u ++ w ++ c :: v) (f1 a b)) ->
  (forall u w v b, G u a -> blanks w -> G1 v b -> G (u ++ w ++ d :: v) (f2 a b)) ->
  extended l m G s a st (orElse (orElse
    (need c s (a :: st) (fun r => andThen (andThen (p r (a :: st)) (pop2 f1)) q))
    (fun st1 => need d s st1 (fun r => andThen (andThen (p r st1) (pop2 f2)) q)))
    (Yes s)).
Proof.
  intros Hcd Mc Lc Md Ld Hlm Hp Hq H1 H2. unfold need at 1. destruct (lit c s) as [r|] eqn:E.
  - assert (K : forall st1, need d s st1 (fun r => andThen (andThen (p r st1) (pop2 f2)) q) = No st1)
      by (intros; unfold need; now rewrite (lit_other c d s r E Hcd)).
    pose proof (round l m G G1 c f1 s r a st (p r) q E Mc Lc (Hp r _) Hq H1) as R.
    destruct (andThen (andThen (p r (a :: st)) (pop2 f1)) q); cbn [orElse] in *; auto. rewrite K. exact R.
  - cbn [orElse]. unfold need. destruct (lit d s) as [r|] eqn:E2; [|now apply no_round].
    now apply round with (r := r) (c := d) (G1 := G1).
Qed.

(** After the name of a function and a parenthesis, [scalar] takes the name for a symbol. *)
Lemma name_scalar (w : string) s r r1 : forallb isAlnum (chars w) = true -> (match chars w with c :: _ => isAlpha c && negb (Ascii.eqb c "p") && negb (Ascii.eqb c "e") | [] => false end)%bool = true ->
  smallWord w -> noCase (chars w) (skip s) = Some r -> lit "(" r = Some r1 -> exists t, forall st, scalar s st = Yes r (t :: st).
Proof.
  intros Ha Hh Hw Hn Hl. apply lit_some in Hl. apply noCase_iff in Hn as [p [Hp E]]; [|exact Hw]. apply isWord_lower in Hp; [|exact Hw].
  unfold scalar. rewrite E. rewrite <- Hp in *. destruct p as [|c p]; [discriminate|]. cbn [map] in Hh. clear E.
  apply andb_prop in Hh as [Hh He]. apply andb_prop in Hh as [Hc Hpp]. apply negb_true_iff in Hpp, He.
  assert (Lc : forall c, isAlnum (lower c) = isAlnum c) by (intros x; apply eqb_prop; revert x; apply all_chars; now vm_compute).
  assert (La : forall c, isAlpha (lower c) = isAlpha c) by (intros x; apply eqb_prop; revert x; apply all_chars; now vm_compute).
  change (noCase (txt "pi") ((c :: p) ++ r)) with (if Ascii.eqb "p" (lower c) then noCase (txt "i") (p ++ r) else None).
  change (noCase (txt "euler") ((c :: p) ++ r)) with (if Ascii.eqb "e" (lower c) then noCase (txt "uler") (p ++ r) else None).
  rewrite Ascii.eqb_sym, Hpp, Ascii.eqb_sym, He. unfold symbol. cbn [app]. rewrite La in Hc. rewrite Hc.
  assert (Hr : match r with d :: _ => isAlnum d = false /\ Ascii.eqb d "_" = false | [] => True end).
  { destruct r as [|d r]; [exact I|]. unfold skip in Hl. cbn [span] in Hl. destruct (isSpace d) eqn:Sd.
    - enough (K : (negb (isSpace d) || negb (isAlnum d) && negb (Ascii.eqb d "_"))%bool = true).
      { rewrite Sd in K. apply andb_prop in K as [K1 K2]. split; now apply negb_true_iff. }
      clear. revert d. apply all_chars. now vm_compute.
    - injection Hl as -> _. now vm_compute. }
  assert (Hs : span isAlnum (p ++ r) = (p, r)).
  { apply span_app; [|destruct r as [|d r]; [exact I | apply Hr]]. cbn in Ha. apply andb_prop in Ha as [_ Ha]. clear - Ha Lc.
    induction p as [|d p IH]; [reflexivity|]. cbn in *. rewrite Lc in Ha. apply andb_prop in Ha as [-> Ha]. now apply IH. }
  rewrite Hs. exists (PSym (c :: p) []). destruct r as [|d r]; [reflexivity|]. destruct Hr as [_ ->]. reflexivity.
Qed.

(** A repetition of powers that has ended doesn't go on. *)
Lemma power_final n s st s' st' : parse n RFactor s st = Yes s' st' ->
  forall m a st2 s2 st3, parse m RPower s' (a :: st2) = Yes s2 st3 -> s2 = s' /\ exists g, st3 = g ++ a :: st2.
Proof.
  intros H.
  assert (K : lit "^" s' = None \/ exists r k st0 st1, lit "^" s' = Some r /\ parse k RFactor r st0 = No st1).
  { destruct n as [|n]; [discriminate|]. cbn [parse] in H.
    assert (P : forall n s st, parse n RPower s st = Yes s' st' -> lit "^" s' = None \/ exists r k st0 st1, lit "^" s' = Some r /\ parse k RFactor r st0 = No st1).
    { clear. induction n as [|n IH]; intros s st H; [discriminate|]. cbn [parse] in H. unfold need in H. destruct (lit "^" s) as [r|] eqn:E.
      - destruct (parse n RFactor r st) as [s1 st1|st1| | |] eqn:F; cbn in H; try discriminate.
        + destruct (pop2 PPow s1 st1) as [s2 st2|st2| | |] eqn:Q; cbn in H; try discriminate.
          * destruct (parse n RPower s2 st2) as [s3 st3|st3| | |] eqn:R; cbn in H; try discriminate.
            -- injection H as -> ->. eauto.
            -- exfalso. clear H. unfold pop2 in Q. destruct st1 as [|b [|a st1]]; try discriminate. injection Q as -> <-.
               destruct (parse_nonempty_tail n RPower s2 eq_refl (PPow a b) st1) as [[? [? [? [K _]]]]|[K|K]]; congruence.
          * unfold pop2 in Q. destruct st1 as [|b [|a st1]]; discriminate.
        + injection H as <- <-. right. eauto 10.
      - cbn in H. injection H as <- <-. now left. }
    destruct (parse n ROperand s st) as [s1 st1|st1| | |]; cbn in H; try discriminate. eauto. }
  intros m a st2 s2 st3 M. destruct m as [|m]; [discriminate|]. cbn [parse] in M. unfold need in M.
  destruct K as [K|[r [k [st0 [st1 [K F]]]]]].
  - rewrite K in M. cbn in M. injection M as <- <-. split; [reflexivity|]. now exists [].
  - rewrite K in M. pose proof (local_parse (max k m) RFactor r) as L. cbn in L.
    assert (N : forall st, exists g, parse m RFactor r st = No (g ++ st) \/ parse m RFactor r st = NoFuel).
    { destruct L as [[x [t [g [_ L]]]]|[[g L]|[L|L]]].
      - pose proof (L st0) as L0; rewrite (parse_more k (max k m) _ _ _ _ F) in L0; [discriminate | discriminate | lia].
      - intros st4. exists g.
        assert (D : parse m RFactor r st4 = NoFuel \/ parse m RFactor r st4 <> NoFuel) by (destruct (parse m RFactor r st4); auto; right; discriminate).
        destruct D as [D|D]; [now right|]. left. rewrite <- (L st4). symmetry. eapply parse_more; eauto. lia.
      - pose proof (L st0) as L0; rewrite (parse_more k (max k m) _ _ _ _ F) in L0; [discriminate | discriminate | lia].
      - pose proof (L st0) as L0; rewrite (parse_more k (max k m) _ _ _ _ F) in L0; [discriminate | discriminate | lia]. }
    destruct (N (a :: st2)) as [g [G|G]]; rewrite G in M; cbn in M; [|discriminate]. injection M as <- <-. split; [reflexivity|]. now exists g.
Qed.

Definition grammarOf (k : rule) : text -> ptree -> Prop :=
  match k with
  | RExpression => expression | RSum => sum | RSummand => product | RProduct => product
  | RPosNeg => signed | RFactor => factor | RPower => factor | ROperand => operand
  end.
Definition followOf (k : rule) : list ascii :=
  match k with
  | RExpression | RSum => folE | RSummand | RProduct => folS | RPosNeg | RFactor | RPower => folP | ROperand => folO
  end.

Ltac incl := intros ? HIN; cbn in HIN |- *; tauto.

Lemma rule_sound n : forall k s,
  match k with
  | RSum => forall a st, extended folE folS sum s a st (parse n k s (a :: st))
  | RProduct => forall a st, extended folS folP product s a st (parse n k s (a :: st))
  | RPower => forall a st s' st', parse n k s (a :: st) = Yes s' st' -> exists t g, st' = t :: g ++ st /\
      (fol folP s' -> g = [] /\ fol folO s /\ exists p, s = p ++ s' /\ forall q, operand q a -> factor (q ++ p) t)
  | _ => forall st, made (followOf k) (grammarOf k) s st (parse n k s st)
  end.
Proof.
  induction n as [|m IH]; intros k s; [destruct k; intros; try exact I; discriminate|].
  pose proof (IH RExpression) as IHe. pose proof (IH RSum) as IHsum. pose proof (IH RSummand) as IHs. pose proof (IH RProduct) as IHpr.
  pose proof (IH RPosNeg) as IHpn. pose proof (IH RFactor) as IHf. pose proof (IH RPower) as IHpw. pose proof (IH ROperand) as IHo.
  cbn [followOf grammarOf] in IHe, IHs, IHpn, IHf, IHo. clear IH.
  destruct k; cbn [followOf grammarOf parse].
  - (* expression *) intros st.
    assert (H : forall r, made folE sum r st (andThen (parse m RSummand r st) (parse m RSum))).
    { intros r. eapply made_then; [apply IHs | intros; now constructor | intros; apply IHsum]. }
    destruct (lit "+" s) as [r|] eqn:E.
    + specialize (H r). destruct (andThen (parse m RSummand r st) (parse m RSum)) as [s' st'|st'| | |]; cbn in *; auto.
      destruct H as [t [g [-> H]]]. exists t, g. split; [reflexivity|]. intros F. destruct (H F) as [-> [p [-> K]]]. split; [reflexivity|].
      apply lit_blank in E as [w [Hw ->]]. exists (w ++ "+"%char :: p). split; [now rewrite <- app_assoc|]. now constructor.
    + specialize (H s). destruct (andThen (parse m RSummand s st) (parse m RSum)) as [s' st'|st'| | |]; cbn in *; auto.
      destruct H as [t [g [-> H]]]. exists t, g. split; [reflexivity|]. intros F. destruct (H F) as [-> [p [-> K]]]. split; [reflexivity|].
      exists p. split; [reflexivity|]. now constructor.
  - (* sum *) intros a st. apply two_rounds with (G1 := product); auto; try discriminate; try incl; try (cbn; tauto);
      try (cbn; intros HIN; repeat destruct HIN as [HIN|HIN]; try discriminate; tauto); try (intros; now constructor).
  - intros st. eapply made_then; [apply IHpn | intros; now constructor | intros; apply IHpr].
  - intros a st. apply two_rounds with (G1 := signed); auto; try discriminate; try incl; try (cbn; tauto);
      try (cbn; intros HIN; repeat destruct HIN as [HIN|HIN]; try discriminate; tauto); try (intros; now constructor).
  - (* sign *) intros st. pose proof (IHf s st) as H. destruct (parse m RFactor s st) as [s' st'|st'| | |] eqn:E; cbn [orElse]; auto.
    + cbn in H |- *. destruct H as [t [g [-> H]]]. exists t, g. split; [reflexivity|]. intros F. destruct (H F) as [-> [p [-> K]]]. split; [reflexivity|].
      exists p. split; [reflexivity|]. now constructor.
    + destruct H as [g ->]. unfold need. destruct (lit "-" s) as [r|] eqn:E1; [|now exists g].
      assert (Hg : g = []).
      { (* nothing starts with a sign *)
        apply lit_some in E1. destruct m as [|m']; [discriminate|]. cbn [parse] in E. destruct m' as [|m'']; [discriminate|]. cbn [parse] in E.
        unfold scalar, need, lit in E. rewrite E1 in E. cbn in E. injection E as E. symmetry in E. rewrite <- (app_nil_l st) in E at 2. now apply app_inv_tail in E. }
      subst g. cbn [app]. pose proof (IHf r st) as H. destruct (parse m RFactor r st) as [s' st'|st'| | |]; cbn in H |- *; auto.
      destruct H as [t [g [-> H]]]. cbn. exists (PNeg t), g. split; [reflexivity|]. intros F. destruct (H F) as [-> [p [-> K]]]. split; [reflexivity|].
      apply lit_blank in E1 as [w [Hw ->]]. exists (w ++ "-"%char :: p). split; [now rewrite <- app_assoc|]. now constructor.
  - (* factor *) intros st. pose proof (IHo s st) as H. destruct (parse m ROperand s st) as [s1 st1|st1| | |]; cbn [andThen]; auto.
    destruct H as [t [g [-> H]]]. pose proof (IHpw s1 t (g ++ st)) as K.
    destruct (parse_nonempty_tail m RPower s1 eq_refl t (g ++ st)) as [[s' [b [st' [E _]]]]|[E|E]]; rewrite E in *; try exact I.
    destruct (K _ _ eq_refl) as [t2 [g2 [-> K2]]]. exists t2, (g2 ++ g). split; [now rewrite <- app_assoc|]. intros F.
    destruct (K2 F) as [-> [F1 [p2 [E2 K3]]]]. destruct (H F1) as [-> [p1 [E1 K1]]]. split; [reflexivity|].
    exists (p1 ++ p2). split; [rewrite E1, E2; now rewrite <- app_assoc | now apply K3].
  - (* power *) intros a st s' st'. unfold need. destruct (lit "^" s) as [r|] eqn:E.
    + pose proof (IHf r (a :: st)) as H. destruct (parse m RFactor r (a :: st)) as [s1 st1|st1| | |] eqn:Ef; cbn [andThen orElse]; try discriminate.
      * destruct H as [t [g [-> H]]]. rewrite topOf_eq. cbn [pop2 andThen]. rewrite topOf_eq in Ef.
        destruct (parse_nonempty_tail m RPower s1 eq_refl (PPow (fst (topOf g a)) t) (snd (topOf g a) ++ st)) as [[s2 [b [st2 [E2 _]]]]|[E2|E2]];
          rewrite E2; cbn [orElse]; try discriminate.
        intros [= -> <-]. destruct (power_final _ _ _ _ _ Ef _ _ _ _ _ E2) as [-> [g3 E3]].
        pose proof (IHpw s1 _ _ _ _ E2) as [t2 [g2 [E4 K]]].
        exists b, (tl (g3 ++ PPow (fst (topOf g a)) t :: snd (topOf g a))). split.
        { destruct g3 as [|x g3]; cbn in E3 |- *; injection E3 as -> ->; [reflexivity|]. now rewrite <- app_assoc. }
        intros F. destruct (K F) as [-> [_ [p2 [Ep K2]]]]. destruct (H F) as [-> [p1 [E1 K1]]]. cbn [topOf fst snd app] in *.
        rewrite E3 in E4. assert (g3 = []).
        { assert (length (g3 ++ PPow a t :: st) = length (t2 :: st)) by now rewrite E4. rewrite app_length in H0. cbn in H0. destruct g3; [reflexivity | cbn in H0; lia]. }
        subst g3. cbn in *. injection E3 as ->. split; [reflexivity|]. split; [eapply fol_lit; [exact E | cbn; tauto]|].
        apply lit_blank in E as [w [Hw ->]]. exists (w ++ "^"%char :: p1). split; [rewrite E1; now rewrite <- app_assoc|].
        intros q Hq. now constructor.
      * destruct H as [g ->]. intros [= <- <-]. exists (fst (topOf g a)), (snd (topOf g a)). split; [apply topOf_eq|]. intros F. exfalso.
        pose proof (fol_not_lit _ _ _ _ E F) as K. cbn in K. repeat destruct K as [K|K]; try discriminate; tauto.
    + cbn [orElse]. intros [= <- <-]. exists a, []. split; [reflexivity|]. intros F. split; [reflexivity|].
      split; [apply fol_more with folP; [incl | exact F]|]. exists []. split; [reflexivity|]. intros q. rewrite app_nil_r. now constructor.
  - (* operand *) intros st.
    assert (Hfct : forall (o : out) w r r1 (q : list ptree -> out), forallb isAlnum (chars w) = true ->
      (match chars w with c :: _ => isAlpha c && negb (Ascii.eqb c "p") && negb (Ascii.eqb c "e") | [] => false end)%bool = true ->
      smallWord w -> noCase (chars w) (skip s) = Some r -> lit "(" r = Some r1 -> made folO operand s st o ->
      made folO operand s st (orElse (orElse o (scalar s)) q)).
    { intros o w r r1 q W1 W2 W3 E El H. destruct (name_scalar w s r r1 W1 W2 W3 E El) as [x Hx].
      destruct o as [s' st'|st'| | |]; cbn [orElse]; auto. destruct H as [g ->]. rewrite Hx. cbn [orElse made].
      exists x, g. split; [reflexivity|]. intros F. exfalso. pose proof (fol_not_lit _ _ _ _ El F) as K. cbn in K. repeat destruct K as [K|K]; try discriminate; tauto. }
    match goal with |- made _ _ _ _ (orElse (orElse (orElse _ ?f2) ?f3) ?f4) =>
      assert (Hrest : made folO operand s st (orElse (orElse (orElse (No st) f2) f3) f4)) end.
    { cbn [orElse].
      assert (Hlast : made folO operand s st (orElse (scalar s st) (fun st1 => need "(" s st1 (fun r1 => andThen (parse m RExpression r1 st1)
              (fun r2 st2 => need ")" r2 st2 (fun r3 => Yes r3 st2)))))).
      { destruct (scalar s st) as [s' st'|st'| | |] eqn:E; cbn [orElse]; auto; try exact I.
        - apply scalar_sound in E as [t [-> H]]. exists t, []. split; [reflexivity|]. intros F. split; [reflexivity|].
          destruct (H F) as [w [p [Hw [-> K]]]]. exists (w ++ p). split; [now rewrite <- app_assoc | now constructor].
        - assert (st' = st) as -> by (destruct (scalar_shape s) as [[x [t [_ P]]]|[P|P]]; rewrite P in E; congruence).
          unfold need at 1. destruct (lit "(" s) as [r1|] eqn:El; [|now exists []].
          pose proof (IHe r1 st) as H. destruct (parse m RExpression r1 st) as [s2 st2|st2| | |]; cbn [andThen]; auto.
          cbn in H. destruct H as [t [g [-> H]]]. unfold need. destruct (lit ")" s2) as [r3|] eqn:E3.
          + exists t, g. split; [reflexivity|]. intros _. assert (F : fol folE s2) by (eapply fol_lit; [exact E3 | cbn; tauto]).
            destruct (H F) as [-> [p [-> K]]]. split; [reflexivity|]. apply lit_blank in El as [w [Hw ->]]. apply lit_blank in E3 as [v [Hv ->]].
            exists (w ++ "("%char :: p ++ v ++ [")"%char]). split; [rewrite <- !app_assoc; cbn; now rewrite <- !app_assoc | now constructor].
          + now exists (t :: g). }
      destruct (noCase (txt "atan2") (skip s)) as [r|] eqn:E1; [|exact Hlast].
      unfold need at 1. destruct (lit "(" r) as [r1|] eqn:El; [|exact Hlast].
      apply (Hfct _ "atan2"%string r r1); try reflexivity; try exact E1; try exact El. clear Hlast Hfct.
      pose proof (IHe r1 st) as H. destruct (parse m RExpression r1 st) as [s2 st2|st2| | |]; cbn [andThen]; auto.
      cbn in H. destruct H as [a [g [-> H]]]. unfold need at 1. destruct (lit "," s2) as [r3|] eqn:E3; [|now exists (a :: g)].
      assert (F : fol folE s2) by (eapply fol_lit; [exact E3 | cbn; tauto]). destruct (H F) as [-> [p1 [-> K1]]]. cbn [app].
      pose proof (IHe r3 (a :: st)) as H2. destruct (parse m RExpression r3 (a :: st)) as [s4 st4|st4| | |]; cbn [andThen]; auto.
      - cbn in H2. destruct H2 as [b [g2 [-> H2]]]. unfold need. destruct (lit ")" s4) as [r5|] eqn:E5; [|exists (b :: g2 ++ [a]); cbn; now rewrite <- app_assoc].
        assert (F2 : fol folE s4) by (eapply fol_lit; [exact E5 | cbn; tauto]). destruct (H2 F2) as [-> [p2 [-> K2]]]. cbn.
        exists (PAtan2 a b), []. split; [reflexivity|]. intros _. split; [reflexivity|].
        change (txt "atan2") with (chars "atan2") in E1. apply noCase_iff in E1 as [name [Hn En]]; [|reflexivity].
        destruct (skip_spec s) as [w [Hw Es]]. apply blanks_iff in Hw. apply lit_blank in El as [u [Hu ->]]. apply lit_blank in E3 as [x [Hx ->]]. apply lit_blank in E5 as [v [Hv ->]].
        exists (w ++ name ++ u ++ "("%char :: p1 ++ x ++ ","%char :: p2 ++ v ++ [")"%char]). split; [|now constructor].
        rewrite Es, En. repeat (rewrite <- !app_assoc; cbn). reflexivity.
      - cbn in H2. destruct H2 as [g2 ->]. exists (g2 ++ [a]). now rewrite <- app_assoc. }
    destruct (matchFct pfcts (skip s)) as [[f r]|] eqn:E1; [destruct (lit "(" r) as [r1|] eqn:El|].
    + (* a function of one argument *)
      apply matchFct_spec in E1. unfold need at 1. rewrite El.
      assert (E2 : noCase (txt "atan2") (skip s) = None).
      { destruct (noCase (txt "atan2") (skip s)) as [r'|] eqn:E2; [|reflexivity]. exfalso. rewrite pfct_name in E1.
        apply noCase_iff in E1 as [p [Hp Ep]]; [|apply pfct_small]. apply isWord_lower in Hp; [|apply pfct_small].
        change (txt "atan2") with (chars "atan2") in E2. apply noCase_iff in E2 as [p' [Hp' Ep']]; [|reflexivity]. apply isWord_lower in Hp'; [|reflexivity].
        rewrite Ep in Ep'. apply lit_some in El.
        destruct p' as [|c1 [|c2 [|c3 [|c4 [|c5 [|]]]]]]; try discriminate. cbn in Hp'. injection Hp' as H1 H2 H3 H4 H5.
        assert (c5 = "2"%char).
        { enough (K : (negb (Ascii.eqb (lower c5) "2") || Ascii.eqb c5 "2")%bool = true) by (rewrite H5 in K; now apply Ascii.eqb_eq in K).
          clear. revert c5. apply all_chars. now vm_compute. } subst c5.
        destruct f; cbn in Hp; (destruct p as [|d1 [|d2 [|d3 [|d4 [|d5 p]]]]]; try discriminate; cbn in Hp, Ep');
          injection Hp as; injection Ep' as; subst; try congruence; cbn in El; try discriminate. }
      rewrite E2. match goal with |- made _ _ _ _ (orElse (orElse (orElse ?o ?f1) _) _) => assert (H : made folO operand s st o); [|assert (H2 : orElse o f1 = o) by (destruct o; reflexivity); rewrite H2] end.
      * pose proof (IHe r1 st) as H. destruct (parse m RExpression r1 st) as [s2 st2|st2| | |]; cbn [andThen]; auto.
        cbn in H. destruct H as [t [g [-> H]]]. unfold need. destruct (lit ")" s2) as [r3|] eqn:E3.
        -- cbn [pop1 made]. exists (PFct f t), g. split; [reflexivity|]. intros _.
           assert (F : fol folE s2) by (eapply fol_lit; [exact E3 | cbn; tauto]). destruct (H F) as [-> [p [-> K]]]. split; [reflexivity|].
           rewrite pfct_name in E1. apply noCase_iff in E1 as [name [Hn En]]; [|apply pfct_small].
           destruct (skip_spec s) as [w [Hw Es]]. apply blanks_iff in Hw. apply lit_blank in El as [u [Hu ->]]. apply lit_blank in E3 as [v [Hv ->]].
           exists (w ++ name ++ u ++ "("%char :: p ++ v ++ [")"%char]). split; [|now constructor]. rewrite Es, En. repeat (rewrite <- !app_assoc; cbn). reflexivity.
        -- exists (t :: g). reflexivity.
      * rewrite pfct_name in E1. eapply Hfct; [| | | exact E1 | exact El | exact H]; destruct f; reflexivity.
    + (* the name of a function, but no parenthesis *) unfold need at 1. rewrite El. exact Hrest.
    + exact Hrest.
Qed.

(** ** The whole text *)
Lemma parseVar_sound s t : parseVar s = Some t -> gText asRead noPrefix s t.
Proof.
  unfold parseVar, parseFrom. destruct (forallb _ s); [|discriminate].
  pose proof (rule_sound (enough s) RExpression s []) as H. cbn [followOf grammarOf] in H.
  destruct (parse (enough s) RExpression s []) as [r st|st| | |]; cbn in *; try discriminate.
  destruct H as [t' [g [-> H]]]. destruct (isEmpty (skip r)) eqn:E; [|discriminate]. intros [= <-].
  assert (F : skip r = []) by (destruct (skip r); [reflexivity | discriminate]).
  destruct H as [_ [p [-> K]]]; [unfold fol; now rewrite F|]. constructor; [exact K|].
  destruct (skip_spec r) as [w [Hw Er]]. rewrite F, app_nil_r in Er. subst. now apply blanks_iff.
Qed.
