(** The parser accepts all texts of the language of GrammarSpec.v, with the tree the grammar gives. *)
From Verif Require Import ParserModel GrammarSpec ParserProofs ParserSound.
From Coq Require Import Ascii String ZArith List Lia Bool.
Import ListNotations.
Open Scope nat_scope.

Notation token := (gToken asRead noPrefix).
Notation operand := (gOperand asRead noPrefix).
Notation factor := (gFactor asRead noPrefix).
Notation signed := (gSigned asRead noPrefix).
Notation product := (gProduct asRead noPrefix).
Notation sum := (gSum asRead noPrefix).
Notation expression := (gExpr asRead noPrefix).

(** ** Characters *)
Ltac by_chars c := match goal with |- ?a = true -> ?b = true =>
  let H := fresh in let K := fresh in intros H; enough (K : (negb a || b)%bool = true) by (rewrite H in K; exact K); clear H; generalize c; apply all_chars; now vm_compute end.
(** Characters that occur in tokens. *)
Definition tokenChar (c : ascii) : bool := isAlnum c || member c ["_"; "{"; "}"; "."; "+"; "-"]%char.
Lemma tokenChar_space c : tokenChar c = true -> (negb (isSpace c) && negb (Ascii.eqb "(" c))%bool = true.
Proof. by_chars c. Qed.
Lemma alnum_token c : isAlnum c = true -> tokenChar c = true.
Proof. unfold tokenChar. now intros ->. Qed.
Lemma digit_alnum c : isDigit c = true -> isAlnum c = true.
Proof. unfold isAlnum. intros ->. apply orb_true_r. Qed.

Lemma fol_head_alnum s : fol folO s -> match s with c :: _ => isAlnum c = false | [] => True end.
Proof. apply folO_head, not_alnum. Qed.
Lemma fol_head_not c0 s : isSpace c0 = false -> member c0 folO = false -> fol folO s -> match s with c :: _ => c <> c0 | [] => True end.
Proof. intros S M F. destruct s as [|c s]; [exact I|]. intros ->. revert F. now apply folO_not. Qed.

Lemma word_alnum w p : smallWord w -> forallb isAlnum (chars w) = true -> isWord w p -> forallb isAlnum p = true.
Proof.
  intros Hw Ha Hp. apply isWord_lower in Hp; [|exact Hw]. rewrite <- Hp in Ha. clear Hp Hw. induction p as [|c p IH]; [reflexivity|].
  cbn in *. apply andb_prop in Ha as [Hc Ha]. rewrite IH by exact Ha. rewrite andb_true_r. revert Hc. by_chars c.
Qed.
Lemma forallb_tokenChar (p : ascii -> bool) l : (forall c, p c = true -> tokenChar c = true) -> forallb p l = true -> forallb tokenChar l = true.
Proof. intros H K. rewrite forallb_forall in *. auto. Qed.
Lemma digits_token l : Forall aDigit l -> forallb tokenChar l = true.
Proof. intros H. apply digits_iff in H. eapply forallb_tokenChar; [|exact H]. intros. now apply alnum_token, digit_alnum. Qed.
Lemma alnums_token l : Forall alphaNum l -> forallb tokenChar l = true.
Proof. intros H. apply alnums_iff in H. eapply forallb_tokenChar; [|exact H]. apply alnum_token. Qed.
Lemma identifier_alnum s : identifier s -> forallb isAlnum s = true /\ s <> [].
Proof.
  destruct s as [|c s]; [intros []|]. intros [Hc Hs]. split; [|discriminate]. cbn. apply alnums_iff in Hs. rewrite Hs, andb_true_r.
  apply letter_iff in Hc. unfold isAlnum. now rewrite Hc.
Qed.
Lemma exponent_token s : anExponent s -> forallb tokenChar s = true.
Proof.
  intros [e [sign [ds [He [Hs [_ [Hd ->]]]]]]]. cbn [forallb]. rewrite forallb_app, (digits_token ds Hd), andb_true_r.
  pose proof (word_alnum "e" [e] eq_refl eq_refl He) as K. cbn in K. rewrite andb_true_r in K. rewrite (alnum_token e K).
  cbn in Hs. repeat destruct Hs as [<-|Hs]; try reflexivity. contradiction.
Qed.
Lemma mantissa_token s : aMantissa s -> forallb tokenChar s = true /\ s <> [].
Proof.
  intros [a [b [Ha [Hb [_ ->]]]]]. split; [|now destruct a]. rewrite forallb_app. cbn [forallb].
  now rewrite (digits_token a Ha), (digits_token b Hb).
Qed.
Lemma asRead_digits s z : asRead s z -> Forall aDigit s /\ s <> [].
Proof. intros H. apply intOf_iff in H as [N [D _]]. auto. Qed.
Lemma token_chars p t : token p t -> forallb tokenChar p = true /\ p <> [].
Proof.
  intros H. destruct H as [s H|s H|s Hi _|s c Hi _ Hc|s x Hi _ Hn Hx|s z H|s [H|[a [b [Ha [Hb ->]]]]]].
  - split; [|intros ->; inversion H]. eapply forallb_tokenChar; [apply alnum_token|]. now apply (word_alnum "pi" s).
  - split; [|intros ->; inversion H]. eapply forallb_tokenChar; [apply alnum_token|]. now apply (word_alnum "euler" s).
  - apply identifier_alnum in Hi as [Hi N]. split; [|exact N]. eapply forallb_tokenChar; [apply alnum_token | exact Hi].
  - apply identifier_alnum in Hi as [Hi N]. split; [|now destruct s]. rewrite forallb_app. apply alnum_iff in Hc. cbn [forallb].
    rewrite (alnum_token c Hc), (forallb_tokenChar isAlnum s alnum_token Hi). reflexivity.
  - apply identifier_alnum in Hi as [Hi N]. split; [|now destruct s]. rewrite !forallb_app. cbn [forallb].
    rewrite (alnums_token x Hx), (forallb_tokenChar isAlnum s alnum_token Hi). reflexivity.
  - apply asRead_digits in H as [D N]. split; [now apply digits_token | exact N].
  - now apply mantissa_token.
  - rewrite forallb_app, (exponent_token b Hb), andb_true_r. destruct Ha as [Ha|[N Ha]].
    + apply mantissa_token in Ha as [Ha N]. split; [exact Ha | now destruct a].
    + split; [now apply digits_token | now destruct a].
Qed.

(** A word at the beginning of a token doesn't end in front of a parenthesis, nor beyond the token. *)
Lemma word_in_token w p q r : smallWord w -> forallb isAlnum (chars w) = true ->
  match q with c :: _ => isAlnum c = false | [] => True end -> noCase (chars w) (p ++ q) = Some r ->
  exists a b, isWord w a /\ p = a ++ b /\ r = b ++ q.
Proof.
  intros Hw Ha Hq H. apply noCase_iff in H as [a [Wa E]]; [|exact Hw]. pose proof (word_alnum w a Hw Ha Wa) as Aa. clear Ha.
  assert (G : forall p, p ++ q = a ++ r -> exists b, p = a ++ b /\ r = b ++ q).
  { clear Wa E. induction a as [|c a IH]; intros p0 E; [exists p0; split; [reflexivity | symmetry; exact E]|].
    destruct p0 as [|d p0]; cbn in E.
    - subst q. cbn in Aa, Hq. apply andb_prop in Aa as [Aa _]. congruence.
    - injection E as -> E. cbn in Aa. apply andb_prop in Aa as [_ Aa]. destruct (IH Aa p0 E) as [b [-> ->]]. exists b. auto. }
  destruct (G p E) as [b [-> ->]]. exists a, b. auto.
Qed.
Lemma fol_no_paren s : fol folO s -> lit "(" s = None.
Proof.
  unfold fol, lit. destruct (skip s) as [|c r]; [reflexivity|]. intros H. destruct (Ascii.eqb_spec "(" c) as [<-|]; [|reflexivity].
  apply member_in in H. discriminate.
Qed.
Lemma skip_nonspace c s : isSpace c = false -> skip (c :: s) = c :: s.
Proof. unfold skip. cbn. now intros ->. Qed.
Lemma token_no_paren w p t s r : smallWord w -> forallb isAlnum (chars w) = true -> token p t -> fol folO s ->
  noCase (chars w) (p ++ s) = Some r -> lit "(" r = None.
Proof.
  intros Hw Ha Hp F H. destruct (word_in_token w p s r Hw Ha (fol_head_alnum s F) H) as [a [b [_ [-> ->]]]].
  destruct b as [|c b]; [now apply fol_no_paren|]. apply token_chars in Hp as [Hp _]. rewrite forallb_app in Hp. apply andb_prop in Hp as [_ Hp].
  cbn in Hp. apply andb_prop in Hp as [Hc _]. apply tokenChar_space in Hc. apply andb_prop in Hc as [S P]. apply negb_true_iff in S, P.
  unfold lit. cbn [app]. rewrite (skip_nonspace c _ S), P. reflexivity.
Qed.

(** ** Tokens *)
Lemma noCase_first w c s : match chars w with a :: _ => lower c <> a | [] => False end -> noCase (chars w) (c :: s) = None.
Proof. destruct (chars w) as [|a l]; [tauto|]. cbn. intros H. destruct (Ascii.eqb_spec a (lower c)); [congruence | reflexivity]. Qed.
Lemma isWord_first a w p : smallWord (String a w) -> isWord (String a w) p -> exists c r, p = c :: r /\ lower c = a.
Proof. intros Hw H. apply isWord_lower in H; [|exact Hw]. destruct p as [|c p]; [discriminate|]. cbn in H. injection H as H _. eauto. Qed.

Lemma symbol_at s q : identifier s -> match q with c :: _ => isAlnum c = false | [] => True end ->
  symbol (s ++ q) = match q with
                    | u :: r2 => if Ascii.eqb u "_" then match subscript r2 with Some (sub, r3) => Some (s, sub, r3) | None => Some (s, [], q) end
                                 else Some (s, [], q)
                    | [] => Some (s, [], q)
                    end.
Proof.
  destruct s as [|c s]; [intros []|]. intros [Hc Hs] Hq. unfold symbol. cbn [app]. apply letter_iff in Hc. rewrite Hc.
  apply alnums_iff in Hs. rewrite (span_app isAlnum s q Hs Hq). reflexivity.
Qed.
Lemma exponent_fol s : fol folO s -> exponent s = None.
Proof.
  intros F. destruct s as [|c s]; [reflexivity|]. cbn. destruct (Ascii.eqb_spec (lower c) "e") as [E|]; [|reflexivity]. exfalso.
  apply fol_head_alnum in F. enough (isAlnum c = true) by congruence.
  assert (K : Ascii.eqb (lower c) "e" = true) by (now rewrite E). revert K. by_chars c.
Qed.
Lemma fol_head_digit s : fol folO s -> match s with c :: _ => isDigit c = false | [] => True end.
Proof. apply folO_head, not_digit. Qed.
Lemma exponent_complete x s : anExponent x -> fol folO s -> exponent (x ++ s) = Some (x, s).
Proof.
  intros [e [sign [ds [He [Hs [N [D ->]]]]]]] F. apply isWord_lower in He; [|reflexivity]. cbn in He. injection He as He.
  apply digits_iff in D. cbn [app exponent]. rewrite He. cbn [Ascii.eqb Bool.eqb]. change (Ascii.eqb "e" "e") with true. cbn match.
  rewrite <- app_assoc.
  assert (G : forall r1, r1 = ds ++ s -> match span isDigit r1 with ([], _) => Some ([], e :: sign ++ ds ++ s) | (ds, r2) => Some (e :: sign ++ ds, r2) end = Some (e :: sign ++ ds, s)).
  { intros r1 ->. rewrite (span_app isDigit ds s D (fol_head_digit s F)). destruct ds; [now destruct N | reflexivity]. }
  cbn in Hs. destruct Hs as [<-|[<-|[<-|[]]]]; cbn [app].
  - destruct ds as [|d ds]; [now destruct N|]. cbn [app]. cbn in D. apply andb_prop in D as [Dd D].
    assert (K : (Ascii.eqb d "+" || Ascii.eqb d "-")%bool = false).
    { apply negb_true_iff. revert Dd. by_chars d. }
    rewrite K. apply (G (d :: ds ++ s)). reflexivity.
  - cbn. now apply G.
  - cbn. now apply G.
Qed.
Lemma float_complete x s : aFloat x -> fol folO s -> floatingPoint (x ++ s) = Some (x, s).
Proof.
  intros H F. unfold floatingPoint.
  assert (M : forall a b q, Forall aDigit a -> Forall aDigit b -> a ++ b <> [] -> match q with c :: _ => isDigit c = false | [] => True end ->
    (exists y, q = y ++ s /\ ((y = [] /\ exponent q = None) \/ exponent q = Some (y, s)) /\ x = a ++ "."%char :: b ++ y) ->
    (let (ds, s1) := span isDigit (a ++ "."%char :: b ++ q) in
     match s1 with
     | [] => None
     | d :: s2 => if Ascii.eqb d "." then
         let (fs, s3) := span isDigit s2 in
         match ds, fs with
         | [], [] => None
         | _, _ => match exponent s3 with Some (x, s4) => Some (ds ++ d :: fs ++ x, s4) | None => Some (ds ++ d :: fs, s3) end
         end
       else match ds with [] => None | _ => match exponent s1 with Some (x, s4) => Some (ds ++ x, s4) | None => None end end
     end) = Some (x, s)).
  { intros a b q Ha Hb N Hq [y [-> [K ->]]]. apply digits_iff in Ha, Hb. rewrite (span_app isDigit a ("."%char :: b ++ y ++ s) Ha eq_refl). change (Ascii.eqb "." ".") with true. cbn match.
    rewrite (span_app isDigit b _ Hb Hq).
    assert (R : match exponent (y ++ s) with Some (x, s4) => Some (a ++ "."%char :: b ++ x, s4) | None => Some (a ++ "."%char :: b, y ++ s) end = Some (a ++ "."%char :: b ++ y, s)).
    { destruct K as [[-> K]|K]; rewrite K; [now rewrite app_nil_r | reflexivity]. }
    destruct a; [destruct b; [now destruct N|] |]; exact R. }
  assert (Eh : forall y, anExponent y -> match y ++ s with c :: _ => isDigit c = false | [] => True end).
  { intros y [e [sign [ds [He [_ [_ [_ ->]]]]]]]. cbn. apply isWord_lower in He; [|reflexivity]. cbn in He. injection He as He.
    assert (K : Ascii.eqb (lower e) "e" = true) by (now rewrite He). apply negb_true_iff. revert K.
    by_chars e. }
  destruct H as [[a [b [Ha [Hb [N ->]]]]]|[m [y [Hm [Hy ->]]]]].
  - rewrite <- app_assoc. cbn [app]. apply (M a b s); auto; [now apply fol_head_digit|]. exists []. cbn. rewrite app_nil_r. repeat split; auto. left. split; [reflexivity | now apply exponent_fol].
  - destruct Hm as [[a [b [Ha [Hb [N ->]]]]]|[N Hm]].
    + assert (E : ((a ++ "."%char :: b) ++ y) ++ s = a ++ "."%char :: b ++ y ++ s) by (now rewrite <- !app_assoc). rewrite E. apply (M a b (y ++ s)); auto; [now apply Eh|]. exists y. split; [reflexivity|]. split; [right; now apply exponent_complete|]. now rewrite <- app_assoc.
    + apply digits_iff in Hm. rewrite <- app_assoc. rewrite (span_app isDigit m (y ++ s) Hm (Eh y Hy)).
      pose proof (exponent_complete y s Hy F) as X. destruct Hy as [e [sign [ds [He [_ [_ [_ ->]]]]]]]. cbn [app] in *.
      assert (Ascii.eqb e "." = false) as ->.
      { apply negb_true_iff. apply isWord_lower in He; [|reflexivity]. cbn in He. injection He as He.
        assert (K : Ascii.eqb (lower e) "e" = true) by (now rewrite He). revert K.
        by_chars e. }
      rewrite X. destruct m; [now destruct N | reflexivity].
Qed.

(** Texts that begin with a digit or a dot. *)
Definition numberChar (c : ascii) : bool := isDigit c || Ascii.eqb c ".".
Lemma number_first c s : numberChar c = true ->
  noCase (txt "pi") (c :: s) = None /\ noCase (txt "euler") (c :: s) = None /\ symbol (c :: s) = None.
Proof.
  intros H. assert (K : (negb (Ascii.eqb (lower c) "p") && negb (Ascii.eqb (lower c) "e") && negb (isAlpha c))%bool = true).
  { revert H. by_chars c. }
  apply andb_prop in K as [K K3]. apply andb_prop in K as [K1 K2]. apply negb_true_iff in K1, K2, K3. repeat split.
  - apply (noCase_first "pi"). cbn. intros E. rewrite E in K1. discriminate.
  - apply (noCase_first "euler"). cbn. intros E. rewrite E in K2. discriminate.
  - cbn. now rewrite K3.
Qed.

Lemma float_first x : aFloat x -> exists c r, x = c :: r /\ numberChar c = true.
Proof.
  assert (D : forall a b, Forall aDigit a -> a <> [] -> exists c r, a ++ b = c :: r /\ numberChar c = true).
  { intros a b Ha N. destruct a as [|c a]; [now destruct N|]. exists c, (a ++ b). split; [reflexivity|]. inversion Ha as [|? ? H _]; subst. apply digit_iff in H.
    unfold numberChar. now rewrite H. }
  assert (M : forall m b, aMantissa m -> exists c r, m ++ b = c :: r /\ numberChar c = true).
  { intros m b [a [f [Ha [Hf [N ->]]]]]. destruct a as [|c a].
    - exists "."%char, (f ++ b). split; reflexivity.
    - rewrite <- app_assoc. apply D; [exact Ha | discriminate]. }
  intros [H|[a [b [[H|[N H]] [_ ->]]]]].
  - destruct (M x [] H) as [c [r [E K]]]. rewrite app_nil_r in E. eauto.
  - now apply M.
  - now apply D.
Qed.

Lemma scalar_complete w p t s st : blanks w -> token p t -> fol folO s -> scalar (w ++ p ++ s) st = Yes s (t :: st).
Proof.
  intros Hw Hp F. unfold scalar. apply blanks_iff in Hw. rewrite (skip_app w _ Hw).
  assert (Hs : skip (p ++ s) = p ++ s).
  { apply token_chars in Hp as [Hp N]. destruct p as [|c p]; [now destruct N|]. cbn in Hp. apply andb_prop in Hp as [Hc _].
    apply tokenChar_space, andb_prop in Hc as [S _]. apply negb_true_iff in S. cbn [app]. now apply skip_nonspace. }
  rewrite Hs. clear Hs Hw w. change (txt "pi") with (chars "pi"). change (txt "euler") with (chars "euler").
  assert (Sym : forall n q x, identifier n -> noPrefix n -> match q with c :: _ => isAlnum c = false | [] => True end -> symbol (n ++ q) = Some (n, x, s) ->
    match noCase (chars "pi") (n ++ q) with Some r => Yes r (PPi :: st) | None =>
    match noCase (chars "euler") (n ++ q) with Some r => Yes r (PEuler :: st) | None =>
    match symbol (n ++ q) with Some (n, sub, r) => Yes r (PSym n sub :: st) | None =>
    match floatingPoint (n ++ q) with Some (x, r) => Yes r (PFloat x :: st) | None =>
    match span isDigit (n ++ q) with ([], _) => No st | (ds, r) => match intOf ds with Some z => Yes r (PInt z :: st) | None => Exception end
    end end end end end = Yes s (PSym n x :: st)).
  { intros n q x Hn Hp' Hq E. rewrite E.
    destruct (noCase (chars "pi") (n ++ q)) as [r|] eqn:E1.
    { destruct (word_in_token "pi" n q r eq_refl eq_refl Hq E1) as [a [b [Ha [-> _]]]]. destruct (Hp' a b eq_refl). contradiction. }
    destruct (noCase (chars "euler") (n ++ q)) as [r|] eqn:E2; [|reflexivity].
    destruct (word_in_token "euler" n q r eq_refl eq_refl Hq E2) as [a [b [Ha [-> _]]]]. destruct (Hp' a b eq_refl). contradiction. }
  destruct Hp as [p H|p H|p Hi Hn|p c Hi Hn Hc|p x Hi Hn N Hx|p z H|p H].
  - assert (noCase (chars "pi") (p ++ s) = Some s) as -> by (apply noCase_iff; [reflexivity | now exists p]). reflexivity.
  - assert (noCase (chars "euler") (p ++ s) = Some s) as -> by (apply noCase_iff; [reflexivity | now exists p]).
    destruct (isWord_first "e" "uler" p eq_refl H) as [c [r [-> E]]]. cbn [app]. rewrite (noCase_first "pi"); [reflexivity|]. cbn. now rewrite E.
  - apply Sym; auto; [now apply fol_head_alnum|]. rewrite symbol_at; [|exact Hi | now apply fol_head_alnum].
    destruct s as [|u s]; [reflexivity|]. destruct (Ascii.eqb_spec u "_") as [->|]; [|reflexivity]. exfalso. revert F. now apply folO_not.
  - rewrite <- app_assoc. apply Sym; auto; [reflexivity|]. rewrite symbol_at; [|exact Hi | reflexivity]. cbn [app].
    change (Ascii.eqb "_" "_") with true. cbn match. apply alnum_iff in Hc. unfold subscript.
    assert (Ascii.eqb c "{" = false) as ->.
    { apply negb_true_iff. revert Hc. by_chars c. }
    now rewrite Hc.
  - rewrite <- app_assoc. apply Sym; auto; [reflexivity|]. rewrite symbol_at; [|exact Hi | reflexivity]. cbn [app].
    change (Ascii.eqb "_" "_") with true. cbn match. unfold subscript. change (Ascii.eqb "{" "{") with true. cbn match.
    apply alnums_iff in Hx. rewrite <- app_assoc. rewrite (span_app isAlnum x (["}"%char] ++ s) Hx eq_refl). destruct x as [|y x]; [now destruct N|]. reflexivity.
  - apply intOf_iff in H as [N [D E]]. destruct p as [|c p]; [now destruct N|]. inversion D as [|? ? Hc _]; subst. apply digit_iff in Hc. apply digits_iff in D.
    assert (Nc : numberChar c = true) by (unfold numberChar; now rewrite Hc).
    destruct (number_first c (p ++ s) Nc) as [E1 [E2 E3]]. cbn [app]. change (chars "pi") with (txt "pi"). change (chars "euler") with (txt "euler"). rewrite E1, E2, E3.
    assert (Sp : span isDigit (c :: p ++ s) = (c :: p, s)) by (apply (span_app isDigit (c :: p) s D (fol_head_digit s F))).
    assert (Fl : floatingPoint (c :: p ++ s) = None).
    { unfold floatingPoint. rewrite Sp. pose proof (exponent_fol s F) as X. destruct s as [|d s]; [reflexivity|].
      destruct (Ascii.eqb_spec d ".") as [->|]; [exfalso; revert F; now apply folO_not|]. now rewrite X. }
    rewrite Fl, Sp, E. reflexivity.
  - destruct (float_first p H) as [c [r [-> Nc]]]. destruct (number_first c (r ++ s) Nc) as [E1 [E2 E3]].
    change (chars "pi") with (txt "pi"). change (chars "euler") with (txt "euler"). cbn [app]. rewrite E1, E2, E3.
    change (c :: r ++ s) with ((c :: r) ++ s). rewrite (float_complete _ s H F). reflexivity.
Qed.

(** ** Rules: what is parsed with enough fuel *)
Definition ev (k : rule) (s : text) (st : list ptree) (o : out) : Prop := exists N, forall n, N <= n -> parse n k s st = o.
Ltac fuel := let n := fresh "n" in let L := fresh "L" in intros n L; destruct n as [|n]; [lia|]; cbn [parse].

Lemma ev_factor s st s1 a o : ev ROperand s st (Yes s1 (a :: st)) -> ev RPower s1 (a :: st) o -> ev RFactor s st o.
Proof. intros [N1 H1] [N2 H2]. exists (S (N1 + N2)). fuel. rewrite H1 by lia. cbn [andThen]. apply H2. lia. Qed.
Lemma ev_power_stop s st : lit "^" s = None -> ev RPower s st (Yes s st).
Proof. intros H. exists 1. fuel. unfold need. rewrite H. reflexivity. Qed.
Lemma ev_power_go s r s1 a b st s2 st2 : lit "^" s = Some r -> ev RFactor r (a :: st) (Yes s1 (b :: a :: st)) -> ev RPower s1 (PPow a b :: st) (Yes s2 st2) ->
  ev RPower s (a :: st) (Yes s2 st2).
Proof. intros H [N1 H1] [N2 H2]. exists (S (N1 + N2)). fuel. unfold need. rewrite H, H1 by lia. cbn [andThen pop2]. rewrite H2 by lia. reflexivity. Qed.
Lemma ev_signed s st s1 st1 : ev RFactor s st (Yes s1 st1) -> ev RPosNeg s st (Yes s1 st1).
Proof. intros [N1 H1]. exists (S N1). fuel. rewrite H1 by lia. reflexivity. Qed.
Lemma ev_minus s r st s1 a : lit "-" s = Some r -> ev RFactor r st (Yes s1 (a :: st)) -> ev RPosNeg s st (Yes s1 (PNeg a :: st)).
Proof.
  intros H [N1 H1]. exists (3 + N1). fuel. assert (E : parse n RFactor s st = No st).
  { destruct n as [|n]; [lia|]. destruct n as [|n]; [lia|]. cbn [parse]. apply lit_some in H. unfold scalar, need, lit. rewrite H. reflexivity. }
  rewrite E. cbn [orElse]. unfold need. rewrite H, H1 by lia. reflexivity.
Qed.
Lemma ev_product s st s1 a o : ev RPosNeg s st (Yes s1 (a :: st)) -> ev RProduct s1 (a :: st) o -> ev RSummand s st o.
Proof. intros [N1 H1] [N2 H2]. exists (S (N1 + N2)). fuel. rewrite H1 by lia. cbn [andThen]. apply H2. lia. Qed.
Lemma ev_product_stop s st : lit "*" s = None -> lit "/" s = None -> ev RProduct s st (Yes s st).
Proof. intros H K. exists 1. fuel. unfold need. rewrite H. cbn [orElse]. rewrite K. reflexivity. Qed.
Lemma ev_times s r s1 a b st s2 st2 : lit "*" s = Some r -> ev RPosNeg r (a :: st) (Yes s1 (b :: a :: st)) -> ev RProduct s1 (PMul a b :: st) (Yes s2 st2) ->
  ev RProduct s (a :: st) (Yes s2 st2).
Proof. intros H [N1 H1] [N2 H2]. exists (S (N1 + N2)). fuel. unfold need. rewrite H, H1 by lia. cbn [andThen pop2]. rewrite H2 by lia. reflexivity. Qed.
Lemma ev_divided s r s1 a b st s2 st2 : lit "/" s = Some r -> ev RPosNeg r (a :: st) (Yes s1 (b :: a :: st)) -> ev RProduct s1 (PDiv a b :: st) (Yes s2 st2) ->
  ev RProduct s (a :: st) (Yes s2 st2).
Proof.
  intros H [N1 H1] [N2 H2]. exists (S (N1 + N2)). fuel. unfold need. rewrite (lit_other "/" "*" s r H) by discriminate. cbn [orElse].
  rewrite H, H1 by lia. cbn [andThen pop2]. rewrite H2 by lia. reflexivity.
Qed.
Lemma ev_sum_stop s st : lit "+" s = None -> lit "-" s = None -> ev RSum s st (Yes s st).
Proof. intros H K. exists 1. fuel. unfold need. rewrite H. cbn [orElse]. rewrite K. reflexivity. Qed.
Lemma ev_plus s r s1 a b st s2 st2 : lit "+" s = Some r -> ev RSummand r (a :: st) (Yes s1 (b :: a :: st)) -> ev RSum s1 (PAdd a b :: st) (Yes s2 st2) ->
  ev RSum s (a :: st) (Yes s2 st2).
Proof. intros H [N1 H1] [N2 H2]. exists (S (N1 + N2)). fuel. unfold need. rewrite H, H1 by lia. cbn [andThen pop2]. rewrite H2 by lia. reflexivity. Qed.
Lemma ev_difference s r s1 a b st s2 st2 : lit "-" s = Some r -> ev RSummand r (a :: st) (Yes s1 (b :: a :: st)) -> ev RSum s1 (PSub a b :: st) (Yes s2 st2) ->
  ev RSum s (a :: st) (Yes s2 st2).
Proof.
  intros H [N1 H1] [N2 H2]. exists (S (N1 + N2)). fuel. unfold need. rewrite (lit_other "-" "+" s r H) by discriminate. cbn [orElse].
  rewrite H, H1 by lia. cbn [andThen pop2]. rewrite H2 by lia. reflexivity.
Qed.
Lemma ev_expression s st s1 a o : lit "+" s = None -> ev RSummand s st (Yes s1 (a :: st)) -> ev RSum s1 (a :: st) o -> ev RExpression s st o.
Proof. intros H [N1 H1] [N2 H2]. exists (S (N1 + N2)). fuel. rewrite H, H1 by lia. cbn [andThen]. apply H2. lia. Qed.
Lemma ev_expression_plus s r st s1 a o : lit "+" s = Some r -> ev RSummand r st (Yes s1 (a :: st)) -> ev RSum s1 (a :: st) o -> ev RExpression s st o.
Proof. intros H [N1 H1] [N2 H2]. exists (S (N1 + N2)). fuel. rewrite H, H1 by lia. cbn [andThen]. apply H2. lia. Qed.

Lemma lit_at w c s : blanks w -> isSpace c = false -> lit c (w ++ c :: s) = Some s.
Proof. intros Hw Hc. apply blanks_iff in Hw. apply lit_some. now rewrite skip_app, skip_nonspace. Qed.
Lemma fol_at l w c s : blanks w -> isSpace c = false -> In c l -> fol l (w ++ c :: s).
Proof. intros Hw Hc H. eapply fol_lit; [now apply lit_at | exact H]. Qed.
Lemma fol_no_lit l c s : fol l s -> member c l = false -> lit c s = None.
Proof.
  intros F M. unfold fol in F. unfold lit. destruct (skip s) as [|d r]; [reflexivity|]. destruct (Ascii.eqb_spec c d) as [<-|]; [|reflexivity].
  apply member_in in F. congruence.
Qed.

(** Operands. *)
Lemma ev_token w p t s st : blanks w -> token p t -> fol folO s -> ev ROperand (w ++ p ++ s) st (Yes s (t :: st)).
Proof.
  intros Hw Hp F. exists 1. fuel.
  assert (Sk : skip (w ++ p ++ s) = p ++ s).
  { apply blanks_iff in Hw. rewrite skip_app by exact Hw. pose proof (token_chars p t Hp) as [Hc N]. destruct p as [|c p]; [now destruct N|]. cbn in Hc. apply andb_prop in Hc as [Hc _].
    apply tokenChar_space, andb_prop in Hc as [S _]. apply negb_true_iff in S. cbn [app]. now apply skip_nonspace. }
  rewrite Sk. destruct (matchFct pfcts (p ++ s)) as [[f r]|] eqn:E1.
  - apply matchFct_spec in E1. rewrite pfct_name in E1. unfold need at 1.
    assert (lit "(" r = None) as ->.
    { eapply (token_no_paren (fctName f) p t s); eauto; [apply pfct_small | destruct f; reflexivity]. }
    cbn [orElse]. destruct (noCase (txt "atan2") (p ++ s)) as [r2|] eqn:E2; [|cbn [orElse]; now rewrite (scalar_complete w p t s st Hw Hp F)].
    unfold need at 1. assert (lit "(" r2 = None) as -> by (now apply (token_no_paren "atan2" p t s)).
    cbn [orElse]. now rewrite (scalar_complete w p t s st Hw Hp F).
  - cbn [orElse]. destruct (noCase (txt "atan2") (p ++ s)) as [r2|] eqn:E2; [|cbn [orElse]; now rewrite (scalar_complete w p t s st Hw Hp F)].
    unfold need at 1. assert (lit "(" r2 = None) as -> by (now apply (token_no_paren "atan2" p t s)).
    cbn [orElse]. now rewrite (scalar_complete w p t s st Hw Hp F).
Qed.
Lemma ev_parens w q st s2 t v s : blanks w -> ev RExpression q st (Yes s2 (t :: st)) -> lit ")" s2 = Some s -> v = w ++ "("%char :: q ->
  ev ROperand v st (Yes s (t :: st)).
Proof.
  intros Hw [N H] E ->. exists (S N). fuel. pose proof (lit_at w "(" q Hw eq_refl) as El. pose proof El as Es. apply lit_some in Es.
  assert (M : matchFct pfcts ("("%char :: q) = None) by reflexivity.
  assert (A : noCase (txt "atan2") ("("%char :: q) = None) by reflexivity.
  assert (Sc : scalar (w ++ "("%char :: q) st = No st) by (unfold scalar; rewrite Es; reflexivity).
  rewrite Es, M. cbn [orElse]. rewrite A. cbn [orElse]. rewrite Sc. cbn [orElse]. unfold need at 1. rewrite El, H by lia. cbn [andThen]. unfold need. now rewrite E.
Qed.
Lemma match_name f name q : isWord (fctName f) name -> matchFct pfcts (name ++ q) = Some (f, q).
Proof.
  intros H. apply isWord_lower in H; [|apply pfct_small].
  destruct f; cbn in H; (destruct name as [|d1 [|d2 [|d3 [|d4 [|d5 name]]]]]; try discriminate; injection H as);
    cbn [app matchFct pfcts pfctName txt list_ascii_of_string noCase];
    repeat match goal with K : lower ?c = _ |- _ => rewrite K; clear K end; reflexivity.
Qed.
Lemma skip_word w name f q : blanks w -> smallWord f -> forallb isAlnum (chars f) = true -> chars f <> [] -> isWord f name -> skip (w ++ name ++ q) = name ++ q.
Proof.
  intros Hw Hf Ha N H. apply blanks_iff in Hw. rewrite skip_app by exact Hw. pose proof (word_alnum f name Hf Ha H) as K.
  apply isWord_lower in H; [|exact Hf]. destruct name as [|c name]; [now destruct N|]. cbn in K. apply andb_prop in K as [K _].
  destruct (not_alnum c K) as [S _]. cbn [app]. now apply skip_nonspace.
Qed.
Lemma ev_function w f name u q st s2 t s : blanks w -> isWord (fctName f) name -> blanks u -> ev RExpression q st (Yes s2 (t :: st)) -> lit ")" s2 = Some s ->
  ev ROperand (w ++ name ++ u ++ "("%char :: q) st (Yes s (PFct f t :: st)).
Proof.
  intros Hw Hn Hu [N H] E. exists (S N). fuel.
  rewrite (skip_word w name (fctName f)); auto; [|apply pfct_small | destruct f; reflexivity | destruct f; discriminate].
  rewrite (match_name f) by exact Hn. unfold need at 1. rewrite (lit_at u "(" q Hu eq_refl), H by lia. cbn [andThen]. unfold need at 1. rewrite E. reflexivity.
Qed.
Lemma ev_atan2 w name u q st s2 a q2 s4 b s : blanks w -> isWord "atan2" name -> blanks u -> ev RExpression q st (Yes s2 (a :: st)) -> lit "," s2 = Some q2 ->
  ev RExpression q2 (a :: st) (Yes s4 (b :: a :: st)) -> lit ")" s4 = Some s ->
  ev ROperand (w ++ name ++ u ++ "("%char :: q) st (Yes s (PAtan2 a b :: st)).
Proof.
  intros Hw Hn Hu [N H] E [N2 H2] E2. exists (S (N + N2)). fuel. rewrite (skip_word w name "atan2"); auto; try reflexivity; try discriminate.
  assert (M : exists r, matchFct pfcts (name ++ u ++ "("%char :: q) = Some (PAtan, r) /\ lit "(" r = None).
  { apply isWord_lower in Hn; [|reflexivity]. cbn in Hn. destruct name as [|d1 [|d2 [|d3 [|d4 [|d5 [|]]]]]]; try discriminate. injection Hn as K1 K2 K3 K4 K5.
    exists (d5 :: u ++ "("%char :: q). split; [apply (match_name PAtan [d1; d2; d3; d4] (d5 :: u ++ "("%char :: q)); apply isWord_lower; [reflexivity | cbn; congruence]|].
    assert (d5 = "2"%char) as ->.
    { apply Ascii.eqb_eq. assert (K : Ascii.eqb (lower d5) "2" = true) by (now rewrite K5). revert K. by_chars d5. }
    reflexivity. }
  destruct M as [r [-> M]]. unfold need at 1. rewrite M. cbn [orElse].
  assert (noCase (txt "atan2") (name ++ u ++ "("%char :: q) = Some (u ++ "("%char :: q)) as ->.
  { change (txt "atan2") with (chars "atan2"). apply noCase_iff; [reflexivity | now exists name]. }
  unfold need at 1. rewrite (lit_at u "(" q Hu eq_refl), H by lia. cbn [andThen]. unfold need at 1. rewrite E, H2 by lia. cbn [andThen]. unfold need at 1. rewrite E2. reflexivity.
Qed.

(** The first character. *)
Definition starts (p : text) : Prop := exists c r, skip p = c :: r /\ c <> "+"%char.
Lemma skip_starts p q c r : skip p = c :: r -> skip (p ++ q) = c :: r ++ q.
Proof.
  intros H. destruct (skip_spec p) as [w [Hw E]]. pose proof (skip_head _ _ _ H). rewrite E, <- app_assoc, skip_app by exact Hw. rewrite H. cbn [app]. now rewrite skip_nonspace.
Qed.
Lemma starts_app p q : starts p -> starts (p ++ q).
Proof. intros [c [r [H K]]]. exists c, (r ++ q). split; [now apply skip_starts | exact K]. Qed.
Lemma starts_word w name f q : blanks w -> smallWord f -> forallb isAlnum (chars f) = true -> chars f <> [] -> isWord f name -> starts (w ++ name ++ q).
Proof.
  intros Hw Hf Ha N H. unfold starts. rewrite (skip_word w name f); auto. pose proof (word_alnum f name Hf Ha H) as K. apply isWord_lower in H; [|exact Hf].
  destruct name as [|c name]; [now destruct N|]. exists c, (name ++ q). split; [reflexivity|]. intros ->. cbn in K. discriminate.
Qed.
Lemma starts_at w c s : blanks w -> isSpace c = false -> c <> "+"%char -> starts (w ++ c :: s).
Proof. intros Hw Hc N. exists c, s. split; [|exact N]. apply lit_some. now apply lit_at. Qed.
Lemma token_first p t : token p t -> exists c r, p = c :: r /\ (isAlnum c = true \/ c = "."%char).
Proof.
  assert (A : forall p, forallb isAlnum p = true -> p <> [] -> exists c r, p = c :: r /\ (isAlnum c = true \/ c = "."%char)).
  { intros q H N. destruct q as [|c q]; [now destruct N|]. cbn in H. apply andb_prop in H as [H _]. eauto. }
  assert (B : forall p q, p <> [] -> (exists c r, p = c :: r /\ (isAlnum c = true \/ c = "."%char)) -> exists c r, p ++ q = c :: r /\ (isAlnum c = true \/ c = "."%char)).
  { intros a q _ [c [r [-> H]]]. exists c, (r ++ q). auto. }
  intros H. destruct H as [s H|s H|s Hi _|s c Hi _ Hc|s x Hi _ Hn Hx|s z H|s H].
  - apply A; [now apply (word_alnum "pi" s) | intros ->; inversion H].
  - apply A; [now apply (word_alnum "euler" s) | intros ->; inversion H].
  - apply identifier_alnum in Hi as [Hi N]. now apply A.
  - apply identifier_alnum in Hi as [Hi N]. apply B; [exact N | now apply A].
  - apply identifier_alnum in Hi as [Hi N]. apply B; [exact N | now apply A].
  - apply asRead_digits in H as [D N]. apply A; [|exact N]. apply digits_iff in D. rewrite forallb_forall in *. intros. now apply digit_alnum, D.
  - destruct (float_first s H) as [c [r [-> K]]]. exists c, r. split; [reflexivity|]. unfold numberChar in K. apply orb_prop in K as [K|K]; [left; now apply digit_alnum | right; now apply Ascii.eqb_eq].
Qed.
Lemma starts_all :
  (forall p t, operand p t -> starts p) /\ (forall p t, factor p t -> starts p) /\ (forall p t, signed p t -> starts p)
  /\ (forall p t, product p t -> starts p) /\ (forall p t, sum p t -> starts p) /\ (forall p t, expression p t -> True).
Proof.
  apply grammar_ind; intros; auto using starts_app; try (apply starts_at; [assumption | reflexivity | discriminate]).
  - destruct (token_first s t H0) as [c [r [-> [K | ->]]]].
    + apply starts_at; [assumption | now destruct (not_alnum c K) | intros ->; discriminate].
    + now apply starts_at.
  - apply (starts_word w name (fctName f)); auto; [apply pfct_small | destruct f; reflexivity | destruct f; discriminate].
  - apply (starts_word w name "atan2"); auto; [reflexivity | discriminate].
Qed.
Lemma starts_no_plus p q : starts p -> lit "+" (p ++ q) = None.
Proof.
  intros [c [r [H K]]]. unfold lit. rewrite (skip_starts p q c r H). destruct (Ascii.eqb_spec "+" c) as [<-|]; [now destruct K | reflexivity].
Qed.

Ltac folio := apply fol_at; [assumption | reflexivity | cbn; tauto].
Lemma complete_all :
  (forall p t, operand p t -> forall s st, fol folO s -> ev ROperand (p ++ s) st (Yes s (t :: st)))
  /\ (forall p t, factor p t -> forall s st, fol folP s -> ev RFactor (p ++ s) st (Yes s (t :: st)))
  /\ (forall p t, signed p t -> forall s st, fol folP s -> ev RPosNeg (p ++ s) st (Yes s (t :: st)))
  /\ (forall p t, product p t -> forall s st, fol folP s -> exists s1 t1, ev RPosNeg (p ++ s) st (Yes s1 (t1 :: st))
        /\ forall s2 st2, ev RProduct s (t :: st) (Yes s2 st2) -> ev RProduct s1 (t1 :: st) (Yes s2 st2))
  /\ (forall p t, sum p t -> forall s st, fol folS s -> exists s1 t1, ev RSummand (p ++ s) st (Yes s1 (t1 :: st))
        /\ forall s2 st2, ev RSum s (t :: st) (Yes s2 st2) -> ev RSum s1 (t1 :: st) (Yes s2 st2))
  /\ (forall p t, expression p t -> forall s st, fol folE s -> ev RExpression (p ++ s) st (Yes s (t :: st))).
Proof.
  assert (Pr : forall p t, (forall s st, fol folP s -> exists s1 t1, ev RPosNeg (p ++ s) st (Yes s1 (t1 :: st))
        /\ forall s2 st2, ev RProduct s (t :: st) (Yes s2 st2) -> ev RProduct s1 (t1 :: st) (Yes s2 st2)) ->
      forall s st, fol folS s -> ev RSummand (p ++ s) st (Yes s (t :: st))).
  { intros p t H s st F. destruct (H s st) as [s1 [t1 [H1 H2]]]; [apply fol_more with folS; [incl | exact F]|].
    eapply ev_product; [exact H1|]. apply H2. apply ev_product_stop; now apply fol_no_lit with folS. }
  apply grammar_ind.
  - intros w p t Hw Ht s st F. rewrite <- app_assoc. now apply ev_token.
  - intros w q v t Hw _ IH Hv s st F. eapply ev_parens with (w := w) (q := q ++ v ++ ")"%char :: s); [exact Hw | | | repeat (rewrite <- !app_assoc; cbn [app]); reflexivity].
    + apply IH. folio.
    + now apply lit_at.
  - intros w f name u q v t Hw Hn Hu _ IH Hv s st F. repeat (rewrite <- !app_assoc; cbn [app]).
    eapply ev_function; [exact Hw | exact Hn | exact Hu | apply IH; folio | now apply lit_at].
  - intros w name u q1 x q2 v a b Hw Hn Hu _ IH1 Hx _ IH2 Hv s st F. repeat (rewrite <- !app_assoc; cbn [app]).
    eapply ev_atan2; [exact Hw | exact Hn | exact Hu | apply IH1; folio | now apply lit_at | apply IH2; folio | now apply lit_at].
  - intros p t _ IH s st F. eapply ev_factor; [apply IH; apply fol_more with folP; [incl | exact F]|]. apply ev_power_stop. now apply fol_no_lit with folP.
  - intros s1 w s2 a b _ IH1 Hw _ IH2 s st F. repeat (rewrite <- !app_assoc; cbn [app]). eapply ev_factor; [apply IH1; folio|].
    eapply ev_power_go; [now apply lit_at | apply IH2; exact F|]. apply ev_power_stop. now apply fol_no_lit with folP.
  - intros p t _ IH s st F. apply ev_signed. now apply IH.
  - intros w p t Hw _ IH s st F. repeat (rewrite <- !app_assoc; cbn [app]). eapply ev_minus; [now apply lit_at | now apply IH].
  - intros p t _ IH s st F. exists s, t. split; [now apply IH | auto].
  - intros s1 w s2 a b _ IH1 Hw _ IH2 s st F. repeat (rewrite <- !app_assoc; cbn [app]).
    destruct (IH1 (w ++ "*"%char :: s2 ++ s) st) as [s3 [t3 [H1 H2]]]; [folio|]. exists s3, t3. split; [exact H1|].
    intros s4 st4 H. apply H2. eapply ev_times; [now apply lit_at | apply IH2; exact F | exact H].
  - intros s1 w s2 a b _ IH1 Hw _ IH2 s st F. repeat (rewrite <- !app_assoc; cbn [app]).
    destruct (IH1 (w ++ "/"%char :: s2 ++ s) st) as [s3 [t3 [H1 H2]]]; [folio|]. exists s3, t3. split; [exact H1|].
    intros s4 st4 H. apply H2. eapply ev_divided; [now apply lit_at | apply IH2; exact F | exact H].
  - intros p t _ IH s st F. exists s, t. split; [now apply Pr | auto].
  - intros s1 w s2 a b _ IH1 Hw _ IH2 s st F. repeat (rewrite <- !app_assoc; cbn [app]).
    destruct (IH1 (w ++ "+"%char :: s2 ++ s) st) as [s3 [t3 [H1 H2]]]; [folio|]. exists s3, t3. split; [exact H1|].
    intros s4 st4 H. apply H2. eapply ev_plus; [now apply lit_at | apply Pr; [exact IH2 | exact F] | exact H].
  - intros s1 w s2 a b _ IH1 Hw _ IH2 s st F. repeat (rewrite <- !app_assoc; cbn [app]).
    destruct (IH1 (w ++ "-"%char :: s2 ++ s) st) as [s3 [t3 [H1 H2]]]; [folio|]. exists s3, t3. split; [exact H1|].
    intros s4 st4 H. apply H2. eapply ev_difference; [now apply lit_at | apply Pr; [exact IH2 | exact F] | exact H].
  - intros p t Hp IH s st F. destruct (IH s st) as [s1 [t1 [H1 H2]]]; [apply fol_more with folE; [incl | exact F]|].
    eapply ev_expression; [apply starts_no_plus; now apply (proj1 (proj2 (proj2 (proj2 (proj2 starts_all)))) p t) | exact H1|].
    apply H2. apply ev_sum_stop; now apply fol_no_lit with folE.
  - intros w p t Hw _ IH s st F. repeat (rewrite <- !app_assoc; cbn [app]). destruct (IH s st) as [s1 [t1 [H1 H2]]]; [apply fol_more with folE; [incl | exact F]|].
    eapply ev_expression_plus; [now apply lit_at | exact H1|]. apply H2. apply ev_sum_stop; now apply fol_no_lit with folE.
Qed.

(** All characters are ASCII characters. *)
Definition isAscii (c : ascii) : bool := (code c <? 128)%Z.
Definition asciis (s : text) : Prop := forallb isAscii s = true.
Lemma asciis_app a b : asciis a -> asciis b -> asciis (a ++ b).
Proof. unfold asciis. rewrite forallb_app. now intros -> ->. Qed.
Lemma asciis_cons c b : isAscii c = true -> asciis b -> asciis (c :: b).
Proof. unfold asciis. cbn. now intros -> ->. Qed.
Lemma asciis_blanks w : blanks w -> asciis w.
Proof. intros H. apply blanks_iff in H. unfold asciis. rewrite forallb_forall in *. intros c K. apply H in K. revert K. by_chars c. Qed.
Lemma asciis_token p t : token p t -> asciis p.
Proof. intros H. apply token_chars in H as [H _]. unfold asciis. rewrite forallb_forall in *. intros c K. apply H in K. revert K. by_chars c. Qed.
Lemma asciis_word w name : smallWord w -> forallb isAlnum (chars w) = true -> isWord w name -> asciis name.
Proof. intros Hw Ha H. pose proof (word_alnum w name Hw Ha H) as K. unfold asciis. rewrite forallb_forall in *. intros c J. apply K in J. revert J. by_chars c. Qed.
Lemma asciis_fct f name : isWord (fctName f) name -> asciis name.
Proof. apply asciis_word; [apply pfct_small | destruct f; reflexivity]. Qed.
Lemma asciis_all :
  (forall p t, operand p t -> asciis p) /\ (forall p t, factor p t -> asciis p) /\ (forall p t, signed p t -> asciis p)
  /\ (forall p t, product p t -> asciis p) /\ (forall p t, sum p t -> asciis p) /\ (forall p t, expression p t -> asciis p).
Proof.
  apply grammar_ind; intros; repeat first [ assumption | apply asciis_app | apply asciis_cons; [reflexivity|] | now apply asciis_blanks | reflexivity ].
  - eapply asciis_token; eassumption.
  - eapply asciis_fct; eassumption.
  - now apply (asciis_word "atan2").
Qed.

Lemma parseVar_complete s t : gText asRead noPrefix s t -> parseVar s = Some t.
Proof.
  intros [p w u Hp Hw]. unfold parseVar, parseFrom.
  assert (A : asciis (p ++ w)) by (apply asciis_app; [eapply asciis_all; eassumption | now apply asciis_blanks]). unfold asciis, isAscii in A. rewrite A.
  apply blanks_iff in Hw.
  assert (E : skip w = []) by (rewrite <- (app_nil_r w), skip_app by exact Hw; reflexivity).
  destruct (proj2 (proj2 (proj2 (proj2 (proj2 complete_all)))) p u Hp w []) as [N H]; [unfold fol; now rewrite E|].
  assert (K : parse (enough (p ++ w)) RExpression (p ++ w) [] = Yes w [u]).
  { eapply parse_agree; [reflexivity | apply (H N); lia | apply parse_decided | discriminate]. }
  rewrite K. cbn. now rewrite E.
Qed.
Lemma parseVar_iff s t : parseVar s = Some t <-> gText asRead noPrefix s t.
Proof. split; [apply parseVar_sound | apply parseVar_complete]. Qed.
