(** Theorems for C32 (parsing), C34 (names), C43 (digits) and C44 (exceptions). *)
From Verif Require Import ParserSound ParserComplete ParserText TextSpec SimplApi RefFloat.
From Coq Require Import Reals ZArith List Ascii String Lia.
Import ListNotations.
From Verif Require Import Run ParserModel GrammarSpec.
Open Scope Z_scope.

(** ** C32: parsing *)

(** A text is parsed, and into this tree, if and only if the grammar (GrammarSpec.v) derives this tree from
    the whole text.  What is missing: digits that begin with 0 are read as an octal number, and names that
    begin with pi or euler aren't accepted (the next theorems). *)
Theorem C32_parse_partial : forall s t, parseVar s = Some t <-> gText asRead noPrefix s t.
Proof. exact parseVar_iff. Qed.
Print Assumptions C32_parse_partial.
(** The grammar is unambiguous. *)
Theorem C32_unambiguous : forall s t t', gText asRead noPrefix s t -> gText asRead noPrefix s t' -> t = t'.
Proof. intros s t t' H H'. apply parseVar_iff in H, H'. congruence. Qed.
Print Assumptions C32_unambiguous.
(** The expression that is built has the value of the tree. *)
Theorem C32_value_partial : forall Y F k r n s t u e facts v, posEnv r ->
  parseVar s = Some t -> toTerm t = Some u -> build (world Y F k) n u = Ok e facts -> rightFacts r facts ->
  pval r t = Some v -> eval r e = Some v.
Proof.
  intros Y F k r n s t u e facts v Hr _ Hu Hb Hf Hv. destruct (toTerm_value r t v Hv) as [u' [E Ht]].
  rewrite Hu in E. injection E as <-. eapply program_value; eauto.
Qed.
Print Assumptions C32_value_partial.
(** The parser comes to an end and never pops from an empty stack. *)
Theorem C32_defined : forall s, parseFrom s <> ParseUB /\ parseFrom s <> ParseStuck.
Proof. exact parseFrom_ok. Qed.
Print Assumptions C32_defined.

(** With decimal numbers and all names except for those of the constants: not everything is parsed, and what
    is parsed may have another value. *)
Theorem C32_parse_refuted : ~ (forall s t, parseVar s = Some t -> gText decimal notConstant s t)
                         /\ ~ (forall s t, gText decimal notConstant s t -> parseVar s = Some t).
Proof.
  split; intros H.
  - specialize (H (txt "010") (PInt 8) ltac:(now vm_compute)). apply digits_text in H as [z [E H]].
    + injection E as <-. apply numeral_iff in H as [_ [_ [_ H]]]. vm_compute in H. discriminate.
    + apply digits_iff. now vm_compute.
  - enough (X : parseVar (txt "08") = Some (PInt 8)) by (vm_compute in X; discriminate). apply H.
    apply token_text, g_integer, numeral_iff. repeat split; [discriminate|apply digits_iff; now vm_compute|].
    repeat constructor.
Qed.
Print Assumptions C32_parse_refuted.

(** Signs, powers from right to left, products and differences from left to right. *)
Example C32_case : parseVar (txt "-a^2^b_1/3*c - sin(x) - Sqrt(2)") =
  Some (let v s := PSym (txt s) [] in
        PSub (PSub (PMul (PDiv (PNeg (PPow (v "a"%string) (PPow (PInt 2) (PSym (txt "b") (txt "1"))))) (PInt 3)) (v "c"%string))
                   (PFct PSin (v "x"%string))) (PFct PSqrt (PInt 2))).
Proof. vm_compute. reflexivity. Qed.
(** Only part of it is an expression. *)
Example C32_rest_case : parseVar (txt "a*b)") = None /\ parseVar (txt "2 3") = None /\ parseVar (txt "") = None
  /\ parseVar (txt "x*sin(2") = None /\ parseVar (txt "a^-2") = None.
Proof. vm_compute. repeat split. Qed.
(** The value theorem applies to "(x + 2*x)*3 - 1": no facts are taken for granted. *)
Example C32_value_case : exists t u e, parseVar (txt "(x + 2*x)*3 - 1") = Some t /\ toTerm t = Some u
  /\ build W0 20 u = Ok e [] /\ forall r, pval r t <> None.
Proof.
  eexists. eexists. eexists. split; [vm_compute; reflexivity|]. split; [reflexivity|]. split; [lazy; reflexivity|].
  intros r. cbn. discriminate.
Qed.

(** ** C34: names *)

Theorem C34_identifier_refuted : ~ (forall s, identifier s -> notConstant s -> parseVar s = Some (PSym s [])).
Proof.
  intros H. assert (X : parseVar (txt "pivot") = None) by now vm_compute. rewrite H in X; [discriminate| |].
  - split; [apply letter_iff; now vm_compute|apply alnums_iff; now vm_compute].
  - split; intros K; apply isWord_lower in K; try (vm_compute in K; discriminate); now vm_compute.
Qed.
Print Assumptions C34_identifier_refuted.
(** Missing: names that begin with pi or euler. *)
Theorem C34_identifier_partial : forall s, identifier s -> noPrefix s ->
  parseVar s = Some (PSym s []) /\ forall W n, varFrom W n s = Ok (Sym (mkName (str s) "" "") false) [].
Proof.
  intros s Hi Hn. assert (E : parseVar s = Some (PSym s [])) by (apply parseVar_iff, token_text; now constructor).
  split; [exact E|]. intros W n. unfold parseVar, varFrom in *. destruct (parseFrom s) as [p| | |]; try discriminate.
  destruct (success p && matchedWholeString p)%bool; [|discriminate]. rewrite E. reflexivity.
Qed.
Print Assumptions C34_identifier_partial.
(** The same for names with a subscript. *)
Theorem C34_subscript_partial : forall s x, identifier s -> noPrefix s -> x <> [] -> Forall alphaNum x ->
  parseVar (s ++ txt "_{" ++ x ++ txt "}") = Some (PSym s x).
Proof. intros s x Hi Hn Hx Ha. apply parseVar_iff, token_text. now apply (g_subscripts asRead noPrefix s x). Qed.
Print Assumptions C34_subscript_partial.
Example C34_case : identifier (txt "sin2x") /\ noPrefix (txt "sin2x") /\ parseVar (txt "sin2x") = Some (PSym (txt "sin2x") []).
Proof.
  split; [|split].
  - split; [apply letter_iff; now vm_compute|apply alnums_iff; now vm_compute].
  - intros a b E. split; intros X; inversion X as [|? c ? w Hc HX]; subst; injection E as <- E;
      (destruct Hc as [Hc|Hc]; [discriminate|]); vm_compute in Hc; intuition discriminate.
  - now vm_compute.
Qed.

(** ** C43: digits *)

Theorem C43_digits_refuted : ~ (forall s z, decimal s z -> parseVar s = Some (PInt z)).
Proof.
  intros H. assert (X : parseVar (txt "010") = Some (PInt 8)) by now vm_compute. rewrite (H _ 10) in X; [discriminate|].
  apply numeral_iff. repeat split; [discriminate|apply digits_iff; now vm_compute|repeat constructor].
Qed.
Print Assumptions C43_digits_refuted.
(** Missing: digits that begin with 0. *)
Theorem C43_digits_partial : forall s z, decimal s z -> (forall r, s = "0"%char :: r -> r = []) ->
  parseVar s = Some (PInt z) /\ forall W n, varFrom W n s = Ok (numZ z) [].
Proof.
  intros s z H H0. assert (E : parseVar s = Some (PInt z)).
  { apply parseVar_iff, token_text, g_integer. unfold asRead. destruct s as [|c s]; [now apply numeral_iff in H|].
    destruct (ascii_dec c "0") as [->|]; [|exact H]. rewrite (H0 s eq_refl) in *. apply numeral_iff in H as [N [D [_ ->]]].
    apply numeral_iff. repeat split; auto. repeat constructor. }
  split; [exact E|]. intros W n. unfold parseVar, varFrom in *. destruct (parseFrom s) as [p| | |]; try discriminate.
  destruct (success p && matchedWholeString p)%bool; [|discriminate]. rewrite E. cbn [toTerm build]. unfold numZ, ofZ, bind, ret. cbn. reflexivity.
Qed.
Print Assumptions C43_digits_partial.
Example C43_case : decimal (txt "98938498203948203948") 98938498203948203948 /\ varFrom W0 1 (txt "0") = Ok (numZ 0) [].
Proof.
  split; [|now vm_compute]. apply numeral_iff. repeat split; [discriminate|apply digits_iff; now vm_compute|].
  repeat constructor.
Qed.

(** ** C44: a text that can't be parsed isn't an exception *)

Theorem C44_no_throw_refuted : ~ (forall s, parseFrom s <> ParseThrow).
Proof. intros H. apply (H (txt "08")). now vm_compute. Qed.
Print Assumptions C44_no_throw_refuted.
(** The parser throws only if the text has a digit 0, more digits and then an 8 or 9. *)
Theorem C44_no_throw_partial : forall s, parseFrom s = ParseThrow ->
  exists p q ds c, s = p ++ "0"%char :: ds ++ c :: q /\ Forall aDigit ds /\ (c = "8"%char \/ c = "9"%char).
Proof. exact parseFrom_throw. Qed.
Print Assumptions C44_no_throw_partial.
Example C44_case : parseFrom (txt "2*x^(b + ") = Parsed (mkResult (Some (PMul (PSym (txt "x") []) (PSym (txt "b") []))) true false).
Proof. now vm_compute. Qed.
