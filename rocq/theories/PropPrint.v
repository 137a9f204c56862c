(** Theorems for C33 (the text of an expression). *)
From Verif Require Import ParserSound ParserComplete ParserText PrintSpec PrinterMain SimplApi RefFloat PropText.
From Coq Require Import Reals ZArith List Ascii String Lia Lra.
Import ListNotations.
From Verif Require Import Run ParserModel PrinterModel GrammarSpec.
Open Scope Z_scope.

(** ** C33: printing and parsing *)

(** The text that is printed (with or without fractions) is parsed, and into a tree of the value of the
    expression.  Missing: names that aren't read back (PrintSpec.v), the constant e, pi in unicode and those
    executions that rely on wrong facts or omit parentheses (the refutations below). *)
Theorem C33_text_partial : forall Y F k cs fr n r e s facts v, posEnv r -> wf (readAs cs r) e ->
  printTop Y (world Y F k) cs fr n e = Ok s facts -> rightFacts r facts -> eval r e = Some v ->
  exists t, parseVar s = Some t /\ pval r t = Some v.
Proof.
  intros. destruct (print_text Y F k cs fr n r e s facts v) as [t [Ht Et]]; auto. exists t. split; [|exact Et]. now apply C32_parse_partial.
Qed.
Print Assumptions C33_text_partial.
(** There and back: the expression that is read has the value of the one that was printed. *)
Theorem C33_round_trip_partial : forall Y F k cs fr n m r e s facts t u e' facts' v, posEnv r -> wf (readAs cs r) e ->
  printTop Y (world Y F k) cs fr n e = Ok s facts -> rightFacts r facts ->
  parseVar s = Some t -> toTerm t = Some u -> build (world Y F k) m u = Ok e' facts' -> rightFacts r facts' ->
  eval r e = Some v -> eval r e' = Some v.
Proof.
  intros Y F k cs fr n m r e s facts t u e' facts' v Hr He Hp Hf Ht Hu Hb Hf' Ev.
  destruct (C33_text_partial Y F k cs fr n r e s facts v) as [t' [Ht' Et]]; auto. rewrite Ht in Ht'. injection Ht' as <-.
  exact (C32_value_partial Y F k r m s t u e' facts' v Hr Ht Hu Hb Hf' Et).
Qed.
Print Assumptions C33_round_trip_partial.

Definition roundTrip (cs : charset) (e : expr) : Prop :=
  forall r n s facts v, posEnv r -> printTop refSys W0 cs true n e = Ok s facts -> eval r e = Some v ->
  exists t, parseVar s = Some t /\ pval r t = Some v.
Definition one1 : env := fun _ _ => 1%R.
Lemma one1_pos : posEnv one1. Proof. intros n. unfold one1. lra. Qed.

(** The constant e is read as a symbol. *)
Theorem C33_constant_refuted : ~ roundTrip AsciiSet (Cst CE).
Proof.
  intros H. destruct (H one1 1%nat (txt "e") [CBug "name of a constant"%string] _ one1_pos eq_refl eq_refl) as [t [Ht Et]].
  vm_compute in Ht. injection Ht as <-. cbn [pval] in Et. injection Et as Et. unfold one1 in Et.
  pose proof (exp_ineq1 1 ltac:(lra)). lra.
Qed.
Print Assumptions C33_constant_refuted.
(** In unicode, the default of PlaintextPrintEngine, pi isn't read back. *)
Theorem C33_unicode_refuted : ~ roundTrip UnicodeSet (Cst CPi).
Proof.
  intros H. destruct (H one1 1%nat _ [CBug "name of a constant"%string] _ one1_pos eq_refl eq_refl) as [t [Ht Et]].
  vm_compute in Ht. discriminate.
Qed.
Print Assumptions C33_unicode_refuted.
(** A superscript is read as an exponent. *)
Theorem C33_superscript_refuted : ~ roundTrip AsciiSet (Sym (mkName "a" "" "2") false).
Proof.
  intros H. destruct (H (fun n _ => if string_dec (nsuper n) "2" then 2 else 1)%R 1%nat (txt "a^2") [] 2%R) as [t [Ht Et]]; auto.
  - intros n. destruct (string_dec (nsuper n) "2"); lra.
  - vm_compute in Ht. injection Ht as <-. cbn in Et. rewrite (rpow_l1 2) in Et. injection Et as Et. lra.
Qed.
Print Assumptions C33_superscript_refuted.
(** A positive symbol is read as another one. *)
Theorem C33_positive_refuted : ~ roundTrip AsciiSet (Sym (nm "a") true).
Proof.
  intros H. destruct (H (fun _ p => if p then 2 else 1)%R 1%nat (txt "a") [] 2%R) as [t [Ht Et]]; auto.
  - intros n. lra.
  - vm_compute in Ht. injection Ht as <-. cbn in Et. injection Et as Et. lra.
Qed.
Print Assumptions C33_positive_refuted.
(** (sqrt(3 + 2*sqrt(2)) - sqrt(2))^a is printed without parentheses: -sqrt(2) + sqrt(3 + 2*sqrt(2))^a. *)
Definition rootTwo : expr := Pow (numZ 2) half.
Definition likeOne : expr := Sum [Prod [mOne; rootTwo]; Pow (Sum [numZ 3; Prod [numZ 2; rootTwo]]) half].
Theorem C33_parentheses_refuted : ~ roundTrip AsciiSet (Pow likeOne (Sym (nm "a") false)).
Proof.
  intros H.
  assert (X : match printTop refSys W0 AsciiSet true 10 (Pow likeOne (Sym (nm "a") false)) with
              | Ok s _ => s = txt "-sqrt(2) + sqrt(3 + 2*sqrt(2))^a" | _ => False end) by (lazy; reflexivity).
  destruct (printTop refSys W0 AsciiSet true 10 (Pow likeOne (Sym (nm "a") false))) as [s facts| | |] eqn:E; try contradiction. subst s.
  assert (Hh : Q2R (1 # 2) = (/ 2)%R) by (unfold Q2R; cbn; lra).
  assert (Hz : forall z, Q2R (ofZ z) = IZR z) by (intros; unfold Q2R, ofZ; cbn; lra).
  assert (S2 : rpow 2 (/ 2) = Some (sqrt 2)) by (rewrite rpow_pos, Rpower_sqrt by lra; reflexivity).
  assert (P2 : (0 < sqrt 2)%R) by (apply sqrt_lt_R0; lra).
  assert (Q2 : (sqrt 2 * sqrt 2 = 2)%R) by (apply sqrt_sqrt; lra).
  assert (S3 : rpow (3 + 2 * sqrt 2) (/ 2) = Some (1 + sqrt 2)%R).
  { rewrite rpow_pos, Rpower_sqrt by lra. f_equal. apply sqrt_lem_1; nra. }
  set (r := fun (_ : name) (_ : bool) => 2%R).
  assert (Hr : posEnv r) by (intros n; unfold r; lra).
  assert (Ev : eval r (Pow likeOne (Sym (nm "a") false)) = Some 1%R).
  { assert (E2 : eval r rootTwo = Some (sqrt 2)).
    { unfold rootTwo. cbn [eval numZ half]. rewrite Hz, Hh. exact S2. }
    assert (El : eval r likeOne = Some 1%R).
    { unfold likeOne. cbn [eval fold_right]. rewrite E2. cbn [eval numZ half mOne oplus omult]. rewrite !Hz, Hh.
      replace (3 + (2 * (sqrt 2 * 1) + 0))%R with (3 + 2 * sqrt 2)%R by ring. rewrite S3. cbn [oplus]. f_equal.
      unfold Q2R. cbn. field. }
    cbn [eval]. rewrite El. unfold r. apply rpow_l1. }
  destruct (H r 10%nat _ facts 1%R Hr E Ev) as [t [Ht Et]].
  - vm_compute in Ht. injection Ht as <-. cbn [pval omap omap2] in Et.
    destruct (Rle_dec 0 2) as [_|N]; [|lra]. cbn [omap omap2] in Et.
    destruct (Rle_dec 0 (3 + 2 * sqrt 2)) as [_|N]; [|lra]. cbn [omap omap2] in Et.
    unfold r in Et. replace (sqrt (3 + 2 * sqrt 2)) with (1 + sqrt 2)%R in Et by (symmetry; apply sqrt_lem_1; nra).
    rewrite rpow_r2 in Et. cbn [omap2] in Et. injection Et as Et. nra.
Qed.
Print Assumptions C33_parentheses_refuted.

(** The theorem applies: fractions, signs, powers, functions and subscripts; all facts are right. *)
Definition printed : expr :=
  Sum [Num (-7 # 3); Prod [Num (-2 # 3); Pow (Sym (mkName "b" "12" "") false) (Num (-2 # 1)); Pow (Sym (nm "x") false) (Num (-1 # 2))];
       Fct FAtan2 [Pow (Sym (nm "x") false) half; Prod [Sym (nm "x") false; Cst CPi]]].
Example C33_case : printTop refSys W0 AsciiSet true 20 printed = Ok (txt "-7/3 - 2/(3*b_{12}^2*sqrt(x)) + atan2(sqrt(x), x*pi)") []
  /\ wf (readAs AsciiSet one1) printed /\ eval one1 printed <> None.
Proof.
  split; [|split].
  - lazy. reflexivity.
  - assert (R1 : forall n, identifier (txt (nvalue n)) -> noPrefix (txt (nvalue n)) -> Forall alphaNum (txt (nsub n)) -> nsuper n = ""%string ->
                 readAs AsciiSet one1 n false) by (intros n A B C D; unfold readAs, readable; intuition discriminate).
    assert (N : forall c, Ascii.eqb (lower c) "p" = false -> Ascii.eqb (lower c) "e" = false -> noPrefix [c]).
    { intros c Hp He a b E. split; intros X; inversion X as [|? d ? w Hd HX]; subst; cbn [app] in E; injection E as -> E; symmetry in E; apply app_eq_nil in E as [-> _]; inversion HX. }
    assert (I : forall c, isAlpha c = true -> identifier [c]) by (intros c Hc; split; [now apply letter_iff|constructor]).
    assert (Rb : readAs AsciiSet one1 (mkName "b" "12" "") false).
    { apply R1; [now apply I|now apply N| |reflexivity]. apply alnums_iff. now vm_compute. }
    assert (Rx : readAs AsciiSet one1 (nm "x") false) by (apply R1; [now apply I|now apply N|constructor|reflexivity]).
    unfold printed. cbn [wf half length]. unfold canon. cbn. tauto.
  - unfold printed, one1. cbn [eval fold_right half]. rewrite !rpow_l1. cbn. unfold angle. destruct (Req_EM_T _ 0); [|discriminate].
    exfalso. pose proof PI_RGT_0. lra.
Qed.
