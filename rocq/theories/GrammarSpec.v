(** The language of tsym::parse, as a grammar that says nothing about how a text is parsed.

    [gText read word s t]: the text s, all of it, denotes the tree t.  From weak to strong: sums and
    differences, products and quotients (both associate to the left), the sign, powers (associate to the
    right), and then numbers, names, constants, functions and parentheses.  White space may stand in front of
    every token and at the end.  [read] says which number a sequence of digits denotes and [word] which names
    a symbol may have. *)
From Verif Require Import ParserModel.
From Coq Require Import Ascii String ZArith List.
Import ListNotations.
Open Scope Z_scope.

(** ** Characters *)
Definition chars (s : string) : list ascii := list_ascii_of_string s.
Definition digitChars := chars "0123456789".
Definition smallLetters := chars "abcdefghijklmnopqrstuvwxyz".
Definition capitals := chars "ABCDEFGHIJKLMNOPQRSTUVWXYZ".
Definition aDigit (c : ascii) : Prop := In c digitChars.
Definition aLetter (c : ascii) : Prop := In c (smallLetters ++ capitals).
Definition alphaNum (c : ascii) : Prop := aLetter c \/ aDigit c.
(** Space, tab, line feed, vertical tab, form feed and carriage return. *)
Definition blank (c : ascii) : Prop := In c (" "%char :: map ascii_of_nat [9; 10; 11; 12; 13])%nat.
Definition blanks (s : text) : Prop := Forall blank s.
(** s is the word w, up to upper and lower case. *)
Definition isWord (w : string) (s : text) : Prop :=
  Forall2 (fun a c => c = a \/ In (a, c) (combine smallLetters capitals)) (chars w) s.

(** ** Numbers *)
(** The value of a numeral, digit by digit. *)
Fixpoint position (c : ascii) (l : list ascii) : Z :=
  match l with [] => 0 | d :: r => if ascii_dec c d then 0 else 1 + position c r end.
Definition digitValue (c : ascii) : Z := position c digitChars.
Inductive numeral (radix : Z) : text -> Z -> Prop :=
| num_first c : aDigit c -> digitValue c < radix -> numeral radix [c] (digitValue c)
| num_next ds z c : numeral radix ds z -> aDigit c -> digitValue c < radix ->
    numeral radix (ds ++ [c]) (radix * z + digitValue c).
Definition decimal : text -> Z -> Prop := numeral 10.
(** How the digits are read in fact: as an octal number if the first one is 0. *)
Definition asRead (ds : text) (z : Z) : Prop :=
  match ds with c :: _ => if ascii_dec c "0" then numeral 8 ds z else numeral 10 ds z | [] => False end.

(** A floating point number has a dot (with digits on at least one side of it) or an exponent. *)
Definition aMantissa (s : text) : Prop :=
  exists a b, Forall aDigit a /\ Forall aDigit b /\ a ++ b <> [] /\ s = a ++ "."%char :: b.
Definition anExponent (s : text) : Prop :=
  exists e sign ds, isWord "e" [e] /\ In sign [[]; ["+"%char]; ["-"%char]] /\ ds <> [] /\ Forall aDigit ds
    /\ s = e :: sign ++ ds.
Definition aFloat (s : text) : Prop :=
  aMantissa s
  \/ (exists a b, (aMantissa a \/ (a <> [] /\ Forall aDigit a)) /\ anExponent b /\ s = a ++ b).

(** ** Names *)
Definition identifier (s : text) : Prop :=
  match s with c :: r => aLetter c /\ Forall alphaNum r | [] => False end.
(** Every name that isn't the name of a constant. *)
Definition notConstant (s : text) : Prop := ~ isWord "pi" s /\ ~ isWord "euler" s.
(** Names that don't even begin with the name of a constant. *)
Definition noPrefix (s : text) : Prop :=
  forall a b, s = a ++ b -> ~ isWord "pi" a /\ ~ isWord "euler" a.

Definition fctName (f : pfct) : string :=
  match f with
  | PSin => "sin" | PCos => "cos" | PTan => "tan" | PAsin => "asin" | PAcos => "acos" | PAtan => "atan"
  | PLog => "log" | PSqrt => "sqrt"
  end.

Section Grammar.
  Variables (read : text -> Z -> Prop) (word : text -> Prop).

  (** Tokens with a value of their own. *)
  Inductive gToken : text -> ptree -> Prop :=
  | g_pi s : isWord "pi" s -> gToken s PPi
  | g_euler s : isWord "euler" s -> gToken s PEuler
  | g_symbol s : identifier s -> word s -> gToken s (PSym s [])
  | g_subscript s c : identifier s -> word s -> alphaNum c -> gToken (s ++ ["_"; c]%char) (PSym s [c])
  | g_subscripts s x : identifier s -> word s -> x <> [] -> Forall alphaNum x ->
      gToken (s ++ ["_"; "{"]%char ++ x ++ ["}"%char]) (PSym s x)
  | g_integer s z : read s z -> gToken s (PInt z)
  | g_float s : aFloat s -> gToken s (PFloat s).

  Inductive gOperand : text -> ptree -> Prop :=
  | g_token w s t : blanks w -> gToken s t -> gOperand (w ++ s) t
  | g_parens w s v t : blanks w -> gExpr s t -> blanks v -> gOperand (w ++ "("%char :: s ++ v ++ [")"%char]) t
  | g_function w f name u s v t : blanks w -> isWord (fctName f) name -> blanks u -> gExpr s t -> blanks v ->
      gOperand (w ++ name ++ u ++ "("%char :: s ++ v ++ [")"%char]) (PFct f t)
  | g_atan2 w name u s1 x s2 v a b : blanks w -> isWord "atan2" name -> blanks u -> gExpr s1 a -> blanks x ->
      gExpr s2 b -> blanks v ->
      gOperand (w ++ name ++ u ++ "("%char :: s1 ++ x ++ ","%char :: s2 ++ v ++ [")"%char]) (PAtan2 a b)
  with gFactor : text -> ptree -> Prop :=
  | g_operand s t : gOperand s t -> gFactor s t
  | g_power s1 w s2 a b : gOperand s1 a -> blanks w -> gFactor s2 b -> gFactor (s1 ++ w ++ "^"%char :: s2) (PPow a b)
  with gSigned : text -> ptree -> Prop :=
  | g_factor s t : gFactor s t -> gSigned s t
  | g_minus w s t : blanks w -> gFactor s t -> gSigned (w ++ "-"%char :: s) (PNeg t)
  with gProduct : text -> ptree -> Prop :=
  | g_signed s t : gSigned s t -> gProduct s t
  | g_times s1 w s2 a b : gProduct s1 a -> blanks w -> gSigned s2 b -> gProduct (s1 ++ w ++ "*"%char :: s2) (PMul a b)
  | g_divided s1 w s2 a b : gProduct s1 a -> blanks w -> gSigned s2 b -> gProduct (s1 ++ w ++ "/"%char :: s2) (PDiv a b)
  with gSum : text -> ptree -> Prop :=
  | g_product s t : gProduct s t -> gSum s t
  | g_plus s1 w s2 a b : gSum s1 a -> blanks w -> gProduct s2 b -> gSum (s1 ++ w ++ "+"%char :: s2) (PAdd a b)
  | g_difference s1 w s2 a b : gSum s1 a -> blanks w -> gProduct s2 b -> gSum (s1 ++ w ++ "-"%char :: s2) (PSub a b)
  with gExpr : text -> ptree -> Prop :=
  | g_sum s t : gSum s t -> gExpr s t
  | g_leadingPlus w s t : blanks w -> gSum s t -> gExpr (w ++ "+"%char :: s) t.

  Inductive gText : text -> ptree -> Prop := g_text s w t : gExpr s t -> blanks w -> gText (s ++ w) t.
End Grammar.

Scheme gOperand_mut := Minimality for gOperand Sort Prop
  with gFactor_mut := Minimality for gFactor Sort Prop
  with gSigned_mut := Minimality for gSigned Sort Prop
  with gProduct_mut := Minimality for gProduct Sort Prop
  with gSum_mut := Minimality for gSum Sort Prop
  with gExpr_mut := Minimality for gExpr Sort Prop.
Combined Scheme grammar_ind from gOperand_mut, gFactor_mut, gSigned_mut, gProduct_mut, gSum_mut, gExpr_mut.
