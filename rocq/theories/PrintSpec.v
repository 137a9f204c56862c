(** Names that can be printed and read back: specification for C33. *)
From Verif Require Export TextSpec GrammarSpec PrinterModel.
From Coq Require Import List String.
Import ListNotations.

(** A letter and then letters and digits; it doesn't begin with the name of a constant (C34); the subscript
    consists of letters and digits; no superscript; not a Greek letter if those are printed in unicode. *)
Definition readable (cs : charset) (n : name) : Prop :=
  identifier (txt (nvalue n)) /\ noPrefix (txt (nvalue n)) /\ Forall alphaNum (txt (nsub n)) /\ nsuper n = ""%string
  /\ (cs = UnicodeSet -> greek (txt (nvalue n)) = None).
(** The parser makes no positive symbols: a symbol that is positive has to have the same value as the symbol
    of the same name that isn't. *)
Definition readAs (cs : charset) (r : env) (n : name) (p : bool) : Prop := readable cs n /\ r n p = r n false.
