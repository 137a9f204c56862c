(** src/var.cpp and src/functions.cpp: type, name and operands of an expression. *)
From Coq Require Import String Ascii List.
From Verif Require Export TexModel.
Import ListNotations.

(** Var::Type, include/tsym/var.h:24. *)
Inductive vtype := TySum | TyProduct | TySymbol | TyPower | TyConstant | TyUndefined | TyFunction | TyInt | TyFraction | TyDouble.
(** typeStringMap, src/var.cpp:21-29. *)
Definition typeStringMap : list (string * vtype) :=
  [("Sum", TySum); ("Product", TyProduct); ("Symbol", TySymbol); ("Power", TyPower); ("Constant", TyConstant); ("Undefined", TyUndefined);
   ("Function", TyFunction); ("Integer", TyInt); ("Fraction", TyFraction); ("Double", TyDouble)]%string.
(** numericType, src/var.cpp:42-55, for rationals. *)
Definition numericType (q : Q) : vtype := if qIsInt q then TyInt else if qIsFraction q then TyFraction else TyUndefined.
(** Var::type, src/var.cpp:152-162; [None]: the assertion fails. *)
Definition varType (e : expr) : option vtype :=
  match e with
  | Num q => Some (numericType q)
  | _ => option_map snd (find (fun p => strEq (fst p) (typeString e)) typeStringMap)
  end.
(** operator<< for Var::Type, src/var.cpp:244-253; [None]: an error is logged. *)
Definition vtype_dec : forall a b : vtype, {a = b} + {a <> b}. Proof. decide equality. Defined.
Definition typeName (t : vtype) : option string :=
  option_map fst (find (fun p => if vtype_dec (snd p) t then true else false) typeStringMap).
(** Base::name, src/base.cpp:127-132, and its overrides: src/symbol.cpp:148-151, src/constant.cpp:91-94, src/function.cpp:42-45;
    name, src/functions.cpp:186-189; operands, src/functions.cpp:191-199, is [ops]. *)
Definition baseName (e : expr) : name :=
  match e with Sym n _ => n | Cst c => cstName c | Fct f _ => fctName f | _ => nm "" end.
Definition varName (e : expr) : text := concat (baseName e).
