(** Model of expressions: src/name.h, src/base.cpp, src/basefct.cpp and the
    equality, has, hash and complexity members of src/symbol.cpp, constant.cpp,
    undefined.cpp, numeric.cpp, sum.cpp, product.cpp, power.cpp, function.cpp,
    trigonometric.cpp, logarithm.cpp.

    Simplifications: expressions are finite trees (the shared pointers of the
    code are never mutated); numerics are rationals only. *)
From Coq Require Export String Ascii.
From Verif Require Export NumberModel.
Close Scope string_scope.
Open Scope Z_scope.

(** struct Name, src/name.h:14-22. *)
Record name := mkName { nvalue : string; nsub : string; nsuper : string }.

(** std::string::operator==: equality of the characters. *)
Definition strEq (a b : string) : bool := String.eqb a b.
(** std::string::operator<: lexicographic in the unsigned character codes. *)
Definition strLt (a b : string) : bool :=
  match String.compare a b with Lt => true | _ => false end.

(** operator==, src/name.cpp:13-16. *)
Definition nameEq (a b : name) : bool :=
  strEq (nvalue a) (nvalue b) && strEq (nsub a) (nsub b) && strEq (nsuper a) (nsuper b).
(** operator<, src/name.cpp:23-26: std::tie compares lexicographically, using only <. *)
Definition nameLt (a b : name) : bool :=
  if strLt (nvalue a) (nvalue b) then true
  else if strLt (nvalue b) (nvalue a) then false
  else if strLt (nsub a) (nsub b) then true
  else if strLt (nsub b) (nsub a) then false
  else strLt (nsuper a) (nsuper b).
(** operator>, src/name.cpp:33-36. *)
Definition nameGt (a b : name) : bool := nameLt b a.
(** operator<=, src/name.cpp:28-31. *)
Definition nameLe (a b : name) : bool := negb (nameGt a b).
(** operator>=, src/name.cpp:38-41. *)
Definition nameGe (a b : name) : bool := negb (nameLt a b).
(** operator!=, src/name.cpp:18-21. *)
Definition nameNe (a b : name) : bool := negb (nameEq a b).

(** Constant::Type, src/constant.h:16. *)
Inductive cst := CPi | CE.
(** Trigonometric::Type, src/trigonometric.h:25, and the logarithm. *)
Inductive fct := FSin | FCos | FTan | FAsin | FAcos | FAtan | FAtan2 | FLog.

(** The subclasses of Base.  A Power has the operands base and exponent
    (src/power.cpp:19-27). *)
Inductive expr :=
| Num (q : Q)
| Sym (n : name) (positive : bool)
| Cst (c : cst)
| Undef
| Fct (f : fct) (args : list expr)
| Sum (l : list expr)
| Prod (l : list expr)
| Pow (b e : expr).

Definition nm (s : string) : name := mkName s EmptyString EmptyString.

(** Constant::createPi, createE, src/constant.cpp:18-30. *)
Definition cstName (c : cst) : name :=
  match c with CPi => nm "pi"%string | CE => nm "e"%string end.
(** nameBy, src/trigonometric.cpp:38-59, and src/logarithm.cpp:15-20. *)
Definition fctName (f : fct) : name :=
  match f with
  | FSin => nm "sin"%string | FCos => nm "cos"%string | FTan => nm "tan"%string
  | FAsin => nm "asin"%string | FAcos => nm "acos"%string | FAtan => nm "atan"%string
  | FAtan2 => nm "atan2"%string | FLog => nm "log"%string
  end.

(** Base::operands, src/base.cpp:180-183; the constructors of the subclasses. *)
Definition ops (e : expr) : list expr :=
  match e with
  | Fct _ l | Sum l | Prod l => l
  | Pow b x => [b; x]
  | _ => []
  end.

(** isNumeric ... isUndefined, src/basefct.cpp:46-84. *)
Definition isNumeric e := match e with Num _ => true | _ => false end.
Definition isSymbol e := match e with Sym _ _ => true | _ => false end.
Definition isConstant e := match e with Cst _ => true | _ => false end.
Definition isUndefined e := match e with Undef => true | _ => false end.
Definition isFunction e := match e with Fct _ _ => true | _ => false end.
Definition isSum e := match e with Sum _ => true | _ => false end.
Definition isProduct e := match e with Prod _ => true | _ => false end.
Definition isPower e := match e with Pow _ _ => true | _ => false end.

(** sameType, src/basefct.cpp:86-89: one type string per subclass, all
    functions share one. *)
Definition sameType (a b : expr) : bool :=
  match a, b with
  | Num _, Num _ | Sym _ _, Sym _ _ | Cst _, Cst _ | Undef, Undef
  | Fct _ _, Fct _ _ | Sum _, Sum _ | Prod _, Prod _ | Pow _ _, Pow _ _ => true
  | _, _ => false
  end.

(** isEqual: src/base.cpp:31-34, 190-196, src/baseptrlistfct.cpp:29-32,
    src/symbol.cpp:92-106, src/constant.cpp:37-43, src/undefined.cpp:23-34,
    src/numeric.cpp:77-83, src/function.cpp:14-20.  The pointer comparison that
    comes first in the code is dropped: it only answers true early for
    expressions without Undefined, see [C05_equality_reflexive]. *)
Fixpoint isEqual (a b : expr) {struct a} : bool :=
  let fix areEqual (l1 l2 : list expr) {struct l1} : bool :=
    match l1, l2 with
    | [], [] => true
    | x :: xs, y :: ys => isEqual x y && areEqual xs ys
    | _, _ => false
    end in
  match a, b with
  | Num p, Num q => qeqb p q
  | Sym n p, Sym m q => if nameEq n m then Bool.eqb p q else false
  | Cst c, Cst d => nameEq (cstName c) (cstName d)
  | Fct f l, Fct g m => nameEq (fctName f) (fctName g) && areEqual l m
  | Sum l, Sum m => areEqual l m
  | Prod l, Prod m => areEqual l m
  | Pow b1 e1, Pow b2 e2 => isEqual b1 b2 && (isEqual e1 e2 && true)
  | _, _ => false
  end.

(** areEqual, src/baseptrlistfct.cpp:29-32 (boost::equal: the lengths must agree). *)
Fixpoint areEqual (l1 l2 : list expr) {struct l1} : bool :=
  match l1, l2 with
  | [], [] => true
  | x :: xs, y :: ys => isEqual x y && areEqual xs ys
  | _, _ => false
  end.

(** isDifferent, src/base.cpp:36-39, src/undefined.cpp:66-72. *)
Definition isDifferent (a b : expr) : bool := negb (isEqual a b).

(** isZero, isOne, src/basefct.cpp:27-35. *)
Definition isZero (e : expr) : bool := match e with Num q => qeqb q 0 | _ => false end.
Definition isOne (e : expr) : bool := match e with Num q => qeqb q 1 | _ => false end.

(** has, src/base.cpp:41-51, src/undefined.cpp:74-78. *)
Fixpoint has (e other : expr) {struct e} : bool :=
  match e with
  | Undef => false
  | Num _ | Sym _ _ | Cst _ => isEqual e other
  | Fct _ l | Sum l | Prod l => isEqual e other || existsb (fun x => has x other) l
  | Pow b x => isEqual e other || (has b other || has x other)
  end.

(** complexity: src/numeric.cpp:118-126, src/symbol.cpp:143-146,
    src/constant.cpp:86-89, src/undefined.cpp:94-97, src/sum.cpp:134-137,
    src/product.cpp:138-141, src/power.cpp:135-138,
    src/trigonometric.cpp:522-525, src/logarithm.cpp:137-140,
    src/baseptrlistfct.cpp:70-74.  Simplification: unsigned arithmetic doesn't wrap. *)
Fixpoint complexity (e : expr) : Z :=
  match e with
  | Num q => if qIsInt q then 1 else 2
  | Sym _ _ => 5
  | Cst _ => 4
  | Undef => 0
  | Fct _ l => 6 + fold_right (fun x a => complexity x + a) 0 l
  | Sum l | Prod l => 5 + fold_right (fun x a => complexity x + a) 0 l
  | Pow b x => 5 + complexity b + 2 * complexity x
  end.

(** Number of nodes: the measure for recursions over expressions; not in the code. *)
Fixpoint esize (e : expr) : nat :=
  match e with
  | Fct _ l | Sum l | Prod l => S (fold_right (fun x a => esize x + a)%nat 0%nat l)
  | Pow b x => S (esize b + esize x)
  | _ => 1%nat
  end.

Definition lsize (l : list expr) : nat := fold_right (fun x a => esize x + a)%nat 0%nat l.

(** The primitive hash functions and boost::hash_combine; [h] is size_t. *)
Record hashes (h : Type) := mkHashes {
  h_seed : h;
  h_comb : h -> h -> h;
  h_str : string -> h;
  h_bool : bool -> h;
  h_dbl : Q -> h;
  h_int : Z -> h;
  h_cst : cst -> h;
  h_undef : h
}.
Arguments h_seed {h}. Arguments h_comb {h}. Arguments h_str {h}. Arguments h_bool {h}.
Arguments h_dbl {h}. Arguments h_int {h}. Arguments h_cst {h}. Arguments h_undef {h}.

Section Hash.
  Context {h : Type} (H : hashes h).

  (** hash_value(Name), src/name.cpp:48-57. *)
  Definition hashName (n : name) : h :=
    h_comb H (h_comb H (h_comb H (h_seed H) (h_str H (nvalue n))) (h_str H (nsub n)))
      (h_str H (nsuper n)).

  (** std::hash<Number>, src/number.cpp:339-348; [h_dbl q] is the hash of the
      double next to q. *)
  Definition hashNumber (q : Q) : h :=
    h_comb H (h_comb H (h_comb H (h_seed H) (h_dbl H q)) (h_int H (qden q))) (h_int H (qnum q)).

  (** The type strings, src/basetypestr.cpp. *)
  Definition typeString (e : expr) : string :=
    match e with
    | Num _ => "Numeric" | Sym _ _ => "Symbol" | Cst _ => "Constant" | Undef => "Undefined"
    | Fct _ _ => "Function" | Sum _ => "Sum" | Prod _ => "Product" | Pow _ _ => "Power"
    end%string.

  (** Base::hash of the subclasses: src/numeric.cpp:113-116,
      src/symbol.cpp:133-141, src/constant.cpp:79-84, src/undefined.cpp:61-64,
      src/function.cpp:22-30, src/sum.cpp:129-132, src/product.cpp:133-136,
      src/power.cpp:130-133; hash_value(BasePtr), src/baseptr.cpp:17-25, for the
      operands. *)
  Fixpoint hash (e : expr) : h :=
    let hashList := fold_left (fun s x =>
      h_comb H s (h_comb H (h_comb H (h_seed H) (h_str H (typeString x))) (hash x))) in
    match e with
    | Num q => hashNumber q
    | Sym n p => h_comb H (h_comb H (h_seed H) (hashName n)) (h_bool H p)
    | Cst c => h_cst H c
    | Undef => h_undef H
    | Fct f l => h_comb H (h_comb H (h_seed H) (hashName (fctName f))) (hashList l (h_seed H))
    | Sum l | Prod l => hashList l (h_seed H)
    | Pow b x => hashList [b; x] (h_seed H)
    end.

  (** hash_value(BasePtr), src/baseptr.cpp:17-25. *)
  Definition hashPtr (e : expr) : h :=
    h_comb H (h_comb H (h_seed H) (h_str H (typeString e))) (hash e).
End Hash.
