(** Executions of the simplification code.

    An execution ends with a result, an exception, undefined behaviour or runs out of the fuel given to
    the model (recursions of the code are not structural).  Along the way the model records which facts
    the code takes for granted: for example that a floating point comparison gave the right answer or
    that a cancelled factor isn't zero.  The recorded facts do not influence the execution. *)
From Verif Require Export FloatEval.
Open Scope Z_scope.

(** Facts an execution relies on.  Their meaning is [holds] in RunSpec.v. *)
Inductive cond :=
| CNumPow (p p' : payload)           (* rewriting the numeric power p to p' keeps the value *)
| CEq (e : expr) (q : Q)             (* e evaluates to q *)
| CNotInt (e : expr)                 (* the value of e isn't an integer *)
| CNonZero (e : expr)                (* e has a value other than zero *)
| CLt (a b : expr)                   (* comparison of values *)
| CLe (a b : expr)
| CSame (a b : expr)                 (* b has the value of a *)
| CEven (e : expr)                   (* e, the base of an even power that counts as positive, isn't zero *)
| CSign (e : expr)                   (* e, which counts as positive or negative, isn't zero *)
| CBug (s : string)                  (* the code takes a wrong turn: never true *)
| CUb (s : string)                   (* undefined behaviour with a known effect in libstdc++: no claim *)
| CIn (m : list (name * bool * expr)) (c : cond).   (* c, where the temporary symbols m stand for terms *)

Inductive res (A : Type) :=
| Ok (a : A) (facts : list cond)
| Fuel
| Throw
| UB (s : string).
Arguments Ok {A}. Arguments Fuel {A}. Arguments Throw {A}. Arguments UB {A}.

Definition ret {A} (a : A) : res A := Ok a [].
Definition bind {A B} (m : res A) (f : A -> res B) : res B :=
  match m with
  | Ok a l => match f a with Ok b l' => Ok b (l ++ l') | Fuel => Fuel | Throw => Throw | UB s => UB s end
  | Fuel => Fuel | Throw => Throw | UB s => UB s
  end.
Notation "x <- m ;; k" := (bind m (fun x => k)) (at level 61, m at next level, right associativity).
Notation "' p <- m ;; k" := (bind m (fun x => match x with p => k end))
  (at level 61, p pattern, m at next level, right associativity).

(** Record a fact. *)
Definition rely (c : cond) : res unit := Ok tt [c].
Definition relyIf (b : bool) (c : cond) : res unit := if b then rely c else ret tt.
(** Run something whose result only selects one of two correct ways to proceed: no fact is needed. *)
Definition quiet {A} (m : res A) : res A :=
  match m with Ok a _ => Ok a [] | Fuel => Fuel | Throw => Throw | UB s => UB s end.
(** Run with temporary symbols standing for terms. *)
Definition inEnv {A} (m : list (name * bool * expr)) (c : res A) : res A :=
  match c with Ok a l => Ok a (map (CIn m) l) | Fuel => Fuel | Throw => Throw | UB s => UB s end.

Definition mapM {A B} (f : A -> res B) : list A -> res (list B) :=
  fix mapM l := match l with
  | [] => ret []
  | x :: r => y <- f x ;; s <- mapM r ;; ret (y :: s)
  end.

(** Constants, src/numeric.cpp:32-75. *)
Definition zero : expr := Num 0.
Definition one : expr := Num 1.
Definition two : expr := Num 2.
Definition mOne : expr := Num (-1 # 1).
Definition half : expr := Num (1 # 2).
Definition pi : expr := Cst CPi.
Definition numZ (z : Z) : expr := Num (ofZ z).

(** Names of temporary symbols.  Simplification: the code numbers them by a global counter
    (src/symbol.cpp:85-90, modelled in SymbolModel.v, C31); here the name is longer than each name in the
    expressions at hand. *)
Fixpoint sharps (k : nat) : string := match k with O => EmptyString | S k' => String "#" (sharps k') end.
Definition tmpNm (k : nat) : name := nm (String.append "tmp" (sharps k)).
Fixpoint nameLen (e : expr) : nat :=
  match e with
  | Sym n _ => String.length (nvalue n)
  | Fct _ l | Sum l | Prod l => fold_right (fun x a => Nat.max (nameLen x) a) O l
  | Pow b x => Nat.max (nameLen b) (nameLen x)
  | _ => O
  end.

(** The temporary symbols of one normalisation: SymbolMap, src/symbolmap.h.  Entries in order of
    insertion (simplification: the code uses an unordered map).  Names start with length [m_base]. *)
Record smap := mkMap { m_base : nat; m_list : list (name * bool * expr) }.

(** All functions of the code that call each other recursively. *)
Record oper := mkOper {
  w_sum : list expr -> res expr;            (* Sum::create, src/sum.cpp:24-32 *)
  w_prod : list expr -> res expr;           (* Product::create, src/product.cpp:22-32 *)
  w_pow : expr -> expr -> res expr;         (* Power::create, src/power.cpp:29-35 *)
  w_spow : expr -> expr -> res (expr * expr);  (* simplifyPower, src/powersimpl.cpp:206-223 *)
  w_trig : fct -> expr -> res expr;         (* Trigonometric::create, src/trigonometric.cpp:115-127 *)
  w_atan2 : expr -> expr -> res expr;       (* createAtan2, src/trigonometric.cpp:104-113 *)
  w_log : expr -> res expr;                 (* Logarithm::create, src/logarithm.cpp:22-36 *)
  w_expand : expr -> res expr;              (* expand *)
  w_subst : expr -> expr -> expr -> res expr;  (* e.subst(from, to) *)
  w_pos : expr -> res bool;                 (* isPositive *)
  w_neg : expr -> res bool;                 (* isNegative *)
  w_normal : expr -> res expr;              (* normal() *)
  w_normalF : smap -> expr -> res (expr * expr * smap);  (* normal(SymbolMap&) *)
  w_gcd : bool -> list expr -> expr -> expr -> res expr  (* Gcd::compute(u, v, L); true: SubresultantGcd *)
}.

Definition noOper : oper :=
  mkOper (fun _ => Fuel) (fun _ => Fuel) (fun _ _ => Fuel) (fun _ _ => Fuel) (fun _ _ => Fuel) (fun _ _ => Fuel)
    (fun _ => Fuel) (fun _ => Fuel) (fun _ _ _ => Fuel) (fun _ => Fuel) (fun _ => Fuel) (fun _ => Fuel)
    (fun _ _ => Fuel) (fun _ _ _ _ => Fuel).
