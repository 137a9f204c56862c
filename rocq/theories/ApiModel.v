(** The public interface: the operators of Var (src/var.cpp) and the functions of src/functions.cpp, and
    programs that use them. *)
From Verif Require Export DiffModel.
Open Scope Z_scope.

Section Api.
  Variables (W : oper) (F : nat).   (* F: bound for the loop in simplify *)

  (** Operators, src/var.cpp:115-152, 213-243. *)
  Definition varAdd (a b : expr) : res expr := w_sum W [a; b].
  Definition varSub (a b : expr) : res expr := m <- minus W [b] ;; w_sum W [a; m].
  Definition varMul (a b : expr) : res expr := w_prod W [a; b].
  Definition varDiv (a b : expr) : res expr := i <- oneOver W b ;; w_prod W [a; i].
  Definition varNeg (a : expr) : res expr := minus W [a].

  (** numerator and denominator: normalToFraction, src/functions.cpp:19-32, 176-184. *)
  Definition toFraction (e : expr) : res (expr * expr) :=
    '(n, d, m) <- w_normalF W (mkMap (S (nameLen e)) []) e ;;
    d' <- replaceBack W F m d ;; n' <- replaceBack W F m n ;;
    _ <- relyIf (negb (noneLeft m n') || negb (noneLeft m d')) (CBug "temporary symbol left"%string) ;;
    ret (n', d').

  (** A program that computes an expression. *)
  Inductive term :=
  | TInt (z : Z)                              (* Var(int) *)
  | TFrac (n d : Z)                           (* Var(int, int) *)
  | TSym (n : name) (positive : bool)         (* Var(name), Var(name, POSITIVE) *)
  | TConst (c : cst)                          (* pi(), euler() *)
  | TAdd (a b : term) | TSub (a b : term) | TMul (a b : term) | TDiv (a b : term) | TNeg (a : term)
  | TPow (a b : term) | TSqrt (a : term) | TLog (a : term)
  | TTrig (f : fct) (a : term)                (* sin, cos, tan, asin, acos, atan *)
  | TAtan2 (y x : term)
  | TSubst (a : term) (n : name) (positive : bool) (b : term)   (* subst(a, symbol, b) *)
  | TExpand (a : term) | TNormal (a : term) | TSimplify (a : term).

  (** Running the program.  The facts that an argument of subst relies on are about the assignment in
      which the symbol has the value of the replacement. *)
  Fixpoint build (t : term) : res expr :=
    match t with
    | TInt z => ret (numZ z)
    | TFrac n d => match mkRat n d with Some q => ret (Num q) | None => Throw end
    | TSym n p => ret (Sym n p)
    | TConst c => ret (Cst c)
    | TAdd a b => x <- build a ;; y <- build b ;; varAdd x y
    | TSub a b => x <- build a ;; y <- build b ;; varSub x y
    | TMul a b => x <- build a ;; y <- build b ;; varMul x y
    | TDiv a b => x <- build a ;; y <- build b ;; varDiv x y
    | TNeg a => x <- build a ;; varNeg x
    | TPow a b => x <- build a ;; y <- build b ;; w_pow W x y
    | TSqrt a => x <- build a ;; sqrtE W x
    | TLog a => x <- build a ;; w_log W x
    | TTrig f a => x <- build a ;; w_trig W f x
    | TAtan2 a b => x <- build a ;; y <- build b ;; w_atan2 W x y
    | TSubst a n p b => y <- build b ;; x <- inEnv [(n, p, y)] (build a) ;; w_subst W x (Sym n p) y
    | TExpand a => x <- build a ;; w_expand W x
    | TNormal a => x <- build a ;; w_normal W x
    | TSimplify a => x <- build a ;; simplifyVar W F x
    end.
End Api.

(** collectSymbols, src/functions.cpp:34-50, 201-208. *)
Definition insertSymbol (s : expr) (acc : list expr) : list expr :=
  if existsb (fun o => isEqual o s) acc then acc else acc ++ [s].
Fixpoint collectInto (e : expr) (acc : list expr) : list expr :=
  match e with
  | Sym _ _ => insertSymbol e acc
  | Fct _ l | Sum l | Prod l => fold_left (fun a x => collectInto x a) l acc
  | Pow b x => collectInto x (collectInto b acc)
  | _ => acc
  end.
Definition collectSymbols (e : expr) : list expr := collectInto e [].
