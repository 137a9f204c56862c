(** Differentiation and simplify(): diffWrtSymbol of all expression types, src/base.cpp:170-178 and
    src/functions.cpp:110-149. *)
From Verif Require Export World.
Open Scope Z_scope.

Section Diff.
  Variables (Y : sys) (W : oper).

  (** innerDiff, src/trigonometric.cpp:463-490. *)
  Definition innerDiff (f : fct) (l : list expr) : res expr :=
    match f, l with
    | FSin, [a] => w_trig W FCos a
    | FCos, [a] => s <- w_trig W FSin a ;; minus W [s]
    | FTan, [a] => t <- w_trig W FTan a ;; s <- square W t ;; w_sum W [one; s]
    | FAsin, [a] => s <- square W a ;; m <- minus W [s] ;; t <- w_sum W [one; m] ;; w_pow W t (Num (-1 # 2))
    | FAcos, [a] => s <- square W a ;; m <- minus W [s] ;; t <- w_sum W [one; m] ;;
                    p <- w_pow W t (Num (-1 # 2)) ;; minus W [p]
    | FAtan, [a] => s <- square W a ;; t <- w_sum W [one; s] ;; oneOver W t
    | FAtan2, [y; x] => a <- atan2ArgEval W y x ;; s <- square W a ;; t <- w_sum W [one; s] ;; oneOver W t
    | _, _ => UB "arguments"%string
    end.

  (** Product::diffWrtSymbol, src/product.cpp:104-120: the summands of the product rule.  [pre] are the
      factors before the current one. *)
  Fixpoint productRule (d : expr -> res expr) (pre l : list expr) : res (list expr) :=
    match l with
    | [] => ret []
    | f :: r =>
        f' <- d f ;;
        p <- w_prod W (f' :: pre ++ r) ;;
        s <- productRule d (pre ++ [f]) r ;;
        ret (p :: s)
    end.

  (** diffWrtSymbol: numeric.cpp:98-101, constant.cpp:64-67, undefined.cpp:46-49, symbol.cpp:118-121,
      sum.cpp:103-111, product.cpp:104-120, power.cpp:105-111, logarithm.cpp:107-110,
      trigonometric.cpp:447-461. *)
  Fixpoint diffE (n : nat) (x e : expr) : res expr :=
    match n with O => Fuel | S n' =>
    match e with
    | Num _ | Cst _ => ret zero
    | Undef => ret Undef
    | Sym _ _ => ret (if isEqual e x then one else zero)
    | Sum l => s <- mapM (diffE n' x) l ;; w_sum W s
    | Prod l => s <- productRule (diffE n' x) [] l ;; w_sum W s
    | Pow b y =>
        lb <- w_log W b ;; dy <- diffE n' x y ;; p <- w_prod W [lb; dy] ;;
        ib <- oneOver W b ;; db <- diffE n' x b ;; q <- w_prod W [y; ib; db] ;;
        s <- w_sum W [p; q] ;; w_prod W [e; s]
    | Fct FLog [a] => i <- oneOver W a ;; d <- diffE n' x a ;; w_prod W [i; d]
    | Fct FAtan2 [v; w] =>
        a <- atan2ArgEval W v w ;; o <- diffE n' x a ;; i <- innerDiff FAtan2 [v; w] ;;
        p <- w_prod W [i; o] ;; w_normal W p
    | Fct f [a] => o <- diffE n' x a ;; i <- innerDiff f [a] ;; p <- w_prod W [i; o] ;; w_normal W p
    | Fct _ _ => UB "arguments"%string
    end end.

  (** Base::diff, src/base.cpp:170-178. *)
  Definition diffTop (n : nat) (e x : expr) : res expr :=
    match x with Sym _ _ => diffE n x e | _ => ret Undef end.

  (** simplify, src/functions.cpp:110-149.  Time measurement and log messages are left out. *)
  Fixpoint normalLoop (n : nat) (last next : expr) : res expr :=
    if isEqual next last then ret next
    else match n with O => Fuel | S n' => nn <- w_normal W next ;; normalLoop n' next nn end.
  Definition simplifyVar (n : nat) (e : expr) : res expr :=
    x <- w_expand W e ;;
    nx <- w_normal W e ;;
    if isUndefined nx then ret nx
    else
      nl <- normalLoop n e nx ;;
      en <- w_expand W nl ;;
      let se := if complexity en <? complexity x then en else x in
      ret (if complexity nl <? complexity se then nl else se).
End Diff.
