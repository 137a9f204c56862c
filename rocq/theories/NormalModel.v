(** Normalisation: src/fraction.cpp, src/symbolmap.cpp, src/powernormal.cpp and the functions normal of
    src/{base,numeric,symbol,constant,undefined,sum,product,power,trigonometric,logarithm}.cpp.

    Simplification: the cache of normalViaCache (src/base.cpp:147-157) is left out, see CacheModel.v. *)
From Verif Require Export PolyModel TrigModel.
Open Scope Z_scope.

Section Normal.
  Variables (Y : sys) (W : oper).
  Notation nev := (numericEval Y).
  Variable fuel : nat.

  (** ** The gcd and what the code relies on

      Nothing is assumed about the polynomial gcd.  The code relies on its being a polynomial in the
      symbols of both arguments ([polyOK]) and on its dividing them; where neither an exact division shows
      this nor the code itself checks it, it is recorded as a fact. *)
  Definition canonb (q : Q) : bool := Z.gcd (Qnum q) (Zpos (Qden q)) =? 1.
  Fixpoint polyOK (L : list expr) (e : expr) : bool :=
    match e with
    | Num q => canonb q
    | Sym _ _ => existsb (isEqual e) L
    | Sum l | Prod l => forallb (polyOK L) l
    | Pow b (Num q) => polyOK L b && canonb q && qIsInt q && qltb 0 q
    | _ => false
    end.
  (** poly::gcd, src/poly.cpp:270-285. *)
  Definition polyGcd (u v : expr) : res expr :=
    g <- quiet (gcdCompute Y W true u v) ;;
    _ <- relyIf (negb (polyOK (listOfSymbols Y u v) g)) (CBug "gcd"%string) ;; ret g.
  (** Division by something that divides. *)
  Definition exactDivide (u g : expr) : res expr :=
    '(q, s) <- polyDivide Y W fuel u g ;;
    _ <- relyIf (isUndefined q) (CBug "division"%string) ;; _ <- relyZero s ;; ret q.
  (** Not in the code: [g], which divides [u], isn't zero unless [u] is. *)
  Definition relyFactor (u g : expr) : res Datatypes.unit :=
    match polyDivide Y W fuel u g with
    | Ok (q, s) l => if isZero s then Ok tt l else rely (CNonZero g)
    | _ => rely (CNonZero g)
    end.

  (** ** src/fraction.cpp *)

  (** eval, src/fraction.cpp:11-14. *)
  Definition fracEval (n d : expr) : res expr := i <- oneOver W d ;; w_prod W [n; i].
  (** cancel, cancelNonTrivial, src/fraction.cpp:21-46. *)
  Definition cancel (n d : expr) : res (expr * expr) :=
    if isOne d then ret (n, one)
    else if isZero n then ret (n, one)
    else
      x <- w_expand W d ;;
      if isZero x then ret (Undef, one)
      else g <- polyGcd n d ;; d' <- exactDivide d g ;; n' <- exactDivide n g ;; ret (n', d').

  (** ** src/symbolmap.cpp *)

  (** getTmpSymbolAndStore, src/symbolmap.cpp:6-12. *)
  Definition getTmp (m : smap) (t : expr) : res (expr * smap) :=
    match find (fun s => isEqual t (snd s)) (m_list m) with
    | Some (n, p, _) => ret (Sym n p, m)
    | None =>
        p <- inEnv (m_list m) (w_pos W t) ;;
        let n := tmpNm (m_base m + length (m_list m)) in
        ret (Sym n p, mkMap (m_base m) (m_list m ++ [(n, p, t)]))
    end.
  (** replaceTmpSymbolsBackFrom, src/symbolmap.cpp:14-28. *)
  Fixpoint substAll (l : list (name * bool * expr)) (e : expr) : res expr :=
    match l with
    | [] => ret e
    | (n, p, t) :: s => e' <- w_subst W e (Sym n p) t ;; substAll s e'
    end.
  Fixpoint replaceBack (k : nat) (m : smap) (e : expr) : res expr :=
    match k with
    | O => Fuel
    | S k' =>
        e' <- inEnv (m_list m) (substAll (m_list m) e) ;;
        if isUndefined e' then ret e'
        else if negb (isEqual e' e) then replaceBack k' m e'
        else ret e'
    end.
  (** Not in the code: no temporary symbol is left. *)
  Definition noneLeft (m : smap) (e : expr) : bool :=
    forallb (fun s => let '(n, p, _) := s in negb (has e (Sym n p))) (m_list m).

  (** ** src/powernormal.cpp *)

  (** evaluatePow, src/powernormal.cpp:82-87. *)
  Definition evaluatePow (m : smap) (b x : expr) : res (expr * smap) :=
    p <- inEnv (m_list m) (w_pow W b x) ;;
    if isOne p then ret (p, m) else getTmp m p.
  (** normalIntegerExp, src/powernormal.cpp:39-54. *)
  Definition normalIntegerExp (m : smap) (n d x : expr) (k : Z) : res (expr * expr * smap) :=
    _ <- relyInt Y x ;;
    p <- inEnv (m_list m) (w_pow W n (numZ (Z.abs k))) ;; q <- inEnv (m_list m) (w_pow W d (numZ (Z.abs k))) ;;
    if 0 <? k then ret (p, q, m) else if k <? 0 then ret (q, p, m) else ret (one, one, m).
  (** normalNumEvalExp, normalNumEvalPosExp, normalNumEvalNegExp, src/powernormal.cpp:64-80, 89-96. *)
  Definition normalNumEvalExp (m : smap) (n d x : expr) : res (expr * expr * smap) :=
    pos <- quiet (w_pos W x) ;;
    if pos then
      _ <- inEnv (m_list m) (relyLt zero d) ;;
      '(p, m1) <- evaluatePow m n x ;; '(q, m2) <- evaluatePow m1 d x ;; ret (p, q, m2)
    else
      _ <- relyLt x zero ;; _ <- inEnv (m_list m) (relyLt zero d) ;;
      y <- minus W [x] ;;
      '(p, m1) <- evaluatePow m d y ;; '(q, m2) <- evaluatePow m1 n y ;; ret (p, q, m2).
  (** PowerNormal::PowerNormal, normal and normalNonNumEvalExp, src/powernormal.cpp:9-37, 56-62, 98-104. *)
  Definition powerNormal (m0 : smap) (b e : expr) : res (expr * expr * smap) :=
    '(n, d, m) <- w_normalF W m0 b ;; x <- w_normal W e ;;
    z <- (if isUndefined n || isUndefined d || isZero d then ret true
          else y <- inEnv (m_list m) (w_expand W d) ;; ret (isZero y || isUndefined x)) ;;
    if z then ret (Undef, one, m)
    else match nev x with
    | Some (NQ q) => if qIsInt q then normalIntegerExp m n d x (qnum q) else normalNumEvalExp m n d x
    | Some (ND _) => normalNumEvalExp m n d x
    | None =>
        p <- inEnv (m_list m) (f <- fracEval n d ;; w_pow W f x) ;;
        '(t, m') <- getTmp m p ;; ret (t, one, m')
    end.

  (** The fractions of the operands of a sum or product. *)
  Fixpoint fractions (m : smap) (l : list expr) : res (list (expr * expr) * smap) :=
    match l with
    | [] => ret ([], m)
    | e :: s => '(n, d, m1) <- w_normalF W m e ;; '(f, m2) <- fractions m1 s ;; ret ((n, d) :: f, m2)
    end.

  (** Sum::toCommonDenom, src/sum.cpp:76-100. *)
  Fixpoint commonDenom (n d : expr) (l : list (expr * expr)) : res (expr * expr) :=
    match l with
    | [] => cancel n d
    | (n2, d2) :: s =>
        if isEqual d d2 then n' <- w_sum W [n; n2] ;; commonDenom n' d s
        else
          g <- polyGcd d d2 ;; _ <- relyFactor d2 g ;; i <- oneOver W g ;;
          a <- w_prod W [d2; i] ;; lcm <- w_expand W a ;;
          b <- w_prod W [d; i] ;; factor <- w_normal W b ;;
          t1 <- w_prod W [n; lcm] ;; x1 <- w_expand W t1 ;; t2 <- w_prod W [n2; factor] ;; x2 <- w_expand W t2 ;;
          t <- w_sum W [x1; x2] ;; n' <- w_normal W t ;;
          c <- w_prod W [d; lcm] ;; d' <- w_normal W c ;;
          commonDenom n' d' s
    end.

  (** Functions: trigonometric.cpp:422-448, logarithm.cpp:99-105. *)
  Definition functionNormal (m : smap) (f : fct) (l : list expr) : res (expr * expr * smap) :=
    t <- match f, l with
         | FAtan2, [y; x] => y' <- w_normal W y ;; x' <- w_normal W x ;; w_atan2 W y' x'
         | FLog, [x] => x' <- w_normal W x ;; w_log W x'
         | FAtan2, _ | FLog, _ => UB "arguments"%string
         | _, [x] => x' <- w_normal W x ;; w_trig W f x'
         | _, _ => UB "arguments"%string
         end ;;
    '(s, m') <- getTmp m t ;; ret (s, one, m').

  (** normal(SymbolMap&): numeric.cpp:90-96, symbol.cpp:113-116, constant.cpp:57-62, undefined.cpp:41-44,
      sum.cpp:63-74, product.cpp:82-102, power.cpp:98-103. *)
  Definition normalF (m : smap) (e : expr) : res (expr * expr * smap) :=
    match e with
    | Num q => ret (numZ (qnum q), numZ (Zpos (Qden q)), m)
    | Sym _ _ | Undef => ret (e, one, m)
    | Cst _ => '(s, m') <- getTmp m e ;; ret (s, one, m')
    | Fct f l => functionNormal m f l
    | Pow b x => powerNormal m b x
    | Sum l =>
        z <- w_expand W e ;;
        if isZero z then ret (zero, one, m)
        else
          '(f, m') <- fractions m l ;;
          match f with
          | [] => UB "no operands"%string
          | (n, d) :: s => '(n', d') <- inEnv (m_list m') (commonDenom n d s) ;; ret (n', d', m')
          end
    | Prod l =>
        z <- w_expand W e ;;
        if isZero z then ret (zero, one, m)
        else
          '(f, m') <- fractions m l ;;
          '(n', d') <- inEnv (m_list m')
             (n <- w_prod W (map fst f) ;; d <- w_prod W (map snd f) ;; cancel n d) ;;
          ret (n', d', m')
    end.

  (** normalWithoutCache, src/base.cpp:159-168. *)
  Definition normalTop (e : expr) : res expr :=
    '(n, d, m) <- w_normalF W (mkMap (S (nameLen e)) []) e ;;
    n' <- replaceBack fuel m n ;; d' <- replaceBack fuel m d ;;
    _ <- relyIf (negb (noneLeft m n') || negb (noneLeft m d')) (CBug "temporary symbol left"%string) ;;
    fracEval n' d'.
End Normal.
