(** Polynomials: degree and coeff of src/{base,numeric,sum,product,power,undefined}.cpp, src/poly.cpp,
    src/polyinfo.cpp, src/gcd.cpp, src/primitivegcd.cpp and src/subresultantgcd.cpp.

    Simplifications: degrees are integers without overflow except where the code checks for it; the
    caches of poly::divide and poly::gcd (src/poly.cpp:207-214, 270-280) are left out, see CacheModel.v;
    messages to the logger are left out. *)
From Verif Require Export SimplModel.
Open Scope Z_scope.

Section Poly.
  Variables (Y : sys) (W : oper).
  Notation nev := (numericEval Y).

  (** ** Degree and coefficients *)

  (** fitsInto<int>, src/int.h:15-21. *)
  Definition intMin : Z := -2147483648.
  Definition intMax : Z := 2147483647.
  Definition fitsInt (z : Z) : bool := (intMin <=? z) && (z <=? intMax).

  (** degree: src/base.cpp:109-115, numeric.cpp:161-164, undefined.cpp:88-92, sum.cpp:223-232,
      product.cpp:232-239, power.cpp:196-217.  Simplification: the limits are compared exactly instead of
      by doubles. *)
  Definition expNumerator (x : expr) : Z :=
    match nev x with Some (NQ q) => if qIsInt q then qnum q else 0 | _ => 0 end.
  Definition powerDegree (k d : Z) : Z :=
    if d =? 0 then 0
    else if fitsInt k && (0 <? d) && (k * d <? intMax) && (intMin <? k * d) then k * d
    else 0.
  Fixpoint degree (e x : expr) : Z :=
    match e with
    | Num _ | Undef => 0
    | Sum l => if isEqual e x then 1 else fold_left (fun a s => Z.max a (degree s x)) l intMin
    | Prod l => if isEqual e x then 1 else fold_left (fun a s => a + degree s x) l 0
    | Pow b y => if isEqual e x then 1 else powerDegree (expNumerator y) (degree b x)
    | _ => if isEqual e x then 1 else 0
    end.

  (** coeff: src/base.cpp:94-102, numeric.cpp:153-159, power.cpp:183-194. *)
  Definition monomial (x : expr) (k : Z) : res expr := w_pow W x (numZ k).
  Definition coeffSelf (k : Z) : res expr := ret (if k =? 1 then one else zero).
  Definition coeffPower (e b x : expr) (k : Z) : res expr :=
    p <- monomial x k ;;
    if isEqual e p then ret one
    else if negb (isEqual b x) then ret (if k =? 0 then e else zero)
    else ret zero.
  (** Product::coeff, coeffFactorMatch, src/product.cpp:204-230. *)
  Fixpoint withoutFirst (p : expr) (l : list expr) : option (list expr) :=
    match l with
    | [] => None
    | a :: r => if isEqual a p then Some r
                else match withoutFirst p r with Some s => Some (a :: s) | None => None end
    end.
  Definition coeffFactorMatch (l : list expr) (x : expr) (k : Z) : res expr :=
    p <- monomial x k ;;
    match withoutFirst p l with None => ret zero | Some f => w_prod W f end.
  (** Sum::coeff, coeffOverSummands, src/sum.cpp:203-221. *)
  Fixpoint coeff (e x : expr) (k : Z) : res expr :=
    match e with
    | Num _ => ret (if k =? 0 then e else zero)
    | Pow b _ => if isEqual e x then coeffSelf k else coeffPower e b x k
    | Prod l =>
        if isEqual e x then coeffSelf k
        else if negb (has e x) && (k =? 0) then ret e
        else coeffFactorMatch l x k
    | Sum l =>
        if isEqual e x then coeffSelf k
        else if negb (has e x) && (k =? 0) then ret e
        else fold_left (fun a s => c <- a ;; d <- coeff s x k ;; w_sum W [c; d]) l (ret zero)
    | _ =>
        if isEqual e x then coeffSelf k
        else ret (if negb (has e x) && (k =? 0) then e else zero)
    end.
  (** leadingCoeff, src/base.cpp:104-107. *)
  Definition leadingCoeff (e x : expr) : res expr := coeff e x (degree e x).

  (** ** src/polyinfo.cpp *)

  (** hasValidType, isValidPower, hasValidOperands, isInputValid, src/polyinfo.cpp:53-97. *)
  Definition validExp (x : expr) : bool :=
    match nev x with Some (NQ q) => qIsInt q && fitsInt (qnum q) && qltb 0 q | _ => false end.
  Fixpoint hasValidType (e : expr) : bool :=
    match e with
    | Sym _ _ | Num _ => true
    | Pow b x => hasValidType b && validExp x
    | Sum l | Prod l => forallb hasValidType l
    | _ => false
    end.
  Definition isInputValid (u v : expr) : bool :=
    if isZero u && isZero v then false else hasValidType u && hasValidType v.

  (** addSymbols and helpers, src/polyinfo.cpp:99-140. *)
  Definition addIfNotStored (l : list expr) (s : expr) : list expr :=
    if existsb (fun o => isEqual s o) l then l else l ++ [s].
  Fixpoint addSymbols (acc : list expr) (e : expr) : list expr :=
    match e with
    | Sym _ _ => addIfNotStored acc e
    | Sum l | Prod l => fold_left addSymbols l acc
    | Pow b _ => addSymbols acc b
    | _ => acc
    end.

  (** ComparePolyVariables, listOfSymbols, src/polyinfo.cpp:26-48, 142-152; std::list::sort is stable. *)
  Definition symName (e : expr) : name :=
    match e with Sym n _ => n | Cst c => cstName c | Fct f _ => fctName f | _ => nm EmptyString end.
  Definition compareVars (u v a b : expr) : bool :=
    let p := Z.min (degree u a) (degree v a) in
    let q := Z.min (degree u b) (degree v b) in
    if negb (p =? 0) && negb (q =? 0) then p <? q
    else if (p =? 0) && (q =? 0) then nameLt (symName a) (symName b)
    else negb (p =? 0).
  Fixpoint insertBy (lt : expr -> expr -> bool) (x : expr) (l : list expr) : list expr :=
    match l with [] => [x] | y :: r => if lt x y then x :: l else y :: insertBy lt x r end.
  Definition listOfSymbols (u v : expr) : list expr :=
    fold_left (fun a x => insertBy (compareVars u v) x a) (addSymbols (addSymbols [] u) v) [].

  (** ** Division, src/poly.cpp *)

  (** divideEmptyList, src/poly.cpp:27-35. *)
  Definition divideEmptyList (u v : expr) : res (expr * expr) :=
    i <- oneOver W v ;; q <- w_prod W [u; i] ;;
    match nev q with
    | Some (NQ _) =>
        _ <- match v with Num d => relyIf (qeqb d 0) (CNonZero v) | _ => rely (CNonZero v) end ;;
        ret (q, zero)
    | _ => ret (zero, u)
    end.

  (** divideNonEmpty, src/poly.cpp:37-69; [rec] divides polynomials in the remaining symbols. *)
  Fixpoint divideLoop (rec : expr -> expr -> res (expr * expr)) (x v : expr) (n : nat) (q r : expr) (m : Z)
    : res (expr * expr) :=
    match n with
    | O => Fuel
    | S n' =>
        if m <? degree v x then e <- w_expand W q ;; ret (e, r)
        else
          lr <- leadingCoeff r x ;; lv <- leadingCoeff v x ;;
          d <- rec lr lv ;;
          if negb (isZero (snd d)) then e <- w_expand W q ;; ret (e, r)
          else
            let c := fst d in
            t <- monomial x (m - degree v x) ;;
            p <- w_prod W [c; t] ;; q' <- w_sum W [q; p] ;;
            s <- minus W [c; v; t] ;; r1 <- w_sum W [r; s] ;; r' <- w_expand W r1 ;;
            if isZero r' then e <- w_expand W q' ;; ret (e, r')
            else divideLoop rec x v n' q' r' (degree r' x)
    end.

  (** divide, src/poly.cpp:217-237. *)
  Fixpoint divide (n : nat) (L : list expr) (u v : expr) : res (expr * expr) :=
    if negb (isInputValid u v) then ret (Undef, Undef)
    else match L with
    | [] => divideEmptyList u v
    | x :: R =>
        if isEqual v u then ret (one, zero)
        else if isZero u then ret (zero, zero)
        else divideLoop (divide n R) x v n zero u (degree u x)
    end.
  Definition polyDivide (n : nat) (u v : expr) : res (expr * expr) := divide n (listOfSymbols u v) u v.

  (** pseudoDivideChecked, pseudoDivideImpl, src/poly.cpp:71-117; pseudoDivide, pseudoRemainder,
      src/poly.cpp:239-252. *)
  Fixpoint pseudoLoop (cq : bool) (x v lv : expr) (n : nat) (q r : expr) (m sigma : Z) : res (expr * expr * Z) :=
    match n with
    | O => Fuel
    | S n' =>
        if m <? degree v x then ret (q, r, sigma)
        else
          lr <- coeff r x m ;; p <- monomial x (m - degree v x) ;; t <- w_prod W [lr; p] ;;
          q' <- (if cq then a <- w_prod W [lv; q] ;; w_sum W [a; t] else ret q) ;;
          a <- w_prod W [lv; r] ;; b <- minus W [v; t] ;; r1 <- w_sum W [a; b] ;; r' <- w_expand W r1 ;;
          if isZero r' then ret (q', r', sigma)
          else pseudoLoop cq x v lv n' q' r' (degree r' x) (sigma + 1)
    end.
  Definition pseudoDivide (cq : bool) (n : nat) (u v x : expr) : res (expr * expr) :=
    if negb (isInputValid u v) then ret (Undef, Undef)
    else
      lv <- leadingCoeff v x ;; r0 <- w_expand W u ;;
      '(q, r, sigma) <- pseudoLoop cq x v lv n zero r0 (degree u x) 0 ;;
      let k := Z.max (degree u x - degree v x + 1) 0 - sigma in
      _ <- relyIf (k <? 0) (CNonZero lv) ;;
      t <- w_pow W lv (numZ k) ;;
      a <- w_prod W [t; r] ;; r' <- w_expand W a ;;
      q' <- (if cq then b <- w_prod W [t; q] ;; w_expand W b else ret zero) ;;
      ret (q', r').

  (** minDegree, src/poly.cpp:170-205, 303-320. *)
  Fixpoint minDegree (e x : expr) : res Z :=
    match e with
    | Num _ => ret 0
    | Pow b y =>
        if isEqual e x then ret 1
        else match nev y with
        | None => UB "no numeric value"%string
        | Some a =>
            let k := match a with NQ q => qnum q | ND _ => 0 end in
            if negb (fitsInt k) then ret 0
            else if isEqual b x then ret k
            else d <- minDegree b x ;; ret (k * d)
        end
    | Sum l =>
        if isEqual e x then ret 1
        else
          d <- mapM (fun s => minDegree s x) l ;;
          match d with [] => UB "min_element of nothing"%string | a :: r => ret (fold_left Z.min r a) end
    | Prod l =>
        if isEqual e x then ret 1 else d <- mapM (fun s => minDegree s x) l ;; ret (fold_left Z.add d 0)
    | _ => ret (if isEqual e x then 1 else 0)
    end.

  (** ** src/gcd.cpp *)

  (** integerGcd, src/gcd.cpp:68-74.  The number of steps suffices for Euclid's algorithm. *)
  Fixpoint integerGcdN (n : nat) (u v : Z) : Z :=
    match n with O => u | S n' => if v =? 0 then u else integerGcdN n' v (Z.rem u v) end.
  Definition integerGcd (u v : Z) : Z := integerGcdN (Z.to_nat (2 * Z.log2 (Z.abs v) + 3)) u v.

  (** computeNumerics, src/gcd.cpp:54-66. *)
  Definition computeNumerics (p q : Q) : expr :=
    numZ (if qIsInt p && qIsInt q then integerGcd (qnum p) (qnum q) else 1).

  (** integerContent, integerContentOfSum, src/gcd.cpp:98-138. *)
  Fixpoint integerContent1 (e : expr) : res Z :=
    match e with
    | Sum l => fold_left (fun a s => z <- a ;; y <- integerContent1 s ;; ret (integerGcd z y)) l (ret 0)
    | _ =>
        t <- numericTerm e ;;
        ret (match nev t with Some (NQ q) => if qIsInt (qabs q) then qnum (qabs q) else 1 | _ => 1 end)
    end.
  Definition integerContent (u v : expr) : res expr :=
    a <- integerContent1 u ;; b <- integerContent1 v ;; ret (numZ (integerGcd a b)).

  (** normalizationFactor, src/gcd.cpp:150-172, the symbols from back to front.  [Fuel]: without symbols
      and for an argument that isn't numeric the code calls itself forever. *)
  Fixpoint normalizationFactor (e : expr) (L : list expr) : res Z :=
    match L with
    | [] => match e with Num q => ret (qsign q) | _ => Fuel end
    | x :: R => c <- leadingCoeff e x ;; match c with Num q => ret (qsign q) | _ => normalizationFactor c R end
    end.
  (** normalize, src/gcd.cpp:140-148. *)
  Definition gcdNormalize (e : expr) (L : list expr) : res expr :=
    f <- normalizationFactor e (rev L) ;; w_prod W [numZ f; e].

  (** haveCommonSymbol, src/gcd.cpp:76-83. *)
  Definition haveCommonSymbol (u v : expr) (L : list expr) : bool := existsb (fun x => has u x && has v x) L.

  (** Gcd::compute, src/gcd.cpp:14-22; poly::gcd, src/poly.cpp:282-285. *)
  Definition gcdCompute (sub : bool) (u v : expr) : res expr :=
    if isInputValid u v then w_gcd W sub (listOfSymbols u v) u v else ret Undef.

  (** content, nonTrivialContent, src/poly.cpp:156-168, 287-301. *)
  Fixpoint contentLoop (sub : bool) (e x : expr) (i : Z) (n : nat) (c : expr) : res expr :=
    match n with
    | O => ret c
    | S n' => a <- coeff e x i ;; c' <- gcdCompute sub a c ;; contentLoop sub e x (i + 1) n' c'
    end.
  Definition content (sub : bool) (e x : expr) : res expr :=
    p <- w_expand W e ;;
    match p with
    | Num q => ret (Num (qabs q))
    | _ => d <- minDegree p x ;; contentLoop sub p x d (Z.to_nat (degree p x - d + 1)) zero
    end.

  (** PrimitiveGcd::gcdAlgo, src/primitivegcd.cpp:10-41. *)
  Fixpoint primitiveLoop (n k : nat) (x : expr) (L : list expr) (u v : expr) : res (option expr) :=
    match k with
    | O => Fuel
    | S k' =>
        if isZero v then ret (Some u)
        else
          '(_, r) <- pseudoDivide false n u v x ;;
          if isZero r then primitiveLoop n k' x L v zero
          else if isUndefined r then ret None
          else c <- content true r x ;; '(p, _) <- divide n L r c ;; primitiveLoop n k' x L v p
    end.
  Definition primitiveAlgo (n : nat) (u v : expr) (L : list expr) : res expr :=
    match L with
    | [] => UB "front of empty list"%string
    | x :: R =>
        uc <- content false u x ;; vc <- content false v x ;; d <- w_gcd W false R uc vc ;;
        '(up, _) <- divide n L u uc ;; '(vp, _) <- divide n L v vc ;;
        g <- primitiveLoop n n x L up vp ;;
        match g with None => ret one | Some p => a <- w_prod W [d; p] ;; w_expand W a end
    end.

  (** SubresultantGcd::gcdAlgo, gcd, src/subresultantgcd.cpp:10-74. *)
  Fixpoint subresultantLoop (n k : nat) (x : expr) (L R : list expr) (U V beta psi : expr) (delta : Z) (i : nat)
    : res (option expr) :=
    match k with
    | O => Fuel
    | S k' =>
        '(_, r) <- pseudoDivide false n U V x ;;
        if isZero r then ret (Some V)
        else if isUndefined r then ret None
        else
          '(beta', psi', delta') <-
            (if Nat.ltb 0 i then
               let delta' := degree U x - degree V x + 1 in
               lu <- leadingCoeff U x ;; t <- minus W [lu] ;;
               a <- w_pow W t (numZ (delta - 1)) ;; a' <- w_expand W a ;;
               b <- w_pow W psi (numZ (delta - 2)) ;; b' <- w_expand W b ;;
               '(psi', _) <- divide n R a' b' ;;
               c <- w_pow W psi' (numZ (delta' - 1)) ;; d <- w_prod W [t; c] ;; beta' <- w_expand W d ;;
               ret (beta', psi', delta')
             else ret (beta, psi, delta)) ;;
          '(V', _) <- divide n L r beta' ;;
          subresultantLoop n k' x L R V V' beta' psi' delta' (S i)
    end.
  Definition subresultantGcd (n : nat) (u v : expr) (x : expr) (R : list expr) : res expr :=
    let L := x :: R in
    uc <- content true u x ;; vc <- content true v x ;; d <- w_gcd W true R uc vc ;;
    '(U, _) <- divide n L u uc ;; '(V, _) <- divide n L v vc ;;
    lu <- leadingCoeff U x ;; lv <- leadingCoeff V x ;; g <- w_gcd W true R lu lv ;;
    let delta := degree U x - degree V x + 1 in
    beta <- w_pow W mOne (numZ delta) ;;
    res <- subresultantLoop n n x L R U V beta mOne delta 0 ;;
    match res with
    | None => ret one
    | Some U' =>
        lu' <- leadingCoeff U' x ;; '(t1, _) <- divide n R lu' g ;; '(t2, _) <- divide n L U' t1 ;;
        c <- content true t2 x ;; '(t3, _) <- divide n L t2 c ;; a <- w_prod W [d; t3] ;; w_expand W a
    end.
  Definition gcdAlgo (n : nat) (sub : bool) (u v : expr) (L : list expr) : res expr :=
    if sub then
      match L with
      | [] => UB "front of empty list"%string
      | x :: R => if degree u x <? degree v x then subresultantGcd n v u x R else subresultantGcd n u v x R
      end
    else primitiveAlgo n u v L.

  (** gcdViaAlgo, src/gcd.cpp:85-96. *)
  Definition gcdViaAlgo (n : nat) (sub : bool) (u v : expr) (L : list expr) : res expr :=
    c <- integerContent u v ;; f <- oneOver W c ;;
    u' <- w_prod W [f; u] ;; v' <- w_prod W [f; v] ;; g <- gcdAlgo n sub u' v' L ;; w_prod W [c; g].

  (** Gcd::compute with a list of symbols, src/gcd.cpp:24-52. *)
  Definition gcdWith (n : nat) (sub : bool) (L : list expr) (u v : expr) : res expr :=
    ue <- w_expand W u ;; ve <- w_expand W v ;;
    if isOne ue || isOne ve then gcdNormalize one L
    else if isZero ue && isZero ve then ret Undef
    else if isZero ue then gcdNormalize ve L
    else if isZero ve then gcdNormalize ue L
    else if isEqual ue ve then gcdNormalize ue L
    else match ue, ve with
    | Num p, Num q => gcdNormalize (computeNumerics p q) L
    | _, _ =>
        g <- (if negb (haveCommonSymbol u v L) then integerContent u v else gcdViaAlgo n sub ue ve L) ;;
        gcdNormalize g L
    end.

  (** unit, unitFromNonNumeric, getFirstSymbol, src/poly.cpp:119-155, 254-267. *)
  Fixpoint getFirstSymbol (e : expr) : expr :=
    let first := fix first l := match l with
      | [] => Undef
      | a :: r => match getFirstSymbol a with Undef => first r | s => s end end in
    match e with
    | Sym _ _ => e
    | Pow b _ => getFirstSymbol b
    | Sum l | Prod l => first l
    | _ => Undef
    end.
  Fixpoint unit (n : nat) (e x : expr) : res Z :=
    match n with
    | O => Fuel
    | S n' =>
        p <- w_expand W e ;; c <- leadingCoeff p x ;;
        match c with
        | Num q => ret (if qeqb q 0 then 1 else qsign q)
        | _ => match getFirstSymbol c with Undef => ret 1 | s => unit n' c s end
        end
    end.
End Poly.
