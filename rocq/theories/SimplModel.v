(** Model of automatic simplification: src/sum.cpp, sumsimpl.cpp, product.cpp, productsimpl.cpp, power.cpp,
    powersimpl.cpp, baseptrlistfct.cpp (creation, sign, expansion and substitution).

    The static caches (C38) are left out here.  Functions that call each other across these files do so
    through [W]; loops and recursions within a file have fuel [n]. *)
From Verif Require Export OrderModel Run.
Open Scope Z_scope.

Section Simpl.
  Variable Y : sys.
  Variable W : oper.

  Notation nev := (numericEval Y).
  Definition permuted (a b : expr) : bool := doPermute (s_nlt Y) a b.

  (** Product::minus, src/product.h:16-19. *)
  Definition minus (l : list expr) : res expr := w_prod W (mOne :: l).
  (** Power::oneOver, Power::sqrt, src/power.cpp:37-45. *)
  Definition oneOver (e : expr) : res expr := w_pow W e mOne.
  Definition sqrtE (e : expr) : res expr := w_pow W e half.

  (** base(), exp(): src/base.cpp:117-125, src/power.cpp:219-227. *)
  Definition base (e : expr) : expr := match e with Pow b _ => b | _ => e end.
  Definition expo (e : expr) : expr := match e with Pow _ x => x | _ => one end.

  (** isConst: src/base.cpp:53-59, src/numeric.cpp:128-131, src/function.cpp:47-50. *)
  Fixpoint isConst (e : expr) : bool :=
    match e with
    | Num _ => true
    | Sym _ _ | Cst _ | Undef | Fct _ _ => false
    | Sum [] | Prod [] => false
    | Sum l | Prod l => forallb isConst l
    | Pow b x => isConst b && isConst x
    end.

  (** getConstElements, getNonConstElements, src/baseptrlistfct.cpp:76-93. *)
  Definition constElements (l : list expr) := filter isConst l.
  Definition nonConstElements (l : list expr) := filter (fun e => negb (isConst e)) l.

  (** numericTerm: src/base.cpp:61-64, numeric.cpp:133-136, product.cpp:158-163. *)
  Definition numericTerm (e : expr) : res expr :=
    match e with
    | Num _ => ret e
    | Prod (x :: _) => ret (if isNumeric x then x else one)
    | Prod [] => UB "front of empty operand list"%string
    | _ => ret one
    end.
  (** nonNumericTerm: src/base.cpp:66-69, numeric.cpp:138-141, product.cpp:165-173. *)
  Definition nonNumericTerm (e : expr) : res expr :=
    match e with
    | Num _ => ret one
    | Prod (x :: r) => if isNumeric x then w_prod W r else ret e
    | Prod [] => UB "front of empty operand list"%string
    | _ => ret e
    end.
  (** constTerm: src/base.cpp:71-74, numeric.cpp:143-146, product.cpp:175-180, function.cpp:32-35. *)
  Definition constTerm (e : expr) : res expr :=
    match e with
    | Prod l => match constElements l with [] => ret one | c => w_prod W c end
    | _ => ret (if isConst e then e else one)
    end.
  (** nonConstTerm: src/base.cpp:76-79, numeric.cpp:148-151, product.cpp:182-187, function.cpp:37-40. *)
  Definition nonConstTerm (e : expr) : res expr :=
    match e with
    | Prod l => match nonConstElements l with [] => ret one | c => w_prod W c end
    | _ => ret (if isConst e then one else e)
    end.

  (** isInteger, isFractionNumeric, src/basefct.cpp:8-14, 99-105, numerically evaluated. *)
  Definition isInteger (e : expr) : bool := match nev e with Some a => nIsInt Y a | None => false end.
  Definition isFractionNumeric (e : expr) : bool := match nev e with Some a => nIsFraction Y a | None => false end.
  (** The value of an expression that [isInteger] accepts, as the code takes it for granted. *)
  Definition relyInt (e : expr) : res unit :=
    match e with
    | Num _ => ret tt
    | _ => match nev e with Some (NQ q) => rely (CEq e q) | _ => ret tt end
    end.
  (** isNumericPower, src/basefct.cpp:91-97. *)
  Definition isNumericPower (e : expr) : bool :=
    match e with Pow (Num _) (Num _) => true | _ => false end.

  (** ** Merging of simplified operand lists

      merge and mergeNonEmpty: src/sumsimpl.cpp:64-98 with [unit] isZero, src/productsimpl.cpp:237-271 with
      [unit] isOne; [pair] simplifies two operands.  The error exit returns an empty list. *)
  Fixpoint merge (n : nat) (unit : expr -> bool) (pair : expr -> expr -> res (list expr))
      (p q : list expr) {struct n} : res (list expr) :=
    match n with
    | O => Fuel
    | S n' =>
        match p, q with
        | [], _ => ret q
        | _, [] => ret p
        | p1 :: pr, q1 :: qr =>
            r <- pair p1 q1 ;;
            match r with
            | [] => merge n' unit pair pr qr
            | [x] => if unit x then merge n' unit pair pr qr
                     else t <- merge n' unit pair pr qr ;; ret (x :: t)
            | _ =>
                if areEqual r [p1; q1] then t <- merge n' unit pair pr q ;; ret (p1 :: t)
                else if areEqual r [q1; p1] then t <- merge n' unit pair p qr ;; ret (q1 :: t)
                else _ <- rely (CBug "mergeNonEmpty"%string) ;; ret []
            end
        end
    end.

  (** ** src/sumsimpl.cpp *)

  (** {s2, s1} or {s1, s2}: src/sumsimpl.cpp:118-121 and elsewhere. *)
  Definition ordered (a b : expr) : list expr := if permuted a b then [b; a] else [a; b].

  (** haveEqualNonConstTerms, src/sumsimpl.cpp:134-143. *)
  Definition haveEqualNonConstTerms (s1 s2 : expr) : res bool :=
    a <- nonConstTerm s1 ;; b <- nonConstTerm s2 ;;
    ret (if isOne a || isOne b then false else isEqual a b).

  (** simplEqualNonConstTerms, src/sumsimpl.cpp:145-159. *)
  Definition simplEqualNonConstTerms (s1 s2 : expr) : res (list expr) :=
    a <- constTerm s1 ;; b <- constTerm s2 ;; s <- w_sum W [a; b] ;;
    if negb (isSum s) then c <- nonConstTerm s1 ;; p <- w_prod W [s; c] ;; ret [p]
    else ret (ordered s1 s2).

  (** haveEqualNonNumericTerms, src/sumsimpl.cpp:161-168. *)
  Definition haveEqualNonNumericTerms (s1 s2 : expr) : res bool :=
    a <- nonNumericTerm s1 ;; b <- nonNumericTerm s2 ;; ret (isEqual a b).

  (** simplEqualNonNumericTerms, src/sumsimpl.cpp:170-180. *)
  Definition simplEqualNonNumericTerms (s1 s2 : expr) : res (list expr) :=
    a <- numericTerm s1 ;; b <- numericTerm s2 ;; s <- w_sum W [a; b] ;;
    c <- nonNumericTerm s1 ;; p <- w_prod W [s; c] ;; ret (if isZero p then [] else [p]).

  (** exp->numericEval() == 2, src/sumsimpl.cpp:199. *)
  Definition isTwo (e : expr) : bool := match nev e with Some a => neq Y a (NQ 2%Q) | None => false end.
  Definition relyTwo (e : expr) : res unit := match e with Num _ => ret tt | _ => rely (CEq e 2) end.

  (** areSinAndCosSquare, areSinAndCos, src/sumsimpl.cpp:195-214. *)
  Definition areSinAndCosSquare (s1 s2 : expr) : bool :=
    match s1, s2 with
    | Pow (Fct f _) x, Pow (Fct g _) y =>
        isTwo x && isTwo y &&
        (nameEq (fctName f) (nm "sin") && nameEq (fctName g) (nm "cos")
         || nameEq (fctName f) (nm "cos") && nameEq (fctName g) (nm "sin"))
    | _, _ => false
    end.

  (** haveEqualFirstOperands, src/sumsimpl.cpp:216-222. *)
  Definition haveEqualFirstOperands (p1 p2 : expr) : res bool :=
    match ops (base p1), ops (base p2) with
    | a :: _, b :: _ =>
        if isEqual a b then ret true
        else a' <- w_normal W a ;; b' <- w_normal W b ;; ret (isEqual a' b')
    | _, _ => UB "front of empty operand list"%string
    end.

  (** haveContractableSinCos, src/sumsimpl.cpp:182-193. *)
  Definition haveContractableSinCos (s1 s2 : expr) : res bool :=
    a <- nonConstTerm s1 ;; b <- nonConstTerm s2 ;; c <- constTerm s1 ;; d <- constTerm s2 ;;
    if isEqual c d && areSinAndCosSquare a b then
      r <- haveEqualFirstOperands a b ;;
      _ <- (if (r : bool) then _ <- relyTwo (expo a) ;; relyTwo (expo b) else ret tt) ;; ret r
    else ret false.

  (** simplTwoSummandsWithoutSum, src/sumsimpl.cpp:100-132. *)
  Definition simplTwoSummandsWithoutSum (s1 s2 : expr) : res (list expr) :=
    if isZero s1 then ret [s2]
    else if isZero s2 then ret [s1]
    else match s1, s2 with
    | Num a, Num b => let s := qadd a b in ret (if qeqb s 0 then [] else [Num s])
    | _, _ =>
        c <- haveEqualNonConstTerms s1 s2 ;;
        if (c : bool) then simplEqualNonConstTerms s1 s2
        else d <- haveEqualNonNumericTerms s1 s2 ;;
        if (d : bool) then simplEqualNonNumericTerms s1 s2
        else e <- haveContractableSinCos s1 s2 ;;
        if (e : bool) then t <- constTerm s1 ;; ret [t]
        else ret (ordered s1 s2)
    end.

  (** simplTwoSummands, simplTwoSummandsWithSum, src/sumsimpl.cpp:41-62. *)
  Fixpoint simplTwoSummands (n : nat) (s1 s2 : expr) : res (list expr) :=
    match n with
    | O => Fuel
    | S n' =>
        if isSum s1 || isSum s2 then
          merge n' isZero (simplTwoSummands n')
            (match s1 with Sum l => l | _ => [s1] end) (match s2 with Sum l => l | _ => [s2] end)
        else simplTwoSummandsWithoutSum s1 s2
    end.

  (** simplWithoutCache, simplNSummands, src/sumsimpl.cpp:33-39, 224-234. *)
  Fixpoint simplifySum (n : nat) (u : list expr) : res (list expr) :=
    match u with
    | [] => UB "front of empty list of summands"%string
    | [a; b] => simplTwoSummands n a b
    | u1 :: r => s <- simplifySum n r ;;
        merge n isZero (simplTwoSummands n) (match u1 with Sum l => l | _ => [u1] end) s
    end.

  (** Sum::create, createSimplifiedSum, src/sum.cpp:24-44. *)
  Definition sumCreate (n : nat) (l : list expr) : res expr :=
    if existsb isUndefined l then ret Undef
    else match l with
    | [x] => ret x
    | _ => r <- simplifySum n l ;;
        ret (match r with [] => zero | [x] => x | _ => Sum r end)
    end.

  (** ** src/productsimpl.cpp *)

  (** Numeric powers: simplNumAndNumPow, src/productsimpl.cpp:362-374. *)
  Definition runNumPow (p : payload) : res payload :=
    match numPowerSimpl (s_fl Y) (s_limit Y) p with
    | NOk p' => _ <- rely (CNumPow p p') ;; ret p'
    | NThrow => Throw
    | NLoop => Fuel
    end.
  Definition simplNumAndNumPow (pre b x : Q) : res (list expr) :=
    p <- runNumPow (mkPay b x pre) ;;
    r <- w_pow W (Num (pBase p)) (Num (pExp p)) ;;
    ret (if qeqb (pPre p) 1 then [r] else [Num (pPre p); r]).

  (** simplNumAndConst, src/productsimpl.cpp:333-360. *)
  Definition simplNumAndConst (q : Q) (c : expr) : res (list expr) :=
    match c with
    | Pow (Num b) (Num x) => simplNumAndNumPow q b x
    | _ => ret [Num q; c]
    end.

  (** simplTwoNumerics, src/productsimpl.cpp:321-331. *)
  Definition simplTwoNumerics (a b : Q) : list expr :=
    let r := qmul a b in if qeqb r 1 then [] else [Num r].

  (** haveEqualBases, src/productsimpl.cpp:376-379. *)
  Definition haveEqualBases (f1 f2 : expr) : bool := isEqual (base f1) (base f2).

  (** simplTwoEqualBases, src/productsimpl.cpp:381-397.  The signs only select whether the exponents
      are added. *)
  Definition simplTwoEqualBases (f1 f2 : expr) : res (list expr) :=
    s <- w_sum W [expo f1; expo f2] ;;
    p <- quiet (w_pos W (base f1)) ;;
    g <- (if (p : bool) then ret true else quiet (w_neg W (base f1))) ;;
    if negb g && isFractionNumeric (expo f1) && isFractionNumeric (expo f2) && isInteger s then ret [f1; f2]
    else r <- w_pow W (base f1) s ;; ret [r].

  (** areNumPowersWithEqualExp, simplTwoEqualExp, src/productsimpl.cpp:409-429. *)
  Definition areNumPowersWithEqualExp (f1 f2 : expr) : bool :=
    match f1, f2 with Pow (Num _) (Num x), Pow (Num _) (Num y) => qeqb x y | _, _ => false end.
  Definition simplTwoEqualExp (f1 f2 : expr) : res (list expr) :=
    match f1, f2 with
    | Pow (Num b1) (Num x), Pow (Num b2) (Num _) => simplNumAndNumPow 1 (qmul b1 b2) x
    | _, _ => UB "bad optional access"%string
    end.

  (** areNumPowersWithZeroSumExp, simplTwoZeroSumExp, src/productsimpl.cpp:431-454. *)
  Definition areNumPowersWithZeroSumExp (f1 f2 : expr) : res bool :=
    match f1, f2 with
    | Pow (Num _) (Num x), Pow (Num _) (Num y) => s <- w_sum W [Num x; Num y] ;; ret (isZero s)
    | _, _ => ret false
    end.
  Definition simplTwoZeroSumExp (f1 f2 : expr) : res (list expr) :=
    match f1, f2 with
    | Pow (Num b1) x, Pow (Num b2) _ =>
        match toThe (s_fl Y) b2 (-1 # 1) with
        | PRat i => r <- w_pow W (Num (qmul b1 i)) x ;; ret [r]
        | PDbl | PThrow => Throw
        end
    | _, _ => UB "bad optional access"%string
    end.

  (** areNumPowersWithEqualExpDenom, simplTwoEqualExpDenom, evalExpNumerator and its callers,
      src/productsimpl.cpp:456-506. *)
  Definition areNumPowersWithEqualExpDenom (f1 f2 : expr) : bool :=
    match f1, f2 with Pow (Num _) (Num x), Pow (Num _) (Num y) => qden x =? qden y | _, _ => false end.
  Definition evalExpNumerator (b : Q) (e : Z) : Z := (if 0 <? e then qnum b else qden b) ^ Z.abs e.
  Definition simplTwoEqualExpDenom (f1 f2 : expr) : res (list expr) :=
    match f1, f2 with
    | Pow (Num b1) (Num x1), Pow (Num b2) (Num x2) =>
        match toThe (s_fl Y) b1 (-1 # 1), toThe (s_fl Y) b2 (-1 # 1) with
        | PRat i1, PRat i2 =>
            let denom := evalExpNumerator i1 (qnum x1) * evalExpNumerator i2 (qnum x2) in
            let numer := evalExpNumerator b1 (qnum x1) * evalExpNumerator b2 (qnum x2) in
            match mkRat numer denom with
            | None => Throw
            | Some b =>
                if (s_limit Y <? qnum b) || (s_limit Y <? qden b) then ret [f1; f2]
                else _ <- relyIf (qltb b1 0 || qltb b2 0) (CBug "negative base of numeric power"%string) ;;
                  r <- w_pow W (Num b) (Num (1 # Z.to_pos (qden x1))) ;; ret [r]
            end
        | _, _ => Throw
        end
    | _, _ => UB "bad optional access"%string
    end.

  (** simplTwoConst, src/productsimpl.cpp:291-319. *)
  Definition simplTwoConst (f1 f2 : expr) : res (list expr) :=
    match f1, f2 with
    | Num a, Num b => ret (simplTwoNumerics a b)
    | Num a, _ => simplNumAndConst a f2
    | _, Num b => simplNumAndConst b f1
    | _, _ =>
        if haveEqualBases f1 f2 then simplTwoEqualBases f1 f2
        else if areNumPowersWithEqualExp f1 f2 then simplTwoEqualExp f1 f2
        else z <- areNumPowersWithZeroSumExp f1 f2 ;;
        if (z : bool) then simplTwoZeroSumExp f1 f2
        else if areNumPowersWithEqualExpDenom f1 f2 then simplTwoEqualExpDenom f1 f2
        else ret (ordered f1 f2)
    end.

  (** simplTwoFactorsWithoutProduct, src/productsimpl.cpp:273-289. *)
  Definition simplTwoFactorsWithoutProduct (f1 f2 : expr) : res (list expr) :=
    if isOne f1 then ret [f2]
    else if isOne f2 then ret [f1]
    else if isConst f1 && isConst f2 then simplTwoConst f1 f2
    else if haveEqualBases f1 f2 then simplTwoEqualBases f1 f2
    else ret (ordered f1 f2).

  (** simplTwoFactors, simplTwoFactorsWithProduct, src/productsimpl.cpp:214-235. *)
  Fixpoint simplTwoFactors (n : nat) (f1 f2 : expr) : res (list expr) :=
    match n with
    | O => Fuel
    | S n' =>
        if isProduct f1 || isProduct f2 then
          merge n' isOne (simplTwoFactors n')
            (match f1 with Prod l => l | _ => [f1] end) (match f2 with Prod l => l | _ => [f2] end)
        else simplTwoFactorsWithoutProduct f1 f2
    end.

  (** extractProducts, src/productsimpl.cpp:88-102: replaces each product by its factors until none is
      left. *)
  Fixpoint extractProduct (e : expr) : list expr :=
    match e with Prod l => flat_map extractProduct l | _ => [e] end.
  Definition extractProducts (u : list expr) : list expr := flat_map extractProduct u.

  (** contract, src/productsimpl.cpp:109-146.  The iterators it1, it2 are the positions i, j.
      [contractInner] is the loop over it2, [contractOuter] the one over it1. *)
  Fixpoint contractInner (n : nat) (check : expr -> expr -> bool) (simpl : expr -> expr -> res (list expr))
      (i j : nat) (u : list expr) (found : bool) : res (list expr * bool) :=
    match n with
    | O => Fuel
    | S n' =>
        match nth_error u i, nth_error u j with
        | Some a, Some b =>
            if check a b then
              r <- simpl a b ;;
              if areEqual r [a; b] then contractInner n' check simpl i (S j) u found
              else if Nat.eqb (length r) 0 && Nat.eqb j (S i) then UB "iterator to erased element"%string
              else contractInner n' check simpl i (S i)
                     (firstn i u ++ r ++ firstn (j - S i) (skipn (S i) u) ++ skipn (S j) u) true
            else contractInner n' check simpl i (S j) u found
        | _, _ => ret (u, found)
        end
    end.
  Fixpoint contractOuter (n : nat) (check : expr -> expr -> bool) (simpl : expr -> expr -> res (list expr))
      (i : nat) (u : list expr) (changed : bool) : res (list expr * bool) :=
    match n with
    | O => Fuel
    | S n' =>
        if Nat.ltb i (length u) then
          '(u', found) <- contractInner n check simpl i (S i) u false ;;
          if (found : bool) then contractOuter n' check simpl i u' true
          else contractOuter n' check simpl (S i) u' changed
        else ret (u, changed)
    end.
  Fixpoint contract (n : nat) (check : expr -> expr -> bool) (simpl : expr -> expr -> res (list expr))
      (u : list expr) : res (list expr) :=
    match n with
    | O => Fuel
    | S n' =>
        '(u', changed) <- contractOuter n check simpl 0 u false ;;
        if (changed : bool) then contract n' check simpl u' else ret u'
    end.

  (** isContractableTrigFctPower, areContractableTrigFctPowers, src/productsimpl.cpp:148-156, 399-407. *)
  Definition trigName (e : expr) : option fct :=
    match e with
    | Fct f _ => if nameEq (fctName f) (nm "sin") || nameEq (fctName f) (nm "cos") || nameEq (fctName f) (nm "tan")
                 then Some f else None
    | _ => None
    end.
  Definition isContractableTrigFctPower (e : expr) : bool :=
    match trigName (base e), nev (expo e) with Some _, Some _ => true | _, _ => false end.
  Definition areContractableTrigFctPowers (f1 f2 : expr) : bool :=
    isContractableTrigFctPower f1 && isContractableTrigFctPower f2 &&
    match ops (base f1), ops (base f2) with a :: _, b :: _ => isEqual a b | _, _ => false end.

  (** trigFunctionPowerReplacement, src/productsimpl.cpp:202-212. *)
  Definition trigFunctionPowerReplacement (e s c : expr) : res expr :=
    match trigName (base e) with
    | Some FSin => w_pow W s (expo e)
    | Some FCos => w_pow W c (expo e)
    | _ => i <- oneOver c ;; t <- w_prod W [s; i] ;; w_pow W t (expo e)
    end.

  (** contractTrigFctPowers, trigSymbReplacement, src/productsimpl.cpp:158-200. *)
  Definition contractTrigFctPowers (n : nat) (f1 f2 : expr) : res (list expr) :=
    match ops (base f1) with
    | [] => UB "front of empty operand list"%string
    | arg :: _ =>
        sn <- w_trig W FSin arg ;; ps <- w_pos W sn ;;
        cs <- w_trig W FCos arg ;; pc <- w_pos W cs ;;
        let k := S (nameLen (Prod [f1; f2])) in
        let s := Sym (tmpNm k) ps in
        let c := Sym (tmpNm (S k)) pc in
        let me := [(tmpNm k, ps, sn); (tmpNm (S k), pc, cs)] in
        r <- inEnv me (r1 <- trigFunctionPowerReplacement f1 s c ;;
                       r2 <- trigFunctionPowerReplacement f2 s c ;;
                       simplTwoFactors n r1 r2) ;;
        match r with
        | [] => UB "front of empty list of factors"%string
        | x :: _ =>
            let y := last r x in
            isTan <- match r with
                     | [_; _] => m <- inEnv me (minus [expo y]) ;; ret (isEqual (expo x) m)
                     | _ => ret false
                     end ;;
            if (isTan : bool) then
              _ <- relyIf (negb (isEqual (base x) s && isEqual (base y) c
                                 || isEqual (base x) c && isEqual (base y) s)
                         || has (expo x) s || has (expo x) c)
                     (CBug "not a quotient of sine and cosine"%string) ;;
              _ <- rely (CNonZero cs) ;;
              newExp <- (if isEqual (base x) c then minus [expo x] else ret (expo x)) ;;
              t <- w_trig W FTan arg ;;
              p <- w_pow W t newExp ;; ret [p]
            else
              r' <- inEnv [(tmpNm (S k), pc, cs)] (mapM (fun e => w_subst W e s sn) r) ;;
              r'' <- mapM (fun e => w_subst W e c cs) r' ;;
              match r'' with
              | [] => UB "front of empty list of factors"%string
              | x' :: _ =>
                  if permuted x' (last r'' x') then
                    _ <- relyIf (negb (Nat.eqb (length r'') 2)) (CBug "factors dropped"%string) ;;
                    ret [last r'' x'; x']
                  else ret r''
              end
        end
    end.

  (** prepare, src/productsimpl.cpp:80-86, 104-107. *)
  Definition prepare (n : nat) (u : list expr) : res (list expr) :=
    contract n areContractableTrigFctPowers (contractTrigFctPowers n) (extractProducts u).

  (** u.sort(...), src/productsimpl.cpp:523: a stable sort in the order "must be swapped". *)
  Fixpoint insertSorted (x : expr) (l : list expr) : list expr :=
    match l with
    | [] => [x]
    | y :: r => if permuted y x then y :: insertSorted x r else x :: l
    end.
  Fixpoint sortFactors (l : list expr) : list expr :=
    match l with [] => [] | x :: r => insertSorted x (sortFactors r) end.

  (** contractNumerics, src/productsimpl.cpp:532-541. *)
  Definition contractNumerics (u : list expr) : list expr :=
    let r := fold_left (fun a e => match e with Num q => qmul a q | _ => a end) u 1%Q in
    let u' := filter (fun e => negb (isNumeric e)) u in
    if negb (qeqb r 1) then Num r :: u' else match u' with [] => [Num r] | _ => u' end.

  (** isContractableConst, src/productsimpl.cpp:553-566. *)
  Definition isContractableConst (e : expr) : bool := isConst e && (isNumeric e || isNumericPower e).

  (** contractConst, contractTwoConst, src/productsimpl.cpp:543-551, 568-580.  After erasing, the loop
      increment is applied to the iterator behind the erased element.  Incrementing the end
      iterator is undefined behaviour; the list of libstdc++ is circular and continues with the first
      element. *)
  Fixpoint contractConstInner (n : nat) (i j : nat) (u : list expr) : res (list expr * nat) :=
    match n with
    | O => Fuel
    | S n' =>
        match nth_error u i, nth_error u j with
        | Some a, Some b =>
            if Nat.eqb i j then contractConstInner n' i (S j) u
            else if isContractableConst a && isContractableConst b then
              r <- simplTwoConst a b ;;
              match r with
              | [x] =>
                  let u1 := firstn i u ++ x :: skipn (S i) u in
                  let u2 := firstn j u1 ++ skipn (S j) u1 in
                  let i2 := if Nat.ltb j i then Nat.pred i else i in
                  if Nat.eqb j (length u2) then
                    _ <- rely (CUb "increment of the end iterator"%string) ;; contractConstInner n' i2 0 u2
                  else contractConstInner n' i2 (S j) u2
              | [x; y] =>
                  let u1 := firstn i u ++ x :: skipn (S i) u in
                  contractConstInner n' i (S j) (firstn j u1 ++ y :: skipn (S j) u1)
              | _ => contractConstInner n' i (S j) u
              end
            else contractConstInner n' i (S j) u
        | _, _ => ret (u, i)
        end
    end.
  Fixpoint contractConst (n : nat) (i : nat) (u : list expr) : res (list expr) :=
    match n with
    | O => Fuel
    | S n' =>
        if Nat.ltb i (length u) then
          '(u', i') <- contractConstInner n i i u ;; contractConst n' (S i') u'
        else ret u
    end.

  (** prepareConst, src/productsimpl.cpp:515-530. *)
  Definition prepareConst (n : nat) (u : list expr) : res (list expr) :=
    u1 <- contractConst n 0 (contractNumerics (sortFactors u)) ;;
    u2 <- contract n areNumPowersWithEqualExp simplTwoEqualExp u1 ;;
    contract n areNumPowersWithEqualExpDenom simplTwoEqualExpDenom u2.

  (** simplifyWithoutCache, simplNFactors, simplPreparedFactors, simplNPreparedFactors,
      src/productsimpl.cpp:68-78, 508-513, 582-603. *)
  Fixpoint simplifyProduct (n : nat) (u : list expr) : res (list expr) :=
    match n with
    | O => Fuel
    | S n' =>
        f <- prepare n u ;;
        match f with
        | [a; b] => simplTwoFactors n a b
        | _ =>
            g <- prepareConst n f ;;
            match g with
            | [] => UB "front of empty list of factors"%string
            | [x] => ret g
            | [a; b] => simplTwoFactors n a b
            | u1 :: r => s <- simplifyProduct n' r ;; merge n isOne (simplTwoFactors n) [u1] s
            end
        end
    end.

  (** ** src/baseptrlistfct.cpp: expansion *)

  (** expandProductOf(sums), src/baseptrlistfct.cpp:113-135.  The product of the first two sums must be
      a sum again when there is a third one; its operands are taken as summands in any case. *)
  Fixpoint expandProductOf (n : nat) (sums : list expr) : res expr :=
    match n with
    | O => Fuel
    | S n' =>
        match sums with
        | [] => UB "front of empty list of sums"%string
        | [f] => ret f
        | f :: g :: r =>
            _ <- relyIf (negb (isSum f)) (CBug "operands of something else than a sum"%string) ;;
            l <- mapM (fun x => p <- w_prod W [x; g] ;; w_expand W p) (ops f) ;;
            s <- w_sum W l ;;
            expandProductOf n' (s :: r)
        end
    end.

  (** expandProductOf(scalar, sum), src/baseptrlistfct.cpp:137-149. *)
  Definition expandScalarProduct (scalar : expr) (l : list expr) : res expr :=
    s <- mapM (fun x => p <- w_prod W [scalar; x] ;; w_expand W p) l ;; w_sum W s.

  (** expandAsProduct, defScalarAndSums, src/baseptrlistfct.cpp:97-111, 153-179. *)
  Definition expandAsProduct (n : nat) (l : list expr) : res expr :=
    x <- mapM (w_expand W) l ;;
    let sums := filter isSum x in
    scalar <- match filter (fun e => negb (isSum e)) x with [] => ret one | f => w_prod W f end ;;
    match sums with
    | [] => ret scalar
    | _ =>
        s <- expandProductOf n sums ;;
        match s with
        | Sum t => expandScalarProduct scalar t
        | _ => w_prod W [scalar; s]
        end
    end.

  (** Product::create, createSimplifiedProduct, needsExpansion, src/product.cpp:22-62. *)
  Definition needsExpansion (l : list expr) : bool :=
    let c := constElements l in
    let v := nonConstElements l in
    match c with
    | [] => false
    | _ => if existsb isSum v then Nat.eqb (length v) 1 else existsb isSum c
    end.
  Definition prodCreate (n : nat) (l : list expr) : res expr :=
    if existsb isUndefined l then ret Undef
    else if existsb isZero l then ret zero
    else match l with
    | [x] => ret x
    | _ => r <- simplifyProduct n l ;;
        match r with
        | [] => ret one
        | [x] => ret x
        | _ => if needsExpansion r then expandAsProduct n r else ret (Prod r)
        end
    end.

  (** ** src/powersimpl.cpp *)

  (** simplifyNumericPower, src/powersimpl.cpp:59-71. *)
  Definition simplifyNumericPower (b x : Q) : res (expr * expr) :=
    p <- runNumPow (mkPay b x 1) ;;
    if qeqb (pPre p) 1 then ret (Num (pBase p), Num (pExp p))
    else r <- w_pow W (Num (pBase p)) (Num (pExp p)) ;;
      t <- w_prod W [Num (pPre p); r] ;; ret (t, one).

  (** doContractExpFirst, areTwoFractionExpWithOddDenom, src/powersimpl.cpp:106-130. *)
  Definition areTwoFractionExpWithOddDenom (x y : expr) : bool :=
    match x, y with
    | Num a, Num b => qIsFraction a && qIsFraction b
        && negb (Z.rem (qden a) 2 =? 0) && negb (Z.rem (qden b) 2 =? 0)
    | _, _ => false
    end.
  Definition doContractExpFirst (b x y : expr) : res bool :=
    if isInteger x && isInteger y then _ <- relyInt x ;; _ <- relyInt y ;; ret true
    else if areTwoFractionExpWithOddDenom x y then ret true
    else w_pos W b.

  (** doesChangeSign, src/powersimpl.cpp:132-140. *)
  Definition doesChangeSign (b x : expr) : res bool :=
    match x with
    | Num q => if qIsEvenInt q then w_neg W b else ret false
    | _ => ret false
    end.

  (** doContractExpSecond, src/powersimpl.cpp:142-165.  The fact that [relyExp] records is the one which
      makes the contraction valid: an odd exponent, an even product of the exponents or an exponent
      that isn't an integer. *)
  Definition nIsOdd (a : FloatEval.num (sD Y)) : bool := match a with NQ q => qIsOddInt q | ND _ => false end.
  Definition nIsEven (a : FloatEval.num (sD Y)) : bool := match a with NQ q => qIsEvenInt q | ND _ => false end.
  Definition absIsOne (a : FloatEval.num (sD Y)) : bool :=
    match a with NQ q => qeqb (qabs q) 1 | ND _ => neq Y (if nlt Y a (NQ 0%Q) then nmul Y a (NQ (-1 # 1)) else a) (NQ 1%Q) end.
  Definition doContractExpSecond (x y : expr) : res bool :=
    match nev x, nev y with
    | Some a, Some b =>
        let m := nmul Y a b in
        if nIsOdd a then
          if negb (absIsOne m) then _ <- relyInt x ;; ret true else ret false
        else if nIsEven a then
          if nIsEven m then
            _ <- relyInt x ;;
            _ <- match x, y, m with
                 | Num _, Num _, _ => ret tt
                 | _, _, NQ q => rely (CEq (Prod [x; y]) q)
                 | _, _, _ => ret tt
                 end ;; ret true
          else ret false
        else if nIsFraction Y a && (nIsInt Y b || nIsFraction Y b) then
          if nIsFraction Y m then _ <- match x with Num _ => ret tt | _ => rely (CNotInt x) end ;; ret true
          else ret false
        else _ <- match x with Num _ => ret tt | _ => rely (CNotInt x) end ;; ret true
    | _, _ => ret false
    end.

  (** simplifyPowerBase, src/powersimpl.cpp:78-104. *)
  Definition simplifyPowerBase (b x y : expr) : res (expr * expr) :=
    c1 <- doContractExpFirst b x y ;;
    sel <- (if (c1 : bool) then ret (Some b)
            else c2 <- doesChangeSign b x ;;
            if (c2 : bool) then m <- minus [b] ;; ret (Some m)
            else c3 <- doContractExpSecond x y ;;
            ret (if (c3 : bool) then Some b else None)) ;;
    match sel with
    | None => ret (Pow b x, y)
    | Some b' =>
        z <- w_prod W [x; y] ;;
        if isZero z then ret (one, one) else w_spow W b' z
    end.

  (** simplifyProductBase, src/powersimpl.cpp:167-186.  The loop over the factors returns the simplified
      and the kept ones. *)
  Fixpoint splitFactors (all : bool) (x : expr) (l : list expr) : res (list expr * list expr) :=
    match l with
    | [] => ret ([], [])
    | f :: r =>
        p <- (if all then ret true
              else q <- w_pos W f ;; _ <- relyIf q (CSign f) ;; ret q) ;;
        if (p : bool) then
          y <- w_pow W f x ;; '(s, k) <- splitFactors all x r ;; ret (y :: s, k)
        else '(s, k) <- splitFactors all x r ;; ret (s, f :: k)
    end.
  Definition simplifyProductBase (l : list expr) (x : expr) : res (expr * expr) :=
    let all := isInteger x in
    _ <- (if all then relyInt x else ret tt) ;;
    '(s, k) <- splitFactors all x l ;;
    match s with
    | [] => ret (Prod l, x)
    | _ => r <- w_prod W k ;; p <- w_pow W r x ;; t <- w_prod W (s ++ [p]) ;; ret (t, one)
    end.

  (** simplifyConstantBase, src/powersimpl.cpp:188-202. *)
  Definition simplifyConstantBase (b x : expr) : res (expr * expr) :=
    match b, x with
    | Cst CE, Fct _ l =>
        match l with
        | [] => UB "front of empty operand list"%string
        | a :: _ =>
            t <- quiet (w_log W a) ;;
            if isEqual x t then
              _ <- relyIf (negb (isEqual x (Fct FLog [a]))) (CBug "not a logarithm"%string) ;; ret (a, one)
            else ret (b, x)
        end
    | _, _ => ret (b, x)
    end.

  (** doesInvolveComplexNumbers, src/powersimpl.cpp:33-39.  The sign of the base is computed in any case,
      but it only matters when the exponent is a number other than an integer. *)
  Definition doesInvolveComplexNumbers (b x : expr) : res bool :=
    match nev x with
    | Some a =>
        if nIsInt Y a then _ <- quiet (w_neg W b) ;; ret false
        else g <- w_neg W b ;;
          if (g : bool) then _ <- rely (CSign b) ;; _ <- match x with Num _ => ret tt | _ => rely (CNotInt x) end ;; ret true
          else ret false
    | None => _ <- quiet (w_neg W b) ;; ret false
    end.

  (** simplifyPower, simplifyNumericBase, src/powersimpl.cpp:41-47, 206-223. *)
  Definition simplifyPower (b x : expr) : res (expr * expr) :=
    c <- doesInvolveComplexNumbers b x ;;
    if (c : bool) then ret (Undef, one)
    else match b with
    | Num q => match x with Num y => simplifyNumericPower q y | _ => ret (b, x) end
    | Pow b' x' => simplifyPowerBase b' x' x
    | Prod l => simplifyProductBase l x
    | Undef => ret (Undef, one)
    | Cst _ => simplifyConstantBase b x
    | _ => ret (b, x)
    end.

  (** Power::create, createNotUndefined, createNonTrivial, src/power.cpp:29-80. *)
  Definition powCreate (b x : expr) : res expr :=
    if isUndefined x || isUndefined b then ret Undef
    else if isZero x || isOne b then ret one
    else if isZero b then
      g <- w_neg W x ;;
      _ <- match x with Num _ => ret tt | _ => rely (if (g : bool) then CSign x else CNonZero x) end ;;
      ret (if (g : bool) then Undef else zero)
    else if isOne x then ret b
    else
      '(b', x') <- w_spow W b x ;;
      ret (if isOne x' then b' else if isOne b' then one else Pow b' x').

  (** ** Sign *)

  (** Sum::sign and helpers, src/sum.cpp:139-181. *)
  Definition numericParts (l : list expr) : list expr :=
    filter (fun e => match nev e with Some _ => true | None => false end) l.
  Definition symbolicParts (l : list expr) : list expr :=
    filter (fun e => match nev e with Some _ => false | None => true end) l.
  Definition signOfNumericParts (l : list expr) : Z :=
    let s := fold_left (fun a e => match nev e with Some v => nadd Y a v | None => a end) l (NQ 0%Q) in
    if nlt Y s (NQ 0%Q) then -1 else if nlt Y (NQ 0%Q) s then 1 else 0.
  Fixpoint signOfSymbolicParts (l : list expr) (s : Z) : res Z :=
    match l with
    | [] => ret s
    | e :: r =>
        p <- w_pos W e ;;
        if (p : bool) && (0 <=? s) then signOfSymbolicParts r 1
        else g <- w_neg W e ;;
        if (g : bool) && (s <=? 0) then signOfSymbolicParts r (-1)
        else ret 0
    end.
  Definition sumSign (l : list expr) : res Z :=
    let a := signOfNumericParts l in
    b <- signOfSymbolicParts (symbolicParts l) 0 ;;
    let r := if a =? 0 then a + b else if 1 <? a + b then 1 else if a + b <? -1 then -1 else 0 in
    _ <- match numericParts l with
         | [] => ret tt
         | [Num _] => ret tt
         | ps => if r =? 0 then ret tt
                 else rely (if a =? 0 then CEq (Sum ps) 0 else if a =? 1 then CLt zero (Sum ps) else CLt (Sum ps) zero)
         end ;;
    ret r.

  (** Product::sign, src/product.cpp:143-156. *)
  Fixpoint prodSign (l : list expr) (s : Z) : res Z :=
    match l with
    | [] => ret s
    | e :: r =>
        p <- w_pos W e ;;
        if (p : bool) then prodSign r s
        else g <- w_neg W e ;;
        if (g : bool) then prodSign r (- s) else ret 0
    end.

  (** num > 0 and num < 0 for a numeric value of e. *)
  Definition numPos (e : expr) (a : FloatEval.num (sD Y)) : res bool :=
    let b := nlt Y (NQ 0%Q) a in _ <- relyIf b (CLt zero e) ;; ret b.
  Definition numNeg (e : expr) (a : FloatEval.num (sD Y)) : res bool :=
    let b := nlt Y a (NQ 0%Q) in _ <- relyIf b (CLt e zero) ;; ret b.

  (** isPositive: src/numeric.cpp:103-106, symbol.cpp:123-126, constant.cpp:69-72, undefined.cpp:52-55,
      trigonometric.cpp:502-510, logarithm.cpp:120-130, sum.cpp:113-119, product.cpp:123-126,
      power.cpp:113-121. *)
  Definition isPositive (e : expr) : res bool :=
    match e with
    | Num q => ret (qgtb q 0)
    | Sym _ p => ret p
    | Cst _ => ret true
    | Undef => ret false
    | Fct FAtan [a] => w_pos W a
    | Fct FLog [a] => s <- w_sum W [a; mOne] ;; w_pos W s
    | Fct _ _ => match nev e with Some a => numPos e a | None => ret false end
    | Sum l => match nev e with
               | Some a => numPos e a
               | None => s <- sumSign l ;; ret (s =? 1)
               end
    | Prod l => s <- prodSign l 1 ;; ret (s =? 1)
    | Pow b x =>
        p <- w_pos W b ;;
        if (p : bool) then ret true
        else match nev x with
        | Some (NQ q) =>
            if Z.rem (qnum q) 2 =? 0 then
              _ <- match x with Num _ => ret tt | _ => rely (CEq x q) end ;; _ <- rely (CEven b) ;; ret true
            else ret false
        | _ => ret false
        end
    end.

  (** isNegative: src/numeric.cpp:108-111, symbol.cpp:128-131, constant.cpp:74-77, undefined.cpp:57-60,
      trigonometric.cpp:512-520, logarithm.cpp:132-135, sum.cpp:121-127, product.cpp:128-131,
      power.cpp:123-128. *)
  Definition isNegative (e : expr) : res bool :=
    match e with
    | Num q => ret (qltb q 0)
    | Sym _ _ | Cst _ | Undef | Pow _ _ => ret false
    | Fct FAtan [a] => w_neg W a
    | Fct FLog [a] => s <- w_sum W [a; mOne] ;; w_neg W s
    | Fct _ _ => match nev e with Some a => numNeg e a | None => ret false end
    | Sum l => match nev e with
               | Some a => numNeg e a
               | None => s <- sumSign l ;; ret (s =? -1)
               end
    | Prod l => s <- prodSign l 1 ;; ret (s =? -1)
    end.

  (** ** Expansion *)

  (** expand: src/base.cpp:81-84, sum.cpp:183-191, product.cpp:189-192, power.cpp:140-173. *)
  Definition expandExpr (n : nat) (e : expr) : res expr :=
    match e with
    | Sum l => x <- mapM (w_expand W) l ;; w_sum W x
    | Prod l => expandAsProduct n l
    | Pow b x =>
        match nev x with
        | Some (NQ q) =>
            if qIsInt q then
              match b with
              | Sum _ =>
                  _ <- relyInt x ;;
                  r <- expandAsProduct n (repeat b (Z.to_nat (Z.abs (qnum q)))) ;;
                  if qnum q <? 0 then oneOver r else ret r
              | _ => w_pow W b x
              end
            else ret e
        | _ => ret e
        end
    | _ => ret e
    end.

  (** ** Substitution *)

  (** subst: src/base.cpp:86-92, sum.cpp:193-201, product.cpp:194-202, power.cpp:175-181,
      trigonometric.cpp:492-500, logarithm.cpp:112-118, undefined.cpp:80-86; for lists
      src/baseptrlistfct.cpp:181-195. *)
  Definition substExpr (e from to : expr) : res expr :=
    match e with
    | Undef => ret (if isUndefined from then to else e)
    | _ =>
        if isEqual e from then ret to
        else match e with
        | Sum l => x <- mapM (fun a => w_subst W a from to) l ;; w_sum W x
        | Prod l => x <- mapM (fun a => w_subst W a from to) l ;; w_prod W x
        | Pow b x => b' <- w_subst W b from to ;; x' <- w_subst W x from to ;; w_pow W b' x'
        | Fct FAtan2 [y; x] => y' <- w_subst W y from to ;; x' <- w_subst W x from to ;; w_atan2 W y' x'
        | Fct FLog [a] => a' <- w_subst W a from to ;; w_log W a'
        | Fct f [a] => a' <- w_subst W a from to ;; w_trig W f a'
        | _ => ret e
        end
    end.
End Simpl.
