(** Trigonometric functions and logarithms: src/trigonometric.cpp, src/numtrigosimpl.cpp and
    src/logarithm.cpp.

    Simplification: the model has no Numeric that holds a double (src/numeric.cpp), so isDoubleNumeric
    is false everywhere and the branches for doubles (src/numtrigosimpl.cpp:157-162, 242-243, 276-298,
    399-402, 435-436, 445-451; src/trigonometric.cpp:374-377; src/logarithm.cpp:75) are left out. *)
From Verif Require Export SimplModel.
Open Scope Z_scope.

Section Trig.
  Variables (Y : sys) (W : oper).
  Notation nev := (numericEval Y).

  (** Comparison of std::optional<Number>. *)
  Definition oLt (a b : option (FloatEval.num (sD Y))) : bool :=
    match b, a with None, _ => false | _, None => true | Some y, Some x => nlt Y x y end.
  Definition oGe (a b : option (FloatEval.num (sD Y))) : bool :=
    match b, a with None, _ => true | _, None => false | Some y, Some x => nge Y x y end.
  Definition oEq (a b : option (FloatEval.num (sD Y))) : bool :=
    match a, b with None, None => true | Some x, Some y => neq Y x y | _, _ => false end.

  (** A comparison of two rational numbers is exact. *)
  Definition relyLt (a b : expr) : res unit :=
    match a, b with Num p, Num q => relyIf (negb (qltb p q)) (CLt a b) | _, _ => rely (CLt a b) end.
  Definition relyLe (a b : expr) : res unit :=
    match a, b with Num p, Num q => relyIf (qltb q p) (CLe a b) | _, _ => rely (CLe a b) end.
  Definition relyZero (a : expr) : res unit :=
    match a with Num p => relyIf (negb (qeqb p 0)) (CEq a 0) | _ => rely (CEq a 0) end.

  (** timesPi, src/trigonometric.cpp:26-31, numtrigosimpl.cpp:15-18; square, trigonometric.cpp:21-24. *)
  Definition timesPi (q : Q) : res expr := w_prod W [Num q; pi].
  Definition square (e : expr) : res expr := w_pow W e two.

  (** ** src/numtrigosimpl.cpp *)

  (** sineTable, src/numtrigosimpl.cpp:20-50.  Simplification: a list instead of a hash table; an exact
      match is looked for first, then a numerical one in the order of the list. *)
  Definition sineTable : res (list (expr * expr)) :=
    s2 <- sqrtE W two ;; s6 <- sqrtE W (numZ 6) ;; s3 <- sqrtE W (numZ 3) ;; m2 <- minus W [s2] ;;
    k1 <- timesPi (1 # 12) ;; d1 <- w_sum W [s6; m2] ;; v1 <- w_prod W [Num (1 # 4); d1] ;;
    k2 <- timesPi (1 # 8) ;; d2 <- w_sum W [two; m2] ;; q2 <- sqrtE W d2 ;; v2 <- w_prod W [half; q2] ;;
    k3 <- timesPi (1 # 6) ;;
    k4 <- timesPi (1 # 4) ;; v4 <- oneOver W s2 ;;
    k5 <- timesPi (1 # 3) ;; v5 <- w_prod W [half; s3] ;;
    k6 <- timesPi (3 # 8) ;; d6 <- w_sum W [two; s2] ;; q6 <- sqrtE W d6 ;; v6 <- w_prod W [half; q6] ;;
    k7 <- timesPi (5 # 12) ;; d7 <- w_sum W [s6; s2] ;; v7 <- w_prod W [Num (1 # 4); d7] ;;
    k8 <- timesPi (1 # 2) ;;
    ret [(zero, zero); (k1, v1); (k2, v2); (k3, half); (k4, v4); (k5, v5); (k6, v6); (k7, v7); (k8, one)].

  (** tanTable, src/numtrigosimpl.cpp:52-80. *)
  Definition tanTable : res (list (expr * expr)) :=
    s2 <- sqrtE W two ;; s3 <- sqrtE W (numZ 3) ;;
    k1 <- timesPi (1 # 12) ;; m3 <- minus W [s3] ;; v1 <- w_sum W [two; m3] ;;
    k2 <- timesPi (1 # 8) ;; m1 <- minus W [one] ;; v2 <- w_sum W [s2; m1] ;;
    k3 <- timesPi (1 # 6) ;; v3 <- oneOver W s3 ;;
    k4 <- timesPi (1 # 4) ;;
    k5 <- timesPi (1 # 3) ;;
    k6 <- timesPi (3 # 8) ;; v6 <- w_sum W [s2; one] ;;
    k7 <- timesPi (5 # 12) ;; v7 <- w_sum W [two; s3] ;;
    k8 <- timesPi (1 # 2) ;;
    ret [(zero, zero); (k1, v1); (k2, v2); (k3, v3); (k4, one); (k5, s3); (k6, v6); (k7, v7); (k8, Undef)].

  (** getValue, getValueNumEval, src/numtrigosimpl.cpp:253-274. *)
  Definition getValue (arg : expr) (t : list (expr * expr)) : res (option expr) :=
    match find (fun kv => isEqual arg (fst kv)) t with
    | Some kv => ret (Some (snd kv))
    | None =>
        match nev arg with
        | None => UB "no numeric value"%string
        | Some a =>
            match find (fun kv => oEq (Some a) (nev (fst kv))) t with
            | Some kv => _ <- rely (CSame arg (fst kv)) ;; ret (Some (snd kv))
            | None => ret None
            end
        end
    end.

  (** getKey, src/numtrigosimpl.cpp:405-418. *)
  Fixpoint getKey (arg : expr) (t : list (expr * expr)) : res (option expr) :=
    match t with
    | [] => ret None
    | (k, v) :: r =>
        if isUndefined v then getKey arg r
        else if isEqual arg v then ret (Some k)
        else if oEq (nev arg) (nev v) then _ <- rely (CSame arg v) ;; ret (Some k)
        else getKey arg r
    end.

  (** adjustArgRange, src/numtrigosimpl.cpp:164-174. *)
  Fixpoint addUp (n : nat) (arg twoPi : expr) : res expr :=
    match n with
    | O => Fuel
    | S m => g <- quiet (w_neg W arg) ;; if (g : bool) then a <- w_sum W [arg; twoPi] ;; addUp m a twoPi else ret arg
    end.
  Fixpoint takeDown (n : nat) (arg upper step : expr) : res expr :=
    match n with
    | O => Fuel
    | S m => if oGe (nev arg) (nev upper) then a <- w_sum W [arg; step] ;; takeDown m a upper step else ret arg
    end.
  Definition adjustArgRange (n : nat) (arg : expr) : res expr :=
    t <- timesPi 2 ;; a <- addUp n arg t ;;
    if oGe (nev a) (nev t) then m <- minus W [t] ;; takeDown n a t m else ret a.

  (** getQuadrant, src/numtrigosimpl.cpp:198-213. *)
  Definition getQuadrant (arg : expr) : res nat :=
    match oneOver W pi with
    | Ok i _ =>
        match w_prod W [arg; i] with
        | Ok m _ =>
            match nev m with
            | None => UB "no numeric value"%string
            | Some f =>
                ret (if nlt Y f (NQ (1 # 2)) then 1 else if nlt Y f (NQ 1%Q) then 2
                     else if nlt Y f (NQ (3 # 2)) then 3 else 4)%nat
            end
        | Fuel => Fuel | Throw => Throw | UB s => UB s
        end
    | Fuel => Fuel | Throw => Throw | UB s => UB s
    end.

  (** shiftToFirstQuadrant, src/numtrigosimpl.cpp:223-234. *)
  Fixpoint subtractTimes (k : nat) (arg m : expr) : res expr :=
    match k with O => ret arg | S k' => a <- w_sum W [arg; m] ;; subtractTimes k' a m end.
  Definition shiftToFirstQuadrant (quadrant : nat) (arg : expr) : res expr :=
    h <- timesPi (1 # 2) ;; m <- minus W [h] ;;
    a <- subtractTimes (quadrant - 1) arg m ;;
    if Nat.eqb quadrant 2 || Nat.eqb quadrant 4 then m' <- minus W [a] ;; w_sum W [h; m'] else ret a.

  (** resultTimesSign, src/numtrigosimpl.cpp:246-251. *)
  Definition resultTimesSign (s : Z) (o : option expr) : res (option expr) :=
    match o with None => ret None | Some v => p <- w_prod W [numZ s; v] ;; ret (Some p) end.

  (** sin, setSinSign, compShiftedSin, src/numtrigosimpl.cpp:188-196, 215-221, 236-244. *)
  Definition numSin (arg : expr) : res (option expr) :=
    q <- getQuadrant arg ;; a <- shiftToFirstQuadrant q arg ;;
    t <- sineTable ;; v <- getValue a t ;; resultTimesSign (if Nat.ltb 2 q then -1 else 1) v.

  (** cos, src/numtrigosimpl.cpp:300-309. *)
  Definition numCos (n : nat) (arg : expr) : res (option expr) :=
    h <- timesPi (1 # 2) ;; a <- w_sum W [arg; h] ;; b <- adjustArgRange n a ;; numSin b.

  (** computeSinCosTan, isArgRationalNonZeroNumeric, prepareSinCosTan for sine and cosine,
      src/numtrigosimpl.cpp:131-155, 345-350. *)
  Definition simplSinCos (n : nat) (cosine : bool) (arg : expr) : res (option expr) :=
    if negb (isZero arg) && isNumeric arg then ret None
    else
      (* a zero argument becomes zero times pi, which is zero: src/numtrigosimpl.cpp:157-162 *)
      arg1 <- (if isNumeric arg then w_prod W [zero; pi] else ret arg) ;;
      a <- adjustArgRange n arg1 ;; if cosine then numCos n a else numSin a.

  (** tan, setTanSign, tanViaSinCos, src/numtrigosimpl.cpp:311-343.  A negative sign for a value from the
      table would be wrong: the table has arguments of the first quadrant only. *)
  Definition simplTan (n : nat) (arg : expr) : res (option expr) :=
    if negb (isZero arg) && isNumeric arg then ret None
    else
      arg1 <- (if isNumeric arg then w_prod W [zero; pi] else ret arg) ;;
      a <- adjustArgRange n arg1 ;;
      q <- getQuadrant a ;; t <- tanTable ;; v <- getValue a t ;;
      match v with
      | Some x =>
          let plus := Nat.eqb q 1 || Nat.eqb q 3 in
          _ <- relyIf (negb plus && negb (isUndefined x)) (CBug "quadrant"%string) ;;
          resultTimesSign (if plus then 1 else -1) (Some x)
      | None =>
          s <- simplSinCos n false arg ;; c <- simplSinCos n true arg ;;
          match c with
          | Some y =>
              if isZero y then ret (Some Undef)
              else match s with
              | Some x => i <- oneOver W y ;; p <- w_prod W [x; i] ;; resultTimesSign 1 (Some p)
              | None => ret None
              end
          | None => ret None
          end
      end.

  (** computeAsinAcosAtan, isInverseArgOutOfRange, prepareAsinAcosAtan, asin, acos, acosFromAsinResult,
      atan, src/numtrigosimpl.cpp:352-452. *)
  Definition simplInverse (f : fct) (arg : expr) : res (option expr) :=
    match nev arg with
    | None => UB "no numeric value"%string
    | Some x =>
        let below := match f with FAtan => false | _ => nlt Y x (NQ (-1 # 1)) end in
        let above := match f with FAtan => false | _ => nlt Y (NQ 1%Q) x end in
        if below then _ <- relyLt arg mOne ;; ret (Some Undef)
        else if above then _ <- relyLt one arg ;; ret (Some Undef)
        else
          let flip := nlt Y x (NQ 0%Q) in
          a <- (if flip then minus W [arg] else ret arg) ;;
          t <- match f with FAtan => tanTable | _ => sineTable end ;;
          k <- getKey a t ;;
          v <- resultTimesSign (if flip then -1 else 1) k ;;
          match f, v with
          | FAcos, Some y => h <- timesPi (1 # 2) ;; m <- minus W [y] ;; s <- w_sum W [h; m] ;; ret (Some s)
          | _, _ => ret v
          end
    end.

  (** NumTrigoSimpl::simplify, src/numtrigosimpl.cpp:96-129, 176-186. *)
  Definition numTrigo (n : nat) (f : fct) (arg : expr) : res (option expr) :=
    match f with
    | FSin => simplSinCos n false arg
    | FCos => simplSinCos n true arg
    | FTan => simplTan n arg
    | _ => simplInverse f arg
    end.

  (** ** src/trigonometric.cpp *)

  (** createBySymmetry and createNumericallyBySymmetry, src/trigonometric.cpp:153-163, 179-192; [again]
      tells the first from the second. *)
  Definition bySymmetry (again : bool) (f : fct) (arg : expr) : res expr :=
    p <- minus W [arg] ;;
    r <- (if again then w_trig W f p else ret (Fct f [p])) ;;
    match f with
    | FCos => ret r
    | FAcos => t <- timesPi 1 ;; m <- minus W [r] ;; w_sum W [t; m]
    | _ => minus W [r]
    end.

  (** doesSymmetryApply, haveAllNegativePrefactors, src/trigonometric.cpp:134-151. *)
  Fixpoint allNegPrefactors (l : list expr) : res bool :=
    match l with
    | [] => ret true
    | x :: r => c <- constTerm W x ;; p <- w_pos W c ;; if (p : bool) then ret false else allNegPrefactors r
    end.
  Definition doesSymmetryApply (arg : expr) : res bool :=
    quiet match arg with
          | Sum l => allNegPrefactors l
          | Prod _ => e <- w_expand W arg ;; c <- constTerm W e ;; w_neg W c
          | _ => ret false
          end.

  (** createNumerically, src/trigonometric.cpp:165-177. *)
  Definition createNumerically (n : nat) (f : fct) (arg : expr) : res expr :=
    s <- numTrigo n f arg ;;
    match s with
    | Some e => ret e
    | None => g <- quiet (w_neg W arg) ;; if (g : bool) then bySymmetry false f arg else ret (Fct f [arg])
    end.

  (** isOtherTheInverse, src/trigonometric.cpp:233-245. *)
  Definition isOtherTheInverse (f g : fct) : bool :=
    match f, g with FSin, FAsin | FCos, FAcos | FTan, FAtan => true | _, _ => false end.

  (** shiftArgIntoRange, interval, src/trigonometric.cpp:257-290. *)
  Fixpoint bringUp (n : nat) (arg lower step : expr) : res expr :=
    match n with
    | O => Fuel
    | S m => if oLt (nev arg) (nev lower) then a <- w_sum W [arg; step] ;; bringUp m a lower step else ret arg
    end.
  Definition shiftArgIntoRange (n : nat) (f : fct) (arg : expr) : res expr :=
    lower <- match f with FAsin | FAtan => timesPi (-1 # 2) | _ => ret zero end ;;
    upper <- match f with FAsin | FAtan => timesPi (1 # 2) | _ => timesPi 1 end ;;
    let ef := match f with FAtan => mOne | _ => one end in
    md <- timesPi (-2 # 1) ;; a <- takeDown n arg upper md ;;
    mu <- timesPi 2 ;; b <- bringUp n a lower mu ;;
    c <- (if oGe (nev b) (nev upper) then
            p <- w_prod W [ef; two; upper] ;; q <- minus W [ef; b] ;; w_sum W [p; q]
          else ret b) ;;
    _ <- rely (CLe lower c) ;; _ <- rely (CLe c upper) ;; ret c.

  (** normalFrac, src/trigonometric.cpp:294-297, with eval of a Fraction, src/fraction.cpp:11-14. *)
  Definition normalFrac (a b : expr) : res expr :=
    i <- oneOver W b ;; p <- w_prod W [a; i] ;; w_normal W p.

  (** createFromTrigoNoInverse, src/trigonometric.cpp:301-326.  The auxiliary terms that aren't used for
      the result are computed as well. *)
  Definition fromTrigoNoInverse (f g : fct) (l : list expr) : res expr :=
    match l with
    | [] => UB "front of empty operand list"%string
    | x :: _ =>
        let y := last l x in
        let use (b : bool) (m : res expr) : res expr := if b then m else quiet m in
        let arg := Fct g l in
        let b1 := match f, g with FSin, FAcos | FCos, FAsin | FTan, FAsin | FTan, FAcos => true | _, _ => false end in
        let b2 := match f, g with FSin, FAtan | FCos, FAtan => true | _, _ => false end in
        let b3 := match f, g with FSin, FAtan2 | FCos, FAtan2 => true | _, _ => false end in
        aux1 <- use b1 (s <- square x ;; m <- minus W [s] ;; t <- w_sum W [one; m] ;; sqrtE W t) ;;
        aux2 <- use b2 (s <- square x ;; t <- w_sum W [one; s] ;; sqrtE W t) ;;
        aux3 <- use b3 (s <- square x ;; q <- square y ;; t <- w_sum W [s; q] ;; sqrtE W t) ;;
        match f, g with
        | FSin, FAcos | FCos, FAsin => ret aux1
        | FSin, FAtan => normalFrac x aux2
        | FSin, FAtan2 => normalFrac x aux3
        | FCos, FAtan => normalFrac one aux2
        | FCos, FAtan2 => normalFrac y aux3
        | FTan, FAsin => normalFrac x aux1
        | FTan, FAcos => normalFrac aux1 x
        | _, _ => ret (Fct f [arg])
        end
    end.

  (** createFromFunction, createFromTrigo, src/trigonometric.cpp:194-231, 247-255; atan2ArgEval, 33-36. *)
  Definition atan2ArgEval (y x : expr) : res expr := i <- oneOver W x ;; w_prod W [y; i].
  Definition fromFunction (n : nat) (f g : fct) (l : list expr) : res expr :=
    let arg := Fct g l in
    match g with
    | FLog => ret (Fct f [arg])
    | _ =>
        match l with
        | [] => UB "front of empty operand list"%string
        | x :: _ =>
            if isOtherTheInverse f g then ret x
            else match f, g with
            | FTan, FAtan2 => atan2ArgEval x (last l x)
            | _, _ =>
                if isOtherTheInverse g f && (match nev arg with Some _ => true | None => false end)
                then shiftArgIntoRange n f x
                else fromTrigoNoInverse f g l
            end
        end
    end.

  (** Trigonometric::create, src/trigonometric.cpp:115-127. *)
  Definition trigCreate (n : nat) (f : fct) (arg : expr) : res expr :=
    match arg with
    | Undef => ret arg
    | Fct g l => fromFunction n f g l
    | _ =>
        s <- doesSymmetryApply arg ;;
        if (s : bool) then bySymmetry true f arg
        else match nev arg with
        | Some _ => createNumerically n f arg
        | None => ret (Fct f [arg])
        end
    end.

  (** shiftAtanResultIntoRange, src/trigonometric.cpp:368-390.  The result has to be in the range of
      atan2; [CBug]: a Numeric result other than zero would be a double. *)
  Definition shiftAtanResultIntoRange (n : nat) (result summand : expr) : res expr :=
    t <- timesPi 2 ;;
    _ <- relyIf (isNumeric result && negb (isZero result)) (CBug "double"%string) ;;
    s <- w_sum W [result; summand] ;;
    a <- addUp n s t ;;
    b <- (if oGe (nev a) (nev t) then m <- minus W [t] ;; takeDown n a t m else ret a) ;;
    _ <- rely (CLe zero b) ;; _ <- rely (CLt b t) ;; ret b.

  (** simplAtan2, src/trigonometric.cpp:350-366.  Without a value from the table the code ignores the
      quadrant: this is right for a point in the first one. *)
  Definition simplAtan2 (n : nat) (y x increment : expr) (first : bool) : res expr :=
    let wanted := Fct FAtan2 [y; x] in
    a <- atan2ArgEval y x ;;
    match a with
    | Fct FTan (b :: _) => _ <- rely (CSame wanted b) ;; ret b
    | _ =>
        s <- numTrigo n FAtan a ;;
        match s with
        | Some e => shiftAtanResultIntoRange n e increment
        | None =>
            g <- quiet (w_neg W a) ;;
            r <- (if (g : bool) then bySymmetry true FAtan a else ret (Fct FAtan [a])) ;;
            _ <- relyIf (negb first) (CSame wanted r) ;;
            ret r
        end
    end.

  (** createAtan2Numerically, createAtan2, src/trigonometric.cpp:104-113, 328-348. *)
  Definition atan2Create (n : nat) (y x : expr) : res expr :=
    if isUndefined x || isUndefined y then ret Undef
    else match nev x, nev y with
    | Some a, Some b =>
        if neq Y a (NQ 0%Q) && nlt Y (NQ 0%Q) b then
          _ <- relyZero x ;; _ <- relyLt zero y ;; timesPi (1 # 2)
        else if neq Y a (NQ 0%Q) && nlt Y b (NQ 0%Q) then
          _ <- relyZero x ;; _ <- relyLt y zero ;; timesPi (3 # 2)
        else if neq Y a (NQ 0%Q) && neq Y b (NQ 0%Q) then _ <- relyZero x ;; _ <- relyZero y ;; ret Undef
        else if nlt Y (NQ 0%Q) a then
          _ <- relyLt zero x ;;
          _ <- (if nlt Y b (NQ 0%Q) then ret tt else relyLe zero y) ;;
          simplAtan2 n y x zero (negb (nlt Y b (NQ 0%Q)))
        else
          _ <- relyLt x zero ;;
          inc <- (if nge Y b (NQ 0%Q) then timesPi 1 else timesPi (-1 # 1)) ;; simplAtan2 n y x inc false
    | _, _ => ret (Fct FAtan2 [y; x])
    end.

  (** ** src/logarithm.cpp *)

  (** Logarithm::create, isInvalidArg, createFromConstant, createFromPower, src/logarithm.cpp:22-89.
      The logarithm of a power needs a positive base. *)
  Definition relyPosBase (b : expr) : res unit :=
    match b with Cst _ => ret tt | Num q => relyIf (negb (qltb 0 q)) (CLt zero b) | _ => rely (CLt zero b) end.
  Definition logCreate (arg : expr) : res expr :=
    invalid <-
      (if isUndefined arg || isZero arg then ret true
       else if match arg with Pow (Cst CE) _ => true | _ => false end then ret false
       else g <- w_neg W arg ;;
         if (g : bool) then ret true
         else match nev arg with
         | Some a => if neq Y a (NQ 0%Q) then _ <- relyZero arg ;; ret true else ret false
         | None => ret false
         end) ;;
    if (invalid : bool) then ret Undef
    else if isOne arg then ret zero
    else match arg with
    | Cst CE => ret one
    | Pow b x => _ <- relyPosBase b ;; l <- w_log W b ;; w_prod W [x; l]
    | _ => ret (Fct FLog [arg])
    end.
End Trig.
