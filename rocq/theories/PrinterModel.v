(** src/printer.cpp with src/plaintextprintengine.cpp and src/namefct.cpp: the text of an expression.

    Simplifications: the text is returned instead of being written to a stream; the fuel bounds the depth of
    the recursion, which isn't structural because the code computes new expressions on its way.  Where the
    code prints something without parentheses although its text binds less tightly than the context demands,
    the model records the fact [CBug], and so it does for constants whose name isn't read back. *)
From Verif Require Export ParserModel.
From Coq Require Import String ZArith List.
Import ListNotations.
From Verif Require Import Run.
Open Scope Z_scope.

(** PlaintextPrintEngine::CharSet, include/tsym/plaintextprintengine.h:10. *)
Inductive charset := AsciiSet | UnicodeSet.

(** delimCurlyBracesOrPlain and concat, src/namefct.cpp:79-95, 117-125. *)
Definition delim (connection : ascii) (s : string) : text :=
  match txt s with
  | [] => []
  | [c] => [connection; c]
  | l => connection :: "{"%char :: l ++ ["}"%char]
  end.
Definition concat (n : name) : text := txt (nvalue n) ++ delim "_" (nsub n) ++ delim "^" (nsuper n).

(** greekAlphabetIndex, isGreekLetter, unicodeForGreekLetter and unicode: src/namefct.cpp:22-67, 99-105.  The
    characters are encoded in UTF-8. *)
Definition greekAlphabet : list string :=
  ["alpha"; "beta"; "gamma"; "delta"; "epsilon"; "zeta"; "eta"; "theta"; "iota"; "kappa"; "lambda"; "my"; "ny"; "xi";
   "omikron"; "pi"; "rho"; "sigma"; "tau"; "ypsilon"; "phi"; "chi"; "psi"; "omega"]%string.
Definition capitalCodes : list (nat * nat) :=
  [(206, 145); (206, 146); (206, 147); (206, 148); (206, 149); (206, 150); (206, 151); (206, 152); (206, 153); (206, 154);
   (206, 155); (206, 156); (206, 157); (206, 158); (206, 159); (206, 160); (206, 161); (206, 163); (206, 164); (206, 165);
   (206, 166); (206, 167); (206, 168); (206, 169)]%nat.
Definition smallCodes : list (nat * nat) :=
  [(206, 177); (206, 178); (206, 179); (206, 180); (206, 181); (206, 182); (206, 183); (206, 184); (206, 185); (206, 186);
   (206, 187); (206, 188); (206, 189); (206, 190); (206, 191); (207, 128); (207, 129); (207, 131); (207, 132); (207, 133);
   (207, 134); (207, 135); (207, 136); (207, 137)]%nat.
Definition sameText (a b : text) : bool := if list_eq_dec ascii_dec a b then true else false.
Definition isGreek (letter : string) (s : text) : bool :=
  match txt letter, s with
  | a :: l, c :: r => (Ascii.eqb a c || Ascii.eqb a (lower c)) && sameText l r
  | _, _ => false
  end.
Fixpoint lookup (codes : list (nat * nat)) (letters : list string) (s : text) : option text :=
  match letters, codes with
  | a :: l, (x, y) :: m => if isGreek a s then Some [ascii_of_nat x; ascii_of_nat y] else lookup m l s
  | _, _ => None
  end.
Definition greek (s : text) : option text :=
  match s with
  | c :: _ :: _ => lookup (if isUpper c then capitalCodes else smallCodes) greekAlphabet s
  | _ => None
  end.
Definition unicode (n : name) : text := match greek (txt (nvalue n)) with Some u => u | None => concat n end.

(** symbol, src/plaintextprintengine.cpp:11-28. *)
Definition symbolText (cs : charset) (n : name) : text :=
  match cs with AsciiSet => concat n | UnicodeSet => unicode n end.

(** std::ostream << Int. *)
Definition digitChar (z : Z) : ascii := ascii_of_nat (Z.to_nat (48 + z)).
Fixpoint digits (n : nat) (z : Z) : text :=
  match n with
  | O => []
  | S m => if z <? 10 then [digitChar z] else digits m (z / 10) ++ [digitChar (z mod 10)]
  end.
Definition natText (z : Z) : text := digits (S (Z.to_nat (Z.log2 z))) z.
Definition intText (z : Z) : text := if z <? 0 then "-"%char :: natText (- z) else natText z.
(** print(PrintEngine, Number), src/printer.cpp:314-336, for rationals. *)
Definition numberText (q : Q) : text :=
  if qIsInt q then intText (qnum q) else intText (qnum q) ++ "/"%char :: intText (qden q).

(** Names: src/trigonometric.cpp:38-60, src/logarithm.cpp:16, src/constant.cpp:20, 27. *)
Definition functionName (f : fct) : text :=
  txt match f with
      | FSin => "sin" | FCos => "cos" | FTan => "tan" | FAsin => "asin" | FAcos => "acos" | FAtan => "atan"
      | FAtan2 => "atan2" | FLog => "log"
      end.
Definition constantName (c : cst) : name := nm match c with CPi => "pi" | CE => "e" end.

Definition parens (s : text) : text := "("%char :: s ++ [")"%char].
(** isNegativeNumeric, src/basefct.cpp:123-126. *)
Definition isNegativeNumeric (e : expr) : bool := match e with Num q => qltb q 0 | _ => false end.
(** precedence, src/printer.cpp:239-249. *)
Definition prec (e : expr) : nat := match e with Sum _ => 1 | Prod _ => 2 | Pow _ _ => 3 | _ => 4 end%nat.

Section Printer.
  Variables (Y : sys) (W : oper) (cs : charset) (fractions : bool).   (* fractions: PowerAsFraction *)

  (** How tightly the text of an expression binds: 1 sum, 2 product, 3 sign, 4 power, 5 operand. *)
  Definition textLevel (e : expr) : nat :=
    match e with
    | Sum _ => 1
    | Prod _ => 2
    | Num q => if qIsInt q then if qltb q 0 then 3 else 5 else 2
    | Pow b x => if isEqual x half then 5 else if isNegativeNumeric x && fractions then 2 else if isOne x then 5 else 4
    | _ => 5
    end%nat.
  Definition tight (k : nat) (e : expr) : res Datatypes.unit :=
    relyIf (textLevel e <? k)%nat (CBug "missing parentheses"%string).

  (** isScalarPowerBase, src/printer.cpp:89-99; isScalarPowerExp, src/printer.cpp:133-141. *)
  Definition isScalarBase (b : expr) : bool :=
    isSymbol b || isConstant b || isFunction b
    || match numericEval Y b with Some n => nIsInt Y n && nlt Y (NQ 0%Q) n | None => false end.
  Definition isScalarExp (x : expr) : bool :=
    isSymbol x || isConstant x || isFunction x || match x with Num q => qIsInt q && qltb 0 q | _ => false end.

  Section Step.
    Variable top : expr -> res text.

    (** power, powerNegNumericExp, standardPower, powerBase and powerExponent: src/printer.cpp:66-87, 101-131,
        src/plaintextprintengine.cpp:119-183. *)
    Definition power (b x : expr) : res text :=
      if isEqual x half then s <- top b ;; ret (txt "sqrt" ++ parens s)
      else if isNegativeNumeric x && fractions then
        m <- minus W [x] ;;
        d <- w_pow W b m ;;
        _ <- (if isScalarBase b then tight 3 d else ret tt) ;;
        s <- top d ;;
        ret (txt "1/" ++ if isScalarBase b then s else parens s)
      else
        s <- (if isScalarBase b then _ <- tight 5 b ;; top b else s <- top b ;; ret (parens s)) ;;
        if isOne x then ret s
        else if isScalarExp x then t <- top x ;; ret (s ++ "^"%char :: t)
        else t <- top x ;; ret (s ++ "^"%char :: parens t).

    (** sum and isProductWithNegativeNumeric, src/printer.cpp:143-169. *)
    Definition isNegativeProduct (e : expr) : bool := match e with Prod (x :: _) => isNegativeNumeric x | _ => false end.
    Fixpoint summands (l : list expr) : res text :=
      match l with
      | [] => ret []
      | x :: r =>
          s <- (if isNegativeProduct x then m <- minus W [x] ;; _ <- tight 2 m ;; s <- top m ;; ret (txt " - " ++ s)
                else _ <- tight 2 x ;; s <- top x ;; ret (txt " + " ++ s)) ;;
          t <- summands r ;;
          ret (s ++ t)
      end.
    Definition sum (l : list expr) : res text :=
      match l with
      | [] => UB "front of an empty list"%string
      | x :: r => s <- top x ;; t <- summands r ;; ret (s ++ t)
      end.

    (** getProductFrac, src/printer.cpp:211-237. *)
    Fixpoint splitFrac (l : list expr) : res (list expr * list expr) :=
      match l with
      | [] => ret ([], [])
      | f :: r =>
          if isNegativeNumeric (expo f) then
            m <- minus W [expo f] ;; d <- w_pow W (base f) m ;;
            p <- splitFrac r ;; ret (fst p, d :: snd p)
          else p <- splitFrac r ;; ret (f :: fst p, snd p)
      end.
    Definition moveNumber (p : list expr * list expr) : list expr * list expr :=
      match p with
      | (Num q :: a, x :: y :: b) => (numZ (qnum q) :: a, numZ (qden q) :: x :: y :: b)
      | _ => p
      end.

    (** productWithoutFractions, src/printer.cpp:251-284. *)
    Definition factor (f : expr) : res text := s <- top f ;; ret (if (prec f <? 2)%nat then parens s else s).
    Fixpoint factors (l : list expr) : res text :=
      match l with
      | [] => ret []
      | [f] => factor f
      | f :: r => s <- factor f ;; t <- factors r ;; ret (s ++ "*"%char :: t)
      end.
    Definition withoutFractions (l : list expr) : res text :=
      match l with
      | [] => UB "front of an empty list"%string
      | [x] => _ <- tight 2 x ;; top x
      | x :: r =>
          m <- minus W [x] ;;
          s <- (if isOne m then
                  _ <- relyIf (match r with Num _ :: _ | Prod _ :: _ => true | _ => false end) (CBug "sign after a sign"%string) ;;
                  ret ["-"%char]
                else if isOne x then ret []
                else s <- factor x ;; ret (s ++ ["*"%char])) ;;
          t <- factors r ;;
          ret (s ++ t)
      end.

    (** product and productAsFraction, src/printer.cpp:171-209. *)
    Definition product (l : list expr) : res text :=
      if fractions then
        p <- splitFrac l ;;
        let (num, den) := moveNumber p in
        s <- match num with
             | [] => ret (txt "1")
             | [x] => if (prec x <? 2)%nat then s <- top x ;; ret (parens s) else withoutFractions num
             | _ => withoutFractions num
             end ;;
        let composite := d <- w_prod W den ;; t <- top d ;; ret (parens t) in
        match den with
        | [] => ret s
        | [d] => t <- (if (2 <? prec d)%nat then _ <- tight 3 d ;; top d else composite) ;; ret (s ++ "/"%char :: t)
        | _ => t <- composite ;; ret (s ++ "/"%char :: t)
        end
      else withoutFractions l.

    (** function, src/printer.cpp:286-299. *)
    Definition function (f : fct) (l : list expr) : res text :=
      match l with
      | [] => UB "front of an empty list"%string
      | x :: r =>
          s <- top x ;;
          t <- match r with [y] => t <- top y ;; ret (txt ", " ++ t) | _ => ret [] end ;;
          ret (symbolText cs (nm (str (functionName f))) ++ parens (s ++ t))
      end.
  End Step.

  (** toplevel, src/printer.cpp:27-54. *)
  Fixpoint toplevel (n : nat) (e : expr) : res text :=
    match n with
    | O => Fuel
    | S m =>
        match e with
        | Sym k _ => ret (symbolText cs k)
        | Num q => ret (numberText q)
        | Pow b x => power (toplevel m) b x
        | Sum l => sum (toplevel m) l
        | Prod l => product (toplevel m) l
        | Fct f l => function (toplevel m) f l
        | Cst c =>
            _ <- relyIf (match c, cs with CPi, AsciiSet => false | _, _ => true end) (CBug "name of a constant"%string) ;;
            ret (symbolText cs (constantName c))
        | Undef => ret (txt "Undefined")
        end
    end.
End Printer.

(** print(PrintEngine, Base) and printDebug, src/printer.cpp:338-346. *)
Definition printTop (Y : sys) (W : oper) (cs : charset) (fractions : bool) (n : nat) (e : expr) : res text :=
  toplevel Y W cs fractions n e.
