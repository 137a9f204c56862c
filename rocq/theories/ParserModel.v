(** src/parser.cpp: the grammar that Boost.Spirit (qi) executes, with the stack its semantic actions work on.

    A parser of qi that fails gives back the input, but not the stack: what has been pushed before the
    failure stays there.  The model keeps this.  Simplifications: the stack holds trees instead of the
    expressions that are built from them ([toTerm] gives the program that is run), so an exception or
    undefined behaviour while an expression is built doesn't show up here; an exponent of a floating point
    number that is out of range is accepted. *)
From Verif Require Export ApiModel.
From Coq Require Export Ascii.
From Coq Require Import String ZArith List.
Import ListNotations.
Open Scope Z_scope.

Definition text := list ascii.
Definition code (c : ascii) : Z := Z.of_nat (nat_of_ascii c).
Definition between (a b : Z) (c : ascii) : bool := (a <=? code c) && (code c <=? b).
(** qi::ascii::space, digit, alpha, alnum. *)
Definition isSpace (c : ascii) : bool := between 9 13 c || Ascii.eqb c " ".
Definition isDigit (c : ascii) : bool := between 48 57 c.
Definition isUpper (c : ascii) : bool := between 65 90 c.
Definition isAlpha (c : ascii) : bool := isUpper c || between 97 122 c.
Definition isAlnum (c : ascii) : bool := isAlpha c || isDigit c.
Definition lower (c : ascii) : ascii := if isUpper c then ascii_of_nat (Z.to_nat (code c + 32)) else c.

Fixpoint span (p : ascii -> bool) (s : text) : text * text :=
  match s with
  | c :: r => if p c then let (a, b) := span p r in (c :: a, b) else ([], s)
  | [] => ([], [])
  end.
(** The skipper. *)
Definition skip (s : text) : text := snd (span isSpace s).
Definition txt (s : string) : text := list_ascii_of_string s.
Definition str (s : text) : string := string_of_list_ascii s.

(** A literal in a rule with a skipper. *)
Definition lit (c : ascii) (s : text) : option text :=
  match skip s with d :: r => if Ascii.eqb c d then Some r else None | [] => None end.
(** no_case[lit(...)]; the word w is in lower case. *)
Fixpoint noCase (w s : text) : option text :=
  match w, s with
  | [], _ => Some s
  | c :: w', d :: s' => if Ascii.eqb c (lower d) then noCase w' s' else None
  | _, [] => None
  end.

(** src/parser.cpp:54, 63-64. *)
Inductive pfct := PSin | PCos | PTan | PAsin | PAcos | PAtan | PLog | PSqrt.
Definition pfctName (f : pfct) : text :=
  txt match f with
      | PSin => "sin" | PCos => "cos" | PTan => "tan" | PAsin => "asin" | PAcos => "acos" | PAtan => "atan"
      | PLog => "log" | PSqrt => "sqrt"
      end.
Definition pfcts : list pfct := [PSin; PCos; PTan; PAsin; PAcos; PAtan; PSqrt; PLog].
(** no_case[functions]: qi::symbols takes the longest match; no name is the beginning of another one. *)
Fixpoint matchFct (l : list pfct) (s : text) : option (pfct * text) :=
  match l with
  | [] => None
  | f :: r => match noCase (pfctName f) s with Some s' => Some (f, s') | None => matchFct r s end
  end.

(** What is pushed onto the stack. *)
Inductive ptree :=
| PPi | PEuler
| PSym (value sub : text)
| PFloat (lexeme : text)
| PInt (z : Z)
| PFct (f : pfct) (a : ptree)
| PAtan2 (y x : ptree)
| PPow (a b : ptree) | PNeg (a : ptree)
| PMul (a b : ptree) | PDiv (a b : ptree) | PAdd (a b : ptree) | PSub (a b : ptree).

(** Success, failure, no more fuel, pop from an empty stack, an exception. *)
Inductive out := Yes (s : text) (st : list ptree) | No (st : list ptree) | NoFuel | EmptyStack | Exception.

(** SymbolParser, src/parser.cpp:24-40: name, subscript and the rest. *)
Definition subscript (s : text) : option (text * text) :=
  match s with
  | c :: r =>
      let braced := if Ascii.eqb c "{" then
                      match span isAlnum r with
                      | (x :: xs, d :: r') => if Ascii.eqb d "}" then Some (x :: xs, r') else None
                      | _ => None
                      end
                    else None in
      match braced with
      | Some p => Some p
      | None => if isAlnum c then Some ([c], r) else None
      end
  | [] => None
  end.
Definition symbol (s : text) : option (text * text * text) :=
  match s with
  | c :: r =>
      if isAlpha c then
        let (n, r1) := span isAlnum r in
        match r1 with
        | u :: r2 =>
            if Ascii.eqb u "_" then
              match subscript r2 with Some (sub, r3) => Some (c :: n, sub, r3) | None => Some (c :: n, [], r1) end
            else Some (c :: n, [], r1)
        | [] => Some (c :: n, [], r1)
        end
      else None
  | [] => None
  end.

(** qi::real_parser with strict_ureal_policies, src/parser.cpp:244: a dot or an exponent is needed. *)
Definition exponent (s : text) : option (text * text) :=
  match s with
  | e :: r =>
      if Ascii.eqb (lower e) "e" then
        let (sign, r1) := match r with
                          | c :: r' => if Ascii.eqb c "+" || Ascii.eqb c "-" then ([c], r') else ([], r)
                          | [] => ([], r)
                          end in
        match span isDigit r1 with
        | ([], _) => Some ([], s)         (* an exponent without digits is given back *)
        | (ds, r2) => Some (e :: sign ++ ds, r2)
        end
      else None
  | [] => None
  end.
Definition floatingPoint (s : text) : option (text * text) :=
  let (ds, s1) := span isDigit s in
  match s1 with
  | d :: s2 =>
      if Ascii.eqb d "." then
        let (fs, s3) := span isDigit s2 in
        match ds, fs with
        | [], [] => None
        | _, _ => match exponent s3 with
                  | Some (x, s4) => Some (ds ++ d :: fs ++ x, s4)
                  | None => Some (ds ++ d :: fs, s3)
                  end
        end
      else match ds with
           | [] => None
           | _ => match exponent s1 with Some (x, s4) => Some (ds ++ x, s4) | None => None end
           end
  | [] => None
  end.

(** Int(digits), src/parser.cpp:42-50, 141-144: boost::multiprecision::cpp_int reads a number that starts with 0 as
    an octal one and throws if it has other digits. *)
Definition digit (c : ascii) : Z := code c - 48.
Definition number (radix : Z) (ds : text) : Z := fold_left (fun a c => radix * a + digit c) ds 0.
Definition intOf (ds : text) : option Z :=
  match ds with
  | c :: _ => if Ascii.eqb c "0" then if forallb (fun d => digit d <? 8) ds then Some (number 8 ds) else None
              else Some (number 10 ds)
  | [] => None
  end.

(** scalar, src/parser.cpp:66-68.  It has no skipper; qi skips in front of it. *)
Definition scalar (s0 : text) (st : list ptree) : out :=
  let s := skip s0 in
  match noCase (txt "pi") s with
  | Some r => Yes r (PPi :: st)
  | None =>
  match noCase (txt "euler") s with
  | Some r => Yes r (PEuler :: st)
  | None =>
  match symbol s with
  | Some (n, sub, r) => Yes r (PSym n sub :: st)
  | None =>
  match floatingPoint s with
  | Some (x, r) => Yes r (PFloat x :: st)
  | None =>
  match span isDigit s with
  | ([], _) => No st
  | (ds, r) => match intOf ds with Some z => Yes r (PInt z :: st) | None => Exception end
  end end end end end.

(** The stack operations of the semantic actions, src/parser.cpp:146-240. *)
Definition pop1 (f : ptree -> ptree) (s : text) (st : list ptree) : out :=
  match st with a :: r => Yes s (f a :: r) | [] => EmptyStack end.
Definition pop2 (f : ptree -> ptree -> ptree) (s : text) (st : list ptree) : out :=
  match st with b :: a :: r => Yes s (f a b :: r) | _ => EmptyStack end.

Definition andThen (o : out) (f : text -> list ptree -> out) : out := match o with Yes s st => f s st | _ => o end.
Definition orElse (o : out) (f : list ptree -> out) : out := match o with No st => f st | _ => o end.
Definition need (c : ascii) (s : text) (st : list ptree) (f : text -> out) : out :=
  match lit c s with Some r => f r | None => No st end.

(** The rules, src/parser.cpp:70-87; a tail is the repetition *(...) of a rule. *)
Inductive rule := RExpression | RSum | RSummand | RProduct | RPosNeg | RFactor | RPower | ROperand.
Fixpoint parse (n : nat) (k : rule) (s : text) (st : list ptree) {struct n} : out :=
  match n with
  | O => NoFuel
  | S m =>
      match k with
      | RExpression =>
          let s1 := match lit "+" s with Some r => r | None => s end in
          andThen (parse m RSummand s1 st) (parse m RSum)
      | RSum =>
          orElse (orElse
            (need "+" s st (fun r => andThen (andThen (parse m RSummand r st) (pop2 PAdd)) (parse m RSum)))
            (fun st1 => need "-" s st1 (fun r => andThen (andThen (parse m RSummand r st1) (pop2 PSub)) (parse m RSum))))
            (Yes s)
      | RSummand => andThen (parse m RPosNeg s st) (parse m RProduct)
      | RProduct =>
          orElse (orElse
            (need "*" s st (fun r => andThen (andThen (parse m RPosNeg r st) (pop2 PMul)) (parse m RProduct)))
            (fun st1 => need "/" s st1 (fun r => andThen (andThen (parse m RPosNeg r st1) (pop2 PDiv)) (parse m RProduct))))
            (Yes s)
      | RPosNeg =>
          orElse (parse m RFactor s st)
            (fun st1 => need "-" s st1 (fun r => andThen (parse m RFactor r st1) (pop1 PNeg)))
      | RFactor => andThen (parse m ROperand s st) (parse m RPower)
      | RPower =>
          orElse (need "^" s st (fun r => andThen (andThen (parse m RFactor r st) (pop2 PPow)) (parse m RPower))) (Yes s)
      | ROperand =>
          orElse (orElse (orElse
            (* oneArgFunction *)
            match matchFct pfcts (skip s) with
            | Some (f, r) =>
                need "(" r st (fun r1 => andThen (parse m RExpression r1 st)
                  (fun r2 st2 => need ")" r2 st2 (fun r3 => pop1 (PFct f) r3 st2)))
            | None => No st
            end
            (* twoArgFunction *)
            (fun st1 =>
              match noCase (txt "atan2") (skip s) with
              | Some r =>
                  need "(" r st1 (fun r1 => andThen (parse m RExpression r1 st1)
                    (fun r2 st2 => need "," r2 st2 (fun r3 => andThen (parse m RExpression r3 st2)
                      (fun r4 st4 => need ")" r4 st4 (fun r5 => pop2 PAtan2 r5 st4)))))
              | None => No st1
              end))
            (scalar s))
            (fun st1 => need "(" s st1 (fun r1 => andThen (parse m RExpression r1 st1)
              (fun r2 st2 => need ")" r2 st2 (fun r3 => Yes r3 st2))))
      end
  end.

(** parse and result, src/parser.cpp:90-102; parseAsciiOnly and parseFrom, src/parser.cpp:258-277.  A value of
    [None] is Undefined. *)
Record parseResult := mkResult { value : option ptree; success : bool; matchedWholeString : bool }.
Inductive parsed := Parsed (r : parseResult) | ParseStuck | ParseThrow | ParseUB.
Definition top (st : list ptree) : option ptree := match st with a :: _ => Some a | [] => None end.
Definition isEmpty {A} (l : list A) : bool := match l with [] => true | _ => false end.
Definition enough (s : text) : nat := 10 + 9 * length s.
Definition parseFrom (s : text) : parsed :=
  if forallb (fun c => code c <? 128) s then
    match parse (enough s) RExpression s [] with
    | Yes r st => Parsed (mkResult (top st) true (isEmpty (skip r)))
    | No st => Parsed (mkResult (top st) false (isEmpty s))
    | NoFuel => ParseStuck
    | EmptyStack => ParseUB
    | Exception => ParseThrow
    end
  else Parsed (mkResult None false false).

(** tsym::parse, src/functions.cpp:215-225. *)
Definition parseVar (s : text) : option ptree :=
  match parseFrom s with
  | Parsed r => if success r && matchedWholeString r then value r else None
  | _ => None
  end.

(** The program the semantic actions run, src/parser.cpp:115-231; the model has no floating point numbers. *)
Fixpoint toTerm (t : ptree) : option term :=
  let two (f : term -> term -> term) a b := match toTerm a, toTerm b with Some x, Some y => Some (f x y) | _, _ => None end in
  match t with
  | PPi => Some (TConst CPi)
  | PEuler => Some (TConst CE)
  | PSym n sub => Some (TSym (mkName (str n) (str sub) "") false)
  | PFloat _ => None
  | PInt z => Some (TInt z)
  | PFct f a =>
      match toTerm a with
      | Some x => Some match f with
                       | PSin => TTrig FSin x | PCos => TTrig FCos x | PTan => TTrig FTan x
                       | PAsin => TTrig FAsin x | PAcos => TTrig FAcos x | PAtan => TTrig FAtan x
                       | PLog => TLog x | PSqrt => TSqrt x
                       end
      | None => None
      end
  | PAtan2 y x => two TAtan2 y x
  | PPow a b => two TPow a b
  | PNeg a => match toTerm a with Some x => Some (TNeg x) | None => None end
  | PMul a b => two TMul a b
  | PDiv a b => two TDiv a b
  | PAdd a b => two TAdd a b
  | PSub a b => two TSub a b
  end.

(** Var(string), src/var.cpp:31-40, 76-90: a symbol or an integer, otherwise Undefined. *)
Definition varFrom (W : oper) (n : nat) (s : text) : res expr :=
  match parseFrom s with
  | Parsed r =>
      if success r && matchedWholeString r then
        match value r with
        | Some t =>
            match toTerm t with
            | Some u => e <- build W n u ;;
                        ret (if isSymbol e || (match e with Num q => qIsInt q | _ => false end) then e else Undef)
            | None => UB "floating point number"%string      (* not modelled *)
            end
        | None => ret Undef
        end
      else ret Undef
  | ParseThrow => Throw
  | ParseStuck => Fuel
  | ParseUB => UB "empty stack"%string
  end.
