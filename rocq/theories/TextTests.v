(** unit-tests/testparser.cpp and testprinter.cpp, run in the model.  Generated by conformance/gentext.py: do
    not edit.  Tests of the model, not proofs of properties.  For floating point numbers the tests check that
    one is parsed, not its value. *)
From Verif Require Import RefFloat ParserModel PrinterModel.
From Coq Require Import QArith ZArith List String Ascii.
Import ListNotations.
From Verif Require Import Run.
Open Scope Z_scope.
Open Scope list_scope.

Definition passes (r : res (list bool)) : bool := match r with Ok l _ => forallb id l | _ => false end.
Definition frq (p q : Z) : Q := match qinv (ofZ q) with Some i => qmul (ofZ p) i | None => 0%Q end.
Definition bytes (l : list nat) : text := map ascii_of_nat l.
Definition sameU (a b : expr) : bool := if isUndefined a then isUndefined b else isEqual a b.
Definition runTree (t : option ptree) : res expr :=
  match t with
  | None => ret Undef
  | Some p => match toTerm p with Some u => build W0 40 u | None => UB "floating point number"%string end
  end.
Definition parses (s : text) (expected : expr) (ok whole : bool) : res bool :=
  match parseFrom s with
  | Parsed r => e <- runTree (value r) ;; ret (sameU expected e && Bool.eqb ok (success r) && Bool.eqb whole (matchedWholeString r))
  | _ => ret false
  end.
Definition parsesFloat (s : text) : res bool :=
  match parseFrom s with
  | Parsed (mkResult (Some (PFloat _)) true true) | Parsed (mkResult (Some (PNeg (PFloat _))) true true) => ret true
  | _ => ret false
  end.
Definition t_parser_posInteger : res (list bool) :=
  v1 <- parses (bytes [49; 50; 51; 52; 53; 54]%nat) (numZ (123456)) true true ;;
  ret [v1].
Definition t_parser_posIntegerWithWhitespace : res (list bool) :=
  v1 <- parses (bytes [49; 50; 51; 32; 52; 53; 54]%nat) (numZ (123)) true false ;;
  ret [v1].
Definition t_parser_negInteger : res (list bool) :=
  v1 <- parses (bytes [45; 50; 51; 57; 50; 50; 52; 57; 56; 50]%nat) (numZ ((- 239224982))) true true ;;
  ret [v1].
Definition t_parser_numericPosFloat : res (list bool) :=
  v1 <- parsesFloat (bytes [49; 46; 50; 51; 52; 53; 54; 55; 56; 57]%nat) ;;
  ret [v1].
Definition t_parser_numericPosFloatNoDigitsAfterPeriod : res (list bool) :=
  v1 <- parsesFloat (bytes [57; 56; 55; 46]%nat) ;;
  ret [v1].
Definition t_parser_numericPosScientificLowerEPosExp : res (list bool) :=
  v1 <- parsesFloat (bytes [49; 46; 50; 51; 52; 101; 53; 54]%nat) ;;
  ret [v1].
Definition t_parser_numericPosScientificUpperEPosExp : res (list bool) :=
  v1 <- parsesFloat (bytes [46; 51; 52; 69; 43; 49; 50]%nat) ;;
  ret [v1].
Definition t_parser_numericPosScientificZeroExp : res (list bool) :=
  v1 <- parsesFloat (bytes [46; 51; 52; 69; 43; 48]%nat) ;;
  ret [v1].
Definition t_parser_numericPosScientificLowerENegExp : res (list bool) :=
  v1 <- parsesFloat (bytes [49; 46; 50; 51; 52; 69; 53; 54]%nat) ;;
  ret [v1].
Definition t_parser_numericPosScientificUpperENegExp : res (list bool) :=
  v1 <- parsesFloat (bytes [49; 46; 50; 51; 52; 69; 45; 53; 54]%nat) ;;
  ret [v1].
Definition t_parser_numericPosScientificUpperEPosExpNoPeriod : res (list bool) :=
  v1 <- parsesFloat (bytes [49; 50; 51; 69; 50]%nat) ;;
  ret [v1].
Definition t_parser_numericNegFloat : res (list bool) :=
  v1 <- parsesFloat (bytes [45; 49; 50; 51; 52; 53; 54; 46; 55; 56; 57]%nat) ;;
  ret [v1].
Definition t_parser_numericNegScientificLowerEPosExp : res (list bool) :=
  v1 <- parsesFloat (bytes [45; 49; 50; 51; 46; 69; 45; 50]%nat) ;;
  ret [v1].
Definition t_parser_numericNegScientificLowerENegExp : res (list bool) :=
  v1 <- parsesFloat (bytes [45; 50; 46; 51; 52; 53; 101; 45; 50]%nat) ;;
  ret [v1].
Definition t_parser_numericNegScientificUpperEPosExp : res (list bool) :=
  v1 <- parsesFloat (bytes [45; 53; 52; 51; 46; 50; 49; 48; 101; 51]%nat) ;;
  ret [v1].
Definition t_parser_numericNegScientificLowerEPosExpNoPeriod : res (list bool) :=
  v1 <- parsesFloat (bytes [45; 50; 101; 50]%nat) ;;
  ret [v1].
Definition t_parser_symbol : res (list bool) :=
  v1 <- parses (bytes [97]%nat) (Sym (nm "a"%string) false) true true ;;
  ret [v1].
Definition t_parser_symbolInSpaces : res (list bool) :=
  v1 <- parses (bytes [32; 32; 97; 32; 32]%nat) (Sym (nm "a"%string) false) true true ;;
  ret [v1].
Definition t_parser_symbolInSpacesAndWhitespace : res (list bool) :=
  v1 <- parses (bytes [32; 10; 32; 32; 32; 32; 97; 32; 32; 9; 32; 32; 32]%nat) (Sym (nm "a"%string) false) true true ;;
  ret [v1].
Definition t_parser_wrongSymbolWithNumberStart : res (list bool) :=
  v1 <- parses (bytes [49; 97]%nat) (numZ 1) true false ;;
  ret [v1].
Definition t_parser_symbolWithShortSupscript : res (list bool) :=
  v1 <- parses (bytes [97; 66; 99; 49; 50; 51; 95; 97]%nat) (Sym (mkName "aBc123" "a" "") false) true true ;;
  ret [v1].
Definition t_parser_symbolWithLongSupscript : res (list bool) :=
  v1 <- parses (bytes [97; 66; 99; 49; 50; 51; 95; 123; 97; 65; 51; 50; 49; 125]%nat) (Sym (mkName "aBc123" "aA321" "") false) true true ;;
  ret [v1].
Definition t_parser_symbolWithShortSubscriptInBraces : res (list bool) :=
  v1 <- parses (bytes [97; 98; 99; 100; 101; 102; 103; 104; 105; 106; 107; 95; 123; 49; 125]%nat) (Sym (mkName "abcdefghijk" "1" "") false) true true ;;
  ret [v1].
Definition t_parser_symbolWithEmptySubscript : res (list bool) :=
  v1 <- parses (bytes [97; 95]%nat) (Sym (nm "a"%string) false) true false ;;
  ret [v1].
Definition t_parser_symbolWithEmptySubscriptInBraces : res (list bool) :=
  v1 <- parses (bytes [97; 95; 123; 125]%nat) (Sym (nm "a"%string) false) true false ;;
  ret [v1].
Definition t_parser_symbolWithLongSubscriptWithoutBraces : res (list bool) :=
  v1 <- parses (bytes [97; 66; 99; 49; 50; 51; 95; 97; 98; 99]%nat) (Sym (mkName "aBc123" "a" "") false) true false ;;
  ret [v1].
Definition t_parser_nonAsciiCharacterAtBeginning : res (list bool) :=
  v1 <- parses (bytes [65; 195; 188; 195; 159; 195; 182; 97; 98; 99]%nat) Undef false false ;;
  ret [v1].
Definition t_parser_nonAsciiCharacterAtEnd : res (list bool) :=
  v1 <- parses (bytes [97; 95; 123; 49; 97; 91; 195; 188; 125]%nat) Undef false false ;;
  ret [v1].
Definition t_parser_symbolWithUnrecognizedCharactersInBetween : res (list bool) :=
  v1 <- parses (bytes [97; 123; 55; 122; 95; 50]%nat) (Sym (nm "a"%string) false) true false ;;
  ret [v1].
Definition t_parser_symbolWithUnrecognizedCharacterInSubscript : res (list bool) :=
  v1 <- parses (bytes [97; 95; 91]%nat) (Sym (nm "a"%string) false) true false ;;
  ret [v1].
Definition t_parser_symbolWithWhitespaceInside : res (list bool) :=
  v1 <- parses (bytes [97; 32; 32; 32; 98; 99; 95; 50]%nat) (Sym (nm "a"%string) false) true false ;;
  ret [v1].
Definition t_parser_sumOfInts : res (list bool) :=
  v1 <- parses (bytes [50; 43; 53]%nat) (numZ 7) true true ;;
  ret [v1].
Definition t_parser_sumOfIntsWithSpaces : res (list bool) :=
  v1 <- parses (bytes [49; 32; 43; 32; 55]%nat) (numZ 8) true true ;;
  ret [v1].
Definition t_parser_productOfInts : res (list bool) :=
  v1 <- parses (bytes [51; 42; 55]%nat) (numZ (21)) true true ;;
  ret [v1].
Definition t_parser_productOfIntsWithSpaces : res (list bool) :=
  v1 <- parses (bytes [10; 32; 51; 42; 32; 32; 55]%nat) (numZ (21)) true true ;;
  ret [v1].
Definition t_parser_productOfIntsWithParentheses : res (list bool) :=
  v1 <- parses (bytes [51; 42; 40; 55; 41]%nat) (numZ (21)) true true ;;
  ret [v1].
Definition t_parser_unaryMinusWithInteger : res (list bool) :=
  v1 <- parses (bytes [45; 51]%nat) (numZ ((- 3))) true true ;;
  ret [v1].
Definition t_parser_unaryMinusWithSymbol : res (list bool) :=
  v1 <- minus W0 [(Sym (nm "a"%string) false)] ;;
  v2 <- parses (bytes [45; 97]%nat) v1 true true ;;
  ret [v2].
Definition t_parser_unaryPlusWithInteger : res (list bool) :=
  v1 <- parses (bytes [43; 52]%nat) (numZ 4) true true ;;
  ret [v1].
Definition t_parser_unaryPlusWithSymbol : res (list bool) :=
  v1 <- parses (bytes [43; 97]%nat) (Sym (nm "a"%string) false) true true ;;
  ret [v1].
Definition t_parser_simpleSumTwoSummands : res (list bool) :=
  v1 <- w_sum W0 [(Sym (nm "a"%string) false); (Sym (nm "b"%string) false)] ;;
  v2 <- parses (bytes [97; 32; 43; 32; 98]%nat) v1 true true ;;
  ret [v2].
Definition t_parser_simpleDifferenceTwoSummands : res (list bool) :=
  v1 <- minus W0 [(Sym (nm "b"%string) false)] ;;
  v2 <- w_sum W0 [(Sym (nm "a"%string) false); v1] ;;
  v3 <- parses (bytes [97; 32; 45; 32; 98]%nat) v2 true true ;;
  ret [v3].
Definition t_parser_simpleSumFourSummands : res (list bool) :=
  v1 <- w_sum W0 [(numZ 10); (Sym (nm "a"%string) false); (Sym (nm "b"%string) false); (Sym (nm "c"%string) false)] ;;
  v2 <- parses (bytes [97; 32; 43; 32; 98; 32; 43; 32; 99; 32; 43; 32; 49; 48]%nat) v1 true true ;;
  ret [v2].
Definition t_parser_simpleProductThreeSummands : res (list bool) :=
  v1 <- w_prod W0 [(Sym (nm "a"%string) false); (Sym (nm "b"%string) false); (Sym (nm "c"%string) false)] ;;
  v2 <- parses (bytes [97; 42; 98; 42; 99]%nat) v1 true true ;;
  ret [v2].
Definition t_parser_simpleDivisionTwoSymbols : res (list bool) :=
  v1 <- oneOver W0 (Sym (nm "b"%string) false) ;;
  v2 <- w_prod W0 [(Sym (nm "a"%string) false); v1] ;;
  v3 <- parses (bytes [97; 47; 98]%nat) v2 true true ;;
  ret [v3].
Definition t_parser_simpleDivisionThreeSymbolsOneNumber : res (list bool) :=
  v1 <- w_prod W0 [(numZ 4); (Sym (nm "b"%string) false); (Sym (nm "c"%string) false)] ;;
  v2 <- oneOver W0 v1 ;;
  v3 <- w_prod W0 [(Sym (nm "a"%string) false); v2] ;;
  v4 <- parses (bytes [97; 47; 98; 47; 99; 47; 52]%nat) v3 true true ;;
  ret [v4].
Definition t_parser_negativeFraction : res (list bool) :=
  v1 <- parses (bytes [45; 51; 47; 49; 55]%nat) (Num (frq ((- 3)) (17))) true true ;;
  ret [v1].
Definition t_parser_sumOfNumberAndFraction : res (list bool) :=
  v1 <- parses (bytes [50; 32; 43; 32; 49; 47; 53]%nat) (Num (frq (11) (5))) true true ;;
  ret [v1].
Definition t_parser_sinOfSymbol : res (list bool) :=
  v1 <- w_trig W0 FSin (Sym (nm "a"%string) false) ;;
  v2 <- parses (bytes [115; 105; 110; 40; 97; 41]%nat) v1 true true ;;
  v3 <- parses (bytes [83; 73; 78; 40; 97; 41]%nat) v1 true true ;;
  v4 <- parses (bytes [83; 105; 110; 40; 97; 41]%nat) v1 true true ;;
  v5 <- parses (bytes [115; 105; 78; 40; 97; 41]%nat) v1 true true ;;
  ret [v2; v3; v4; v5].
Definition t_parser_sinOfSum : res (list bool) :=
  v1 <- w_sum W0 [(Sym (nm "a"%string) false); (Sym (nm "b"%string) false); (numZ 10)] ;;
  v2 <- w_trig W0 FSin v1 ;;
  v3 <- parses (bytes [115; 105; 110; 40; 97; 32; 43; 32; 98; 32; 43; 32; 49; 48; 41]%nat) v2 true true ;;
  ret [v3].
Definition t_parser_sinOfProduct : res (list bool) :=
  v1 <- w_prod W0 [(Sym (nm "a"%string) false); (Sym (nm "b"%string) false)] ;;
  v2 <- w_trig W0 FSin v1 ;;
  v3 <- parses (bytes [115; 105; 110; 40; 97; 42; 98; 41]%nat) v2 true true ;;
  ret [v3].
Definition t_parser_sinWrongSpelling : res (list bool) :=
  v1 <- w_pow W0 (numZ 2) half ;;
  v2 <- w_prod W0 [(numZ 2); v1; (Sym (nm "sinn"%string) false)] ;;
  v3 <- parses (bytes [50; 42; 115; 113; 114; 116; 40; 50; 41; 42; 115; 105; 110; 110; 40; 97; 41; 42; 40; 97; 32; 43; 32; 98; 41]%nat) v2 true false ;;
  ret [v3].
Definition t_parser_asinOfProduct : res (list bool) :=
  v1 <- w_prod W0 [(Sym (nm "a"%string) false); (Sym (nm "b"%string) false); (Sym (nm "c"%string) false)] ;;
  v2 <- w_trig W0 FAsin v1 ;;
  v3 <- parses (bytes [97; 115; 105; 110; 40; 97; 42; 98; 42; 99; 41]%nat) v2 true true ;;
  ret [v3].
Definition t_parser_acosResolvableArg : res (list bool) :=
  v1 <- w_prod W0 [(Num (frq (1) (6))); (Cst CPi)] ;;
  v2 <- parses (bytes [97; 99; 111; 115; 40; 115; 113; 114; 116; 40; 51; 41; 47; 50; 41]%nat) v1 true true ;;
  ret [v2].
Definition t_parser_atan2OfSymbols : res (list bool) :=
  v1 <- w_atan2 W0 (Sym (nm "b"%string) false) (Sym (nm "a"%string) false) ;;
  v2 <- parses (bytes [97; 116; 97; 110; 50; 40; 98; 44; 32; 97; 41]%nat) v1 true true ;;
  ret [v2].
Definition t_parser_atan2Resolvable : res (list bool) :=
  v1 <- w_prod W0 [(Cst CPi); (Num (frq (5) (4)))] ;;
  v2 <- parses (bytes [97; 116; 97; 110; 50; 40; 45; 115; 113; 114; 116; 40; 49; 48; 41; 44; 32; 45; 115; 113; 114; 116; 40; 49; 48; 41; 41]%nat) v1 true true ;;
  ret [v2].
Definition t_parser_sqrtTwoVariations : res (list bool) :=
  v1 <- w_pow W0 (numZ 2) half ;;
  v2 <- parses (bytes [115; 113; 114; 116; 40; 50; 41]%nat) v1 true true ;;
  v3 <- parses (bytes [83; 113; 114; 116; 40; 50; 41]%nat) v1 true true ;;
  v4 <- parses (bytes [83; 81; 82; 84; 40; 50; 41]%nat) v1 true true ;;
  ret [v2; v3; v4].
Definition t_parser_powerOfInteger : res (list bool) :=
  v1 <- parses (bytes [50; 94; 51]%nat) (numZ 8) true true ;;
  ret [v1].
Definition t_parser_powerOfSymbols : res (list bool) :=
  v1 <- w_pow W0 (Sym (nm "a"%string) false) (Sym (nm "b"%string) false) ;;
  v2 <- parses (bytes [97; 94; 98]%nat) v1 true true ;;
  ret [v2].
Definition t_parser_powerOfSymbolBaseWithUnaryMinus : res (list bool) :=
  v1 <- w_pow W0 (Sym (nm "a"%string) false) (numZ 2) ;;
  v2 <- minus W0 [v1] ;;
  v3 <- parses (bytes [45; 97; 94; 50]%nat) v2 true true ;;
  ret [v3].
Definition t_parser_powerOfSymbolsWithUselessParentheses : res (list bool) :=
  v1 <- w_pow W0 (Sym (nm "a"%string) false) (Sym (nm "b"%string) false) ;;
  v2 <- parses (bytes [40; 40; 40; 40; 40; 97; 41; 41; 41; 41; 41; 94; 40; 40; 98; 41; 41]%nat) v1 true true ;;
  ret [v2].
Definition t_parser_unaryPlusInParentheses : res (list bool) :=
  v1 <- w_pow W0 (Sym (nm "a"%string) false) (Sym (nm "b"%string) false) ;;
  v2 <- minus W0 [(numZ 3)] ;;
  v3 <- minus W0 [(numZ 2); (Sym (nm "c"%string) false)] ;;
  v4 <- w_sum W0 [v1; v2; v3] ;;
  v5 <- parses (bytes [97; 94; 40; 43; 98; 41; 32; 45; 32; 40; 43; 52; 41; 32; 43; 32; 49; 32; 45; 32; 50; 42; 40; 43; 99; 41]%nat) v4 true true ;;
  ret [v5].
Definition t_parser_unaryMinusWithSumOperator : res (list bool) :=
  v1 <- minus W0 [(Sym (nm "b"%string) false)] ;;
  v2 <- w_sum W0 [(Sym (nm "a"%string) false); v1] ;;
  v3 <- parses (bytes [97; 32; 43; 45; 98]%nat) v2 true true ;;
  ret [v3].
Definition t_parser_unaryPlusWithNumberInSum : res (list bool) :=
  v1 <- parses (bytes [97; 32; 43; 43; 50]%nat) (Sym (nm "a"%string) false) true false ;;
  ret [v1].
Definition t_parser_unaryPlusWithNumberAndParenthesesInSum : res (list bool) :=
  v1 <- w_sum W0 [(Sym (nm "a"%string) false); (numZ 2)] ;;
  v2 <- parses (bytes [97; 32; 43; 40; 43; 50; 41]%nat) v1 true true ;;
  ret [v2].
Definition t_parser_unaryPlusWithSymbolInSum : res (list bool) :=
  v1 <- w_sum W0 [(Sym (nm "a"%string) false); (Sym (nm "b"%string) false)] ;;
  v2 <- parses (bytes [97; 32; 43; 40; 43; 98; 41; 32; 43; 43; 99]%nat) v1 true false ;;
  ret [v2].
Definition t_parser_unaryMinusWithPower : res (list bool) :=
  v1 <- parses (bytes [97; 94; 45; 50]%nat) (Sym (nm "a"%string) false) true false ;;
  ret [v1].
Definition t_parser_unaryPlusWithPower : res (list bool) :=
  v1 <- parses (bytes [97; 94; 43; 50]%nat) (Sym (nm "a"%string) false) true false ;;
  ret [v1].
Definition t_parser_unaryMinusWithPowerInParentheses : res (list bool) :=
  v1 <- w_pow W0 (Sym (nm "a"%string) false) (numZ ((- 2))) ;;
  v2 <- parses (bytes [97; 94; 40; 45; 50; 41]%nat) v1 true true ;;
  ret [v2].
Definition t_parser_sumWithUnaryMinusFirstNumericSummand : res (list bool) :=
  v1 <- w_sum W0 [(numZ (-1)); (Sym (nm "b"%string) false)] ;;
  v2 <- parses (bytes [45; 49; 32; 43; 32; 98]%nat) v1 true true ;;
  ret [v2].
Definition t_parser_sumWithUnaryMinusFirstSymbolSummand : res (list bool) :=
  v1 <- minus W0 [(Sym (nm "a"%string) false)] ;;
  v2 <- w_sum W0 [v1; (Sym (nm "b"%string) false)] ;;
  v3 <- parses (bytes [45; 97; 32; 43; 32; 98]%nat) v2 true true ;;
  ret [v3].
Definition t_parser_sumWithPowerSummand : res (list bool) :=
  v1 <- minus W0 [(Sym (nm "a"%string) false)] ;;
  v2 <- w_pow W0 (Sym (nm "a"%string) false) (numZ ((- 2))) ;;
  v3 <- w_sum W0 [v1; v2] ;;
  v4 <- parses (bytes [45; 97; 32; 43; 32; 97; 94; 40; 45; 50; 41]%nat) v3 true true ;;
  ret [v4].
Definition t_parser_unaryMinusBeforeProduct : res (list bool) :=
  v1 <- minus W0 [(numZ 2); (Sym (nm "a"%string) false); (Sym (nm "b"%string) false)] ;;
  v2 <- parses (bytes [45; 50; 42; 97; 42; 98]%nat) v1 true true ;;
  ret [v2].
Definition t_parser_unaryMinusInParentheses : res (list bool) :=
  v1 <- w_prod W0 [(numZ ((- 23))); (Sym (nm "a"%string) false)] ;;
  v2 <- w_pow W0 (Sym (nm "b"%string) false) (numZ ((- 2))) ;;
  v3 <- minus W0 [(Sym (nm "d"%string) false)] ;;
  v4 <- w_sum W0 [v1; v2; (Sym (nm "c"%string) false); v3; (numZ ((- 2)))] ;;
  v5 <- parses (bytes [45; 50; 51; 42; 97; 32; 43; 32; 98; 94; 40; 45; 50; 41; 32; 43; 32; 99; 32; 43; 32; 40; 45; 100; 41; 32; 43; 32; 50; 32; 43; 40; 45; 52; 41]%nat) v4 true true ;;
  ret [v5].
Definition t_parser_posLargeInteger : res (list bool) :=
  v1 <- parses (bytes [49; 50; 48; 51; 57; 49; 56; 50; 51; 48; 57; 56; 49; 48; 57; 50; 51; 56; 48; 57; 49; 56; 50; 48; 57; 51; 48; 50; 49; 57; 51; 56; 52; 48; 57; 50; 56; 51; 52; 48; 57; 56; 50; 48; 51; 57; 52]%nat) (numZ (12039182309810923809182093021938409283409820394)) true true ;;
  ret [v1].
Definition t_parser_negLargeInteger : res (list bool) :=
  v1 <- parses (bytes [45; 50; 48; 51; 57; 51; 56; 52; 48; 57; 50; 56; 52; 48; 57; 50; 56; 51; 48; 57; 52; 56; 50; 51; 48; 57; 52; 56; 48; 57; 56; 48; 57; 50; 56; 51; 48; 57; 52; 56; 50; 48; 57; 51; 52; 56; 48; 57; 50; 51; 56; 52; 48; 57; 50; 56; 51; 48; 57; 52; 50; 48; 57; 51; 56]%nat) (numZ (-2039384092840928309482309480980928309482093480923840928309420938)) true true ;;
  ret [v1].
Definition t_parser_parenthesesAroundSymbol : res (list bool) :=
  v1 <- parses (bytes [40; 97; 41]%nat) (Sym (nm "a"%string) false) true true ;;
  ret [v1].
Definition t_parser_parenthesesAroundNumber : res (list bool) :=
  v1 <- parses (bytes [40; 49; 50; 51; 41]%nat) (numZ (123)) true true ;;
  ret [v1].
Definition t_parser_parenthesesAroundSum : res (list bool) :=
  v1 <- w_sum W0 [(Sym (nm "a"%string) false); (Sym (nm "b"%string) false)] ;;
  v2 <- parses (bytes [40; 97; 32; 43; 32; 98; 41]%nat) v1 true true ;;
  ret [v2].
Definition t_parser_parenthesesAroundFunction : res (list bool) :=
  v1 <- w_trig W0 FAcos (numZ (234)) ;;
  v2 <- w_prod W0 [(Sym (nm "a"%string) false); v1] ;;
  v3 <- parses (bytes [97; 42; 97; 99; 111; 115; 40; 50; 51; 52; 41]%nat) v2 true true ;;
  ret [v3].
Definition t_parser_multipleParenthesesInSum : res (list bool) :=
  v1 <- w_sum W0 [(Sym (nm "a"%string) false); (Sym (nm "b"%string) false); (Sym (nm "c"%string) false); (numZ (15))] ;;
  v2 <- parses (bytes [40; 40; 40; 97; 32; 43; 32; 40; 98; 32; 43; 32; 99; 41; 32; 43; 32; 40; 49; 53; 41; 41; 41; 41]%nat) v1 true true ;;
  ret [v2].
Definition t_parser_productWithSumsInParentheses : res (list bool) :=
  v1 <- w_prod W0 [(numZ 4); (Sym (nm "a"%string) false)] ;;
  v2 <- w_prod W0 [(numZ 4); (Sym (nm "d"%string) false)] ;;
  v3 <- w_sum W0 [(Sym (nm "b"%string) false); (Sym (nm "c"%string) false)] ;;
  v4 <- w_prod W0 [(Sym (nm "a"%string) false); v3] ;;
  v5 <- w_sum W0 [v1; v2; v4] ;;
  v6 <- parses (bytes [97; 42; 40; 98; 32; 43; 32; 99; 41; 32; 43; 32; 52; 42; 40; 97; 32; 43; 32; 100; 41]%nat) v5 true true ;;
  ret [v6].
Definition t_parser_simpleProductWithSumInParentheses : res (list bool) :=
  v1 <- w_sum W0 [(numZ 2); (Sym (nm "b"%string) false)] ;;
  v2 <- w_prod W0 [(Sym (nm "a"%string) false); v1] ;;
  v3 <- parses (bytes [97; 42; 40; 50; 32; 43; 32; 98; 41]%nat) v2 true true ;;
  ret [v3].
Definition t_parser_productWithSumInParentheses : res (list bool) :=
  v1 <- w_sum W0 [(Sym (nm "b"%string) false); (Sym (nm "c"%string) false)] ;;
  v2 <- w_prod W0 [(Sym (nm "a"%string) false); v1; (numZ 5); (Sym (nm "d"%string) false)] ;;
  v3 <- parses (bytes [97; 42; 40; 98; 32; 43; 32; 99; 41; 42; 53; 42; 100]%nat) v2 true true ;;
  ret [v3].
Definition t_parser_unrecognizedTokensWithSyntaxError : res (list bool) :=
  v1 <- parses (bytes [45; 123; 125; 42; 49; 50; 42; 115; 105; 110; 40; 98; 41]%nat) Undef false false ;;
  ret [v1].
Definition t_parser_unrecognizedToken : res (list bool) :=
  v1 <- parses (bytes [123; 49; 50; 42; 115; 105; 110; 40; 98; 41]%nat) Undef false false ;;
  ret [v1].
Definition t_parser_unrecognizedTokensAfterValidExpression : res (list bool) :=
  v1 <- w_sum W0 [(Sym (nm "a"%string) false); (Sym (nm "b"%string) false)] ;;
  v2 <- w_trig W0 FAtan v1 ;;
  v3 <- w_prod W0 [(numZ (123)); v2] ;;
  v4 <- parses (bytes [49; 50; 51; 42; 97; 116; 97; 110; 40; 97; 32; 43; 32; 98; 41; 123; 7; 125; 91; 91]%nat) v3 true false ;;
  ret [v4].
Definition t_parser_unrecognizedTokensInsideParentheses : res (list bool) :=
  v1 <- w_sum W0 [(Sym (nm "a"%string) false); (Sym (nm "b"%string) false)] ;;
  v2 <- w_trig W0 FAtan v1 ;;
  v3 <- w_prod W0 [(numZ (123)); v2] ;;
  v4 <- parses (bytes [49; 50; 51; 42; 97; 116; 97; 110; 40; 97; 32; 43; 32; 98; 41; 41; 42; 40; 123; 61; 125; 91; 91]%nat) v3 true false ;;
  ret [v4].
Definition t_parser_symbolsAndComma : res (list bool) :=
  v1 <- parses (bytes [97; 44; 98; 44; 99; 44; 44; 100]%nat) (Sym (nm "a"%string) false) true false ;;
  ret [v1].
Definition t_parser_emptyString : res (list bool) :=
  v1 <- parses (bytes []%nat) Undef false true ;;
  ret [v1].
Definition t_parser_onlyCommaSigns : res (list bool) :=
  v1 <- parses (bytes [40; 40; 41; 41]%nat) Undef false false ;;
  ret [v1].
Definition t_parser_emptyParenthesesAfterValidExpressionInProduct : res (list bool) :=
  v1 <- w_sum W0 [(Sym (nm "a"%string) false); (Sym (nm "b"%string) false)] ;;
  v2 <- w_trig W0 FAtan v1 ;;
  v3 <- w_prod W0 [(numZ (123)); v2] ;;
  v4 <- parses (bytes [49; 50; 51; 42; 97; 116; 97; 110; 40; 97; 32; 43; 32; 98; 41; 42; 40; 41]%nat) v3 true false ;;
  ret [v4].
Definition t_parser_syntaxErrorAfterValidExpressionInProduct : res (list bool) :=
  v1 <- w_sum W0 [(Sym (nm "a"%string) false); (Sym (nm "b"%string) false)] ;;
  v2 <- w_trig W0 FAtan v1 ;;
  v3 <- w_prod W0 [(Num (frq ((- 1)) (5))); v2] ;;
  v4 <- parses (bytes [45; 49; 47; 53; 42; 97; 116; 97; 110; 40; 97; 32; 43; 32; 98; 41; 42; 40; 123; 41; 125; 91; 91]%nat) v3 true false ;;
  ret [v4].
Definition t_parser_emptyParentheses : res (list bool) :=
  v1 <- parses (bytes [40; 40; 41; 41]%nat) Undef false false ;;
  ret [v1].
Definition t_parser_mixedOperatorsWithUnaryMinusNumber : res (list bool) :=
  v1 <- w_prod W0 [(Sym (nm "a"%string) false); (Num (frq ((- 1)) (3)))] ;;
  v2 <- parses (bytes [97; 47; 45; 51]%nat) v1 true true ;;
  ret [v2].
Definition t_parser_mixedOperatorsWithUnaryMinusSymbol : res (list bool) :=
  v1 <- w_prod W0 [(Sym (nm "a"%string) false); (Sym (nm "b"%string) false)] ;;
  v2 <- w_sum W0 [(Sym (nm "c"%string) false); v1] ;;
  v3 <- minus W0 [v2] ;;
  v4 <- parses (bytes [97; 42; 45; 98; 32; 43; 32; 45; 99]%nat) v3 true true ;;
  ret [v4].
Definition t_parser_emptyParenthesesBeforeValidPart : res (list bool) :=
  v1 <- parses (bytes [40; 40; 41; 41; 97; 42; 98; 32; 43; 32; 99]%nat) Undef false false ;;
  ret [v1].
Definition t_parser_mixedTerm01 : res (list bool) :=
  v1 <- w_trig W0 FSin (Sym (nm "b"%string) false) ;;
  v2 <- w_sum W0 [(Sym (nm "c"%string) false); (Sym (nm "d"%string) false)] ;;
  v3 <- w_prod W0 [(numZ ((- 12))); (Sym (nm "a"%string) false); (Sym (nm "b"%string) false); v1; v2] ;;
  v4 <- parses (bytes [45; 97; 42; 115; 105; 110; 40; 98; 41; 42; 40; 99; 32; 43; 32; 100; 41; 42; 49; 50; 42; 98]%nat) v3 true true ;;
  ret [v4].
Definition t_parser_mixedTerm02 : res (list bool) :=
  v1 <- w_pow W0 (Num (frq (1) (17))) half ;;
  v2 <- w_trig W0 FAtan v1 ;;
  v3 <- w_prod W0 [(Sym (nm "c"%string) false); (Sym (nm "d"%string) false)] ;;
  v4 <- w_trig W0 FCos v3 ;;
  v5 <- w_prod W0 [(Sym (nm "a"%string) false); (Sym (nm "b"%string) false)] ;;
  v6 <- w_trig W0 FSin v5 ;;
  v7 <- w_pow W0 v6 (numZ 2) ;;
  v8 <- w_prod W0 [(Sym (nm "a"%string) false); (Sym (nm "b"%string) false)] ;;
  v9 <- w_trig W0 FTan v8 ;;
  v10 <- w_prod W0 [(Sym (nm "a"%string) false); v2; v4; v7; v9] ;;
  v11 <- parses (bytes [97; 42; 97; 116; 97; 110; 40; 49; 47; 115; 113; 114; 116; 40; 49; 55; 41; 41; 42; 99; 111; 115; 40; 99; 42; 100; 41; 42; 115; 105; 110; 40; 97; 42; 98; 41; 94; 50; 42; 116; 97; 110; 40; 97; 42; 98; 41]%nat) v10 true true ;;
  v12 <- parses (bytes [97; 42; 97; 116; 97; 110; 40; 49; 55; 94; 40; 45; 49; 47; 50; 41; 41; 42; 99; 111; 115; 40; 99; 42; 100; 41; 42; 115; 105; 110; 40; 97; 42; 98; 41; 94; 50; 42; 116; 97; 110; 40; 97; 42; 98; 41]%nat) v10 true true ;;
  ret [v11; v12].
Definition t_parser_mixedTerm03 : res (list bool) :=
  v1 <- w_pow W0 (Sym (nm "a"%string) false) (Num (frq (2) (3))) ;;
  v2 <- w_prod W0 [(Num (frq (2) (3))); (Sym (nm "c"%string) false)] ;;
  v3 <- minus W0 [(Sym (nm "d"%string) false)] ;;
  v4 <- w_sum W0 [v2; v3] ;;
  v5 <- w_pow W0 (Sym (nm "b"%string) false) v4 ;;
  v6 <- w_sum W0 [(Sym (nm "a"%string) false); (Sym (nm "b"%string) false)] ;;
  v7 <- w_pow W0 v6 (numZ 2) ;;
  v8 <- w_pow W0 (Sym (nm "c"%string) false) v7 ;;
  v9 <- w_prod W0 [(numZ (-1)); v1; v5; v8] ;;
  v10 <- parses (bytes [45; 97; 94; 40; 50; 47; 51; 41; 42; 98; 94; 40; 50; 47; 51; 42; 99; 32; 45; 32; 100; 41; 42; 99; 94; 40; 40; 97; 32; 43; 32; 98; 41; 94; 50; 41]%nat) v9 true true ;;
  ret [v10].
Definition t_parser_powerOperator : res (list bool) :=
  v1 <- w_pow W0 (Sym (nm "a"%string) false) (numZ (512)) ;;
  v2 <- parses (bytes [97; 94; 50; 94; 51; 94; 50]%nat) v1 true true ;;
  ret [v2].
Definition t_parser_nestedPowerOperator : res (list bool) :=
  v1 <- w_prod W0 [(Sym (nm "b"%string) false); (Sym (nm "b"%string) false)] ;;
  v2 <- w_sum W0 [v1; (Sym (nm "c"%string) false)] ;;
  v3 <- w_pow W0 v2 (numZ 8) ;;
  v4 <- w_pow W0 (Sym (nm "a"%string) false) v3 ;;
  v5 <- parses (bytes [97; 94; 40; 98; 94; 50; 32; 43; 32; 99; 41; 94; 50; 94; 51]%nat) v4 true true ;;
  ret [v5].
Definition t_parser_onlyPowerOperator : res (list bool) :=
  v1 <- parses (bytes [94; 94; 94]%nat) Undef false false ;;
  ret [v1].
Definition t_parser_onlyPowerOperatorWithParentheses : res (list bool) :=
  v1 <- parses (bytes [94; 40; 97; 32; 43; 32; 98; 41]%nat) Undef false false ;;
  ret [v1].
Definition t_parser_misspelledFunction : res (list bool) :=
  v1 <- parses (bytes [97; 108; 107; 115; 100; 106; 102; 108; 107; 97; 115; 106; 102; 40; 97; 32; 43; 32; 98; 41]%nat) (Sym (nm "alksdjflkasjf"%string) false) true false ;;
  ret [v1].
Definition t_parser_piVariations : res (list bool) :=
  v1 <- parses (bytes [112; 105]%nat) (Cst CPi) true true ;;
  v2 <- parses (bytes [80; 105]%nat) (Cst CPi) true true ;;
  v3 <- parses (bytes [80; 73]%nat) (Cst CPi) true true ;;
  v4 <- parses (bytes [112; 73]%nat) (Cst CPi) true true ;;
  ret [v1; v2; v3; v4].
Definition t_parser_piInMixedTerm : res (list bool) :=
  v1 <- w_pow W0 (Cst CPi) half ;;
  v2 <- minus W0 [(Cst CPi); v1] ;;
  v3 <- parses (bytes [50; 42; 115; 105; 110; 40; 112; 105; 41; 32; 43; 32; 112; 105; 42; 99; 111; 115; 40; 112; 73; 41; 42; 115; 113; 114; 116; 40; 80; 73; 41]%nat) v2 true true ;;
  ret [v3].
Definition t_parser_eulerVariations : res (list bool) :=
  v1 <- parses (bytes [101; 117; 108; 101; 114]%nat) (Cst CE) true true ;;
  v2 <- parses (bytes [69; 117; 108; 101; 114]%nat) (Cst CE) true true ;;
  v3 <- parses (bytes [69; 85; 76; 69; 82]%nat) (Cst CE) true true ;;
  v4 <- parses (bytes [101; 117; 76; 69; 114]%nat) (Cst CE) true true ;;
  v5 <- parses (bytes [69; 117; 108; 101; 82]%nat) (Cst CE) true true ;;
  ret [v1; v2; v3; v4; v5].
Definition t_parser_symbolTimesFunction : res (list bool) :=
  v1 <- w_trig W0 FTan (Sym (nm "b"%string) false) ;;
  v2 <- w_prod W0 [(Sym (nm "a"%string) false); v1] ;;
  v3 <- parses (bytes [97; 42; 116; 97; 110; 40; 98; 41]%nat) v2 true true ;;
  ret [v3].
Definition t_parser_logOfEulerEvaluesToOne : res (list bool) :=
  v1 <- parses (bytes [97; 42; 108; 111; 103; 40; 101; 117; 108; 101; 114; 41]%nat) (Sym (nm "a"%string) false) true true ;;
  ret [v1].
Definition t_parser_eulerInMixedTerm : res (list bool) :=
  v1 <- w_prod W0 [(numZ 10); (Cst CE)] ;;
  v2 <- w_prod W0 [(Cst CE); (Cst CE)] ;;
  v3 <- minus W0 [(Sym (nm "a"%string) false); (Sym (nm "b"%string) false)] ;;
  v4 <- w_sum W0 [v1; v2; v3] ;;
  v5 <- parses (bytes [49; 48; 42; 69; 117; 108; 101; 114; 32; 43; 32; 69; 85; 76; 69; 82; 94; 50; 32; 45; 32; 97; 42; 98; 42; 108; 111; 103; 40; 101; 117; 108; 101; 114; 41]%nat) v4 true true ;;
  ret [v5].
Definition t_printer_positiveIntNumber : res (list bool) :=
  v1 <- printTop refSys W0 UnicodeSet true 40 (numZ 5) ;;
  ret [(sameText (bytes [53]%nat) v1)].
Definition t_printer_negativeIntNumber : res (list bool) :=
  v1 <- printTop refSys W0 UnicodeSet true 40 (numZ ((- 5))) ;;
  ret [(sameText (bytes [45; 53]%nat) v1)].
Definition t_printer_fractionNumber : res (list bool) :=
  v1 <- printTop refSys W0 UnicodeSet true 40 (Num (frq (2) (33))) ;;
  ret [(sameText (bytes [50; 47; 51; 51]%nat) v1)].
Definition t_printer_operatorWithNumber : res (list bool) :=
  v1 <- printTop refSys W0 UnicodeSet true 40 (Num (frq ((- 4)) (17))) ;;
  ret [(sameText (bytes [45; 52; 47; 49; 55]%nat) v1)].
Definition t_printer_piUnicode : res (list bool) :=
  v1 <- printTop refSys W0 UnicodeSet true 40 (Cst CPi) ;;
  ret [(sameText (bytes [207; 128]%nat) v1)].
Definition t_printer_piAscii : res (list bool) :=
  v1 <- printTop refSys W0 AsciiSet true 40 (Cst CPi) ;;
  ret [(sameText (bytes [112; 105]%nat) v1)].
Definition t_printer_euler : res (list bool) :=
  v1 <- printTop refSys W0 UnicodeSet true 40 (Cst CE) ;;
  ret [(sameText (bytes [101]%nat) v1)].
Definition t_printer_function : res (list bool) :=
  v1 <- w_trig W0 FSin (Sym (nm "a"%string) false) ;;
  v2 <- printTop refSys W0 UnicodeSet true 40 v1 ;;
  ret [(sameText (bytes [115; 105; 110; 40; 97; 41]%nat) v2)].
Definition t_printer_functionWithMoreThanOneArgument : res (list bool) :=
  v1 <- w_prod W0 [(numZ 2); (Sym (nm "a"%string) false)] ;;
  v2 <- w_atan2 W0 v1 (Sym (nm "b"%string) false) ;;
  v3 <- printTop refSys W0 UnicodeSet true 40 v2 ;;
  ret [(sameText (bytes [97; 116; 97; 110; 50; 40; 50; 42; 97; 44; 32; 98; 41]%nat) v3)].
Definition t_printer_symbol : res (list bool) :=
  v1 <- printTop refSys W0 UnicodeSet true 40 (Sym (nm "abcde"%string) false) ;;
  ret [(sameText (bytes [97; 98; 99; 100; 101]%nat) v1)].
Definition t_printer_positiveSymbol : res (list bool) :=
  v1 <- printTop refSys W0 UnicodeSet true 40 (Sym (nm "a"%string) true) ;;
  ret [(sameText (bytes [97]%nat) v1)].
Definition t_printer_positiveSymbolWithSubAndSuperscript : res (list bool) :=
  v1 <- printTop refSys W0 UnicodeSet true 40 (Sym (mkName "a" "b" "c") true) ;;
  ret [(sameText (bytes [97; 95; 98; 94; 99]%nat) v1)].
Definition t_printer_positiveSymbolAsciiCharset : res (list bool) :=
  v1 <- printTop refSys W0 AsciiSet true 40 (Sym (nm "a"%string) true) ;;
  ret [(sameText (bytes [97]%nat) v1)].
Definition t_printer_symbolGreekLetterWithoutUnicode : res (list bool) :=
  v1 <- printTop refSys W0 AsciiSet true 40 (Sym (nm "omega"%string) false) ;;
  ret [(sameText (bytes [111; 109; 101; 103; 97]%nat) v1)].
Definition t_printer_symbolGreekLetterWithUnicode : res (list bool) :=
  v1 <- printTop refSys W0 UnicodeSet true 40 (Sym (nm "omega"%string) false) ;;
  ret [(sameText (bytes [207; 137]%nat) v1)].
Definition t_printer_capitalOmega : res (list bool) :=
  v1 <- printTop refSys W0 UnicodeSet true 40 (Sym (nm "Omega"%string) false) ;;
  ret [(sameText (bytes [206; 169]%nat) v1)].
Definition t_printer_lowerCaseAlpha : res (list bool) :=
  v1 <- printTop refSys W0 UnicodeSet true 40 (Sym (nm "alpha"%string) false) ;;
  ret [(sameText (bytes [206; 177]%nat) v1)].
Definition t_printer_upperCaseAlpha : res (list bool) :=
  v1 <- printTop refSys W0 UnicodeSet true 40 (Sym (nm "Alpha"%string) false) ;;
  ret [(sameText (bytes [206; 145]%nat) v1)].
Definition t_printer_sumWithFunction : res (list bool) :=
  v1 <- w_trig W0 FTan (Sym (nm "c"%string) false) ;;
  v2 <- w_trig W0 FAcos (Sym (nm "b"%string) false) ;;
  v3 <- w_sum W0 [(Sym (nm "a"%string) false); v1; v2] ;;
  v4 <- printTop refSys W0 UnicodeSet true 40 v3 ;;
  ret [(sameText (bytes [97; 32; 43; 32; 97; 99; 111; 115; 40; 98; 41; 32; 43; 32; 116; 97; 110; 40; 99; 41]%nat) v4)].
Definition t_printer_product : res (list bool) :=
  v1 <- w_prod W0 [(Sym (nm "a"%string) false); (Sym (nm "b"%string) false); (Sym (nm "c"%string) false); (Sym (nm "d"%string) false)] ;;
  v2 <- printTop refSys W0 UnicodeSet true 40 v1 ;;
  ret [(sameText (bytes [97; 42; 98; 42; 99; 42; 100]%nat) v2)].
Definition t_printer_negSymbolAsProduct : res (list bool) :=
  v1 <- minus W0 [(Sym (nm "a"%string) false)] ;;
  v2 <- printTop refSys W0 UnicodeSet true 40 v1 ;;
  ret [(sameText (bytes [45; 97]%nat) v2)].
Definition t_printer_powerOfSymbolAndPositiveInteger : res (list bool) :=
  v1 <- w_pow W0 (Sym (nm "a"%string) false) (numZ 2) ;;
  v2 <- printTop refSys W0 UnicodeSet true 40 v1 ;;
  ret [(sameText (bytes [97; 94; 50]%nat) v2)].
Definition t_printer_powerOfSymbolAndNegInt : res (list bool) :=
  v1 <- w_pow W0 (Sym (nm "a"%string) false) (numZ ((- 3))) ;;
  v2 <- printTop refSys W0 UnicodeSet true 40 v1 ;;
  ret [(sameText (bytes [49; 47; 97; 94; 51]%nat) v2)].
Definition t_printer_powerOfSymbolAndMinusOne : res (list bool) :=
  v1 <- w_pow W0 (Sym (nm "a"%string) false) (numZ (-1)) ;;
  v2 <- printTop refSys W0 UnicodeSet true 40 v1 ;;
  ret [(sameText (bytes [49; 47; 97]%nat) v2)].
Definition t_printer_powerOfSymbolAndMinusOneDebugPrint : res (list bool) :=
  v1 <- w_pow W0 (Sym (nm "a"%string) false) (numZ (-1)) ;;
  v2 <- printTop refSys W0 UnicodeSet false 40 v1 ;;
  ret [(sameText (bytes [97; 94; 40; 45; 49; 41]%nat) v2)].
Definition t_printer_powerOfProductAndMinusOne : res (list bool) :=
  v1 <- w_prod W0 [(numZ 2); (Sym (nm "a"%string) false); (Sym (nm "b"%string) false)] ;;
  v2 <- w_pow W0 v1 (numZ (-1)) ;;
  v3 <- printTop refSys W0 UnicodeSet true 40 v2 ;;
  ret [(sameText (bytes [49; 47; 40; 50; 42; 97; 42; 98; 41]%nat) v3)].
Definition t_printer_powerOfPowerOfPowerOfPower : res (list bool) :=
  v1 <- w_pow W0 (Sym (nm "a"%string) false) (Sym (nm "b"%string) false) ;;
  v2 <- w_pow W0 v1 (Sym (nm "c"%string) false) ;;
  v3 <- w_prod W0 [(Num (frq ((- 1)) (4))); (Sym (nm "a"%string) false)] ;;
  v4 <- w_pow W0 v2 v3 ;;
  v5 <- w_pow W0 v4 (Sym (nm "d"%string) false) ;;
  v6 <- printTop refSys W0 UnicodeSet true 40 v5 ;;
  ret [(sameText (bytes [40; 40; 40; 97; 94; 98; 41; 94; 99; 41; 94; 40; 45; 49; 47; 52; 42; 97; 41; 41; 94; 100]%nat) v6)].
Definition t_printer_omitFirstNumeratorFactorIfOne : res (list bool) :=
  v1 <- w_prod W0 [(numZ 2); (Sym (nm "a"%string) false); (Sym (nm "b"%string) false)] ;;
  v2 <- w_pow W0 v1 (numZ (-1)) ;;
  v3 <- w_prod W0 [(Sym (nm "c"%string) false); v2] ;;
  v4 <- printTop refSys W0 UnicodeSet true 40 v3 ;;
  ret [(sameText (bytes [99; 47; 40; 50; 42; 97; 42; 98; 41]%nat) v4)].
Definition t_printer_omitFirstNumeratorFactorIfMinusOne : res (list bool) :=
  v1 <- w_prod W0 [(numZ 2); (Sym (nm "a"%string) false); (Sym (nm "b"%string) false)] ;;
  v2 <- w_pow W0 v1 (numZ (-1)) ;;
  v3 <- minus W0 [(Sym (nm "c"%string) false); v2] ;;
  v4 <- printTop refSys W0 UnicodeSet true 40 v3 ;;
  ret [(sameText (bytes [45; 99; 47; 40; 50; 42; 97; 42; 98; 41]%nat) v4)].
Definition t_printer_powerOfSymbolAndPosFrac : res (list bool) :=
  v1 <- w_pow W0 (Sym (nm "a"%string) false) (Num (Qred (1 # 4))) ;;
  v2 <- printTop refSys W0 UnicodeSet true 40 v1 ;;
  ret [(sameText (bytes [97; 94; 40; 49; 47; 52; 41]%nat) v2)].
Definition t_printer_sqrtPower : res (list bool) :=
  v1 <- w_prod W0 [(Sym (nm "a"%string) false); (Sym (nm "b"%string) false)] ;;
  v2 <- w_pow W0 v1 half ;;
  v3 <- printTop refSys W0 UnicodeSet true 40 v2 ;;
  ret [(sameText (bytes [115; 113; 114; 116; 40; 97; 42; 98; 41]%nat) v3)].
Definition t_printer_oneOverSqrtPowerDebugPrint : res (list bool) :=
  v1 <- w_pow W0 (Sym (nm "a"%string) false) (Num (frq ((- 1)) (2))) ;;
  v2 <- w_pow W0 (Sym (nm "b"%string) false) (Num (frq ((- 1)) (2))) ;;
  v3 <- w_prod W0 [v1; v2] ;;
  v4 <- printTop refSys W0 UnicodeSet false 40 v3 ;;
  ret [(sameText (bytes [97; 94; 40; 45; 49; 47; 50; 41; 42; 98; 94; 40; 45; 49; 47; 50; 41]%nat) v4)].
Definition t_printer_oneOverSqrtPower : res (list bool) :=
  v1 <- w_pow W0 (Sym (nm "a"%string) false) (Num (frq ((- 1)) (2))) ;;
  v2 <- w_pow W0 (Sym (nm "b"%string) false) (Num (frq ((- 1)) (2))) ;;
  v3 <- w_prod W0 [v1; v2] ;;
  v4 <- printTop refSys W0 UnicodeSet true 40 v3 ;;
  ret [(sameText (bytes [49; 47; 40; 115; 113; 114; 116; 40; 97; 41; 42; 115; 113; 114; 116; 40; 98; 41; 41]%nat) v4)].
Definition t_printer_powerOfSymbolAndNegFracDebugPrint : res (list bool) :=
  v1 <- w_pow W0 (Sym (nm "a"%string) false) (Num (frq ((- 2)) (3))) ;;
  v2 <- printTop refSys W0 UnicodeSet false 40 v1 ;;
  ret [(sameText (bytes [97; 94; 40; 45; 50; 47; 51; 41]%nat) v2)].
Definition t_printer_powerOfSymbolAndNegFrac : res (list bool) :=
  v1 <- w_pow W0 (Sym (nm "a"%string) false) (Num (frq ((- 2)) (3))) ;;
  v2 <- printTop refSys W0 UnicodeSet true 40 v1 ;;
  ret [(sameText (bytes [49; 47; 97; 94; 40; 50; 47; 51; 41]%nat) v2)].
Definition t_printer_powerOfFraction : res (list bool) :=
  v1 <- w_pow W0 (Num (frq (5) (7))) (Sym (nm "a"%string) false) ;;
  v2 <- printTop refSys W0 UnicodeSet true 40 v1 ;;
  ret [(sameText (bytes [40; 53; 47; 55; 41; 94; 97]%nat) v2)].
Definition t_printer_powerWithPiBase : res (list bool) :=
  v1 <- w_sum W0 [(Sym (nm "a"%string) false); (Sym (nm "b"%string) false)] ;;
  v2 <- w_pow W0 (Cst CPi) v1 ;;
  v3 <- printTop refSys W0 UnicodeSet true 40 v2 ;;
  ret [(sameText (bytes [207; 128; 94; 40; 97; 32; 43; 32; 98; 41]%nat) v3)].
Definition t_printer_powerWithPiExp : res (list bool) :=
  v1 <- w_sum W0 [(Sym (nm "a"%string) false); (Sym (nm "b"%string) false)] ;;
  v2 <- w_pow W0 v1 (Cst CPi) ;;
  v3 <- printTop refSys W0 UnicodeSet true 40 v2 ;;
  ret [(sameText (bytes [40; 97; 32; 43; 32; 98; 41; 94; 207; 128]%nat) v3)].
Definition t_printer_powerOfSymbolAndSymbol : res (list bool) :=
  v1 <- w_pow W0 (Sym (nm "a"%string) false) (Sym (nm "b"%string) false) ;;
  v2 <- printTop refSys W0 UnicodeSet true 40 v1 ;;
  ret [(sameText (bytes [97; 94; 98]%nat) v2)].
Definition t_printer_powerOfSumAndNumber : res (list bool) :=
  v1 <- w_sum W0 [(Sym (nm "a"%string) false); (Sym (nm "b"%string) false)] ;;
  v2 <- w_pow W0 v1 (numZ 2) ;;
  v3 <- printTop refSys W0 UnicodeSet true 40 v2 ;;
  ret [(sameText (bytes [40; 97; 32; 43; 32; 98; 41; 94; 50]%nat) v3)].
Definition t_printer_powerOfNumberAndSum : res (list bool) :=
  v1 <- w_sum W0 [(Sym (nm "a"%string) false); (Sym (nm "b"%string) false)] ;;
  v2 <- w_pow W0 (numZ 2) v1 ;;
  v3 <- printTop refSys W0 UnicodeSet true 40 v2 ;;
  ret [(sameText (bytes [50; 94; 40; 97; 32; 43; 32; 98; 41]%nat) v3)].
Definition t_printer_powerOfFunctionAndNumber : res (list bool) :=
  v1 <- w_trig W0 FSin (Sym (nm "a"%string) false) ;;
  v2 <- w_pow W0 v1 (numZ 2) ;;
  v3 <- printTop refSys W0 UnicodeSet true 40 v2 ;;
  ret [(sameText (bytes [115; 105; 110; 40; 97; 41; 94; 50]%nat) v3)].
Definition t_printer_powerOfSumAndFunction : res (list bool) :=
  v1 <- w_trig W0 FSin (Sym (nm "a"%string) false) ;;
  v2 <- w_sum W0 [(numZ 2); (Sym (nm "b"%string) false); v1] ;;
  v3 <- w_trig W0 FAsin (Num (frq (1) (5))) ;;
  v4 <- w_pow W0 v2 v3 ;;
  v5 <- printTop refSys W0 UnicodeSet true 40 v4 ;;
  ret [(sameText (bytes [40; 50; 32; 43; 32; 98; 32; 43; 32; 115; 105; 110; 40; 97; 41; 41; 94; 97; 115; 105; 110; 40; 49; 47; 53; 41]%nat) v5)].
Definition t_printer_powerOfProductAndNumber : res (list bool) :=
  v1 <- w_prod W0 [(Sym (nm "a"%string) false); (Sym (nm "b"%string) false)] ;;
  v2 <- w_pow W0 v1 (numZ 2) ;;
  v3 <- printTop refSys W0 UnicodeSet true 40 v2 ;;
  ret [(sameText (bytes [97; 94; 50; 42; 98; 94; 50]%nat) v3)].
Definition t_printer_powerOfProductAndNegNumber : res (list bool) :=
  v1 <- w_prod W0 [(Sym (nm "a"%string) false); (Sym (nm "b"%string) false)] ;;
  v2 <- w_pow W0 v1 (numZ ((- 2))) ;;
  v3 <- printTop refSys W0 UnicodeSet true 40 v2 ;;
  ret [(sameText (bytes [49; 47; 40; 97; 94; 50; 42; 98; 94; 50; 41]%nat) v3)].
Definition t_printer_powerOfProductAndNegNumberDebugPrint : res (list bool) :=
  v1 <- w_prod W0 [(Sym (nm "a"%string) false); (Sym (nm "b"%string) false)] ;;
  v2 <- w_pow W0 v1 (numZ ((- 4))) ;;
  v3 <- printTop refSys W0 UnicodeSet false 40 v2 ;;
  ret [(sameText (bytes [97; 94; 40; 45; 52; 41; 42; 98; 94; 40; 45; 52; 41]%nat) v3)].
Definition t_printer_largeProductOfPowers : res (list bool) :=
  v1 <- w_sum W0 [(Sym (nm "a"%string) false); (Sym (nm "c"%string) false)] ;;
  v2 <- w_pow W0 (Sym (nm "f"%string) false) (Sym (nm "a"%string) false) ;;
  v3 <- oneOver W0 (Sym (nm "d"%string) false) ;;
  v4 <- w_pow W0 (Sym (nm "e"%string) false) (numZ ((- 2))) ;;
  v5 <- w_prod W0 [(Sym (nm "a"%string) false); (Sym (nm "b"%string) false); v1; v2; v3; v4] ;;
  v6 <- printTop refSys W0 UnicodeSet true 40 v5 ;;
  ret [(sameText (bytes [97; 42; 98; 42; 40; 97; 32; 43; 32; 99; 41; 42; 102; 94; 97; 47; 40; 100; 42; 101; 94; 50; 41]%nat) v6)].
Definition t_printer_largeProductOfPowersDebugPrint : res (list bool) :=
  v1 <- w_sum W0 [(Sym (nm "a"%string) false); (Sym (nm "c"%string) false)] ;;
  v2 <- w_pow W0 (Sym (nm "f"%string) false) (Sym (nm "a"%string) false) ;;
  v3 <- oneOver W0 (Sym (nm "d"%string) false) ;;
  v4 <- w_pow W0 (Sym (nm "e"%string) false) (numZ ((- 2))) ;;
  v5 <- w_prod W0 [(Sym (nm "a"%string) false); (Sym (nm "b"%string) false); v1; v2; v3; v4] ;;
  v6 <- printTop refSys W0 UnicodeSet false 40 v5 ;;
  ret [(sameText (bytes [97; 42; 98; 42; 40; 97; 32; 43; 32; 99; 41; 42; 100; 94; 40; 45; 49; 41; 42; 101; 94; 40; 45; 50; 41; 42; 102; 94; 97]%nat) v6)].
Definition t_printer_simpleDivisionOfSymbols : res (list bool) :=
  v1 <- oneOver W0 (Sym (nm "b"%string) false) ;;
  v2 <- w_prod W0 [(Sym (nm "a"%string) false); v1] ;;
  v3 <- printTop refSys W0 UnicodeSet true 40 v2 ;;
  ret [(sameText (bytes [97; 47; 98]%nat) v3)].
Definition t_printer_simpleDivisionOfSymbolsDebugPrint : res (list bool) :=
  v1 <- oneOver W0 (Sym (nm "b"%string) false) ;;
  v2 <- w_prod W0 [(Sym (nm "a"%string) false); v1] ;;
  v3 <- printTop refSys W0 UnicodeSet false 40 v2 ;;
  ret [(sameText (bytes [97; 42; 98; 94; 40; 45; 49; 41]%nat) v3)].
Definition t_printer_negProductFactorMinusOne : res (list bool) :=
  v1 <- minus W0 [(Sym (nm "a"%string) false); (Sym (nm "b"%string) false)] ;;
  v2 <- printTop refSys W0 UnicodeSet true 40 v1 ;;
  ret [(sameText (bytes [45; 97; 42; 98]%nat) v2)].
Definition t_printer_negProductNonTrivialFactor : res (list bool) :=
  v1 <- w_prod W0 [(Sym (nm "a"%string) false); (Sym (nm "b"%string) false); (numZ ((- 2)))] ;;
  v2 <- printTop refSys W0 UnicodeSet true 40 v1 ;;
  ret [(sameText (bytes [45; 50; 42; 97; 42; 98]%nat) v2)].
Definition t_printer_productWithConstantPi : res (list bool) :=
  v1 <- w_prod W0 [(numZ ((- 2))); (Sym (nm "a"%string) false); (Sym (nm "b"%string) false); (Cst CPi)] ;;
  v2 <- printTop refSys W0 UnicodeSet true 40 v1 ;;
  ret [(sameText (bytes [45; 50; 42; 207; 128; 42; 97; 42; 98]%nat) v2)].
Definition t_printer_productOfEqualExpPowers : res (list bool) :=
  v1 <- w_pow W0 (Sym (nm "a"%string) false) half ;;
  v2 <- w_pow W0 (Sym (nm "b"%string) false) half ;;
  v3 <- w_prod W0 [v1; v2] ;;
  v4 <- printTop refSys W0 UnicodeSet true 40 v3 ;;
  ret [(sameText (bytes [115; 113; 114; 116; 40; 97; 41; 42; 115; 113; 114; 116; 40; 98; 41]%nat) v4)].
Definition t_printer_negProductOfEqualExpPowers : res (list bool) :=
  v1 <- w_pow W0 (Sym (nm "a"%string) false) (Num (frq (2) (3))) ;;
  v2 <- w_pow W0 (Sym (nm "b"%string) false) (Num (frq (2) (3))) ;;
  v3 <- w_prod W0 [(numZ (-1)); v1; v2] ;;
  v4 <- printTop refSys W0 UnicodeSet true 40 v3 ;;
  ret [(sameText (bytes [45; 97; 94; 40; 50; 47; 51; 41; 42; 98; 94; 40; 50; 47; 51; 41]%nat) v4)].
Definition t_printer_productOfFunctions : res (list bool) :=
  v1 <- w_pow W0 (numZ (17)) (Num (frq ((- 1)) (2))) ;;
  v2 <- w_trig W0 FAtan v1 ;;
  v3 <- w_prod W0 [(Sym (nm "c"%string) false); (Sym (nm "d"%string) false)] ;;
  v4 <- w_trig W0 FCos v3 ;;
  v5 <- w_prod W0 [(Sym (nm "a"%string) false); (Sym (nm "b"%string) false)] ;;
  v6 <- w_trig W0 FSin v5 ;;
  v7 <- w_pow W0 v6 (numZ 2) ;;
  v8 <- w_prod W0 [(Sym (nm "a"%string) false); (Sym (nm "b"%string) false)] ;;
  v9 <- w_trig W0 FTan v8 ;;
  v10 <- w_prod W0 ((((([] ++ [(Sym (nm "a"%string) false)]) ++ [v2]) ++ [v4]) ++ [v7]) ++ [v9]) ;;
  v11 <- printTop refSys W0 UnicodeSet true 40 v10 ;;
  ret [(sameText (bytes [97; 42; 97; 116; 97; 110; 40; 49; 47; 115; 113; 114; 116; 40; 49; 55; 41; 41; 42; 99; 111; 115; 40; 99; 42; 100; 41; 42; 115; 105; 110; 40; 97; 42; 98; 41; 94; 51; 47; 99; 111; 115; 40; 97; 42; 98; 41]%nat) v11)].
Definition t_printer_productOfFunctionsDebugPrint : res (list bool) :=
  v1 <- w_pow W0 (numZ (17)) (Num (frq ((- 1)) (2))) ;;
  v2 <- w_trig W0 FAtan v1 ;;
  v3 <- w_prod W0 [(Sym (nm "c"%string) false); (Sym (nm "d"%string) false)] ;;
  v4 <- w_trig W0 FCos v3 ;;
  v5 <- w_prod W0 [(Sym (nm "a"%string) false); (Sym (nm "b"%string) false)] ;;
  v6 <- w_trig W0 FSin v5 ;;
  v7 <- w_pow W0 v6 (numZ 2) ;;
  v8 <- w_prod W0 [(Sym (nm "a"%string) false); (Sym (nm "b"%string) false)] ;;
  v9 <- w_trig W0 FTan v8 ;;
  v10 <- w_prod W0 ((((([] ++ [(Sym (nm "a"%string) false)]) ++ [v2]) ++ [v4]) ++ [v7]) ++ [v9]) ;;
  v11 <- printTop refSys W0 UnicodeSet false 40 v10 ;;
  ret [(sameText (bytes [97; 42; 97; 116; 97; 110; 40; 49; 55; 94; 40; 45; 49; 47; 50; 41; 41; 42; 99; 111; 115; 40; 97; 42; 98; 41; 94; 40; 45; 49; 41; 42; 99; 111; 115; 40; 99; 42; 100; 41; 42; 115; 105; 110; 40; 97; 42; 98; 41; 94; 51]%nat) v11)].
Definition t_printer_fracOfSumAndProduct : res (list bool) :=
  v1 <- w_sum W0 [(Sym (nm "a"%string) false); (Sym (nm "b"%string) false)] ;;
  v2 <- w_prod W0 [(Sym (nm "c"%string) false); (Sym (nm "d"%string) false)] ;;
  v3 <- oneOver W0 v2 ;;
  v4 <- w_prod W0 [v1; v3] ;;
  v5 <- printTop refSys W0 UnicodeSet true 40 v4 ;;
  ret [(sameText (bytes [40; 97; 32; 43; 32; 98; 41; 47; 40; 99; 42; 100; 41]%nat) v5)].
Definition t_printer_fracOfTwoProducts : res (list bool) :=
  v1 <- w_prod W0 [(Sym (nm "a"%string) false); (Sym (nm "b"%string) false)] ;;
  v2 <- w_prod W0 [(Sym (nm "c"%string) false); (Sym (nm "d"%string) false)] ;;
  v3 <- oneOver W0 v2 ;;
  v4 <- w_prod W0 [v1; v3] ;;
  v5 <- printTop refSys W0 UnicodeSet true 40 v4 ;;
  ret [(sameText (bytes [97; 42; 98; 47; 40; 99; 42; 100; 41]%nat) v5)].
Definition t_printer_fracOfPowerAndSum : res (list bool) :=
  v1 <- w_pow W0 (Sym (nm "a"%string) false) (Sym (nm "b"%string) false) ;;
  v2 <- w_sum W0 [(Sym (nm "c"%string) false); (Sym (nm "d"%string) false)] ;;
  v3 <- oneOver W0 v2 ;;
  v4 <- w_prod W0 [v1; v3] ;;
  v5 <- printTop refSys W0 UnicodeSet true 40 v4 ;;
  ret [(sameText (bytes [97; 94; 98; 47; 40; 99; 32; 43; 32; 100; 41]%nat) v5)].
Definition t_printer_negTermsInSum : res (list bool) :=
  v1 <- minus W0 [(Sym (nm "b"%string) false)] ;;
  v2 <- w_sum W0 [(Sym (nm "a"%string) false); v1] ;;
  v3 <- printTop refSys W0 UnicodeSet true 40 v2 ;;
  ret [(sameText (bytes [97; 32; 45; 32; 98]%nat) v3)].
Definition t_printer_posProductInSum : res (list bool) :=
  v1 <- w_prod W0 [(Sym (nm "b"%string) false); (Sym (nm "c"%string) false)] ;;
  v2 <- w_sum W0 [(Sym (nm "a"%string) false); v1] ;;
  v3 <- printTop refSys W0 UnicodeSet true 40 v2 ;;
  ret [(sameText (bytes [97; 32; 43; 32; 98; 42; 99]%nat) v3)].
Definition t_printer_negSumInProduct : res (list bool) :=
  v1 <- w_sum W0 [(Sym (nm "b"%string) false); (Sym (nm "c"%string) false)] ;;
  v2 <- w_prod W0 [(Sym (nm "a"%string) false); v1] ;;
  v3 <- printTop refSys W0 UnicodeSet true 40 v2 ;;
  ret [(sameText (bytes [97; 42; 40; 98; 32; 43; 32; 99; 41]%nat) v3)].
Definition t_printer_posSumInProduct : res (list bool) :=
  v1 <- minus W0 [(Sym (nm "b"%string) false)] ;;
  v2 <- w_sum W0 [v1; (Sym (nm "c"%string) false)] ;;
  v3 <- w_prod W0 [(Sym (nm "a"%string) false); v2] ;;
  v4 <- printTop refSys W0 UnicodeSet true 40 v3 ;;
  ret [(sameText (bytes [97; 42; 40; 45; 98; 32; 43; 32; 99; 41]%nat) v4)].
Definition t_printer_negativePowerWithConstantBase : res (list bool) :=
  v1 <- w_pow W0 (Cst CE) (numZ ((- 123))) ;;
  v2 <- minus W0 [v1] ;;
  v3 <- printTop refSys W0 UnicodeSet true 40 v2 ;;
  ret [(sameText (bytes [45; 49; 47; 101; 94; 49; 50; 51]%nat) v3)].
Definition t_printer_negativePowerWithConstantBaseDebug : res (list bool) :=
  v1 <- w_pow W0 (Cst CE) (numZ ((- 123))) ;;
  v2 <- minus W0 [v1] ;;
  v3 <- printTop refSys W0 UnicodeSet false 40 v2 ;;
  ret [(sameText (bytes [45; 101; 94; 40; 45; 49; 50; 51; 41]%nat) v3)].
Definition t_printer_parenthesesInPosProductWithNegSumFactor : res (list bool) :=
  v1 <- minus W0 [(Sym (nm "a"%string) false)] ;;
  v2 <- w_sum W0 [v1; (numZ ((- 3)))] ;;
  v3 <- w_prod W0 [(Sym (nm "c"%string) false); v2] ;;
  v4 <- printTop refSys W0 UnicodeSet true 40 v3 ;;
  ret [(sameText (bytes [40; 45; 51; 32; 45; 32; 97; 41; 42; 99]%nat) v4)].
Definition t_printer_parenthesesInNegProductWithSumFactor : res (list bool) :=
  v1 <- minus W0 [(Sym (nm "a"%string) false)] ;;
  v2 <- w_sum W0 [v1; (numZ ((- 3)))] ;;
  v3 <- minus W0 [(Sym (nm "c"%string) false); v2] ;;
  v4 <- printTop refSys W0 UnicodeSet true 40 v3 ;;
  ret [(sameText (bytes [45; 40; 45; 51; 32; 45; 32; 97; 41; 42; 99]%nat) v4)].
Definition t_printer_parenthesesInNegProductWithSumFactorInsideSum : res (list bool) :=
  v1 <- minus W0 [(Sym (nm "a"%string) false)] ;;
  v2 <- w_sum W0 [v1; (numZ ((- 3)))] ;;
  v3 <- minus W0 [(Sym (nm "c"%string) false); v2] ;;
  v4 <- w_sum W0 [(Sym (nm "a"%string) false); v3] ;;
  v5 <- printTop refSys W0 UnicodeSet true 40 v4 ;;
  ret [(sameText (bytes [97; 32; 45; 32; 40; 45; 51; 32; 45; 32; 97; 41; 42; 99]%nat) v5)].
Definition t_printer_parenthesesInNegProductWithSumFactorInsideLargerSum : res (list bool) :=
  v1 <- w_prod W0 [(numZ ((- 3))); (Sym (nm "c"%string) false)] ;;
  v2 <- minus W0 [(Sym (nm "a"%string) false); (Sym (nm "c"%string) false)] ;;
  v3 <- minus W0 [(Sym (nm "a"%string) false)] ;;
  v4 <- w_sum W0 [(numZ ((- 3))); v3] ;;
  v5 <- w_prod W0 [(numZ (-1)); v4; (Sym (nm "c"%string) false)] ;;
  v6 <- w_sum W0 [(Sym (nm "b"%string) false); v1; v2; v5] ;;
  v7 <- printTop refSys W0 UnicodeSet true 40 v6 ;;
  ret [(sameText (bytes [98; 32; 45; 32; 51; 42; 99; 32; 45; 32; 97; 42; 99; 32; 45; 32; 40; 45; 51; 32; 45; 32; 97; 41; 42; 99]%nat) v7)].

(** unit-tests/testparser.cpp *)
Definition ran_parser : list bool := Eval vm_compute in map passes [
  t_parser_posInteger;
  t_parser_posIntegerWithWhitespace;
  t_parser_negInteger;
  t_parser_numericPosFloat;
  t_parser_numericPosFloatNoDigitsAfterPeriod;
  t_parser_numericPosScientificLowerEPosExp;
  t_parser_numericPosScientificUpperEPosExp;
  t_parser_numericPosScientificZeroExp;
  t_parser_numericPosScientificLowerENegExp;
  t_parser_numericPosScientificUpperENegExp;
  t_parser_numericPosScientificUpperEPosExpNoPeriod;
  t_parser_numericNegFloat;
  t_parser_numericNegScientificLowerEPosExp;
  t_parser_numericNegScientificLowerENegExp;
  t_parser_numericNegScientificUpperEPosExp;
  t_parser_numericNegScientificLowerEPosExpNoPeriod;
  t_parser_symbol;
  t_parser_symbolInSpaces;
  t_parser_symbolInSpacesAndWhitespace;
  t_parser_wrongSymbolWithNumberStart;
  t_parser_symbolWithShortSupscript;
  t_parser_symbolWithLongSupscript;
  t_parser_symbolWithShortSubscriptInBraces;
  t_parser_symbolWithEmptySubscript;
  t_parser_symbolWithEmptySubscriptInBraces;
  t_parser_symbolWithLongSubscriptWithoutBraces;
  t_parser_nonAsciiCharacterAtBeginning;
  t_parser_nonAsciiCharacterAtEnd;
  t_parser_symbolWithUnrecognizedCharactersInBetween;
  t_parser_symbolWithUnrecognizedCharacterInSubscript;
  t_parser_symbolWithWhitespaceInside;
  t_parser_sumOfInts;
  t_parser_sumOfIntsWithSpaces;
  t_parser_productOfInts;
  t_parser_productOfIntsWithSpaces;
  t_parser_productOfIntsWithParentheses;
  t_parser_unaryMinusWithInteger;
  t_parser_unaryMinusWithSymbol;
  t_parser_unaryPlusWithInteger;
  t_parser_unaryPlusWithSymbol;
  t_parser_simpleSumTwoSummands;
  t_parser_simpleDifferenceTwoSummands;
  t_parser_simpleSumFourSummands;
  t_parser_simpleProductThreeSummands;
  t_parser_simpleDivisionTwoSymbols;
  t_parser_simpleDivisionThreeSymbolsOneNumber;
  t_parser_negativeFraction;
  t_parser_sumOfNumberAndFraction;
  t_parser_sinOfSymbol;
  t_parser_sinOfSum;
  t_parser_sinOfProduct;
  t_parser_sinWrongSpelling;
  t_parser_asinOfProduct;
  t_parser_acosResolvableArg;
  t_parser_atan2OfSymbols;
  t_parser_atan2Resolvable;
  t_parser_sqrtTwoVariations;
  t_parser_powerOfInteger;
  t_parser_powerOfSymbols;
  t_parser_powerOfSymbolBaseWithUnaryMinus;
  t_parser_powerOfSymbolsWithUselessParentheses;
  t_parser_unaryPlusInParentheses;
  t_parser_unaryMinusWithSumOperator;
  t_parser_unaryPlusWithNumberInSum;
  t_parser_unaryPlusWithNumberAndParenthesesInSum;
  t_parser_unaryPlusWithSymbolInSum;
  t_parser_unaryMinusWithPower;
  t_parser_unaryPlusWithPower;
  t_parser_unaryMinusWithPowerInParentheses;
  t_parser_sumWithUnaryMinusFirstNumericSummand;
  t_parser_sumWithUnaryMinusFirstSymbolSummand;
  t_parser_sumWithPowerSummand;
  t_parser_unaryMinusBeforeProduct;
  t_parser_unaryMinusInParentheses;
  t_parser_posLargeInteger;
  t_parser_negLargeInteger;
  t_parser_parenthesesAroundSymbol;
  t_parser_parenthesesAroundNumber;
  t_parser_parenthesesAroundSum;
  t_parser_parenthesesAroundFunction;
  t_parser_multipleParenthesesInSum;
  t_parser_productWithSumsInParentheses;
  t_parser_simpleProductWithSumInParentheses;
  t_parser_productWithSumInParentheses;
  t_parser_unrecognizedTokensWithSyntaxError;
  t_parser_unrecognizedToken;
  t_parser_unrecognizedTokensAfterValidExpression;
  t_parser_unrecognizedTokensInsideParentheses;
  t_parser_symbolsAndComma;
  t_parser_emptyString;
  t_parser_onlyCommaSigns;
  t_parser_emptyParenthesesAfterValidExpressionInProduct;
  t_parser_syntaxErrorAfterValidExpressionInProduct;
  t_parser_emptyParentheses;
  t_parser_mixedOperatorsWithUnaryMinusNumber;
  t_parser_mixedOperatorsWithUnaryMinusSymbol;
  t_parser_emptyParenthesesBeforeValidPart;
  t_parser_mixedTerm01;
  t_parser_mixedTerm02;
  t_parser_mixedTerm03;
  t_parser_powerOperator;
  t_parser_nestedPowerOperator;
  t_parser_onlyPowerOperator;
  t_parser_onlyPowerOperatorWithParentheses;
  t_parser_misspelledFunction;
  t_parser_piVariations;
  t_parser_piInMixedTerm;
  t_parser_eulerVariations;
  t_parser_symbolTimesFunction;
  t_parser_logOfEulerEvaluesToOne;
  t_parser_eulerInMixedTerm].
Example conforms_parser : forallb id ran_parser = true.
Proof. reflexivity. Qed.

(** unit-tests/testprinter.cpp *)
Definition ran_printer : list bool := Eval vm_compute in map passes [
  t_printer_positiveIntNumber;
  t_printer_negativeIntNumber;
  t_printer_fractionNumber;
  t_printer_operatorWithNumber;
  t_printer_piUnicode;
  t_printer_piAscii;
  t_printer_euler;
  t_printer_function;
  t_printer_functionWithMoreThanOneArgument;
  t_printer_symbol;
  t_printer_positiveSymbol;
  t_printer_positiveSymbolWithSubAndSuperscript;
  t_printer_positiveSymbolAsciiCharset;
  t_printer_symbolGreekLetterWithoutUnicode;
  t_printer_symbolGreekLetterWithUnicode;
  t_printer_capitalOmega;
  t_printer_lowerCaseAlpha;
  t_printer_upperCaseAlpha;
  t_printer_sumWithFunction;
  t_printer_product;
  t_printer_negSymbolAsProduct;
  t_printer_powerOfSymbolAndPositiveInteger;
  t_printer_powerOfSymbolAndNegInt;
  t_printer_powerOfSymbolAndMinusOne;
  t_printer_powerOfSymbolAndMinusOneDebugPrint;
  t_printer_powerOfProductAndMinusOne;
  t_printer_powerOfPowerOfPowerOfPower;
  t_printer_omitFirstNumeratorFactorIfOne;
  t_printer_omitFirstNumeratorFactorIfMinusOne;
  t_printer_powerOfSymbolAndPosFrac;
  t_printer_sqrtPower;
  t_printer_oneOverSqrtPowerDebugPrint;
  t_printer_oneOverSqrtPower;
  t_printer_powerOfSymbolAndNegFracDebugPrint;
  t_printer_powerOfSymbolAndNegFrac;
  t_printer_powerOfFraction;
  t_printer_powerWithPiBase;
  t_printer_powerWithPiExp;
  t_printer_powerOfSymbolAndSymbol;
  t_printer_powerOfSumAndNumber;
  t_printer_powerOfNumberAndSum;
  t_printer_powerOfFunctionAndNumber;
  t_printer_powerOfSumAndFunction;
  t_printer_powerOfProductAndNumber;
  t_printer_powerOfProductAndNegNumber;
  t_printer_powerOfProductAndNegNumberDebugPrint;
  t_printer_largeProductOfPowers;
  t_printer_largeProductOfPowersDebugPrint;
  t_printer_simpleDivisionOfSymbols;
  t_printer_simpleDivisionOfSymbolsDebugPrint;
  t_printer_negProductFactorMinusOne;
  t_printer_negProductNonTrivialFactor;
  t_printer_productWithConstantPi;
  t_printer_productOfEqualExpPowers;
  t_printer_negProductOfEqualExpPowers;
  t_printer_productOfFunctions;
  t_printer_productOfFunctionsDebugPrint;
  t_printer_fracOfSumAndProduct;
  t_printer_fracOfTwoProducts;
  t_printer_fracOfPowerAndSum;
  t_printer_negTermsInSum;
  t_printer_posProductInSum;
  t_printer_negSumInProduct;
  t_printer_posSumInProduct;
  t_printer_negativePowerWithConstantBase;
  t_printer_negativePowerWithConstantBaseDebug;
  t_printer_parenthesesInPosProductWithNegSumFactor;
  t_printer_parenthesesInNegProductWithSumFactor;
  t_printer_parenthesesInNegProductWithSumFactorInsideSum;
  t_printer_parenthesesInNegProductWithSumFactorInsideLargerSum].
Example conforms_printer : forallb id ran_printer = true.
Proof. reflexivity. Qed.
