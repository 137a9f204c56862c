(** Model of src/order.cpp, the canonical order of operands.

    [nlt] is operator< of two rational numbers.  The code converts both to double
    first (src/number.cpp:325-328), so that [nlt] is a parameter here:
    [qltb] is the exact comparison. *)
From Verif Require Export ExprModel.
Open Scope Z_scope.

Section Order.
  Variable nlt : Q -> Q -> bool.

  (** doPermuteBothSymbol, src/order.cpp:69-80. *)
  Definition doPermuteBothSymbol (n : name) (p : bool) (m : name) (q : bool) : bool :=
    if nameEq n m && negb (Bool.eqb p q) then q else nameGt n m.

  (** std::lexicographical_compare on two lists with the given relation. *)
  Fixpoint lexCompare (less : expr -> expr -> bool) (l r : list expr) : bool :=
    match l, r with
    | [], [] => false
    | [], _ :: _ => true
    | _ :: _, [] => false
    | x :: xs, y :: ys =>
        if less x y then true else if less y x then false else lexCompare less xs ys
    end.

  (** doPermute and its helpers, src/order.cpp:39-249.  [Numeric], [Constant]:
      lines 82-95, 135-141; powers: 97-108; products and sums: 110-133;
      functions: 143-158; different types: 160-244.  An Undefined gives false
      (lines 63-66, 177-180).  Calling back() on an empty operand list would be
      undefined behaviour (line 199); sums and products of the code have at least
      two operands, the model returns false.  The fuel is shown to be
      sufficient in OrderProofs. *)
  Fixpoint permute (fuel : nat) (l r : expr) : bool :=
    match fuel with
    | O => false
    | S n =>
        let isCorrect a b := negb (permute n a b) in
        let less a b := isDifferent a b && isCorrect a b in
        let listReverse a b := lexCompare less (rev b) (rev a) in
        let lastElement (a : list expr) b :=
          match rev a with
          | [] => false
          | x :: _ => if isEqual x b then true else permute n x b
          end in
        match l, r with
        | Sym a p, Sym b q => doPermuteBothSymbol a p b q
        | Num a, Num b => nlt b a
        | Pow b1 e1, Pow b2 e2 => if isDifferent b1 b2 then permute n b1 b2 else permute n e1 e2
        | Prod a, Prod b => listReverse a b
        | Sum a, Sum b => listReverse a b
        | Cst a, Cst b => nameGt (cstName a) (cstName b)
        | Fct f a, Fct g b =>
            if nameNe (fctName f) (fctName g) then nameGt (fctName f) (fctName g)
            else match a, b with x :: _, y :: _ => permute n x y | _, _ => false end
        | Undef, Undef => false
        | Num _, _ => false
        | Cst _, (Sym _ _ | Undef | Fct _ _ | Sum _ | Prod _ | Pow _ _) => false
        | Prod a, (Pow _ _ | Sum _ | Sym _ _ | Fct _ _) => lastElement a r
        | Pow b e, (Sum _ | Sym _ _ | Fct _ _) =>
            if isDifferent b r then permute n b r else permute n e (Num 1)
        | Sum a, (Sym _ _ | Fct _ _) => lastElement a r
        | Fct f _, Sym m _ => if nameEq (fctName f) m then false else nameGt (fctName f) m
        | Undef, _ => false
        | _, Undef => false
        | _, _ => negb (permute n r l)
        end
    end.

  (** doPermute(left, right): the operands must be swapped, src/order.cpp:39-45. *)
  Definition doPermute (l r : expr) : bool := permute (2 * (esize l + esize r)) l r.

  (** isCorrect, src/order.cpp:246-249. *)
  Definition isCorrect (l r : expr) : bool := negb (doPermute l r).
End Order.
