(** The linear solver run on expressions: src/directsolve.cpp, src/solve.cpp and include/tsym/solve.h with
    the operators of Var (src/var.cpp) and simplify (src/functions.cpp).

    SolveModel.v has the same loops for entries of any type; here every operation on the entries is the one
    of the model of expressions, which may rely on facts, run out of bounds, throw or have undefined
    behaviour.  That a pivot which was divided by has a value other than zero is recorded as a fact: the code
    compares expressions with 0 only. *)
From Verif Require Export ApiModel SolveModel.
From Coq Require Import List ZArith.
From Verif Require Import Run.
Import ListNotations.
Open Scope Z_scope.

(** A loop that changes a state. *)
Fixpoint foldM {S A} (f : S -> A -> res S) (l : list A) (s : S) : res S :=
  match l with [] => ret s | a :: r => s' <- f s a ;; foldM f r s' end.

Section SolveExpr.
  Variables (W : oper) (n : nat).   (* n: bound for the loop in simplify *)
  Variable maxU : Z.                (* the largest unsigned *)
  Notation matE := (nat -> nat -> expr).
  Notation vecE := (nat -> expr).

  (** firstNonZeroPivot, src/directsolve.cpp:7-16. *)
  Definition firstPivotE (dim : nat) (m : matE) (row : nat) : res nat :=
    match find (fun i => negb (isEqual (m i row) zero)) (range row dim) with Some i => ret i | None => Throw end.
  (** leastComplexityPivot, src/directsolve.cpp:18-34. *)
  Definition leastPivotE (dim : nat) (m : matE) (row : nat) : nat :=
    snd (fold_left (fun st i =>
      let comp := complexity (m i row) in
      if negb (isEqual (m i row) zero) && (comp <? fst st) then (comp, i) else st)
      (range row dim) (maxU, row)).
  (** selectPivot, src/solve.cpp:22-25. *)
  Definition selectE (a : algo) (dim : nat) (m : matE) (row : nat) : res nat :=
    match a with Gauss => firstPivotE dim m row | GaussLCPivot => ret (leastPivotE dim m row) end.

  (** Elimination below the pivot, src/directsolve.cpp:68-73. *)
  Definition elimRowE (dim j : nat) (m : matE) (i : nat) : res matE :=
    q <- varDiv W (m i j) (m j j) ;; s <- simplifyVar W n q ;;
    foldM (fun m k => t <- varMul W (m i j) (m j k) ;; d <- varSub W (m i k) t ;; s <- simplifyVar W n d ;; ret (upd m i k s))
      (range (S j) dim) (upd m i j s).
  Record stateE := mkE { x_m : matE; x_rhs : option vecE; x_swaps : nat }.
  (** One iteration of the outer loop of eliminateGauss, src/directsolve.cpp:56-74. *)
  Definition gaussStepE (a : algo) (dim : nat) (s : stateE) (j : nat) : res stateE :=
    p <- selectE a dim (x_m s) j ;;
    let s1 := if (p =? j)%nat then s
              else mkE (swapRows (x_m s) j p)
                       (match x_rhs s with Some v => Some (swapScalar v j p) | None => None end)
                       (S (x_swaps s)) in
    _ <- rely (CNonZero (x_m s1 j j)) ;;
    m <- foldM (elimRowE dim j) (range (S j) dim) (x_m s1) ;;
    ret (mkE m (x_rhs s1) (x_swaps s1)).
  (** eliminateGauss, src/directsolve.cpp:51-77. *)
  Definition eliminateE (a : algo) (dim : nat) (m : matE) (rhs : option vecE) : res stateE :=
    foldM (gaussStepE a dim) (range 0 (dim - 1)) (mkE m rhs 0).

  (** computeSolution, src/directsolve.cpp:79-101. *)
  Definition forwardRowE (m : matE) (rhs : vecE) (i : nat) : res vecE :=
    foldM (fun v j => t <- varMul W (m i j) (v j) ;; d <- varSub W (v i) t ;; ret (updV v i d)) (range 0 i) rhs.
  Definition forwardE (dim : nat) (m : matE) (rhs : vecE) : res vecE := foldM (forwardRowE m) (range 0 dim) rhs.
  Definition backRowE (dim : nat) (rhs : vecE) (st : matE * vecE) (i : nat) : res (matE * vecE) :=
    let (m, x) := st in
    x1 <- foldM (fun x j => t <- varMul W (m i j) (x j) ;; d <- varSub W (x i) t ;; ret (updV x i d)) (range (S i) dim) x ;;
    d <- simplifyVar W n (m i i) ;;
    let m1 := upd m i i d in
    if isEqual (m1 i i) zero then Throw
    else
      _ <- rely (CNonZero (m1 i i)) ;;
      a <- varAdd W (rhs i) (x1 i) ;; q <- varDiv W a (m1 i i) ;; s <- simplifyVar W n q ;; ret (m1, updV x1 i s).
  Definition computeE (dim : nat) (m : matE) (rhs : vecE) : res vecE :=
    f <- forwardE dim m rhs ;; '(_, x) <- foldM (backRowE dim f) (rev (range 0 dim)) (m, fun _ => zero) ;; ret x.

  (** data[i*dim + j], src/stdvecwrapper.h:25-32; data[i], lines 11-14. *)
  Definition ofVectorE (l : list expr) : vecE := fun i => nth i l zero.
  Definition ofFlatE (l : list expr) (dim : nat) : matE := fun i j => nth (i * dim + j) l zero.

  (** detail::solve, src/solve.cpp:28-41. *)
  Definition solveDetailE (a : algo) (A b : list expr) (dim : nat) : res (list expr) :=
    s <- eliminateE a dim (ofFlatE A dim) (Some (ofVectorE b)) ;;
    match x_rhs s with None => Throw | Some rhs => x <- computeE dim (x_m s) rhs ;; ret (toVector dim x) end.
  (** detFromPlu, src/solve.cpp:10-19. *)
  Definition detFromPluE (dim : nat) (m : matE) (swaps : nat) : res expr :=
    d <- foldM (fun d i => varMul W d (m i i)) (range 0 dim) (if Nat.even swaps then one else mOne) ;; simplifyVar W n d.
  (** detail::determinant, src/solve.cpp:43-53. *)
  Definition determinantDetailE (a : algo) (A : list expr) (dim : nat) : res expr :=
    s <- eliminateE a dim (ofFlatE A dim) None ;; detFromPluE dim (x_m s) (x_swaps s).
  (** Column [i] of detail::invert, src/solve.cpp:62-80, and all columns. *)
  Definition invertColumnE (a : algo) (A : list expr) (dim i : nat) : res (list expr) :=
    solveDetailE a A (map (fun j => if (i =? j)%nat then one else zero) (range 0 dim)) dim.
  Fixpoint columnsE (a : algo) (A : list expr) (dim : nat) (is : list nat) : res (list (list expr)) :=
    match is with [] => ret [] | i :: r => c <- invertColumnE a A dim i ;; cs <- columnsE a A dim r ;; ret (c :: cs) end.
  (** detail::invert, src/solve.cpp:55-83: entry (r, i) of the result is entry r of column i. *)
  Definition invertDetailE (a : algo) (A : list expr) (dim : nat) : res (list expr) :=
    cols <- columnsE a A dim (range 0 dim) ;;
    ret (flat_map (fun r => map (fun i => nth r (nth i cols []) zero) (range 0 dim)) (range 0 dim)).

  (** solve, determinant and invert, include/tsym/solve.h:140-185; [x] is the solution vector before the
      call.  The copies that leave out the skipped entries are those of SolveModel.v. *)
  Definition solveE (a : algo) (A : matE) (b x : vecE) (skip : nat -> bool) (dim : nat) : res vecE :=
    r <- solveDetailE a (toStdMat A skip dim) (toStdVec b skip dim) (length (toStdVec b skip dim)) ;;
    match fromStdVec (range 0 dim) skip r x with None => UB "end of vector"%string | Some x' => ret x' end.
  Definition determinantE (a : algo) (A : matE) (skip : nat -> bool) (dim : nat) : res expr :=
    determinantDetailE a (toStdMat A skip dim) (length (filter (fun i => negb (skip i)) (range 0 dim))).
  Definition invertE (a : algo) (A : matE) (skip : nat -> bool) (dim : nat) : res matE :=
    r <- invertDetailE a (toStdMat A skip dim) (length (filter (fun i => negb (skip i)) (range 0 dim))) ;;
    match fromStdMat dim (range 0 dim) skip r A with None => UB "end of vector"%string | Some m => ret m end.
End SolveExpr.
