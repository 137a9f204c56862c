(** Model of class LUDecomposition, src/ludecomp.h, on expressions: a factorisation without pivoting and the
    solution with it.

    The views of matrices and vectors are functions of their indices, as in SolveModel.v.  Division by a pivot,
    which the code doesn't look at, is recorded as the fact that the pivot isn't zero. *)
From Verif Require Export SolveExpr.
From Coq Require Import List ZArith.
From Verif Require Import Run.
Import ListNotations.

Section Lu.
  Variables (W : oper) (n : nat).   (* n: bound for the loop in simplify *)
  Notation matE := (nat -> nat -> expr).
  Notation vecE := (nat -> expr).

  (** The body of the loop over i in factorize, src/ludecomp.h:26-30. *)
  Definition luRow (dim j : nat) (m : matE) (i : nat) : res matE :=
    _ <- rely (CNonZero (m j j)) ;;
    q <- varDiv W (m i j) (m j j) ;;
    foldM (fun m k => t <- varMul W (m i j) (m j k) ;; d <- varSub W (m i k) t ;; ret (upd m i k d))
      (range (S j) dim) (upd m i j q).
  (** factorize, src/ludecomp.h:23-31. *)
  Definition factorizeE (dim : nat) (m : matE) : res matE :=
    foldM (fun m j => foldM (luRow dim j) (range (S j) dim) m) (range 0 (dim - 1)) m.

  (** Forward substitution, src/ludecomp.h:39-41. *)
  Definition luForward (dim : nat) (m : matE) (rhs : vecE) : res vecE :=
    foldM (fun v i => foldM (fun v j => t <- varMul W (m i j) (v j) ;; d <- varSub W (v i) t ;; ret (updV v i d)) (range 0 i) v)
      (range 0 dim) rhs.
  (** One iteration of the backward substitution, src/ludecomp.h:43-53. *)
  Definition luBackRow (dim : nat) (rhs : vecE) (st : matE * vecE) (i : nat) : res (matE * vecE) :=
    let (m, x) := st in
    x1 <- foldM (fun x j => t <- varMul W (m i j) (x j) ;; d <- varSub W (x i) t ;; ret (updV x i d)) (range (S i) dim) x ;;
    s <- simplifyVar W n (m i i) ;;
    if isEqual s zero then Throw
    else
      _ <- rely (CNonZero s) ;;
      a <- varAdd W (rhs i) (x1 i) ;; q <- varDiv W a s ;; y <- simplifyVar W n q ;; ret (upd m i i s, updV x1 i y).
  (** computeSolution, src/ludecomp.h:33-54.  All elements of x below dim are set to 0 first, lines 36-37.  The
      matrix, the right hand side and x afterwards. *)
  Definition luSolve (dim : nat) (m : matE) (rhs x : vecE) : res (matE * vecE * vecE) :=
    f <- luForward dim m rhs ;;
    '(m', x') <- foldM (luBackRow dim f) (rev (range 0 dim)) (m, fun i => if (i <? dim)%nat then zero else x i) ;;
    ret (m', f, x').
End Lu.
