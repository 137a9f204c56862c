(** The determinant by expansion along the first row is mathcomp's. *)
From Coq Require Import Reals.
From Verif Require Import SystemSpec RealField.
From mathcomp Require Import all_ssreflect all_fingroup all_algebra.
Set Implicit Arguments.
Unset Strict Implicit.
Import GRing.Theory.
Local Open Scope ring_scope.

Lemma nthE (X : Type) (x0 : X) l i : List.nth i l x0 = nth x0 l i.
Proof. by elim: l i => [|x l IH] [|i] //=. Qed.
Lemma firstnE (X : Type) i (l : seq X) : List.firstn i l = take i l.
Proof. by elim: l i => [|x l IH] [|i] //=; rewrite IH. Qed.
Lemma skipnE (X : Type) i (l : seq X) : List.skipn i l = drop i l.
Proof. by elim: l i => [|x l IH] [|i] //=. Qed.
Lemma sumOverE (f : nat -> R) (l : seq nat) : sumOver f l = \sum_(k <- l) (f k : R_fieldType).
Proof. by elim: l => [|k l IH]; rewrite ?big_nil ?big_cons //= IH. Qed.
Lemma powE (p : nat) : pow (Ropp (IZR (BinInt.Zpos BinNums.xH))) p = (-1 : R_fieldType) ^+ p.
Proof. by elim: p => [|p IH] //=; rewrite exprS IH. Qed.
Lemma seqE a m : List.seq a m = iota a m.
Proof. by elim: m a => //= m IH a; rewrite IH. Qed.
Lemma nth_without (cols : seq nat) p j : (p < size cols)%N -> nth 0%N (withoutNth p cols) j = nth 0%N cols (bump p j).
Proof.
  move=> Hp; rewrite /withoutNth firstnE skipnE /bump nth_cat size_take Hp.
  case: ltnP => H; first by rewrite nth_take.
  by rewrite nth_drop addSn subnKC.
Qed.
Lemma size_without (cols : seq nat) p m : size cols = m.+1 -> (p < m.+1)%N -> size (withoutNth p cols) = m.
Proof.
  by move=> H Hp; rewrite /withoutNth firstnE skipnE size_cat size_take size_drop H Hp subSS addnBA ?addKn //.
Qed.
Theorem laplaceE (a : nat -> nat -> R) m : forall rows cols, size rows = m -> size cols = m ->
  laplace a rows cols = \det (\matrix_(i < m, j < m) (a (nth 0%N rows i) (nth 0%N cols j) : R_fieldType)).
Proof.
  elim: m => [|m IH] [|i rows] cols //= Hr Hc; first by rewrite det_mx00.
  case: Hr => Hr; rewrite (expand_det_row _ ord0) sumOverE seqE.
  have -> : List.length cols = m.+1 by [].
  rewrite -[iota 0 m.+1]/(index_iota 0 m.+1) big_mkord; apply: eq_bigr => p _; rewrite !mxE /= /cofactor add0n powE nthE.
  rewrite [RHS]mulrA [in RHS](mulrC (a _ _)); congr (_ * _).
  rewrite IH ?(size_without Hc) //; congr (\det _); apply/matrixP => u w; rewrite !mxE /=.
  by congr (a _ _); rewrite nth_without // Hc.
Qed.
