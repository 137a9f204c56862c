(** Systems with a regular matrix have one solution; products of matrices in terms of active rows. *)
From mathcomp Require Import all_ssreflect all_fingroup all_algebra.
From Verif Require Import SolveSpec.
Set Implicit Arguments.
Unset Strict Implicit.
Import GRing.Theory.
Local Open Scope ring_scope.

Section Field.
  Variables (F : fieldType) (s : seq nat) (a : nat -> nat -> F).
  Lemma regular_unique (x y b : nat -> F) : \det (reduced s a) != 0 -> solves s a x b -> solves s a y b -> forall i, i \in s -> x i = y i.
  Proof.
    move=> Hd Hx Hy i Hi.
    pose X := \col_(k < size s) x (nth 0%N s k). pose Y := \col_(k < size s) y (nth 0%N s k).
    have E : reduced s a *m X = reduced s a *m Y.
      apply/matrixP => p q; rewrite !mxE.
      have S : forall z : nat -> F, \sum_j (reduced s a p j) * ((\col_(k < size s) z (nth 0%N s k)) j q) = \sum_(k <- s) a (nth 0%N s p) k * z k.
        by move=> z; rewrite [RHS](big_nth 0%N) big_mkord; apply: eq_bigr => j _; rewrite !mxE.
      by rewrite !S Hx ?Hy //; apply: mem_nth.
    have U : reduced s a \in unitmx by rewrite unitmxE unitfE.
    have XY : X = Y by rewrite -(mulKmx U X) E mulKmx.
    have Hi' : (index i s < size s)%N by rewrite index_mem.
    by have /matrixP/(_ (Ordinal Hi') 0) := XY; rewrite !mxE /= nth_index.
  Qed.
  Lemma product_one (m : nat -> nat -> F) : uniq s -> reduced s a *m reduced s m = 1%:M ->
    forall i j, i \in s -> j \in s -> \sum_(k <- s) a i k * m k j = (i == j)%:R.
  Proof.
    move=> Us H i j Hi Hj.
    have Hi' : (index i s < size s)%N by rewrite index_mem.
    have Hj' : (index j s < size s)%N by rewrite index_mem.
    have Ij : (index i s == index j s) = (i == j).
      by apply/eqP/eqP => [E|-> //]; rewrite -(nth_index 0%N Hi) E nth_index.
    have /matrixP/(_ (Ordinal Hi') (Ordinal Hj')) := H; rewrite !mxE -val_eqE /= Ij => <-.
    by rewrite (big_nth 0%N) big_mkord; apply: eq_bigr => k _; rewrite !mxE /= !nth_index.
  Qed.
  Lemma inverse_sides (m : nat -> nat -> F) : reduced s a *m reduced s m = 1%:M -> reduced s m *m reduced s a = 1%:M.
  Proof. exact: mulmx1C. Qed.
End Field.
