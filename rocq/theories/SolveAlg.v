(** The algebra of Gaussian elimination with row swaps, over an arbitrary field, with matrices as
    functions of natural numbers. *)
From mathcomp Require Import all_ssreflect all_fingroup all_algebra.
Set Implicit Arguments.
Unset Strict Implicit.
Import GRing.Theory.
Local Open Scope ring_scope.

Section Alg.
  Variable F : fieldType.
  Implicit Types (m : nat -> nat -> F).

  (** What the stored multipliers and rows stand for before step [j]: row [i] of the permuted
      original matrix. *)
  Definition W (j : nat) m (i k : nat) : F :=
    (\sum_(0 <= t < minn i j) (if (k < t)%N then 0 else m i t * m t k))
    + (if (k < minn i j)%N then 0 else m i k).

  Lemma W0 m i k : W 0 m i k = m i k.
  Proof. by rewrite /W minn0 big_geq // add0r. Qed.

  Definition swp (j p i : nat) : nat := if i == j then p else if i == p then j else i.

  Lemma W_swap j p m i k : (j <= p)%N ->
    W j (fun a b => m (swp j p a) b) i k = W j m (swp j p i) k.
  Proof.
    move=> jp; rewrite /W.
    have Emin : minn i j = minn (swp j p i) j.
      rewrite /swp; case: eqP => [->|_]; first by rewrite minnn; apply/esym/minn_idPr.
      case: eqP => [->|_]; last by [].
      by rewrite minnn; apply/minn_idPr.
    rewrite -Emin; congr (_ + _).
    apply: eq_big_nat => t /andP [_]; rewrite leq_min => /andP [_ tj].
    have -> : swp j p t = t; last by [].
    rewrite /swp (ltn_eqF tj) (ltn_eqF (leq_trans tj jp)) //.
  Qed.

  Definition elimV (j : nat) m (i k : nat) : F :=
    if (i <= j)%N || (k < j)%N then m i k
    else if k == j then m i j / m j j
    else m i k - m i j / m j j * m j k.

  (** The step is correct when the pivot is not zero, or when the column is zero anyway. *)
  Lemma W_elim j m i k :
    (m j j != 0) || ((j < i)%N ==> (m i j == 0)) ->
    W j.+1 (elimV j m) i k = W j m i k.
  Proof.
    move=> Hp; rewrite /W.
    case: (boolP (i <= j)%N) => [ij|]; last rewrite -ltnNge => ij.
    - have -> : minn i j.+1 = i by apply/minn_idPl; apply: leqW.
      have -> : minn i j = i by apply/minn_idPl.
      congr (_ + _); last by rewrite /elimV ij.
      apply: eq_big_nat => t /andP [_ ti].
      by rewrite /elimV ij (leq_trans (ltnW ti) ij).
    - have -> : minn i j.+1 = j.+1 by apply/minn_idPr.
      have -> : minn i j = j by apply/minn_idPr; apply: ltnW.
      rewrite big_nat_recr //=.
      have -> : \sum_(0 <= t < j) (if (k < t)%N then 0 else elimV j m i t * elimV j m t k)
        = \sum_(0 <= t < j) (if (k < t)%N then 0 else m i t * m t k).
        apply: eq_big_nat => t /andP [_ tj].
        by rewrite /elimV (ltnW tj) tj orbT.
      rewrite -addrA; congr (_ + _).
      rewrite /elimV (leqNgt i j) ij /= ltnn leqnn eqxx /=.
      have Hm : m i j / m j j * m j j = m i j.
        case: (eqVneq (m j j) 0) Hp => [E|N] /=; last by rewrite divfK.
        by rewrite ij /= => /eqP ->; rewrite !mul0r.
      case: (ltngtP k j) => kj.
      + by rewrite ltnS (ltnW kj) addr0.
      + by rewrite ltnS leqNgt kj /= addrCA subrr addr0.
      + by rewrite kj ltnS leqnn addr0.
  Qed.

  (** Determinant of the factors. *)
  Variable n : nat.

  Definition mx (A : nat -> nat -> F) : 'M[F]_n := \matrix_(i, k) A i k.

  Definition Lmx m : 'M[F]_n := \matrix_(i, t) (if (t < i)%N then m i t else (t == i)%:R).
  Definition Umx m : 'M[F]_n := \matrix_(t, k) (if (k < t)%N then 0 else m t k).

  Lemma W_LU m : mx (W n.-1 m) = Lmx m *m Umx m.
  Proof.
    apply/matrixP => i k; rewrite !mxE /W.
    have -> : minn i n.-1 = i.
      by apply/minn_idPl; case: n i => [[]//|p] [i' Hi'] /=; rewrite -ltnS.
    rewrite (bigD1 i) //= !mxE ltnn eqxx mul1r addrC; congr (_ + _).
    rewrite big_mkord.
    rewrite (big_ord_widen_cond n (fun _ => true) (fun t => if (k < t)%N then 0 else m i t * m t k)); last exact: ltnW.
    rewrite big_mkcond /= [RHS]big_mkcond /=; apply: eq_bigr => t _.
    rewrite !mxE -(inj_eq val_inj) /=.
    case: (ltngtP t i) => ti //=; last by rewrite mul0r.
    by case: ifP => //; rewrite mulr0.
  Qed.

  Lemma det_Lmx m : \det (Lmx m) = 1.
  Proof.
    rewrite det_trig.
    - by apply: big1 => i _; rewrite mxE ltnn eqxx.
    - apply/is_trig_mxP => i t it; rewrite mxE ltnNge (ltnW it) /=.
      by rewrite -(inj_eq val_inj) /= (gtn_eqF it).
  Qed.

  Lemma det_Umx m : \det (Umx m) = \prod_(i < n) m i i.
  Proof.
    rewrite -det_tr det_trig.
    - by apply: eq_bigr => i _; rewrite !mxE ltnn.
    - by apply/is_trig_mxP => i t it; rewrite !mxE it.
  Qed.

  Lemma det_W m : \det (mx (W n.-1 m)) = \prod_(i < n) m i i.
  Proof. by rewrite W_LU det_mulmx det_Lmx det_Umx mul1r. Qed.

  Lemma det_swap (A : nat -> nat -> F) j p : (j < n)%N -> (p < n)%N -> j != p ->
    \det (mx (fun a b => A (swp j p a) b)) = - \det (mx A).
  Proof.
    move=> jn pn jp.
    have -> : mx (fun a b => A (swp j p a) b) = xrow (Ordinal jn) (Ordinal pn) (mx A).
      apply/matrixP => i k; rewrite !mxE /swp; congr (A _ _).
      case: tpermP => [->|->|/eqP Hj /eqP Hp] /=.
      - by rewrite eqxx.
      - by rewrite eq_sym (negbTE jp) eqxx.
      - by move: Hj Hp; rewrite -!(inj_eq val_inj) /= => /negbTE -> /negbTE ->.
    rewrite /xrow row_permE det_mulmx det_perm odd_tperm -(inj_eq val_inj) /= jp /=.
    by rewrite expr1 mulN1r.
  Qed.

  Lemma mx_ext (A B : nat -> nat -> F) : (forall i k, (i < n)%N -> (k < n)%N -> A i k = B i k) -> mx A = mx B.
  Proof. by move=> H; apply/matrixP => i k; rewrite !mxE; apply: H. Qed.

  (** Forward and backward substitution solve the factorised system. *)
  Lemma LU_solves m (r y x : nat -> F) :
    (forall i, (i < n)%N -> y i = r i - \sum_(0 <= j < i) m i j * y j) ->
    (forall i, (i < n)%N -> m i i != 0) ->
    (forall i, (i < n)%N -> x i = (y i - \sum_(i.+1 <= j < n) m i j * x j) / m i i) ->
    forall i, (i < n)%N -> \sum_(0 <= k < n) W n.-1 m i k * x k = r i.
  Proof.
    move=> Hy Hd Hx i Hi.
    have Hrow : forall t, (t < n)%N -> \sum_(0 <= k < n) (if (k < t)%N then 0 else m t k * x k) = y t.
      move=> t Ht; rewrite (big_cat_nat _ (n := t)) //=; last exact: ltnW.
      rewrite big_nat_cond big1 ?add0r; last by move=> k /andP [/andP [_ ->]].
      rewrite big_ltn // ltnn.
      have -> : \sum_(t.+1 <= k < n) (if (k < t)%N then 0 else m t k * x k) = \sum_(t.+1 <= k < n) m t k * x k.
        by apply: eq_big_nat => k /andP [tk _]; rewrite ltnNge (ltnW tk).
      by rewrite {1}(Hx t) // mulrC divfK ?Hd // subrK.
    rewrite /W.
    have -> : minn i n.-1 = i by apply/minn_idPl; case: n Hi.
    under eq_bigr => k _ do rewrite mulrDl mulr_suml.
    rewrite big_split /= exchange_big /=.
    have -> : \sum_(0 <= k < n) (if (k < i)%N then 0 else m i k) * x k = y i.
      rewrite -[RHS]Hrow //; apply: eq_bigr => k _; by case: ifP; rewrite ?mul0r.
    have -> : \sum_(0 <= j < i) \sum_(0 <= k < n) (if (k < j)%N then 0 else m i j * m j k) * x k
      = \sum_(0 <= j < i) m i j * y j.
      apply: eq_big_nat => j /andP [_ ji].
      rewrite -[in RHS](Hrow j) ?(ltn_trans ji) // mulr_sumr.
      apply: eq_bigr => k _; case: ifP => _; by rewrite ?mul0r ?mulr0 ?mulrA.
    by rewrite (Hy i Hi) addrC subrK.
  Qed.
End Alg.
