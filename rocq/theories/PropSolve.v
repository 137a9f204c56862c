(** Properties C24 to C28: solving linear systems, determinants and inverses, with skip fields.

    The theorems hold for every field F, every entry type with sound arithmetic, every dimension,
    skip field and both algorithms; PropSystem.v has the theorems about expressions as entries. *)
From mathcomp Require Import all_ssreflect all_fingroup all_algebra.
From Verif Require Import SolveModel SolveSpec SolveApi SolveWitness.
Set Implicit Arguments.
Unset Strict Implicit.
Import GRing.Theory.
Local Open Scope ring_scope.

Section Props.
  Variables (F : fieldType) (T : Type) (o : entryOps T) (v : T -> option F) (maxU : nat).
  Variables (skip : nat -> bool) (dim : nat) (alg : algo).
  Variables (A : nat -> nat -> T) (B x0 : nat -> T).
  Variables (a : nat -> nat -> F) (b : nat -> F).

  (** Values of the entries in active rows and columns; the others are arbitrary. *)
  Definition valuesOf : Prop :=
    forall i k, i \in active skip dim -> k \in active skip dim -> v (A i k) = Some (a i k).
  Definition valuesOfV : Prop :=
    forall i, i \in active skip dim -> v (B i) = Some (b i).

  (** C24, C27: a returned solution has a value in every active entry, solves the active part of
      the system, and leaves the skipped entries of the target as they were. *)
  Theorem C24_solution_solves_partial :
    soundEntries o v -> decidesZero o v -> complexityBelow o maxU -> valuesOf -> valuesOfV ->
    forall x, solve o maxU alg A B x0 skip dim = Returns x ->
    exists xv, (forall i, i \in active skip dim -> v (x i) = Some (xv i)) /\ solves (active skip dim) a xv b.
  Proof.
    move=> Hs Hz Hm HA HB x E.
    by have := solve_spec Hs Hm Hz alg x0 HA HB; rewrite E => -[_ [H _]].
  Qed.

  (** C24 for one assignment of the symbols, when equality with zero is only decided
      structurally: the solution is right whenever no pivot vanishes there. *)
  Theorem C24_pointwise_partial :
    soundEntries o v -> complexityBelow o maxU -> valuesOf -> valuesOfV ->
    forall x, solve o maxU alg A B x0 skip dim = Returns x ->
    (forall s, eliminateGauss o (selectPivot o maxU alg) (size (active skip dim))
        (ofFlat o (toStdMat A skip dim) (size (active skip dim)))
        (Some (ofVector o (toStdVec B skip dim))) = Some s ->
       forall i, (i < size (active skip dim))%N -> v (g_m s i i) <> Some 0) ->
    exists xv, (forall i, i \in active skip dim -> v (x i) = Some (xv i)) /\ solves (active skip dim) a xv b.
  Proof. move=> Hs Hm HA HB x E Hd; exact: (solve_pointwise Hs Hm HA HB E Hd). Qed.

  (** C28: both algorithms throw exactly for singular systems and never read out of bounds. *)
  Theorem C28_singular_reported_partial :
    soundEntries o v -> decidesZero o v -> complexityBelow o maxU -> valuesOf -> valuesOfV ->
    (solve o maxU alg A B x0 skip dim = Throws <-> \det (reduced (active skip dim) a) = 0)
    /\ solve o maxU alg A B x0 skip dim <> UB.
  Proof.
    move=> Hs Hz Hm HA HB; have := solve_spec Hs Hm Hz alg x0 HA HB.
    case: solve => [x|D|//]; last by rewrite D.
    by move=> [Hd _]; split=> //; split=> // E; rewrite E eqxx in Hd.
  Qed.

  (** C27: skipped entries of the solution vector keep their content. *)
  Theorem C27_skipped_unchanged :
    soundEntries o v -> decidesZero o v -> complexityBelow o maxU -> valuesOf -> valuesOfV ->
    forall x, solve o maxU alg A B x0 skip dim = Returns x ->
    forall i, (dim <= i)%N || skip i -> x i = x0 i.
  Proof.
    move=> Hs Hz Hm HA HB x E i Hi.
    have := solve_spec Hs Hm Hz alg x0 HA HB; rewrite E => -[_ [_ H]]; apply: H.
    by rewrite mem_filter mem_iota add0n /= negb_and negbK -leqNgt orbC.
  Qed.

  (** C26: the inverse, with C27 for the entries outside the active rows and columns. *)
  Theorem C26_inverse_partial :
    soundEntries o v -> decidesZero o v -> complexityBelow o maxU -> valuesOf ->
    match invert o maxU alg A skip dim with
    | Returns M =>
        (exists m, (forall i k, i \in active skip dim -> k \in active skip dim -> v (M i k) = Some (m i k)) /\
           reduced (active skip dim) a *m reduced (active skip dim) m = 1%:M) /\
        (forall i k, ~~ ((i \in active skip dim) && (k \in active skip dim)) -> M i k = A i k)
    | Throws => \det (reduced (active skip dim) a) = 0
    | UB => False
    end.
  Proof.
    move=> Hs Hz Hm HA; have := invert_spec Hs Hm Hz alg HA.
    by case: invert => // M [].
  Qed.

  (** C25: for regular matrices the determinant is returned. *)
  Theorem C25_determinant_partial :
    soundEntries o v -> decidesZero o v -> complexityBelow o maxU -> valuesOf ->
    \det (reduced (active skip dim) a) != 0 ->
    exists y, determinant o maxU alg A skip dim = Returns y /\ v y = Some (\det (reduced (active skip dim) a)).
  Proof. move=> Hs Hz Hm HA; exact: determinant_regular. Qed.

  (** C25: a returned number is never wrong; Undefined only occurs for singular matrices with the
      least complexity pivot. *)
  Theorem C25_determinant_never_wrong :
    soundEntries o v -> strictEntries o v -> decidesZero o v -> complexityBelow o maxU -> valuesOf ->
    forall y, determinant o maxU alg A skip dim = Returns y ->
    v y = Some (\det (reduced (active skip dim) a))
    \/ (v y = None /\ \det (reduced (active skip dim) a) = 0 /\ alg = GaussLCPivot).
  Proof. move=> Hs Ht Hz Hm HA y; exact: determinant_never_wrong. Qed.
End Props.
Print Assumptions C24_solution_solves_partial.
Print Assumptions C24_pointwise_partial.
Print Assumptions C28_singular_reported_partial.
Print Assumptions C27_skipped_unchanged.
Print Assumptions C26_inverse_partial.
Print Assumptions C25_determinant_partial.
Print Assumptions C25_determinant_never_wrong.

(** C27: the result depends on the active entries only: changing a skipped row or column
    changes nothing. *)
Theorem C27_only_active_matter : forall T (o : entryOps T) maxU alg skip dim (A A' : nat -> nat -> T) (B B' x0 : nat -> T),
  (forall i k, i \in active skip dim -> k \in active skip dim -> A i k = A' i k) ->
  (forall i, i \in active skip dim -> B i = B' i) ->
  solve o maxU alg A B x0 skip dim = solve o maxU alg A' B' x0 skip dim /\
  determinant o maxU alg A skip dim = determinant o maxU alg A' skip dim.
Proof. exact: only_active. Qed.
Print Assumptions C27_only_active_matter.

(** C25, full statement refuted: the determinant of a singular matrix is zero, but
    determinant() of the zero 2x2 matrix throws or returns Undefined. *)
Theorem C25_determinant_refuted :
  let o := fieldEntries rat_fieldType in
  let A := fun i k : nat => Some (0 : rat) in
  determinant o 100 Gauss A (fun _ => false) 2 = Throws /\
  determinant o 100 GaussLCPivot A (fun _ => false) 2 = Returns None /\
  \det (\matrix_(i < 2, k < 2) (0 : rat)) = 0.
Proof. exact: det_refuted. Qed.
Print Assumptions C25_determinant_refuted.

(** The hypotheses are met by exact field arithmetic with an Undefined value. *)
Example entries_sound (F : fieldType) :
  soundEntries (fieldEntries F) id /\ decidesZero (fieldEntries F) id /\
  strictEntries (fieldEntries F) id /\ complexityBelow (fieldEntries F) 2.
Proof. exact: fieldEntries_ok. Qed.

(** A 3x3 system with the middle row and column skipped, and a zero in the first pivot position:
    0 x0 + 2 x2 = 4 and 3 x0 + x2 = 5, so x = (1, 7, 2) where 7 was there before. *)
Example solve_example :
  let o := fieldEntries rat_fieldType in
  let A := fun i k : nat => nth None (nth [::] [:: [:: Some 0; Some 9%:R; Some 2%:R]; [:: None; None; None]; [:: Some 3%:R; Some 8%:R; Some 1]] i) k : option rat in
  let B := fun i : nat => nth None [:: Some 4%:R; None; Some 5%:R] i : option rat in
  match solve o 2 Gauss A B (fun _ => Some 7%:R) (fun i => i == 1%N) 3 with
  | Returns x => (x 0%N == Some 1) && (x 1%N == Some 7%:R) && (x 2%N == Some 2%:R)
  | _ => false
  end.
Proof. by vm_compute. Qed.
