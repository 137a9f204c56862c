From mathcomp Require Import all_ssreflect all_fingroup all_algebra.
From Verif Require Import SolveModel SolveFacts SkipFacts SolveAlg SolveSpec SolveProofs SolveExact SolveApi.
Set Implicit Arguments.
Unset Strict Implicit.
Import GRing.Theory.
Local Open Scope ring_scope.

Section Field.
  Variable F : fieldType.
  Definition lift2 (f : F -> F -> F) (x y : option F) : option F :=
    if x is Some a then if y is Some b then Some (f a b) else None else None.
  (** Exact field arithmetic with a contagious Undefined, as on constant expressions. *)
  Definition fieldEntries : entryOps (option F) :=
    @mkEntry (option F) (Some 0) (Some 1) (Some (-1)) (lift2 +%R) (lift2 (fun a b => a - b)) (lift2 *%R)
      (fun x y => if y == Some 0 then None else lift2 (fun a b => a / b) x y)
      id (fun x => x == Some 0) (fun x => if x is Some _ then 1%N else 0%N).

  Lemma fieldEntries_ok : soundEntries fieldEntries id /\ decidesZero fieldEntries id /\
    strictEntries fieldEntries id /\ complexityBelow fieldEntries 2.
  Proof.
    split; [|split; [|split]].
    - split=> //=.
      + by move=> x y a b -> ->.
      + by move=> x y a b -> ->.
      + by move=> x y a b -> ->.
      + by move=> x y a b -> ->; rewrite (inj_eq (@Some_inj _)) => /negbTE ->.
      + by move=> x a -> /eqP [].
    - by move=> x /= ->.
    - split=> //=.
      + by move=> a b ->.
      + by move=> [a|] b ->.
      + by move=> a b ->.
      + by move=> [a|] b ->.
      + by move=> a b ->; case: ifP.
      + by move=> a b ->; rewrite eqxx.
    - by case.
  Qed.
End Field.

Lemma act_in skip dim i : List.In i (actOf skip (range 0 dim)) -> i \in active skip dim.
Proof.
  rewrite actE; have Hin : forall l (z : nat), List.In z l -> z \in l; last exact: Hin.
  by move=> l z; elim: l => //= y l IH [->|Hl]; rewrite inE ?eqxx // IH ?orbT.
Qed.

Lemma only_active T (o : entryOps T) maxU alg skip dim (A A' : nat -> nat -> T) (B B' x0 : nat -> T) :
  (forall i k, i \in active skip dim -> k \in active skip dim -> A i k = A' i k) ->
  (forall i, i \in active skip dim -> B i = B' i) ->
  solve o maxU alg A B x0 skip dim = solve o maxU alg A' B' x0 skip dim /\
  determinant o maxU alg A skip dim = determinant o maxU alg A' skip dim.
Proof.
  move=> HA HB.
  have EB : toStdVec B skip dim = toStdVec B' skip dim.
    by rewrite !toStdVec_map; apply: List.map_ext_in => i /act_in /HB.
  have EA : toStdMat A skip dim = toStdMat A' skip dim.
    rewrite !toStdMat_map; set act := actOf _ _.
    suff H : forall l, (forall i, List.In i l -> i \in active skip dim) ->
      List.flat_map (fun i => List.map (A i) act) l = List.flat_map (fun i => List.map (A' i) act) l.
      by apply: H => i; apply: act_in.
    elim=> //= i l IH Hl; rewrite IH; last by move=> k Hk; apply: Hl; right.
    have -> : List.map (A i) act = List.map (A' i) act; last by [].
    apply: List.map_ext_in => k Hk; apply: HA; first by apply: Hl; left.
    exact: act_in.
  by rewrite /solve /determinant EA EB.
Qed.

Lemma det_refuted :
  let o := fieldEntries rat_fieldType in
  let A := fun i k : nat => Some (0 : rat) in
  determinant o 100 Gauss A (fun _ => false) 2 = Throws /\
  determinant o 100 GaussLCPivot A (fun _ => false) 2 = Returns None /\
  \det (\matrix_(i < 2, k < 2) (0 : rat)) = 0.
Proof.
  split; [by vm_compute|split; [by vm_compute|]].
  rewrite (_ : \matrix_(i < 2, k < 2) (0 : rat) = 0); first by rewrite det0.
  by apply/matrixP => i k; rewrite !mxE.
Qed.
