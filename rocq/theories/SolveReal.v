(** The solver on expressions computes solutions, determinants and inverses over the reals. *)
From Coq Require Import Reals List ZArith.
From Verif Require Import SolveModel SolveSpec SolveFacts SolveProofs SolveExact SolveApi SolveField Laplace RealField SystemSpec.
From Verif Require Import SolveEntry ApiSpec SoundOps DiffProofs ExprProofs.
From Verif Require Import Run.
From mathcomp Require Import all_ssreflect all_fingroup all_algebra.
Set Implicit Arguments.
Unset Strict Implicit.
Import GRing.Theory.
Local Open Scope ring_scope.

Lemma in_mem (l : list nat) i : (i \in l) <-> List.In i l.
Proof.
  elim: l => //= k l IH; rewrite inE; split.
  - by case/orP => [/eqP ->|/IH]; [left|right].
  - by case=> [->|/IH ->]; rewrite ?eqxx ?orbT.
Qed.
Lemma active_rows skip dim : activeRows skip dim = active skip dim.
Proof.
  rewrite /activeRows /active; have -> : List.seq 0 dim = iota 0 dim by elim: dim 0%N => //= d IH a; rewrite IH.
  by elim: (iota 0 dim) => //= i l ->.
Qed.
Lemma rowSumE (act : list nat) (row x : nat -> R) : rowSum act row x = \sum_(k <- act) (row k : R_fieldType) * (x k : R_fieldType).
Proof. by elim: act => [|k l IH]; rewrite ?big_nil ?big_cons //= IH. Qed.
Lemma isSolution act (a : nat -> nat -> R) (b x : nat -> R) : solves (F := R_fieldType) act a x b <-> solution act a b x.
Proof.
  split=> H i Hi; first by rewrite rowSumE; apply: H; apply/in_mem.
  by rewrite -H ?rowSumE //; apply/in_mem.
Qed.

Section Real.
  Variables (W : oper) (HW : soundOps W) (n : nat) (maxU : Z) (st : bool) (r : env) (Hg : wgood st r).
  Notation v := (value r : expr + option R -> option R_fieldType).
  Notation o := (entries W n maxU st r).

  Lemma entries_sound : soundEntries o v.
  Proof.
    have Z : Q2R (0 # 1) = 0%R by rewrite /Q2R /= Rmult_0_l.
    split.
    - by apply/value_inl; split=> //=; rewrite Z.
    - by apply/value_inl; split=> //=; congr Some; rewrite /Q2R /= Rmult_1_l Rinv_1.
    - by apply/value_inl; split=> //=; congr Some; rewrite /Q2R /= Rinv_1 Rmult_1_r.
    - exact: add_sound.
    - exact: sub_sound.
    - exact: mul_sound.
    - move=> a b x y Ha Hb /eqP Hy; rewrite (div_sound W HW n maxU st r Hg a b x y Ha Hb Hy); congr Some.
      rewrite /Rdiv; congr Rmult; rewrite /GRing.inv /= /R_inv; by destruct (Req_EM_T y 0).
    - exact: simp_sound.
    - by move=> a x Ha /isZero_iff; rewrite Ha => -[].
  Qed.
  Lemma entries_zero : decidesZero o v.
  Proof. by move=> a Ha; apply/isZero_iff. Qed.
  Lemma entries_comp : complexityBelow o (limitN maxU).
  Proof. by move=> t; apply/ltP; apply: comp_below. Qed.

  Lemma values_inl A (a : nat -> nat -> R) act :
    (forall i k, List.In i act -> List.In k act -> wf anySym (A i k) /\ eval r (A i k) = Some (a i k)) ->
    forall i k, i \in act -> k \in act -> v (embM A i k) = Some (a i k).
  Proof. by move=> H i k /in_mem Hi /in_mem Hk; apply/value_inl; apply: H. Qed.

  Section System.
  Variables (alg : algo) (A : nat -> nat -> expr) (skip : nat -> bool) (dim : nat) (a : nat -> nat -> R).
  Let act := activeRows skip dim.
  Hypothesis (HA : forall i k, List.In i act -> List.In k act -> wf anySym (A i k) /\ eval r (A i k) = Some (a i k)).
  Let HA' : forall i k, i \in active skip dim -> k \in active skip dim -> v (embM A i k) = Some (a i k).
  Proof. by move=> i k Hi Hk; apply: (values_inl HA); rewrite /act active_rows. Qed.

  Theorem solveE_sound b x0 x l (bv : nat -> R) :
    (forall i, List.In i act -> wf anySym (b i) /\ eval r (b i) = Some (bv i)) ->
    solveE W n maxU alg A b x0 skip dim = Ok x l -> List.Forall (holds st r) l ->
    (exists xv, (forall i, List.In i act -> wf anySym (x i) /\ eval r (x i) = Some (xv i)) /\ solution act a bv xv /\
      (forall yv, solution act a bv yv -> forall i, List.In i act -> yv i = xv i)) /\
    (forall i, ~ List.In i act -> x i = x0 i).
  Proof.
    move=> HB E R0.
    have HB' : forall i, i \in active skip dim -> v (embV b i) = Some (bv i).
      by move=> i; rewrite -active_rows => /in_mem Hi; apply/value_inl; apply: HB.
    have := solve_spec entries_sound entries_comp entries_zero alg (embV x0) HA' HB'.
    rewrite (solve_run W n maxU st r alg A b x0 skip dim x l E R0) => -[Hd [[xv [H1 H2]] H3]]; split.
    - exists xv; split; last split.
      + by move=> i /in_mem Hi; apply/value_inl; apply: H1; rewrite -active_rows.
      + by rewrite /act active_rows; apply/isSolution.
      + rewrite /act active_rows => yv /isSolution Hy i /in_mem Hi; exact: (regular_unique Hd Hy H2 Hi).
    - move=> i Hi; have := H3 i; rewrite /embV => H; have [] : inl (x i) = inl (x0 i) :> expr + option R by apply: H; rewrite -active_rows; apply/negP => /in_mem.
      by [].
  Qed.

  Theorem invertE_sound M l : invertE W n maxU alg A skip dim = Ok M l -> List.Forall (holds st r) l ->
    (exists m, (forall i k, List.In i act -> List.In k act -> wf anySym (M i k) /\ eval r (M i k) = Some (m i k)) /\ inverseOf act a m /\ inverseOf act m a) /\
    (forall i k, ~ (List.In i act /\ List.In k act) -> M i k = A i k).
  Proof.
    move=> E R0; have := invert_spec entries_sound entries_comp entries_zero alg HA'.
    rewrite (invert_run W n maxU st r alg A skip dim M l E R0) => -[_ [[m [H1 H2]] H3]]; split.
    - exists m; rewrite /act active_rows; set s := active skip dim in H1 H2 *.
      have Us : seq.uniq s by rewrite filter_uniq ?iota_uniq.
      have inv : forall p q : nat -> nat -> R, reduced (F := R_fieldType) s p *m reduced (F := R_fieldType) s q = 1%:M -> inverseOf s p q.
        move=> p q Hpq i j /in_mem Hi /in_mem Hj; rewrite rowSumE (product_one (F := R_fieldType) Us Hpq Hi Hj) SolveProofs.eqbE.
        by case: (i == j).
      split; [|split].
      + by move=> i k /in_mem Hi /in_mem Hk; apply/value_inl; apply: H1.
      + exact: inv.
      + by apply: inv; apply: inverse_sides.
    - move=> i k Hik; have [] : inl (M i k) = inl (A i k) :> expr + option R by apply: (H3 i k); rewrite -active_rows; apply/negP => /andP [/in_mem ? /in_mem ?]; case: Hik.
      by [].
  Qed.

  (** The pivots of an elimination that succeeds have a value other than zero. *)
  Lemma loop_pivots D m : forall j s s' l, (j + m <= D)%N -> foldM (gaussStepE W n maxU alg D) (List.seq j m) s = Ok s' l -> List.Forall (holds st r) l ->
    forall i, (j <= i < j + m)%N -> v (g_m (embS s') i i) <> Some 0.
  Proof.
    elim: m => [|m IH] j s s' l Hj; first by move=> _ _ i; rewrite addn0 => /andP [H1 /leq_trans /(_ H1)]; rewrite ltnn.
    have jD : (j < D)%N by apply: leq_trans Hj; rewrite addnS ltnS leq_addr.
    have Hj' : (j.+1 + m <= D)%N by rewrite addSn -addnS.
    rewrite [List.seq _ _]/= [foldM _ _ _]/= => E R0; have [s1 [l1 [l2 [E1 [E2 El]]]]] := bind_ok _ _ _ _ E.
    move: R0; rewrite El => /List.Forall_app [R1 R2] i /andP [ji iD].
    case: (eqVneq i j) => [->|Nij]; last by apply: (IH _ _ _ _ Hj' E2 R2); rewrite addSn -addnS iD andbT ltn_neqAle eq_sym Nij.
    have [_ Hn] := gaussStep_run W n maxU st r alg D s j s1 l1 (ltP jD) E1 R1.
    have HF : List.Forall (fun j0 => (j0 < D)%coq_nat) (List.seq j.+1 m).
      by apply/List.Forall_forall => q /List.in_seq [_ H]; apply: PeanoNat.Nat.lt_le_trans H _; apply/leP.
    have Hl := gaussLoop_run W n maxU st r alg D _ HF _ _ _ E2 R2.
    by rewrite (gaussLoop_rows (piv := selectPivot o (limitN maxU) alg) (select_inRange entries_comp (dim := D) (alg := alg)) Hj' Hl).
  Qed.
  Theorem determinantE_sound e l : determinantE W n maxU alg A skip dim = Ok e l -> List.Forall (holds st r) l ->
    wf anySym e /\ eval r e = Some (laplace a act act).
  Proof.
    move=> E R0; apply/value_inl.
    have Er := determinant_run W n maxU st r alg A skip dim e l E R0.
    have HM := red_values (v := v) o HA'.
    move: E Er; rewrite /determinantE /determinantDetailE /SolveModel.determinant /determinantDetail !redDim.
    set d := size (active skip dim) in HM *. move=> E; have [s [l1 [l2 [E1 [E2 El]]]]] := bind_ok _ _ _ _ E.
    move: R0; rewrite El => /List.Forall_app [R1 R2].
    have Ee := eliminate_run W n maxU st r alg d _ None s l1 E1 R1.
    rewrite stdMat_emb flat_emb in HM *.
    rewrite Ee => -[<-].
    have Hp : forall i, (i < d.-1)%N -> v (g_m (embS s) i i) <> Some 0.
      move=> i Hi; have Er : eliminateE W n maxU alg d (ofFlatE (toStdMat A skip dim) d) None = foldM (gaussStepE W n maxU alg d) (List.seq 0 d.-1) (mkE (ofFlatE (toStdMat A skip dim) d) None 0).
        by rewrite /eliminateE /range; congr (foldM _ (List.seq _ _) _); rewrite PeanoNat.Nat.sub_0_r; case: (d) => //= q; rewrite PeanoNat.Nat.sub_0_r.
      rewrite Er in E1; apply: (@loop_pivots d d.-1 0 _ _ _ _ E1 R1); rewrite ?add0n ?leq_pred //.
    have Hr : forall q, @None (nat -> expr + option R) = Some q -> hasValuesV v d q (fun _ => 0) by [].
    have [a' [pi I]] := eliminate_inv entries_sound entries_comp HM Hr Ee Hp.
    rewrite (detFromPlu_val entries_sound I) mx_red /act active_rows; congr Some; symmetry; exact: laplaceE.
  Qed.
  End System.
End Real.
