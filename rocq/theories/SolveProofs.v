From mathcomp Require Import all_ssreflect all_fingroup all_algebra.
From Coq Require Import Lia.
From Verif Require Import SolveModel SolveFacts SolveAlg SolveSpec.
Set Implicit Arguments.
Unset Strict Implicit.
Import GRing.Theory.
Local Open Scope ring_scope.

Lemma eqbE (a b : nat) : Nat.eqb a b = (a == b).
Proof. by apply/idP/eqP => [/PeanoNat.Nat.eqb_eq|/PeanoNat.Nat.eqb_eq]. Qed.
Lemma ltbE (a b : nat) : Nat.ltb a b = (a < b)%N.
Proof. by apply/idP/idP => [/PeanoNat.Nat.ltb_lt/ltP|/ltP/PeanoNat.Nat.ltb_lt]. Qed.

Section Proofs.
  Variables (F : fieldType) (T : Type) (o : entryOps T) (v : T -> option F).
  Hypothesis (Hs : soundEntries o v).
  Variable dim : nat.
  Implicit Types (M : nat -> nat -> T) (a : nat -> nat -> F).

  (** ** Swapping and eliminating, on values *)

  Lemma swapRows_swp M j p i k : swapRows M j p i k = M (swp j p i) k.
  Proof. by rewrite /swapRows /swp !eqbE; case: eqP => // _; case: eqP. Qed.
  Lemma swapScalar_swp (r : nat -> T) j p i : swapScalar r j p i = r (swp j p i).
  Proof. by rewrite /swapScalar /swp !eqbE; case: eqP => // _; case: eqP. Qed.

  Lemma swp_lt j p i : (j < dim)%N -> (p < dim)%N -> (i < dim)%N -> (swp j p i < dim)%N.
  Proof. by rewrite /swp; case: eqP => // _; case: eqP. Qed.
  Lemma swpK j p i : swp j p (swp j p i) = i.
  Proof.
    rewrite /swp; case: (eqVneq i j) => [->|ij].
    - by case: (eqVneq p j) => [->|_] //; rewrite eqxx.
    - case: (eqVneq i p) => [->|ip]; first by rewrite eqxx.
      by rewrite (negbTE ij) (negbTE ip).
  Qed.

  Lemma swap_values M a j p : (j < dim)%N -> (p < dim)%N -> hasValues v dim M a ->
    hasValues v dim (swapRows M j p) (fun i k => a (swp j p i) k).
  Proof. move=> Hj Hp H i k Hi Hk; rewrite swapRows_swp /=. apply: H; [exact: swp_lt|]. exact: Hk. Qed.

  Lemma elim_values M a j : hasValues v dim M a -> (j < dim)%N -> a j j != 0 ->
    hasValues v dim (elimCol o dim j M) (elimV j a).
  Proof.
    move=> H Hj Hp i k Hi Hk; rewrite elimCol_spec !ltbE eqbE Hi Hk !andbT /elimV (leqNgt i j).
    case ji: (j < i)%N => /=; last exact: H.
    have Hl : v (e_simp o (e_div o (M i j) (M j j))) = Some (a i j / a j j).
      by apply: s_simp => //; apply: s_div => //; apply: H.
    case: (ltngtP k j) => kj; first exact: H.
    - apply: s_simp => //; apply: s_sub => //; first exact: H.
      by apply: s_mul => //; apply: H.
    - exact: Hl.
  Qed.

  Lemma elim_rows M j i k : (i <= j)%N -> elimCol o dim j M i k = M i k.
  Proof. by move=> ij; rewrite elimCol_spec !ltbE ltnNge ij. Qed.

  (** ** The loop invariant *)
  Variables (A : nat -> nat -> F) (b : nat -> F).

  Record inv (j : nat) (s : gstate) (a : nat -> nat -> F) (pi : nat -> nat) : Prop := Inv {
    i_vals : hasValues v dim (g_m s) a;
    i_W : forall i k, (i < dim)%N -> (k < dim)%N -> W j a i k = A (pi i) k;
    i_lt : forall i, (i < dim)%N -> (pi i < dim)%N;
    i_surj : forall i, (i < dim)%N -> exists2 i', (i' < dim)%N & pi i' = i;
    i_rhs : forall r, g_rhs s = Some r -> forall i, (i < dim)%N -> v (r i) = Some (b (pi i));
    i_det : \det (mx dim (W j a)) = (-1) ^+ g_swaps s * \det (mx dim A)
  }.

  Definition afterSwap (s : @gstate T) (j p : nat) : gstate :=
    if Nat.eqb p j then s
    else mkG (swapRows (g_m s) j p)
             (match g_rhs s with Some r => Some (swapScalar r j p) | None => None end) (S (g_swaps s)).

  Lemma inv_swap j s a pi p : inv j s a pi -> (j <= p)%N -> (p < dim)%N ->
    exists a' pi', inv j (afterSwap s j p) a' pi' /\ (forall k, a' j k = a p k)
      /\ (forall i k, (i < j)%N -> a' i k = a i k).
  Proof.
    move=> I jp pd; rewrite /afterSwap eqbE.
    have jd : (j < dim)%N := leq_ltn_trans jp pd.
    case: (eqVneq p j) => [E|N]; first by exists a, pi; split=> //; rewrite E.
    exists (fun i k => a (swp j p i) k), (fun i => pi (swp j p i)); split; last first.
      split; first by move=> k; rewrite /swp eqxx.
      move=> i k ij; rewrite /swp (ltn_eqF ij) (ltn_eqF (leq_trans ij jp)) //.
    case: I => Iv IW Il Isu Ir Id; split=> /=.
    - exact: swap_values.
    - move=> i k Hi Hk; rewrite W_swap //; apply: IW => //; exact: swp_lt.
    - move=> i Hi; apply: Il; exact: swp_lt.
    - move=> i Hi; case: (Isu i Hi) => i' Hi' <-; exists (swp j p i'); first exact: swp_lt.
      by rewrite swpK.
    - case: (g_rhs s) Ir => [r|] Ir //= _ [<-] i Hi; rewrite swapScalar_swp; apply: Ir => //; exact: swp_lt.
    - have -> : mx dim (W j (fun i k => a (swp j p i) k)) = mx dim (fun i k => W j a (swp j p i) k).
        by apply: mx_ext => i k _ _; apply: W_swap.
      by rewrite det_swap // 1?eq_sym // Id exprS mulN1r mulNr.
  Qed.

  Lemma inv_elim j s a pi : inv j s a pi -> (j < dim)%N -> a j j != 0 ->
    inv j.+1 (mkG (elimCol o dim j (g_m s)) (g_rhs s) (g_swaps s)) (elimV j a) pi.
  Proof.
    move=> [Iv IW Il Isu Ir Id] jd Hp.
    have HW : forall i k, W j.+1 (elimV j a) i k = W j a i k by move=> i k; rewrite W_elim ?Hp.
    split=> //=.
    - exact: elim_values.
    - by move=> i k Hi Hk; rewrite HW IW.
    - by rewrite -Id; congr (\det _); apply: mx_ext => i k _ _.
  Qed.

  Lemma gaussStep_eq piv s j : gaussStep o piv dim s j =
    match piv dim (g_m s) j with
    | None => None
    | Some p => let s1 := afterSwap s j p in Some (mkG (elimCol o dim j (g_m s1)) (g_rhs s1) (g_swaps s1))
    end.
  Proof. by rewrite /gaussStep /afterSwap; case: (piv _ _ _). Qed.

  (** A pivot strategy returns rows at or below the current one. *)
  Definition inRange (piv : nat -> (nat -> nat -> T) -> nat -> option nat) : Prop :=
    forall M j p, (j < dim)%N -> piv dim M j = Some p -> (j <= p < dim)%N.

  (** Rows above the current one are final. *)
  Lemma gaussLoop_rows piv : inRange piv -> forall n j s s', (j + n <= dim)%N ->
    gaussLoop o piv dim (List.seq j n) s = Some s' ->
    forall i k, (i < j)%N -> g_m s' i k = g_m s i k.
  Proof.
    move=> HR; elim=> [|n IH] j s s' Hj /=; first by move=> [<-].
    rewrite gaussStep_eq; case E: (piv _ _ _) => [p|] //= H i k ij.
    rewrite addnS in Hj. have jd : (j < dim)%N := leq_ltn_trans (leq_addr n j) Hj.
    have /andP [jp pd] := HR _ _ _ jd E.
    rewrite (IH _ _ _ _ H) /=; [|by rewrite addSn|exact: ltnW].
    rewrite elim_rows; last exact: ltnW.
    rewrite /afterSwap eqbE; case: eqP => // _ /=.
    by rewrite swapRows_swp /swp (ltn_eqF ij) (ltn_eqF (leq_trans ij jp)).
  Qed.

  (** If all diagonal entries of the result have a value different from zero, the invariant holds
      to the end. *)
  Lemma gaussLoop_inv piv : inRange piv -> forall n j s s' a pi, (j + n <= dim)%N ->
    gaussLoop o piv dim (List.seq j n) s = Some s' ->
    inv j s a pi ->
    (forall i, (j <= i < j + n)%N -> v (g_m s' i i) <> Some 0) ->
    exists a' pi', inv (j + n) s' a' pi'.
  Proof.
    move=> HR; elim=> [|n IH] j s s' a pi Hj /=; first by move=> [<-] I _; exists a, pi; rewrite addn0.
    rewrite gaussStep_eq; case E: (piv _ _ _) => [p|] //= H I Hd.
    rewrite addnS in Hj. have jd : (j < dim)%N := leq_ltn_trans (leq_addr n j) Hj.
    have /andP [jp pd] := HR _ _ _ jd E.
    have [a1 [pi1 [I1 [Ha1 _]]]] := inv_swap I jp pd.
    have Hpiv : a1 j j != 0.
      apply/eqP => Z; apply: (Hd j); first by rewrite leqnn /= addnS ltnS leq_addr.
      rewrite (gaussLoop_rows HR _ H) /=; [|by rewrite addSn|exact: ltnSn].
      by rewrite elim_rows // (i_vals I1) // Z.
    have [||a' [pi' I']] := IH _ _ _ _ _ _ H (inv_elim I1 jd Hpiv).
    - by rewrite addSn.
    - move=> i; rewrite addSn => /andP [ji ij]; apply: Hd; by rewrite (ltnW ji) addnS.
    - by exists a', pi'; rewrite addnS -addSn.
  Qed.

  Lemma inv0 M rhs : hasValues v dim M A ->
    (forall r, rhs = Some r -> hasValuesV v dim r b) ->
    inv 0 (mkG M rhs 0) A id.
  Proof.
    move=> HM Hr; split=> //=.
    - by move=> i k _ _; rewrite W0.
    - by move=> i Hi; exists i.
    - by rewrite expr0 mul1r; congr (\det _); apply: mx_ext => i k _ _; rewrite W0.
  Qed.

  (** ** Substitution *)
  Lemma subFold_val (row : nat -> T) (y : nat -> T) (rv yv : nat -> F) js : forall s sv,
    (forall j, List.In j js -> v (row j) = Some (rv j)) ->
    (forall j, List.In j js -> v (y j) = Some (yv j)) ->
    v s = Some sv ->
    v (subFold o row y js s) = Some (sv - \sum_(j <- js) rv j * yv j).
  Proof.
    elim: js => [|j js IH] s sv Hr Hy E /=; first by rewrite big_nil subr0.
    rewrite big_cons opprD addrA; apply: IH.
    - by move=> k Hk; apply: Hr; right.
    - by move=> k Hk; apply: Hy; right.
    - apply: s_sub => //; apply: s_mul => //; [apply: Hr|apply: Hy]; by left.
  Qed.

  Lemma range_iota i j : range i j = index_iota i j.
  Proof. rewrite /range /index_iota. have -> : Nat.sub j i = (j - i)%N by []. by move: (j - i)%N => n; elim: n i => //= n IH i; rewrite IH. Qed.
  Lemma in_range i j k : List.In k (range i j) -> (i <= k < j)%N.
  Proof. by move/SolveFacts.range_in => [/leP -> /ltP ->]. Qed.

  Lemma forward_val M a r (rv : nat -> F) : hasValues v dim M a ->
    hasValuesV v dim r rv ->
    exists y, hasValuesV v dim (forward o dim M r) y /\
      (forall i, (i < dim)%N -> y i = rv i - \sum_(0 <= j < i) a i j * y j).
  Proof.
    move=> HM Hr.
    have H : forall n, (n <= dim)%N -> exists y, (forall i, (i < n)%N -> v (forward o dim M r i) = Some (y i)) /\
      (forall i, (i < n)%N -> y i = rv i - \sum_(0 <= j < i) a i j * y j).
      elim=> [|n IH] Hn; first by exists (fun _ => 0).
      have [y [Hy1 Hy2]] := IH (ltnW Hn).
      exists (fun i => if i == n then rv n - \sum_(0 <= j < n) a n j * y j else y i).
      have Hsum : forall i, (i <= n)%N -> \sum_(0 <= j < i) a i j * (if j == n then rv n - \sum_(0 <= j0 < n) a n j0 * y j0 else y j)
        = \sum_(0 <= j < i) a i j * y j.
        move=> i Hi; apply: eq_big_nat => j /andP [_ ji].
        by rewrite (ltn_eqF (leq_trans ji Hi)).
      split=> i; rewrite ltnS leq_eqVlt => /orP [/eqP ->|Hi].
      + rewrite eqxx forward_spec ltbE Hn -[index_iota 0 n]range_iota.
        apply: subFold_val => [j /in_range /andP [_ Hj]|j /in_range /andP [_ Hj]|].
        * by apply: HM => //; apply: ltn_trans Hn.
        * exact: Hy1.
        * exact: Hr.
      + by rewrite (ltn_eqF Hi); apply: Hy1.
      + by rewrite eqxx Hsum.
      + by rewrite (ltn_eqF Hi) Hsum ?Hy2 // ltnW.
    exact: (H dim (leqnn _)).
  Qed.

  Lemma back_val M a (r x : nat -> T) (y : nat -> F) : hasValues v dim M a ->
    hasValuesV v dim r y ->
    (forall i, (i < dim)%N -> a i i != 0) ->
    (forall i, (i < dim)%N -> x i = e_simp o (e_div o (e_add o (r i) (subFold o (M i) x (range (S i) dim) (e_zero o))) (e_simp o (M i i)))) ->
    exists xv, hasValuesV v dim x xv /\
      (forall i, (i < dim)%N -> xv i = (y i - \sum_(i.+1 <= j < dim) a i j * xv j) / a i i).
  Proof.
    move=> HM Hr Hd Hx.
    have H : forall n, (n <= dim)%N -> exists xv, (forall i, (dim - n <= i < dim)%N -> v (x i) = Some (xv i)) /\
      (forall i, (dim - n <= i < dim)%N -> xv i = (y i - \sum_(i.+1 <= j < dim) a i j * xv j) / a i i).
      elim=> [|n IH] Hn; first by exists (fun _ => 0); split=> i; rewrite subn0 => /andP [H1 /leq_trans /(_ H1)]; rewrite ltnn.
      have [xv [Hx1 Hx2]] := IH (ltnW Hn).
      set q := (dim - n.+1)%N.
      have Hq : (q < dim)%N by rewrite /q -subn_gt0 subKn.
      have Hqn : (dim - n = q.+1)%N by rewrite /q subnSK.
      pose xn := (y q - \sum_(q.+1 <= j < dim) a q j * xv j) / a q q.
      exists (fun i => if i == q then xn else xv i).
      have Hsum : forall i, (q <= i)%N -> \sum_(i.+1 <= j < dim) a i j * (if j == q then xn else xv j)
        = \sum_(i.+1 <= j < dim) a i j * xv j.
        move=> i Hi; apply: eq_big_nat => j /andP [ij _].
        by rewrite (gtn_eqF (leq_ltn_trans Hi ij)).
      split=> i /andP [qi Hi]; (case: (eqVneq i q) => [E|N]; last have Hi' : (dim - n <= i < dim)%N by rewrite Hqn Hi andbT ltn_neqAle eq_sym N).
      + rewrite E Hx //; apply: s_simp => //.
        apply: s_div => //; [|by apply: s_simp => //; apply: HM|by apply: Hd].
        rewrite -[y q - _](_ : y q + (0 - \sum_(j <- range q.+1 dim) a q j * xv j) = _); last by rewrite sub0r range_iota.
        apply: s_add => //; first exact: Hr.
        apply: subFold_val => [j /in_range /andP [qj Hj]|j /in_range /andP [qj Hj]|]; last exact: (s_zero Hs).
        * exact: HM.
        * by apply: Hx1; rewrite Hqn qj.
      + exact: Hx1.
      + by rewrite E Hsum.
      + by rewrite Hsum // Hx2.
    have [xv [H1 H2]] := H dim (leqnn _).
    exists xv; split=> i Hi; [apply: H1|apply: H2]; by rewrite subnn Hi.
  Qed.

  Lemma compute_solves M a r (rv : nat -> F) x : hasValues v dim M a -> hasValuesV v dim r rv ->
    (forall i, (i < dim)%N -> a i i != 0) ->
    computeSolution o dim M r = Some x ->
    exists xv, hasValuesV v dim x xv /\
      forall i, (i < dim)%N -> \sum_(0 <= k < dim) W dim.-1 a i k * xv k = rv i.
  Proof.
    move=> HM Hr Hd HC.
    have [y [Hy1 Hy2]] := forward_val HM Hr.
    have Hx : forall i, (i < dim)%N -> x i = e_simp o (e_div o (e_add o (forward o dim M r i) (subFold o (M i) x (range (S i) dim) (e_zero o))) (e_simp o (M i i))).
      by move=> i /ltP Hi; case: (computeSolution_spec o dim M r x HC i Hi).
    have [xv [Hx1 Hx2]] := back_val HM Hy1 Hd Hx.
    exists xv; split=> // i Hi; exact: (LU_solves Hy2 Hd Hx2).
  Qed.
End Proofs.
