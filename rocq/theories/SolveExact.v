From mathcomp Require Import all_ssreflect all_fingroup all_algebra.
From Verif Require Import SolveModel SolveFacts SkipFacts SolveAlg SolveSpec SolveProofs.
Set Implicit Arguments.
Unset Strict Implicit.
Import GRing.Theory.
Local Open Scope ring_scope.

(** A zero on the finished part of the diagonal, or a column of zeros, makes the determinant zero. *)
Section DetZero.
  Variables (F : fieldType) (n : nat).
  Implicit Types a : nat -> nat -> F.

  Lemma det_diag0 : forall d j a, (j + d = n.-1)%N -> (0 < n)%N ->
    (exists2 t, (t < j)%N & a t t = 0) -> \det (mx n (W j a)) = 0.
  Proof.
    elim=> [|d IH] j a Hj Hn [t tj Ht].
    - rewrite addn0 in Hj; rewrite Hj det_W.
      have tn : (t < n)%N by rewrite (leq_trans tj) // Hj leq_pred.
      by rewrite (bigD1 (Ordinal tn)) //= Ht mul0r.
    - have jn : (j < n)%N by rewrite -(prednK Hn) ltnS -Hj leq_addr.
      have step : forall a', a' t t = 0 -> (a' j j != 0) \/ (forall i, (j < i < n)%N -> a' i j = 0) ->
        \det (mx n (W j a')) = 0.
        move=> a' Ht' Hc.
        have <- : mx n (W j.+1 (elimV j a')) = mx n (W j a').
          apply: mx_ext => i k Hi Hk; apply: W_elim.
          case: Hc => [->//|Hc]; apply/orP; right; apply/implyP => ji.
          by rewrite Hc // ji Hi.
        apply: IH => //; first by rewrite addSn -addnS.
        exists t; first exact: ltnW.
        by rewrite /elimV (ltnW tj).
      case: (boolP [exists p : 'I_n, (j <= p)%N && (a p j != 0)]) => [/existsP [p /andP [jp Hp]]|].
      + case: (eqVneq j p) => [E|N]; first by apply: step => //; left; rewrite {1}E.
        apply/eqP; rewrite -oppr_eq0 -(det_swap _ jn (ltn_ord p) N).
        have -> : mx n (fun i k => W j a (swp j p i) k) = mx n (W j (fun i k => a (swp j p i) k)).
          by apply: mx_ext => i k _ _; rewrite W_swap.
        apply/eqP; apply: step.
        * by rewrite /swp (ltn_eqF tj) (ltn_eqF (leq_trans tj jp)).
        * by left; rewrite /swp eqxx.
      + rewrite negb_exists => /forallP Hall; apply: step => //; right=> i /andP [ji Hi].
        by apply/eqP; move: (Hall (Ordinal Hi)) => /=; rewrite (ltnW ji) /= negbK.
  Qed.

  Lemma det_col0 j a : (j < n.-1)%N -> (forall i, (j <= i < n)%N -> a i j = 0) ->
    \det (mx n (W j a)) = 0.
  Proof.
    move=> Hj Hc.
    have Hn : (0 < n)%N by case: n Hj.
    have <- : mx n (W j.+1 (elimV j a)) = mx n (W j a).
      apply: mx_ext => i k Hi Hk; apply: W_elim; apply/orP; right; apply/implyP => ji.
      by rewrite Hc // (ltnW ji) Hi.
    apply: (@det_diag0 (n.-1 - j.+1)) => //; first exact: subnKC.
    exists j => //; rewrite /elimV leqnn /=; apply: Hc.
    by rewrite leqnn (leq_trans Hj) // leq_pred.
  Qed.
End DetZero.

Section Exact.
  Variables (F : fieldType) (T : Type) (o : entryOps T) (v : T -> option F).
  Hypothesis (Hs : soundEntries o v).
  Variable maxU : nat.
  Hypothesis (Hmax : complexityBelow o maxU).
  Variable dim : nat.
  Implicit Types (M : nat -> nat -> T) (a : nat -> nat -> F).
  Variables (A : nat -> nat -> F) (b : nat -> F).

  Lemma select_inRange alg : inRange dim (selectPivot o maxU alg).
  Proof.
    move=> M j p jd; case: alg => /=.
    - by case/firstNonZeroPivot_Some => [[/leP -> /ltP ->]].
    - move=> [<-]; have Hm : forall t, (e_comp o t < maxU)%coq_nat by move=> t; apply/ltP.
      case: (leastComplexityPivot_spec o maxU dim M j Hm _); first exact/ltP.
      by move=> [/leP -> /ltP ->].
  Qed.

  (** If the chosen pivot is recognised as zero or none is found, the whole column is. *)
  Lemma select_zero alg M j p : (j < dim)%N -> selectPivot o maxU alg dim M j = Some p ->
    e_isZero o (M p j) -> forall i, (j <= i < dim)%N -> e_isZero o (M i j).
  Proof.
    move=> jd; case: alg => /=.
    - by case/firstNonZeroPivot_Some => _ ->.
    - move=> [<-]; have Hm : forall t, (e_comp o t < maxU)%coq_nat by move=> t; apply/ltP.
      case: (leastComplexityPivot_spec o maxU dim M j Hm _); first exact/ltP.
      by move=> _ H Hp i /andP [/leP H1 /ltP H2]; apply: H.
  Qed.
  Lemma select_none alg M j : selectPivot o maxU alg dim M j = None ->
    forall i, (j <= i < dim)%N -> e_isZero o (M i j).
  Proof. by case: alg => //= H i /andP [/leP H1 /ltP H2]; apply: (firstNonZeroPivot_None o dim M j H). Qed.

  (** ** Whenever it returns with a usable diagonal, the result is a solution *)
  Lemma eliminate_range alg M rhs : eliminateGauss o (selectPivot o maxU alg) dim M rhs =
    gaussLoop o (selectPivot o maxU alg) dim (List.seq 0 dim.-1) (mkG M rhs 0).
  Proof.
    rewrite /eliminateGauss /range; congr (gaussLoop _ _ _ (List.seq _ _) _).
    by have -> : Nat.sub (Nat.sub dim 1) 0 = (dim - 1 - 0)%N by []; rewrite subn0 subn1.
  Qed.

  Lemma eliminate_inv alg M rhs s : hasValues v dim M A ->
    (forall r, rhs = Some r -> hasValuesV v dim r b) ->
    eliminateGauss o (selectPivot o maxU alg) dim M rhs = Some s ->
    (forall i, (i < dim.-1)%N -> v (g_m s i i) <> Some 0) ->
    exists a pi, inv v dim A b dim.-1 s a pi.
  Proof.
    move=> HM Hr; rewrite eliminate_range => H Hd.
    have Hp : (0 + dim.-1 <= dim)%N by rewrite add0n leq_pred.
    have := gaussLoop_inv Hs (@select_inRange alg) Hp H (inv0 HM Hr); rewrite add0n; apply.
    by move=> i /andP [_ Hi]; apply: Hd.
  Qed.

  Lemma gaussLoop_hasRhs piv js : forall s s', gaussLoop o piv dim js s = Some s' ->
    isSome (g_rhs s') = isSome (g_rhs s).
  Proof.
    elim: js => [|j js IH] s s' /=; first by move=> [<-].
    rewrite gaussStep_eq; case: (piv _ _ _) => // p /IH /= ->.
    by rewrite /afterSwap; case: (Nat.eqb _ _) => //=; case: (g_rhs s).
  Qed.

  Lemma solve_sound alg (lA lb : list T) xs :
    hasValues v dim (ofFlat o lA dim) A -> hasValuesV v dim (ofVector o lb) b ->
    solveDetail o maxU alg lA lb dim = Some xs ->
    (forall s, eliminateGauss o (selectPivot o maxU alg) dim (ofFlat o lA dim) (Some (ofVector o lb)) = Some s ->
       forall i, (i < dim)%N -> v (g_m s i i) <> Some 0) ->
    (exists x, hasValuesV v dim (ofVector o xs) x /\
      forall i, (i < dim)%N -> \sum_(0 <= k < dim) A i k * x k = b i)
    /\ \det (mx dim A) != 0.
  Proof.
    move=> HA Hb; rewrite /solveDetail.
    case E: eliminateGauss => [s|] //; case Er: (g_rhs s) => [r|] //.
    case Ec: computeSolution => [x|] // [<-] Hd.
    have {}Hd := Hd s (erefl _).
    have [||a [pi I]] := eliminate_inv HA _ E.
    - by move=> r' [<-].
    - by move=> i Hi; apply: Hd; rewrite (leq_trans Hi) // leq_pred.
    have Ha : forall i, (i < dim)%N -> a i i != 0.
      by move=> i Hi; apply/eqP => Z; apply: (Hd i Hi); rewrite (i_vals I) // Z.
    have Hr : hasValuesV v dim r (fun i => b (pi i)) by move=> i Hi; apply: (i_rhs I).
    have [xv [Hx1 Hx2]] := compute_solves Hs (i_vals I) Hr Ha Ec.
    split.
    - exists xv; split.
      + move=> i Hi; rewrite /ofVector /toVector.
        rewrite (nth_map0 x 0%N); last by rewrite List.seq_length; apply/ltP; rewrite PeanoNat.Nat.sub_0_r.
        rewrite /range List.seq_nth; last by rewrite PeanoNat.Nat.sub_0_r; apply/ltP.
        exact: Hx1.
      + move=> i Hi; case: (i_surj I Hi) => i' Hi' <-; rewrite -(Hx2 i' Hi').
        by apply: eq_big_nat => k /andP [_ Hk]; rewrite (i_W I).
    - have := i_det I; rewrite det_W => Hdet.
      have Hprod : \prod_(i < dim) a i i != 0 by apply/prodf_neq0 => i _; apply: Ha.
      by apply: contraNneq Hprod => Z; rewrite Hdet Z mulr0.
  Qed.

  (** ** Exact zero test *)
  Hypothesis (Hz : decidesZero o v).

  Lemma isZeroE t x : v t = Some x -> e_isZero o t = (x == 0).
  Proof.
    move=> H; apply/idP/eqP => [Hi|E]; first exact: (s_zeroSound Hs H Hi).
    by apply: Hz; rewrite H E.
  Qed.

  Lemma lc_never_none js : forall s, gaussLoop o (selectPivot o maxU GaussLCPivot) dim js s <> None.
  Proof. by elim: js => // j js IH s; apply: IH. Qed.

  Lemma loop_outcome alg : forall n j s a pi, (j + n = dim.-1)%N -> inv v dim A b j s a pi ->
    match gaussLoop o (selectPivot o maxU alg) dim (List.seq j n) s with
    | None => \det (mx dim A) = 0 /\ alg = Gauss
    | Some s' => (forall i, (j <= i < dim.-1)%N -> v (g_m s' i i) <> Some 0)
        \/ (\det (mx dim A) = 0 /\ alg = GaussLCPivot /\ exists2 i, (i < dim.-1)%N & v (g_m s' i i) = Some 0)
    end.
  Proof.
    elim=> [|n IH] j s a pi Hj I /=.
      by left=> i; rewrite addn0 in Hj; rewrite Hj => /andP [H1 /leq_trans /(_ H1)]; rewrite ltnn.
    have jd1 : (j < dim.-1)%N by rewrite -Hj addnS ltnS leq_addr.
    have jd : (j < dim)%N by rewrite (leq_trans jd1) // leq_pred.
    have Hcol0 : (forall i, (j <= i < dim)%N -> e_isZero o (g_m s i j)) -> \det (mx dim A) = 0.
      move=> Hc; have D : \det (mx dim (W j a)) = 0.
        apply: det_col0 => // i Hi; have Hi' := Hi; case/andP: Hi' => _ Hi'.
        by apply/eqP; rewrite -(isZeroE (i_vals I Hi' jd)); apply: Hc.
      have := i_det I; rewrite D => /esym/eqP; rewrite mulf_eq0 signr_eq0 /= => /eqP //.
    rewrite gaussStep_eq; case E: selectPivot => [p|]; last first.
      by split; [apply: Hcol0; exact: (select_none E)|case: (alg) E].
    have /andP [jp pd] := select_inRange jd E.
    have [a1 [pi1 [I1 [Ha1 _]]]] := inv_swap I jp pd.
    cbv zeta. set s1 := afterSwap s j p.
    have Hrows : forall s', gaussLoop o (selectPivot o maxU alg) dim (List.seq j.+1 n)
        (mkG (elimCol o dim j (g_m s1)) (g_rhs s1) (g_swaps s1)) = Some s' -> v (g_m s' j j) = Some (a1 j j).
      move=> s' Hrun; rewrite (gaussLoop_rows (@select_inRange alg) _ Hrun) /=; [|by rewrite addSn -addnS Hj leq_pred|exact: ltnSn].
      by rewrite elim_rows // (i_vals I1).
    case: (eqVneq (a1 j j) 0) => [Z|N].
    - have Hpz : e_isZero o (g_m s p j) by rewrite (isZeroE (i_vals I pd jd)) -Ha1 Z.
      have D := Hcol0 (select_zero jd E Hpz).
      have Halg : alg = GaussLCPivot.
        by case: (alg) E => //= /firstNonZeroPivot_Some [_]; rewrite Hpz.
      case Er: gaussLoop => [s'|]; last first.
        by rewrite Halg in Er; case: (lc_never_none Er).
      right; split=> //; split=> //; exists j => //; by rewrite (Hrows _ Er) Z.
    - have := IH j.+1 _ _ _ _ (inv_elim Hs I1 jd N); rewrite addSn -addnS => /(_ Hj).
      rewrite -/s1; case Er: gaussLoop => [s'|] //=; case=> [Hd|]; last by right.
      left=> i /andP [ji Hi]; case: (eqVneq i j) => [->|Nij].
      + by rewrite (Hrows _ Er); case=> Z; rewrite Z eqxx in N.
      + by apply: Hd; rewrite Hi andbT ltn_neqAle eq_sym Nij.
  Qed.

  Lemma eliminate_outcome alg M rhs : hasValues v dim M A ->
    (forall r, rhs = Some r -> hasValuesV v dim r b) ->
    match eliminateGauss o (selectPivot o maxU alg) dim M rhs with
    | None => \det (mx dim A) = 0 /\ alg = Gauss
    | Some s' => (forall i, (i < dim.-1)%N -> v (g_m s' i i) <> Some 0)
        \/ (\det (mx dim A) = 0 /\ alg = GaussLCPivot /\ exists2 i, (i < dim.-1)%N & v (g_m s' i i) = Some 0)
    end.
  Proof.
    move=> HM Hr; rewrite eliminate_range.
    by have := @loop_outcome alg dim.-1 0 _ _ _ (add0n _) (inv0 HM Hr); case: gaussLoop.
  Qed.

  (** The solver throws exactly for singular matrices, otherwise it returns the solution. *)
  Theorem solveDetail_spec alg (lA lb : list T) :
    hasValues v dim (ofFlat o lA dim) A -> hasValuesV v dim (ofVector o lb) b ->
    match solveDetail o maxU alg lA lb dim with
    | None => \det (mx dim A) = 0
    | Some xs => \det (mx dim A) != 0 /\ size xs = dim /\
        exists x, hasValuesV v dim (ofVector o xs) x /\
        forall i, (i < dim)%N -> \sum_(0 <= k < dim) A i k * x k = b i
    end.
  Proof.
    move=> HA Hb; case E: solveDetail => [xs|].
    - have [|[x [Hx1 Hx2]] Hdet] := solve_sound HA Hb E; last first.
        split=> //; split; last by exists x.
        move: E; rewrite /solveDetail; case: eliminateGauss => [s|] //; case: (g_rhs s) => // r.
        case: computeSolution => // x' [<-]; rewrite /toVector.
        have -> : forall l : list T, size l = List.length l by [].
        by rewrite List.map_length List.seq_length PeanoNat.Nat.sub_0_r.
      move=> s Es i Hi Hv; move: E; rewrite /solveDetail Es; case: (g_rhs s) => // r.
      case Ec: computeSolution => [x|] // _.
      case: (computeSolution_spec o dim (g_m s) r x Ec i (ltP Hi)).
      by rewrite (isZeroE (s_simp Hs Hv)) eqxx.
    - move: E; rewrite /solveDetail.
      have Hr : forall r, Some (ofVector o lb) = Some r -> hasValuesV v dim r b by move=> r [<-].
      have := eliminate_outcome alg HA Hr.
      case Ee: eliminateGauss => [s|]; last by case.
      case=> [Hd|[]] //.
      have Hsome : isSome (g_rhs s) by move: Ee; rewrite eliminate_range => /gaussLoop_hasRhs ->.
      case Er: (g_rhs s) Hsome => [r|] // _; case Ec: computeSolution => // _.
      have [a [pi I]] := eliminate_inv HA Hr Ee Hd.
      have [i [/ltP Hi Hzi]] := computeSolution_None o dim (g_m s) r Ec.
      have Z : a i i = 0.
        by apply/eqP; rewrite -(isZeroE (s_simp Hs (i_vals I Hi Hi))).
      have := i_det I; rewrite det_W (bigD1 (Ordinal Hi)) //= Z mul0r => /esym/eqP.
      by rewrite mulf_eq0 signr_eq0 /= => /eqP.
  Qed.

  (** ** Determinant *)
  Lemma detFold_val M a (ds : list nat) : forall t x, v t = Some x ->
    (forall i, List.In i ds -> v (M i i) = Some (a i i)) ->
    v (List.fold_left (fun d i => e_mul o d (M i i)) ds t) = Some (x * \prod_(i <- ds) a i i).
  Proof.
    elim: ds => [|i ds IH] t x Ht Hds /=; first by rewrite big_nil mulr1.
    rewrite big_cons mulrA; apply: IH; last by move=> k Hk; apply: Hds; right.
    by apply: s_mul => //; apply: Hds; left.
  Qed.

  Lemma sign_even n : (if Nat.even n then 1 else -1 : F) = (-1) ^+ n.
  Proof.
    rewrite -signr_odd.
    have -> : Nat.even n = ~~ odd n; last by case: (odd n).
    suff : Nat.even n = ~~ odd n /\ Nat.even n.+1 = odd n by case.
    elim: n => // n [IH1 IH2]; split; first by rewrite IH2 /= negbK.
    by change (Nat.even n = odd n.+1); rewrite IH1.
  Qed.

  Lemma detFromPlu_val s a pi : inv v dim A b dim.-1 s a pi ->
    v (detFromPlu o dim (g_m s) (g_swaps s)) = Some (\det (mx dim A)).
  Proof.
    move=> I; rewrite /detFromPlu; apply: s_simp => //.
    have Hsg : v (if Nat.even (g_swaps s) then e_one o else e_mone o) = Some ((-1) ^+ g_swaps s).
      by rewrite -sign_even; case: ifP => _; [exact: (s_one Hs)|exact: (s_mone Hs)].
    rewrite (detFold_val (a := a) Hsg); last by move=> i /in_range /andP [_ Hi]; apply: (i_vals I).
    congr Some. have := i_det I; rewrite det_W => Hdet.
    rewrite range_iota big_mkord Hdet mulrA -exprMn_comm; last exact: commrN1.
    by rewrite mulrNN mulr1 expr1n mul1r.
  Qed.

  Theorem determinantDetail_regular alg (lA : list T) :
    hasValues v dim (ofFlat o lA dim) A -> \det (mx dim A) != 0 ->
    exists d, determinantDetail o maxU alg lA dim = Some d /\ v d = Some (\det (mx dim A)).
  Proof.
    move=> HA Hdet; rewrite /determinantDetail.
    have Hr : forall r, @None (nat -> T) = Some r -> hasValuesV v dim r b by [].
    have := eliminate_outcome alg HA Hr.
    case Ee: eliminateGauss => [s|]; last by case=> Z; rewrite Z eqxx in Hdet.
    case=> [Hd|[Z]]; last by rewrite Z eqxx in Hdet.
    have [a [pi I]] := eliminate_inv HA Hr Ee Hd.
    by exists (detFromPlu o dim (g_m s) (g_swaps s)); split=> //; exact: detFromPlu_val I.
  Qed.

  Theorem determinantDetail_gauss (lA : list T) d :
    hasValues v dim (ofFlat o lA dim) A ->
    determinantDetail o maxU Gauss lA dim = Some d -> v d = Some (\det (mx dim A)).
  Proof.
    move=> HA; rewrite /determinantDetail.
    have Hr : forall r, @None (nat -> T) = Some r -> hasValuesV v dim r b by [].
    have := eliminate_outcome Gauss HA Hr.
    case Ee: eliminateGauss => [s|] //; case=> [Hd|[_ []]] // [<-].
    have [a [pi I]] := eliminate_inv HA Hr Ee Hd; exact: detFromPlu_val I.
  Qed.

  (** ** Undefined entries are contagious *)
  Hypothesis (Ht : strictEntries o v).

  Definition broken (j : nat) M : Prop := forall i k, (j <= i < dim)%N -> (j <= k < dim)%N -> v (M i k) = None.

  Lemma broken_elim j M : (j < dim)%N -> (v (M j j) = Some 0 \/ broken j M) -> broken j.+1 (elimCol o dim j M).
  Proof.
    move=> jd Hb i k /andP [ji Hi] /andP [jk Hk].
    rewrite elimCol_spec !ltbE eqbE ji Hi jk Hk /= (gtn_eqF jk).
    apply: (t_simp Ht); case: Hb => [H0|Hb].
    - apply: (t_subr Ht); apply: (t_mull Ht); apply: (t_simp Ht); exact: (t_div0 Ht).
    - apply: (t_subl Ht); apply: Hb; by rewrite ltnW.
  Qed.

  Lemma broken_swap j s p : (j <= p < dim)%N -> broken j (g_m s) -> broken j (g_m (afterSwap s j p)).
  Proof.
    move=> /andP [jp pd] Hb; rewrite /afterSwap; case: Nat.eqb => // i k /andP [ji Hi] Hk.
    rewrite /= swapRows_swp; apply: Hb => //.
    rewrite /swp; case: eqP => [_|_]; first by rewrite jp.
    by case: eqP => [_|_]; rewrite ?leqnn ?ji ?(leq_ltn_trans jp pd).
  Qed.

  Lemma broken_loop alg : forall n j s s', (j + n <= dim)%N -> broken j (g_m s) ->
    gaussLoop o (selectPivot o maxU alg) dim (List.seq j n) s = Some s' -> broken (j + n) (g_m s').
  Proof.
    elim=> [|n IH] j s s' Hj Hb /=; first by move=> [<-]; rewrite addn0.
    rewrite addnS in Hj; have jd : (j < dim)%N := leq_ltn_trans (leq_addr n j) Hj.
    rewrite gaussStep_eq; case E: selectPivot => [p|] // Hrun.
    rewrite addnS -addSn; apply: IH Hrun; first by rewrite addSn.
    by apply: broken_elim => //; right; apply: broken_swap => //; apply: select_inRange E.
  Qed.

  (** A zero on the finished diagonal leaves the last diagonal entry undefined. *)
  Lemma zero_breaks alg : forall n j s s' i, (j + n <= dim)%N ->
    gaussLoop o (selectPivot o maxU alg) dim (List.seq j n) s = Some s' ->
    (j <= i < j + n)%N -> v (g_m s' i i) = Some 0 -> broken (j + n) (g_m s').
  Proof.
    elim=> [|n IH] j s s' i Hj /=; first by move=> _; rewrite addn0 => /andP [H1 /leq_trans /(_ H1)]; rewrite ltnn.
    rewrite addnS in Hj; have jd : (j < dim)%N := leq_ltn_trans (leq_addr n j) Hj.
    rewrite gaussStep_eq; case E: selectPivot => [p|] // Hrun /andP [ji Hi] Hv.
    case: (eqVneq i j) => [Eij|N].
    - rewrite addnS -addSn; have Hrun' := Hrun; apply: broken_loop Hrun'; first by rewrite addSn.
      apply: broken_elim => //; left; rewrite Eij in Hv.
      move: Hv; rewrite (gaussLoop_rows (@select_inRange alg) _ Hrun) /=; [|by rewrite addSn|exact: ltnSn].
      by rewrite elim_rows.
    - rewrite addnS -addSn; apply: IH Hrun _ Hv; first by rewrite addSn.
      by rewrite addSn -addnS Hi andbT ltn_neqAle eq_sym N.
  Qed.

  Lemma detFold_none M (ds : list nat) : forall t,
    v t = None \/ (exists2 i, List.In i ds & v (M i i) = None) ->
    v (List.fold_left (fun d i => e_mul o d (M i i)) ds t) = None.
  Proof.
    elim: ds => [|i ds IH] t /=; first by case=> // [[i []]].
    case=> [H|[k [->|Hk] Hv]]; apply: IH.
    - by left; apply: (t_mull Ht).
    - by left; apply: (t_mulr Ht).
    - by right; exists k.
  Qed.

  Theorem determinantDetail_never_wrong alg (lA : list T) d :
    hasValues v dim (ofFlat o lA dim) A ->
    determinantDetail o maxU alg lA dim = Some d ->
    v d = Some (\det (mx dim A)) \/ (v d = None /\ \det (mx dim A) = 0 /\ alg = GaussLCPivot).
  Proof.
    move=> HA; rewrite /determinantDetail.
    have Hr : forall r, @None (nat -> T) = Some r -> hasValuesV v dim r b by [].
    have := eliminate_outcome alg HA Hr.
    case Ee: eliminateGauss => [s|] //; case=> [Hd|[Z [Ha [i Hi Hv]]]] [<-].
    - by left; have [a [pi I]] := eliminate_inv HA Hr Ee Hd; exact: detFromPlu_val I.
    - right; split=> //; rewrite /detFromPlu; apply: (t_simp Ht); apply: detFold_none; right.
      have Hdim : (0 < dim)%N by case: (dim) Hi.
      move: Ee; rewrite eliminate_range => Ee.
      have Hle : (0 + dim.-1 <= dim)%N by rewrite add0n leq_pred.
      have := zero_breaks Hle Ee Hi Hv; rewrite add0n => Hb.
      exists dim.-1; last by apply: Hb; rewrite leqnn ltn_predL.
      by apply/SolveFacts.range_in; split; [exact/leP|apply/ltP; rewrite ltn_predL].
  Qed.
End Exact.
