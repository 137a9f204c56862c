From mathcomp Require Import all_ssreflect all_fingroup all_algebra.
From Verif Require Import SolveModel SolveFacts SkipFacts SolveAlg SolveSpec SolveProofs SolveExact.
Set Implicit Arguments.
Unset Strict Implicit.
Import GRing.Theory.
Local Open Scope ring_scope.

Lemma det_empty (F : fieldType) n (M : 'M[F]_n) : n = 0%N -> \det M = 1.
Proof. by move=> E; move: M; rewrite E => M; exact: det_mx00. Qed.

Section Api.
  Variables (F : fieldType) (T : Type) (o : entryOps T) (v : T -> option F).
  Hypothesis (Hs : soundEntries o v).
  Variable maxU : nat.
  Hypothesis (Hmax : complexityBelow o maxU).
  Variables (skip : nat -> bool) (dim : nat).
  Let act := active skip dim.
  Let d := size act.
  Variables (a : nat -> nat -> F) (b : nat -> F).

  Lemma actE : actOf skip (range 0 dim) = act.
  Proof.
    rewrite /act /active range_iota /index_iota subn0 /actOf.
    by elim: (iota 0 dim) => //= i l ->.
  Qed.

  Lemma nthE (X : Type) (x0 : X) l i : List.nth i l x0 = nth x0 l i.
  Proof. by elim: l i => [|x l IH] [|i] //=. Qed.
  Lemma lengthE (X : Type) (l : list X) : List.length l = size l.
  Proof. by []. Qed.

  Lemma act_uniq : uniq act.
  Proof. by rewrite filter_uniq ?iota_uniq. Qed.
  Lemma act_lt i : i \in act -> (i < dim)%N.
  Proof. by rewrite mem_filter mem_iota add0n => /andP [_]. Qed.
  Lemma nth_act i : (i < d)%N -> nth 0%N act i \in act.
  Proof. exact: mem_nth. Qed.

  Definition redA (i k : nat) : F := a (nth 0%N act i) (nth 0%N act k).
  Definition redV (x : nat -> F) (i : nat) : F := x (nth 0%N act i).

  Lemma mx_red : mx d redA = reduced act a.
  Proof. by apply/matrixP => i k; rewrite !mxE. Qed.

  (** Only the active entries need to have a value. *)
  Definition activeValues (A : nat -> nat -> T) : Prop :=
    forall i k, i \in act -> k \in act -> v (A i k) = Some (a i k).
  Definition activeValuesV (B : nat -> T) (x : nat -> F) : Prop :=
    forall i, i \in act -> v (B i) = Some (x i).

  Lemma red_values A : activeValues A -> hasValues v d (ofFlat o (toStdMat A skip dim) d) redA.
  Proof.
    move=> HA i k Hi Hk; rewrite /d -actE -lengthE.
    rewrite (ofFlat_toStdMat o); [|by rewrite actE; apply/ltP|by rewrite actE; apply/ltP].
    by rewrite !nthE actE /redA; apply: HA; apply: nth_act.
  Qed.
  Lemma red_valuesV B x : activeValuesV B x -> hasValuesV v d (ofVector o (toStdVec B skip dim)) (redV x).
  Proof.
    move=> HB i Hi; rewrite (ofVector_toStdVec o); last by rewrite actE; apply/ltP.
    by rewrite nthE actE /redV; apply: HB; apply: nth_act.
  Qed.
  Lemma rhs_length (B : nat -> T) : List.length (toStdVec B skip dim) = d.
  Proof. by rewrite length_toStdVec actE. Qed.

  Lemma sum_red (x : nat -> F) i : (i < d)%N ->
    \sum_(0 <= k < d) redA i k * x k = \sum_(k <- act) a (nth 0%N act i) k * x (index k act).
  Proof.
    move=> Hi; rewrite [RHS](big_nth 0%N); apply: eq_big_nat => k /andP [_ Hk].
    by rewrite index_uniq // act_uniq.
  Qed.

  Lemma write_back (xs : list T) (x0 : nat -> T) : size xs = d ->
    exists x, fromStdVec (range 0 dim) skip xs x0 = Some x /\
      (forall t, (t < d)%N -> x (nth 0%N act t) = ofVector o xs t) /\
      (forall i, i \notin act -> x i = x0 i).
  Proof.
    move=> Hxs.
    have [|x [Hx [H1 H2]]] := fromStdVec_spec o skip (range 0 dim) xs x0 (range_NoDup 0 dim).
      by rewrite actE !lengthE.
    exists x; split=> //; split.
    - move=> t Hti; rewrite /ofVector -H1; last by rewrite actE; apply/ltP.
      by rewrite nthE actE.
    - move=> i Hi; apply: H2; rewrite actE => Hin; case/negP: Hi.
      by elim: (act) Hin => //= k l IH [->|Hl]; rewrite inE ?eqxx // IH ?orbT.
  Qed.

  (** ** Pointwise soundness, without an exact zero test *)
  Lemma solve_pointwise alg A B x0 x : activeValues A -> activeValuesV B b ->
    solve o maxU alg A B x0 skip dim = Returns x ->
    (forall s, eliminateGauss o (selectPivot o maxU alg) d (ofFlat o (toStdMat A skip dim) d)
        (Some (ofVector o (toStdVec B skip dim))) = Some s ->
       forall i, (i < d)%N -> v (g_m s i i) <> Some 0) ->
    exists xv, activeValuesV x xv /\ solves act a xv b.
  Proof.
    move=> HA HB; rewrite /solve rhs_length.
    case E: solveDetail => [xs|] //=; case Ew: fromStdVec => [x'|] // [<-] Hd.
    have [[xv [Hx1 Hx2]] _] := solve_sound Hs Hmax (red_values HA) (red_valuesV HB) E Hd.
    have Hsz : size xs = d.
      move: E; rewrite /solveDetail; case: eliminateGauss => [s|] //; case: (g_rhs s) => // r.
      case: computeSolution => // y [<-]; rewrite -lengthE /toVector.
      by rewrite List.map_length List.seq_length PeanoNat.Nat.sub_0_r.
    have [x1 [Hx [H1 H2]]] := write_back x0 Hsz; rewrite Hx in Ew; case: Ew => <-.
    exists (fun k => xv (index k act)); split.
    - move=> i Hi; have Hi' : (index i act < d)%N by rewrite index_mem.
      by rewrite -{1}(nth_index 0%N Hi) H1 // Hx1.
    - move=> i Hi; have Hi' : (index i act < d)%N by rewrite index_mem.
      by rewrite -{1}(nth_index 0%N Hi) -sum_red // Hx2 // /redV nth_index.
  Qed.

  Hypothesis (Hz : decidesZero o v).

  Lemma solve_spec alg A B x0 : activeValues A -> activeValuesV B b ->
    match solve o maxU alg A B x0 skip dim with
    | Returns x => \det (reduced act a) != 0 /\
        (exists xv, activeValuesV x xv /\ solves act a xv b) /\
        (forall i, i \notin act -> x i = x0 i)
    | Throws => \det (reduced act a) = 0
    | UB => False
    end.
  Proof.
    move=> HA HB; rewrite /solve rhs_length.
    have := solveDetail_spec Hs Hmax Hz alg (red_values HA) (red_valuesV HB).
    rewrite mx_red; case E: solveDetail => [xs|] //= [Hdet [Hsz [xv [Hx1 Hx2]]]].
    have [x1 [Hx [H1 H2]]] := write_back x0 Hsz; rewrite Hx; split=> //; split=> //.
    exists (fun k => xv (index k act)); split.
    - move=> i Hi; have Hi' : (index i act < d)%N by rewrite index_mem.
      by rewrite -{1}(nth_index 0%N Hi) H1 // Hx1.
    - move=> i Hi; have Hi' : (index i act < d)%N by rewrite index_mem.
      by rewrite -{1}(nth_index 0%N Hi) -sum_red // Hx2 // /redV nth_index.
  Qed.

  (** ** Determinant *)
  Lemma redDim : List.length (List.filter (fun i => negb (skip i)) (range 0 dim)) = d.
  Proof. by rewrite -/(actOf skip (range 0 dim)) actE. Qed.

  Lemma determinant_regular alg A : activeValues A -> \det (reduced act a) != 0 ->
    exists y, determinant o maxU alg A skip dim = Returns y /\ v y = Some (\det (reduced act a)).
  Proof.
    move=> HA; rewrite -mx_red => Hdet; rewrite /determinant redDim.
    have [y [-> Hy]] := determinantDetail_regular Hs Hmax (fun _ => 0) Hz alg (red_values HA) Hdet.
    by exists y.
  Qed.
  Lemma determinant_gauss A y : activeValues A ->
    determinant o maxU Gauss A skip dim = Returns y -> v y = Some (\det (reduced act a)).
  Proof.
    move=> HA; rewrite -mx_red /determinant redDim; case E: determinantDetail => [y'|] // [<-].
    exact: (determinantDetail_gauss Hs Hmax (fun _ => 0) Hz (red_values HA) E).
  Qed.
  Lemma determinant_never_wrong alg A y : strictEntries o v -> activeValues A ->
    determinant o maxU alg A skip dim = Returns y ->
    v y = Some (\det (reduced act a)) \/ (v y = None /\ \det (reduced act a) = 0 /\ alg = GaussLCPivot).
  Proof.
    move=> Ht HA; rewrite -mx_red /determinant redDim; case E: determinantDetail => [y'|] // [<-].
    exact: (determinantDetail_never_wrong Hs Hmax (fun _ => 0) Hz Ht (red_values HA) E).
  Qed.

  (** ** Inverse *)
  Lemma unit_values i : hasValuesV v d (ofVector o (List.map (fun j => if Nat.eqb i j then e_one o else e_zero o) (range 0 d)))
    (fun j => (i == j)%:R).
  Proof.
    move=> j Hj; rewrite /ofVector (nth_map0 _ 0%N); last first.
      by rewrite List.seq_length PeanoNat.Nat.sub_0_r; apply/ltP.
    rewrite /range List.seq_nth; last by rewrite PeanoNat.Nat.sub_0_r; apply/ltP.
    by rewrite /= eqbE; case: eqP => _; [exact: (s_one Hs)|exact: (s_zero Hs)].
  Qed.

  Lemma invert_spec alg A : activeValues A ->
    match invert o maxU alg A skip dim with
    | Returns M => \det (reduced act a) != 0 /\
        (exists m, (forall i k, i \in act -> k \in act -> v (M i k) = Some (m i k)) /\
           reduced act a *m reduced act m = 1%:M) /\
        (forall i k, ~~ ((i \in act) && (k \in act)) -> M i k = A i k)
    | Throws => \det (reduced act a) = 0
    | UB => False
    end.
  Proof.
    move=> HA; rewrite /invert redDim /invertDetail.
    set lA := toStdMat A skip dim.
    have Hcol : forall i, match invertColumn o maxU alg lA d i with
      | None => \det (reduced act a) = 0
      | Some xs => \det (reduced act a) != 0 /\ size xs = d /\
        exists x, hasValuesV v d (ofVector o xs) x /\
        forall r, (r < d)%N -> \sum_(0 <= k < d) redA r k * x k = (i == r)%:R
      end.
      move=> i; have := solveDetail_spec Hs Hmax Hz alg (red_values HA) (unit_values i).
      by rewrite mx_red /invertColumn -/lA; case: solveDetail.
    case E: sequence => [cols|]; last first.
      have := sequence_None _ E; rewrite List.in_map_iff => [[i [Hi _]]].
      by have := Hcol i; rewrite Hi.
    have [Hlen Hnth] := sequence_Some _ _ E.
    rewrite List.map_length List.seq_length PeanoNat.Nat.sub_0_r in Hlen Hnth.
    have Hc : forall i, (i < d)%N -> invertColumn o maxU alg lA d i = Some (List.nth i cols nil).
      move=> i /ltP Hi; rewrite -(Hnth i nil Hi) (nth_map0 _ 0%N); last by rewrite List.seq_length PeanoNat.Nat.sub_0_r.
      by rewrite /range List.seq_nth ?PeanoNat.Nat.sub_0_r.
    have [Hdet0|Hdet] : d = 0%N \/ \det (reduced act a) != 0.
      case: (posnP d) => [->|Hd]; first by left.
      by right; have := Hcol 0%N; rewrite Hc // => -[].
    - (* no active rows *)
      have Hdet1 : \det (reduced act a) = 1.
        by apply: det_empty.
      set vals := List.flat_map _ _.
      have Hvals : List.length vals = (List.length (actOf skip (range 0 dim)) * List.length (actOf skip (range 0 dim)))%coq_nat.
        by rewrite actE !lengthE -/d /vals Hdet0.
      have [M [-> [H1 H2]]] := fromStdMat_spec o skip dim (range 0 dim) vals A (range_NoDup 0 dim) Hvals.
      split; first by rewrite Hdet1 oner_eq0.
      have Hnil : act = [::] by apply/nilP; rewrite /nilp -/d Hdet0.
      split; last by move=> i k _; apply: H2; rewrite actE Hnil => [[[]]].
      exists a; split; first by move=> i k; rewrite Hnil.
      by apply/matrixP => i; have := ltn_ord i; rewrite {2}Hnil.
    - set vals := List.flat_map _ _.
      have Hrow : forall r, List.In r (range 0 d) ->
        List.length (List.map (fun i => List.nth r (List.nth i cols nil) (e_zero o)) (range 0 d)) = d.
        by move=> r _; rewrite List.map_length List.seq_length PeanoNat.Nat.sub_0_r.
      have Hvals : List.length vals = (List.length (actOf skip (range 0 dim)) * List.length (actOf skip (range 0 dim)))%coq_nat.
        by rewrite /vals (length_blocks _ d) // List.seq_length PeanoNat.Nat.sub_0_r actE.
      have [M [-> [H1 H2]]] := fromStdMat_spec o skip dim (range 0 dim) vals A (range_NoDup 0 dim) Hvals.
      split=> //.
      have Hx : forall i, exists x, (i < d)%N -> hasValuesV v d (ofVector o (List.nth i cols nil)) x /\
        forall r, (r < d)%N -> \sum_(0 <= k < d) redA r k * x k = (i == r)%:R.
        move=> i; case Hi: (i < d)%N; last by exists (fun _ => 0).
        have := Hcol i; rewrite Hc // => -[_ [_ [x Hx]]]; by exists x.
      have [X HX] : exists X : nat -> nat -> F, forall i, (i < d)%N ->
        hasValuesV v d (ofVector o (List.nth i cols nil)) (X i) /\
        forall r, (r < d)%N -> \sum_(0 <= k < d) redA r k * X i k = (i == r)%:R.
        have : forall n, exists X : nat -> nat -> F, forall i, (i < n)%N -> (i < d)%N ->
          hasValuesV v d (ofVector o (List.nth i cols nil)) (X i) /\
          forall r, (r < d)%N -> \sum_(0 <= k < d) redA r k * X i k = (i == r)%:R.
          elim=> [|n [X IH]]; first by exists (fun _ _ => 0).
          have [x Hxn] := Hx n; exists (fun i => if i == n then x else X i) => i.
          rewrite ltnS leq_eqVlt; case: eqP => [->|_] //=; exact: IH.
        by case/(_ d) => X H; exists X => i Hi; apply: H.
      have Hentry : forall i k, i \in act -> k \in act -> v (M i k) = Some (X (index k act) (index i act)).
        move=> i k Hi Hk.
        have Hi' : (index i act < d)%N by rewrite index_mem.
        have Hk' : (index k act < d)%N by rewrite index_mem.
        have [Hv _] := HX _ Hk'.
        rewrite -(Hv _ Hi') /ofVector.
        have := H1 (index i act) (index k act); rewrite actE !nthE !nth_index // => ->; try exact/ltP.
        rewrite lengthE -/d /vals -nthE nth_blocks //; [|by rewrite List.seq_length PeanoNat.Nat.sub_0_r; apply/ltP|exact/ltP].
        rewrite (nth_map0 _ 0%N); last by rewrite List.seq_length PeanoNat.Nat.sub_0_r; apply/ltP.
        have Hrn : forall q, (q < d)%N -> List.nth q (range 0 d) 0%N = q.
          by move=> q Hq; rewrite /range List.seq_nth ?PeanoNat.Nat.sub_0_r //; apply/ltP.
        by rewrite !Hrn ?nthE.
      split; last first.
        move=> i k Hik; apply: H2; rewrite actE => [[Hi Hk]]; case/negP: Hik.
        have Hin : forall l (z : nat), List.In z l -> z \in l.
          by move=> l z; elim: l => //= y l IH [->|Hl]; rewrite inE ?eqxx // IH ?orbT.
        by rewrite !Hin.
      exists (fun i k => X (index k act) (index i act)); split=> //.
      apply/matrixP => i k; rewrite !mxE.
      have [_ /(_ i (ltn_ord i))] := HX _ (ltn_ord k).
      rewrite eq_sym (inj_eq val_inj) => <-; rewrite big_mkord; apply: eq_bigr => j _.
      by rewrite !mxE !index_uniq // act_uniq.
  Qed.
End Api.
