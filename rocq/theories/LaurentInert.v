(** Factors of which no two can be combined: Product::create keeps all of them, in some order. *)
From Verif Require Import LaurentSpec LaurentOrder LaurentProd ExprProofs NumberProofs OrderModel OrderProofs World.
From Coq Require Import Lia Lra Bool Permutation.
From Verif Require Import Run LaurentSpec.
Open Scope Z_scope.

Section Inert.
  Variables (Y : sys) (F k : nat) (U : list expr).
  Notation W := (world Y F k).
  Notation pair := (simplTwoFactorsWithoutProduct Y W).
  Hypothesis HP : forall x, In x U -> isProduct x = false.
  Hypothesis HU : forall x, In x U -> noUndef x = true.
  Hypothesis HT : forall x y, In x U -> In y U -> areContractableTrigFctPowers Y x y = false.
  Hypothesis HE : forall x y, In x U -> In y U -> areNumPowersWithEqualExp x y = false.
  Hypothesis HD : forall x y, In x U -> In y U -> areNumPowersWithEqualExpDenom x y = false.
  Hypothesis HI : forall x y, In x U -> In y U -> x <> y -> pair x y = Ok [x; y] [] \/ pair x y = Ok [y; x] [].
  Hypothesis HN : forall x y, In x U -> In y U -> isNumeric x = true -> isNumeric y = true -> x = y.
  Hypothesis HC : forall x, In x U -> isContractableConst x = true -> isNumeric x = true.
  Hypothesis HQ : forall q, In (Num q) U -> canon q /\ q <> 1%Q.

  Lemma inert_merge n' x : In x U -> forall s n, (length s + 2 <= n)%nat -> incl s U -> NoDup (x :: s) ->
    exists l, merge n isOne (simplTwoFactors Y W (S n')) [x] s = Ok l [] /\ Permutation (x :: s) l.
  Proof.
    intros Hx. induction s as [|y s IH]; intros n Hn I N.
    - destruct n as [|n]; [cbn in Hn; lia|]. exists [x]. split; [reflexivity | auto].
    - destruct n as [|n]; [lia|]. cbn [length] in Hn.
      assert (Hy : In y U) by (apply I; now left).
      assert (NE : x <> y) by (inversion N as [|? ? A _]; subst; intros ->; apply A; now left).
      assert (E : simplTwoFactors Y W (S n') x y = pair x y) by (apply two_nonprod; now apply HP).
      destruct (HI x y Hx Hy NE) as [P|P].
      + rewrite (merge_step n isOne _ x [] y s [x; y]) by congruence.
        rewrite areEqual_refl2 by now apply HU. destruct n as [|n]; [lia|]. rewrite merge_nil_l. unfold ret. rewrite bind_ret.
        exists (x :: y :: s). split; [reflexivity | auto].
      + rewrite (merge_step n isOne _ x [] y s [y; x]) by congruence.
        rewrite areEqual_swap by assumption. rewrite areEqual_refl2 by now apply HU.
        destruct (IH n ltac:(lia)) as (l & El & Pl).
        * intros z Hz. apply I. now right.
        * inversion N as [|? ? A A']; inversion A'; subst. constructor; auto. intros Z. apply A. now right.
        * rewrite El, bind_ret. exists (y :: l). split; [reflexivity|]. rewrite perm_swap. now constructor.
  Qed.

  Lemma inert_nums u : incl u U -> NoDup u -> forall q0,
    (fold_left (fun a e => match e with Num q => qmul a q | _ => a end) u q0 = q0 /\ filter (fun e => negb (isNumeric e)) u = u) \/
    (exists q, In (Num q) u /\ fold_left (fun a e => match e with Num q => qmul a q | _ => a end) u q0 = qmul q0 q /\
      Permutation u (Num q :: filter (fun e => negb (isNumeric e)) u)).
  Proof.
    induction u as [|x u IH]; intros I N q0; [left; auto|].
    assert (I' : incl u U) by (intros z Hz; apply I; now right).
    inversion N as [|? ? A N']; subst. cbn [fold_left filter].
    destruct (isNumeric x) eqn:E; cbn [negb].
    - destruct x as [q|?|?|?|?|?|?|?]; try discriminate. right. exists q. split; [now left|].
      destruct (IH I' N' (qmul q0 q)) as [[E1 E2]|(q' & Hq & _)].
      + split; [exact E1|]. now rewrite E2.
      + exfalso. apply A. rewrite (HN (Num q) (Num q')); auto. apply I. now left.
    - assert (X : match x with Num q => qmul q0 q | _ => q0 end = q0) by (destruct x; try discriminate; reflexivity).
      rewrite X. destruct (IH I' N' q0) as [[E1 E2]|(q & Hq & E1 & E2)].
      + left. split; [exact E1|]. now rewrite E2.
      + right. exists q. split; [now right|]. split; [exact E1|]. rewrite perm_swap. now constructor.
  Qed.
  Lemma inert_contractNumerics u : u <> [] -> incl u U -> NoDup u -> Permutation (contractNumerics u) u.
  Proof.
    intros Hu I N. unfold contractNumerics. cbn zeta. destruct (inert_nums u I N 1%Q) as [[E1 E2]|(q & Hq & E1 & E2)]; rewrite E1.
    - rewrite E2. cbn. destruct u; [congruence | reflexivity].
    - apply I in Hq. destruct (HQ q Hq) as [C Q1]. rewrite qmul_1_l by assumption. rewrite (proj2 (qeqb_neq q 1) Q1). cbn [negb].
      now symmetry.
  Qed.
  Lemma inert_noConstPair u : incl u U -> NoDup u -> noConstPair u.
  Proof.
    intros I N i j a b Hij Hi Hj. destruct (isContractableConst a && isContractableConst b) eqn:E; [|reflexivity]. exfalso.
    apply andb_true_iff in E as [Ea Eb].
    assert (Ha : In a U) by (apply I; eapply nth_error_In; eassumption). assert (Hb : In b U) by (apply I; eapply nth_error_In; eassumption).
    assert (a = b) by (apply HN; auto). subst b.
    rewrite NoDup_nth_error in N. assert (i = j); [|lia]. apply N; [|congruence]. apply nth_error_Some. congruence.
  Qed.
  Lemma in_check (P : expr -> expr -> bool) u : (forall x y, In x U -> In y U -> P x y = false) -> incl u U ->
    forall a b, In a u -> In b u -> P a b = false.
  Proof. intros H I a b Ha Hb. apply H; now apply I. Qed.

  Lemma perm_inv u v : Permutation u v -> incl u U -> NoDup u -> incl v U /\ NoDup v /\ length v = length u.
  Proof.
    intros P I N. split; [|split].
    - intros x Hx. apply I. eapply Permutation_in; [symmetry; eassumption | assumption].
    - eapply Permutation_NoDup; eassumption.
    - symmetry. now apply Permutation_length.
  Qed.

  Lemma inert_prepareConst n u : u <> [] -> incl u U -> NoDup u -> (length u < n)%nat ->
    exists v, prepareConst Y W n u = Ok v [] /\ Permutation u v.
  Proof.
    intros Hu I N Hn. unfold prepareConst.
    pose proof (sortFactors_perm Y u) as P1. symmetry in P1. destruct (perm_inv _ _ P1 I N) as (I1 & N1 & L1).
    assert (Hu1 : sortFactors Y u <> []) by (intros X; rewrite X in L1; destruct u; [congruence | discriminate]).
    pose proof (inert_contractNumerics _ Hu1 I1 N1) as P2. symmetry in P2. destruct (perm_inv _ _ P2 I1 N1) as (I2 & N2 & L2).
    exists (contractNumerics (sortFactors Y u)). split; [|eapply perm_trans; [exact P1 | exact P2]].
    rewrite contractConst_none by (try (now apply inert_noConstPair); lia). rewrite bind_ret.
    rewrite contract_none by (try (apply in_check; assumption); lia). rewrite bind_ret.
    apply contract_none; [apply in_check; assumption | lia].
  Qed.

  Lemma inert_extract u : incl u U -> extractProducts u = u.
  Proof.
    intros I. unfold extractProducts. induction u as [|x u IH]; [reflexivity|]. cbn [flat_map].
    rewrite IH by (intros z Hz; apply I; now right). pose proof (HP x (I x (or_introl eq_refl))) as P.
    destruct x; try discriminate; reflexivity.
  Qed.
  Lemma inert_prepare n u : incl u U -> (length u < n)%nat -> prepare Y W n u = Ok u [].
  Proof. intros I Hn. unfold prepare. rewrite inert_extract by assumption. apply contract_none; [|assumption]. now apply in_check. Qed.

  Lemma inert_two n a b : In a U -> In b U -> a <> b ->
    exists l, simplTwoFactors Y W (S n) a b = Ok l [] /\ Permutation [a; b] l.
  Proof.
    intros Ha Hb N. rewrite two_nonprod by now apply HP. destruct (HI a b Ha Hb N) as [-> | ->]; eexists; (split; [reflexivity|]); auto.
    apply perm_swap.
  Qed.

  Theorem inert_simplify : forall n u, u <> [] -> incl u U -> NoDup u -> (length u + 3 <= n)%nat ->
    exists v, simplifyProduct Y W n u = Ok v [] /\ Permutation u v.
  Proof.
    induction n as [|n IH]; intros u Hu I N Hn; [lia|]. cbn [simplifyProduct].
    rewrite inert_prepare by (auto; lia). rewrite bind_ret.
    assert (Gen : exists v, (g <- prepareConst Y W (S n) u;;
      match g with
      | [] => UB "front of empty list of factors"%string
      | [x] => ret g
      | [x; b] => simplTwoFactors Y W (S n) x b
      | x :: (_ :: _ :: _) as r => s <- simplifyProduct Y W n r;; merge (S n) isOne (simplTwoFactors Y W (S n)) [x] s
      end) = Ok v [] /\ Permutation u v).
    { destruct (inert_prepareConst (S n) u Hu I N ltac:(lia)) as (g & Eg & Pg). rewrite Eg, bind_ret.
      destruct (perm_inv _ _ Pg I N) as (Ig & Ng & Lg).
      destruct g as [|a [|b [|c g]]].
      - destruct u; [congruence | discriminate].
      - exists [a]. split; [reflexivity | exact Pg].
      - destruct (inert_two n a b) as (l & El & Pl).
        + apply Ig. now left.
        + apply Ig. right; now left.
        + inversion Ng as [|? ? A _]; subst. intros ->. apply A. now left.
        + exists l. split; [exact El|]. now rewrite Pg.
      - inversion Ng as [|? ? A Ng']; subst. cbn [length] in Lg.
        destruct (IH (b :: c :: g)) as (s & Es & Ps); auto; [discriminate | intros z Hz; apply Ig; now right | cbn [length]; lia |].
        rewrite Es, bind_ret.
        assert (Ns : NoDup (a :: s)) by (eapply Permutation_NoDup; [|exact Ng]; now constructor).
        assert (Ls : length s = S (S (length g))) by (apply Permutation_length in Ps; cbn [length] in Ps; lia).
        destruct (inert_merge n a (Ig a (or_introl eq_refl)) s (S n)) as (l & El & Pl); auto; [lia| |].
        + intros z Hz. apply Ig. right. eapply Permutation_in; [symmetry; exact Ps | exact Hz].
        + exists l. split; [exact El|]. rewrite Pg, <- Pl. now constructor. }
    destruct u as [|a [|b [|c u]]]; try exact Gen.
    apply inert_two.
    - apply I. now left.
    - apply I. right; now left.
    - inversion N as [|? ? A _]; subst. intros ->. apply A. now left.
  Qed.
End Inert.
