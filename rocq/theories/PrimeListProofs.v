(** Value and multiplicity lemmas for the operations on prime factor lists (used for C04). *)
From Verif Require Import PrimeFacModel PrimeFacProofs.
From Coq Require Import Znumtheory Sorted Permutation ZifyBool.
Local Open Scope Z_scope.

Definition allPos (l : list Z) : Prop := Forall (fun x => 0 < x) l.
Definition allPrime (l : list Z) : Prop := Forall prime l.

Lemma mulZ_pos l : allPos l -> 0 < mulZ l.
Proof. induction 1; cbn [mulZ]; nia. Qed.
Lemma allPrime_pos l : allPrime l -> allPos l.
Proof. intros H. eapply Forall_impl; [|exact H]. cbn. intros a Ha. apply prime_ge_2 in Ha. lia. Qed.
Lemma mulZ_perm a b : Permutation a b -> mulZ a = mulZ b.
Proof. induction 1; cbn [mulZ]; lia. Qed.

(** duplicate *)
Lemma dupRuns_mul n : forall l run x r, l = x :: r -> (n <= run)%nat ->
  mulZ (dupRuns n run l) = x ^ Z.of_nat (run - n) * mulZ l ^ Z.of_nat n.
Proof.
  induction l as [|a l IH]; intros run x r E Hr; [discriminate|]. injection E as -> ->.
  cbn [dupRuns]. destruct r as [|y r].
  - rewrite mulZ_repeat. cbn [mulZ]. rewrite Z.mul_1_r, <- Z.pow_add_r by lia. f_equal. lia.
  - destruct (y =? x) eqn:Ey.
    + assert (y = x) by lia. subst y.
      rewrite (IH (run + n)%nat x r eq_refl) by lia.
      replace (run + n - n)%nat with run by lia. cbn [mulZ].
      rewrite !Z.pow_mul_l. replace (Z.of_nat run) with (Z.of_nat (run - n) + Z.of_nat n) by lia.
      rewrite Z.pow_add_r by lia. ring.
    + rewrite mulZ_app, mulZ_repeat. rewrite (IH n y r eq_refl) by lia.
      rewrite Nat.sub_diag. change (y ^ Z.of_nat 0) with 1. cbn [mulZ]. rewrite !Z.pow_mul_l.
      replace (Z.of_nat run) with (Z.of_nat (run - n) + Z.of_nat n) by lia.
      rewrite Z.pow_add_r by lia. ring.
Qed.

Lemma dupRuns_in n : forall l run z, In z (dupRuns n run l) -> In z l.
Proof.
  induction l as [|a l IH]; intros run z H; [destruct H|].
  cbn [dupRuns] in H. destruct l as [|y l].
  - apply repeat_spec in H. left. auto.
  - destruct (y =? a).
    + right. eapply IH; eauto.
    + apply in_app_or in H as [H|H]; [apply repeat_spec in H; left; auto|right; eapply IH; eauto].
Qed.

Lemma Sorted_SS l : Sorted Z.le l -> StronglySorted Z.le l.
Proof. apply Sorted_StronglySorted. intros a b c. apply Z.le_trans. Qed.

Lemma SS_repeat_app p k l : StronglySorted Z.le l -> Forall (fun x => p <= x) l -> StronglySorted Z.le (repeat p k ++ l).
Proof.
  intros H1 H2. induction k as [|k IH]; [assumption|]. cbn [repeat app]. constructor; [assumption|].
  apply Forall_app. split; [|assumption].
  apply Forall_forall. intros x Hx. apply repeat_spec in Hx. lia.
Qed.

Lemma dupRuns_sorted n : forall l run, StronglySorted Z.le l -> StronglySorted Z.le (dupRuns n run l).
Proof.
  induction l as [|a l IH]; intros run H; [constructor|].
  inversion H as [|? ? H1 H2]; subst. cbn [dupRuns]. destruct l as [|y l].
  - rewrite <- (app_nil_r (repeat a run)). apply SS_repeat_app; constructor.
  - destruct (y =? a); [now apply IH|]. apply SS_repeat_app; [now apply IH|].
    apply Forall_forall. intros z Hz. apply dupRuns_in in Hz. now apply (proj1 (Forall_forall _ _) H2).
Qed.

(** cancelPrimes *)
Lemma cancelPrimes_mul : forall p1 p2 a b, cancelPrimes p1 p2 = (a, b) ->
  mulZ p1 * mulZ b = mulZ a * mulZ p2 /\ incl a p1 /\ incl b p2.
Proof.
  induction p1 as [|x r1 IH1].
  - intros p2 a b E. destruct p2; cbn in E; injection E as <- <-; cbn [mulZ]; repeat split; try apply incl_refl; lia.
  - induction p2 as [|y r2 IH2]; intros a b E.
    + cbn in E. injection E as <- <-. cbn [mulZ]. repeat split; try apply incl_refl; lia.
    + cbn in E. destruct (x <? y) eqn:E1.
      * destruct (cancelPrimes r1 (y :: r2)) as [a' b'] eqn:E'. injection E as <- <-.
        apply IH1 in E' as (H1 & H2 & H3). cbn [mulZ] in *. split; [|split].
        -- rewrite <- !Z.mul_assoc, H1. ring.
        -- apply incl_cons; [left; reflexivity|]. intros z Hz. right. now apply H2.
        -- assumption.
      * destruct (y <? x) eqn:E2.
        -- specialize (IH2 (fst (cancelPrimes (x :: r1) r2)) (snd (cancelPrimes (x :: r1) r2))).
           change ((fix inner (p2 : list Z) : list Z * list Z :=
             match p2 with
             | [] => (x :: r1, [])
             | y :: r2 => if x <? y then let '(u, v) := cancelPrimes r1 p2 in (x :: u, v)
                          else if y <? x then let '(u, v) := inner r2 in (u, y :: v) else cancelPrimes r1 r2
             end) r2) with (cancelPrimes (x :: r1) r2) in E.
           destruct (cancelPrimes (x :: r1) r2) as [a' b'] eqn:E'. injection E as <- <-.
           destruct (IH2 eq_refl) as (H1 & H2 & H3). cbn [mulZ fst snd] in *. split; [|split].
           ++ replace (x * mulZ r1 * (y * mulZ b')) with (y * (x * mulZ r1 * mulZ b')) by ring. rewrite H1. ring.
           ++ assumption.
           ++ apply incl_cons; [left; reflexivity|]. intros z Hz. right. now apply H3.
        -- assert (x = y) by lia. subst y. apply IH1 in E as (H1 & H2 & H3). cbn [mulZ]. split; [|split].
           ++ replace (x * mulZ r1 * mulZ b) with (x * (mulZ r1 * mulZ b)) by ring. rewrite H1. ring.
           ++ intros z Hz. right. now apply H2.
           ++ intros z Hz. right. now apply H3.
Qed.

(** Two sorted lists have nothing in common after cancelling. *)
Lemma cancelPrimes_disj : forall p1 p2 a b, StronglySorted Z.le p1 -> StronglySorted Z.le p2 ->
  cancelPrimes p1 p2 = (a, b) -> forall z, In z a -> In z b -> False.
Proof.
  induction p1 as [|x r1 IH1].
  - intros p2 a b _ _ E. destruct p2; cbn in E; injection E as <- <-; cbn; tauto.
  - induction p2 as [|y r2 IH2]; intros a b S1 S2 E z Ha Hb.
    + cbn in E. injection E as <- <-. destruct Hb.
    + inversion S1 as [|? ? S1' F1]; subst. inversion S2 as [|? ? S2' F2]; subst.
      rewrite Forall_forall in F1, F2.
      cbn in E. destruct (x <? y) eqn:E1.
      * destruct (cancelPrimes r1 (y :: r2)) as [a' b'] eqn:E'. injection E as <- <-.
        destruct Ha as [<-|Ha]; [|now apply (IH1 _ _ _ S1' S2 E' z)].
        apply cancelPrimes_mul in E' as (_ & _ & H3). apply H3 in Hb. destruct Hb as [->|Hb]; [lia|].
        apply F2 in Hb. lia.
      * destruct (y <? x) eqn:E2.
        -- change ((fix inner (p2 : list Z) : list Z * list Z :=
             match p2 with
             | [] => (x :: r1, [])
             | y :: r2 => if x <? y then let '(u, v) := cancelPrimes r1 p2 in (x :: u, v)
                          else if y <? x then let '(u, v) := inner r2 in (u, y :: v) else cancelPrimes r1 r2
             end) r2) with (cancelPrimes (x :: r1) r2) in E.
           destruct (cancelPrimes (x :: r1) r2) as [a' b'] eqn:E'. injection E as <- <-.
           destruct Hb as [<-|Hb]; [|now apply (IH2 _ _ S1 S2' eq_refl z)].
           apply cancelPrimes_mul in E' as (_ & H2 & _). apply H2 in Ha. destruct Ha as [->|Ha]; [lia|].
           apply F1 in Ha. lia.
        -- now apply (IH1 _ _ _ S1' S2' E z).
Qed.

(** sorting *)
Lemma insertZ_perm x l : Permutation (insertZ x l) (x :: l).
Proof.
  induction l as [|y l IH]; cbn [insertZ]; [reflexivity|]. destruct (x <=? y); [reflexivity|].
  rewrite IH. apply perm_swap.
Qed.
Lemma sortZ_perm l : Permutation (sortZ l) l.
Proof. induction l as [|x l IH]; [reflexivity|]. cbn [sortZ fold_right]. rewrite insertZ_perm. now constructor. Qed.
Lemma insertZ_sorted x l : StronglySorted Z.le l -> StronglySorted Z.le (insertZ x l).
Proof.
  induction l as [|y l IH]; intros H; cbn [insertZ]; [repeat constructor|].
  inversion H as [|? ? H1 H2]; subst. destruct (x <=? y) eqn:E.
  - constructor; [assumption|]. constructor; [lia|]. eapply Forall_impl; [|exact H2]. cbn. lia.
  - constructor; [now apply IH|]. apply Forall_forall. intros z Hz.
    apply (Permutation_in z (insertZ_perm x l)) in Hz. destruct Hz as [<-|Hz]; [lia|].
    rewrite Forall_forall in H2. now apply H2.
Qed.
Lemma sortZ_sorted l : StronglySorted Z.le (sortZ l).
Proof. induction l as [|x l IH]; [constructor|]. cbn [sortZ fold_right]. now apply insertZ_sorted. Qed.

(** extractPrimes *)
Lemma extractPrimes_mul d : 0 < d -> forall l prime cnt pend a b,
  0 <= cnt -> pend = repeat prime (Z.to_nat cnt) ->
  extractPrimes d prime cnt pend l = (a, b) ->
  mulZ pend * mulZ l = mulZ a * mulZ b ^ d.
Proof.
  intros Hd. induction l as [|x r IH]; intros prime cnt pend a b Hc Hp E; cbn [extractPrimes] in E.
  - injection E as <- <-. cbn [mulZ]. rewrite Z.pow_1_l by lia. ring.
  - destruct (prime =? x) eqn:Ex; cbn [negb] in E.
    + assert (x = prime) by lia. subst x.
      destruct (cnt + 1 =? d) eqn:Ed.
      * destruct (extractPrimes d prime 0 [] r) as [a' b'] eqn:E'. injection E as <- <-.
        apply IH in E'; [|lia|reflexivity]. cbn [mulZ] in *. rewrite Z.mul_1_l in E'.
        rewrite E', Hp, mulZ_repeat, Z.pow_mul_l. replace d with (cnt + 1) by lia.
        rewrite Z2Nat.id by lia. rewrite (Z.pow_add_r prime cnt 1) by lia. rewrite Z.pow_1_r. ring.
      * apply IH in E; [|lia|].
        -- cbn [mulZ]. rewrite <- E, mulZ_app. cbn [mulZ]. ring.
        -- rewrite Hp. replace (Z.to_nat (cnt + 1)) with (Z.to_nat cnt + 1)%nat by lia. now rewrite repeat_app.
    + destruct (extractPrimes d x 1 [x] r) as [a' b'] eqn:E'. injection E as <- <-.
      apply IH in E'; [|lia|reflexivity]. cbn [mulZ] in *. rewrite mulZ_app, <- Z.mul_assoc, <- E'. ring.
Qed.

Lemma extractPrimes_in d : forall l prime cnt pend a b,
  extractPrimes d prime cnt pend l = (a, b) ->
  (forall z, In z a -> In z pend \/ In z l) /\ (forall z, In z b -> In z l).
Proof.
  induction l as [|x r IH]; intros prime cnt pend a b E; cbn [extractPrimes] in E.
  - injection E as <- <-. cbn. tauto.
  - destruct (prime =? x) eqn:Ex; cbn [negb] in E.
    + assert (x = prime) by lia. subst x. destruct (cnt + 1 =? d) eqn:Ed.
      * destruct (extractPrimes d prime 0 [] r) as [a' b'] eqn:E'. injection E as <- <-.
        apply IH in E' as [H1 H2]. split; intros z Hz.
        -- apply H1 in Hz as [[]|Hz]. right. now right.
        -- destruct Hz as [<-|Hz]; [now left|right; now apply H2].
      * apply IH in E as [H1 H2]. split; intros z Hz.
        -- apply H1 in Hz as [Hz|Hz]; [|right; now right].
           apply in_app_or in Hz as [Hz|[<-|[]]]; [now left|right; now left].
        -- right. now apply H2.
    + destruct (extractPrimes d x 1 [x] r) as [a' b'] eqn:E'. injection E as <- <-.
      apply IH in E' as [H1 H2]. split; intros z Hz.
      * apply in_app_or in Hz as [Hz|Hz]; [now left|]. apply H1 in Hz as [[<-|[]]|Hz]; right; [now left|now right].
      * right. now apply H2.
Qed.

Lemma extractPrimes_sorted d : forall l prime cnt pend a b,
  pend = repeat prime (Z.to_nat cnt) -> 0 <= cnt ->
  Forall (fun z => prime <= z) l -> StronglySorted Z.le l ->
  extractPrimes d prime cnt pend l = (a, b) -> StronglySorted Z.le a.
Proof.
  induction l as [|x r IH]; intros prime cnt pend a b Hp Hc Hge Hs E; cbn [extractPrimes] in E.
  - injection E as <- <-. rewrite Hp, <- (app_nil_r (repeat _ _)). apply SS_repeat_app; constructor.
  - inversion Hs as [|? ? Hs' Hx]; subst. inversion Hge; subst.
    destruct (prime =? x) eqn:Ex; cbn [negb] in E.
    + assert (x = prime) by lia. subst x. destruct (cnt + 1 =? d) eqn:Ed.
      * destruct (extractPrimes d prime 0 [] r) as [a' b'] eqn:E'. injection E as <- <-.
        apply IH in E'; try assumption; [reflexivity|lia].
      * apply IH in E; try assumption; [|lia].
        replace (Z.to_nat (cnt + 1)) with (Z.to_nat cnt + 1)%nat by lia. now rewrite repeat_app.
    + destruct (extractPrimes d x 1 [x] r) as [a' b'] eqn:E'. injection E as <- <-.
      pose proof (extractPrimes_in _ _ _ _ _ _ _ E') as [Hin _].
      apply IH in E'; try assumption; [|reflexivity|lia].
      apply SS_repeat_app; [assumption|]. apply Forall_forall. intros z Hz.
      apply Hin in Hz as [[<-|[]]|Hz]; [lia|]. rewrite Forall_forall in Hx. apply Hx in Hz. lia.
Qed.

Definition countZ (z : Z) (l : list Z) : nat := count_occ Z.eq_dec l z.

Lemma countZ_repeat z p k : countZ z (repeat p k) = if Z.eq_dec p z then k else 0%nat.
Proof.
  unfold countZ. induction k as [|k IH]; cbn [repeat count_occ].
  - now destruct (Z.eq_dec p z).
  - rewrite IH. now destruct (Z.eq_dec p z).
Qed.
Lemma countZ_app z a b : countZ z (a ++ b) = (countZ z a + countZ z b)%nat.
Proof. apply count_occ_app. Qed.
Lemma countZ_zero z l : ~ In z l -> countZ z l = 0%nat.
Proof. apply count_occ_not_In. Qed.

(** What remains after extraction contains less than d copies of each prime. *)
Lemma extractPrimes_count d : 1 < d -> forall l prime cnt pend a b z,
  pend = repeat prime (Z.to_nat cnt) -> 0 <= cnt < d ->
  Forall (fun z => prime <= z) l -> StronglySorted Z.le l ->
  extractPrimes d prime cnt pend l = (a, b) -> Z.of_nat (countZ z a) < d.
Proof.
  intros Hd. induction l as [|x r IH]; intros prime cnt pend a b z Hp Hc Hge Hs E; cbn [extractPrimes] in E.
  - injection E as <- <-. rewrite Hp, countZ_repeat. destruct (Z.eq_dec prime z); lia.
  - inversion Hs as [|? ? Hs' Hx]; subst. inversion Hge; subst.
    destruct (prime =? x) eqn:Ex; cbn [negb] in E.
    + assert (x = prime) by lia. subst x. destruct (cnt + 1 =? d) eqn:Ed.
      * destruct (extractPrimes d prime 0 [] r) as [a' b'] eqn:E'. injection E as <- <-.
        apply IH with (z := z) in E'; try assumption; [reflexivity|lia].
      * apply IH with (z := z) in E; try assumption; [|lia].
        replace (Z.to_nat (cnt + 1)) with (Z.to_nat cnt + 1)%nat by lia. now rewrite repeat_app.
    + destruct (extractPrimes d x 1 [x] r) as [a' b'] eqn:E'. injection E as <- <-.
      pose proof (extractPrimes_in _ _ _ _ _ _ _ E') as [Hin _].
      apply IH with (z := z) in E'; try assumption; [|reflexivity|lia].
      rewrite countZ_app, countZ_repeat. destruct (Z.eq_dec prime z) as [<-|]; [|lia].
      rewrite countZ_zero; [lia|]. intros Hz.
      apply Hin in Hz as [[<-|[]]|Hz]; [lia|]. rewrite Forall_forall in Hx. apply Hx in Hz. lia.
Qed.

(** ** Blocks *)
Fixpoint blow (g : nat) (hs : list Z) : list Z :=
  match hs with [] => [] | h :: r => repeat h g ++ blow g r end.

Lemma blow_mul g hs : mulZ (blow g hs) = mulZ hs ^ Z.of_nat g.
Proof.
  induction hs as [|h r IH]; cbn [blow mulZ].
  - now rewrite Z.pow_1_l by lia.
  - now rewrite mulZ_app, mulZ_repeat, IH, Z.pow_mul_l.
Qed.
Lemma blow_count g hs z : countZ z (blow g hs) = (g * countZ z hs)%nat.
Proof.
  induction hs as [|h r IH]; cbn [blow].
  - unfold countZ. cbn. lia.
  - rewrite countZ_app, countZ_repeat, IH. unfold countZ. cbn [count_occ].
    destruct (Z.eq_dec h z); lia.
Qed.

Lemma sorted_const_block (l : list Z) g x : (0 < g)%nat -> (g <= length l)%nat -> StronglySorted Z.le l ->
  hd 0 l = x -> nth (g - 1) l 0 = x -> firstn g l = repeat x g.
Proof.
  revert l. induction g as [|g IH]; intros l Hg Hl Hs Hh Hn; [lia|].
  destruct l as [|y l]; cbn [length] in Hl; [lia|]. cbn [hd] in Hh. subst y.
  cbn [firstn repeat]. f_equal. destruct g as [|g]; [reflexivity|].
  inversion Hs as [|? ? Hs' Hx]; subst. destruct l as [|y l]; cbn [length] in Hl; [lia|].
  replace (S (S g) - 1)%nat with (S g) in Hn by lia.
  change (nth g (y :: l) 0 = x) in Hn.
  assert (y = x).
  { inversion Hx; subst.
    assert (Hyn : y <= nth g (y :: l) 0).
    { destruct g; [cbn; lia|]. cbn [nth]. inversion Hs' as [|? ? _ Hy]; subst.
      rewrite Forall_forall in Hy. apply Hy. apply nth_In. cbn [length] in Hl. lia. }
    lia. }
  subst y. apply IH; try assumption; try reflexivity; try (cbn [length]; lia).
  now replace (S g - 1)%nat with g by lia.
Qed.

Lemma SS_skipn k (l : list Z) : StronglySorted Z.le l -> StronglySorted Z.le (skipn k l).
Proof.
  revert l. induction k as [|k IH]; intros l H; [assumption|].
  destruct l as [|x l]; [constructor|]. cbn [skipn]. inversion H; subst. now apply IH.
Qed.

Lemma blocksEqual_blow g : (0 < g)%nat -> forall fuel l, (exists m, length l = m * g)%nat ->
  StronglySorted Z.le l -> blocksEqual fuel g l = true -> exists hs, l = blow g hs.
Proof.
  intros Hg. induction fuel as [|f IH]; intros l [m Hm] Hs H.
  - destruct l; [exists []; reflexivity|discriminate].
  - destruct l as [|x r] eqn:El; [exists []; reflexivity|]. rewrite <- El in *.
    assert (Hlen : (g <= length l)%nat).
    { destruct m; [rewrite El in Hm; cbn in Hm; lia|]. lia. }
    assert (Hb : (x =? nth (g - 1) l 0) && blocksEqual f g (skipn g l) = true).
    { revert H. rewrite El at 1 2. cbn [blocksEqual]. now rewrite <- El. }
    apply andb_true_iff in Hb as [Hb1 Hb2].
    destruct (IH (skipn g l)) as [hs Hhs]; try assumption.
    + exists (m - 1)%nat. rewrite skipn_length, Hm. nia.
    + now apply SS_skipn.
    + exists (x :: hs). cbn [blow]. rewrite <- Hhs, <- (firstn_skipn g l) at 1. f_equal.
      apply sorted_const_block; try assumption; [now rewrite El|lia].
Qed.

Lemma runLen_spec x l : exists r, l = repeat x (runLen x l) ++ r /\ hd (x + 1) r <> x.
Proof.
  induction l as [|y l [r [IH1 IH2]]]; cbn [runLen].
  - exists []. split; [reflexivity|]. cbn [hd]. lia.
  - destruct (y =? x) eqn:E.
    + assert (y = x) by lia. subst y. exists r. cbn [repeat app]. now rewrite <- IH1.
    + exists (y :: l). split; [reflexivity|]. cbn [hd]. lia.
Qed.

(** A list with equal count c > 1 consists of blocks of c equal primes, the first prime
    occurring in the first block only. *)
Lemma equalCountOf_blow l : StronglySorted Z.le l -> l <> [] -> (1 < equalCountOf l)%nat ->
  exists h hs, l = blow (equalCountOf l) (h :: hs) /\ ~ In h hs.
Proof.
  intros Hs Hne Hc. unfold equalCountOf in *.
  set (g := runLen (hd 0 l) l) in *.
  destruct (Nat.eqb (Nat.modulo (length l) g) 0) eqn:Em; cbn [negb] in *; [|lia].
  destruct (Nat.eqb g 1) eqn:E1; [lia|].
  destruct (blocksEqual (length l) g (skipn g l)) eqn:Eb; [|lia].
  destruct (runLen_spec (hd 0 l) l) as [r [Hr1 Hr2]]. fold g in Hr1.
  assert (Hlr : length l = (g + length r)%nat) by (rewrite Hr1 at 1; now rewrite app_length, repeat_length).
  assert (Hsk : skipn g l = r).
  { rewrite Hr1 at 1. rewrite skipn_app, repeat_length, Nat.sub_diag. cbn [skipn].
    rewrite skipn_all2; [reflexivity|]. rewrite repeat_length. lia. }
  rewrite Hsk in Eb.
  assert (Hsr : StronglySorted Z.le r) by (rewrite <- Hsk; now apply SS_skipn).
  destruct (blocksEqual_blow g ltac:(lia) (length l) r) as [hs Hhs]; try assumption.
  { apply Nat.eqb_eq, Nat.mod_divides in Em as [m Hm]; [|lia].
    exists (m - 1)%nat. nia. }
  exists (hd 0 l), hs. split.
  - cbn [blow]. rewrite <- Hhs. exact Hr1.
  - intros Hin. destruct hs as [|h1 hs]; [destruct Hin|].
    assert (Hh1 : hd (hd 0 l + 1) r = h1).
    { rewrite Hhs. cbn [blow]. destruct g; [lia|]. reflexivity. }
    assert (Hle : hd 0 l <= h1).
    { rewrite Hr1 in Hs at 1.
      assert (Hx : In h1 r) by (rewrite Hhs; cbn [blow]; destruct g; [lia|]; left; reflexivity).
      destruct g as [|g']; [lia|]. cbn [repeat app] in Hs. inversion Hs as [|? ? _ HF]; subst.
      rewrite Forall_forall in HF. apply HF. apply in_or_app. now right. }
    assert (Hge : h1 <= hd 0 l).
    { assert (Hx : In (hd 0 l) r).
      { rewrite Hhs. clear -Hin Hc. assert (0 < g)%nat as Hg by lia. clear Hc.
        induction (h1 :: hs) as [|a t IH]; [destruct Hin|]. cbn [blow]. apply in_or_app.
        destruct Hin as [<-|Hin]; [left|right; now apply IH]. destruct g; [lia|]. left. reflexivity. }
      assert (Hr' : exists t, r = h1 :: t).
      { rewrite Hhs. cbn [blow]. destruct g; [lia|]. cbn. eexists. reflexivity. }
      destruct Hr' as [t Ht]. rewrite Ht in Hx, Hsr. apply StronglySorted_inv in Hsr as [_ HF].
      destruct Hx as [Hx|Hx]; [lia|]. rewrite Forall_forall in HF. now apply HF. }
    apply Hr2. lia.
Qed.

Lemma uniq_blow g hs : (0 < g)%nat -> NoDup hs -> uniq (blow g hs) = hs.
Proof.
  intros Hg. induction 1 as [|h r Hn Hnd IH]; [reflexivity|]. cbn [blow].
  assert (Haux : forall k, uniq (repeat h (S k) ++ blow g r) = h :: uniq (blow g r)).
  { induction k as [|k IHk].
    - cbn [repeat app]. destruct r as [|h2 r]; [reflexivity|].
      cbn [blow]. destruct g as [|g']; [lia|]. cbn [repeat app].
      change (uniq (h :: h2 :: repeat h2 g' ++ blow (S g') r)) with
        (if h =? h2 then uniq (h2 :: repeat h2 g' ++ blow (S g') r) else h :: uniq (h2 :: repeat h2 g' ++ blow (S g') r)).
      destruct (h =? h2) eqn:E; [|reflexivity].
      exfalso. apply Hn. left. lia.
    - cbn [repeat app] in *.
      change (uniq (h :: h :: repeat h k ++ blow g r)) with
        (if h =? h then uniq (h :: repeat h k ++ blow g r) else h :: uniq (h :: repeat h k ++ blow g r)).
      now rewrite Z.eqb_refl, IHk. }
  destruct g as [|g']; [lia|]. rewrite Haux. now rewrite IH.
Qed.
