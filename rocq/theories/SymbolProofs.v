(** Symbols: identity of named symbols, freshness of temporary ones. *)
From Verif Require Import ExprModel ExprProofs SymbolModel.
From Coq Require Import Lia DecimalString DecimalN DecimalFacts.
Open Scope Z_scope.

Definition poolOk (s : pstate) : Prop :=
  forall k e, In (k, e) (p_pool s) -> e = Sym (fst k) (snd k).

Lemma poolFind_in pool n pos e : poolFind pool n pos = Some e -> In ((n, pos), e) pool.
Proof.
  induction pool as [|[[m q] x] rest IH]; cbn; [discriminate|].
  destruct (nameEq m n && Bool.eqb q pos) eqn:E; [|intros H; right; auto].
  apply andb_true_iff in E as [E1 E2]. apply nameEq_eq in E1 as ->. apply Bool.eqb_prop in E2 as ->.
  intros [= ->]. now left.
Qed.

Lemma poolOk_createNonEmpty s n pos : poolOk s ->
  poolOk (fst (createNonEmptyName s n pos)) /\ snd (createNonEmptyName s n pos) = Sym n pos.
Proof.
  intros H. unfold createNonEmptyName. destruct (poolFind (p_pool s) n pos) eqn:E; cbn.
  - split; [exact H|]. apply poolFind_in, H in E. exact E.
  - split; [|reflexivity]. intros k e [[= <- <-] | K]; [reflexivity | now apply H].
Qed.

Lemma poolOk_step s o : poolOk s -> poolOk (sstep s o).
Proof.
  intros H. destruct o as [n pos|pos|h]; cbn.
  - unfold createSym. destruct (strEq _ _); [exact H|]. destruct (String.prefix _ _); [exact H|].
    now apply poolOk_createNonEmpty.
  - exact H.
  - unfold dropTmp. destruct (List.find _ _) as [[? []]|]; exact H.
Qed.

Lemma poolOk_run l : poolOk (srun l).
Proof.
  unfold srun. assert (G : forall s, poolOk s -> poolOk (fold_left sstep l s)).
  { induction l as [|o l IH]; cbn; [auto|]. intros s Hs. apply IH, poolOk_step, Hs. }
  apply G. intros k e [].
Qed.

(** Names that a user can give to a symbol. *)
Definition regular (n : name) : Prop :=
  nvalue n <> EmptyString /\ String.prefix tmpPrefix (nvalue n) = false.

Lemma create_regular s n pos : poolOk s -> regular n -> snd (createSym s n pos) = Sym n pos.
Proof.
  intros Hs [H1 H2]. unfold createSym. destruct (strEq (nvalue n) "") eqn:E.
  { apply strEq_eq in E. contradiction. }
  rewrite H2. now apply poolOk_createNonEmpty.
Qed.

(** ** Temporary symbols *)
Lemma string_app_inj p a b : (p ++ a)%string = (p ++ b)%string -> a = b.
Proof. induction p as [|c p IH]; cbn; [auto|]. intros [= H]. auto. Qed.

Lemma toString_inj a b : toString a = toString b -> a = b.
Proof.
  unfold toString. intros H. apply Unsigned.to_uint_inj.
  assert (Na : N.to_uint a <> Decimal.Nil) by (destruct a; cbn; [discriminate|apply DecimalPos.Unsigned.to_uint_nonnil]).
  assert (Nb : N.to_uint b <> Decimal.Nil) by (destruct b; cbn; [discriminate|apply DecimalPos.Unsigned.to_uint_nonnil]).
  apply (f_equal NilZero.uint_of_string) in H.
  rewrite !NilZero.usu in H by assumption. congruence.
Qed.

Lemma tmpName_inj a b : 0 <= a -> 0 <= b -> tmpName a = tmpName b -> a = b.
Proof.
  unfold tmpName, nm. intros Ha Hb [= H]. apply toString_inj in H. lia.
Qed.

Lemma prefix_tmp id : String.prefix tmpPrefix (nvalue (tmpName id)) = true.
Proof. cbn. destruct (toString (Z.to_N id)); reflexivity. Qed.

(** The live temporary symbols of a history in which the youngest is always dropped first are
    numbered 1, 2, ..., k. *)
Definition stacked (s : pstate) : Prop :=
  p_ctr s = Z.of_nat (length (p_live s)) /\
  (forall h e, In (h, e) (p_live s) -> (h < p_next s)%nat) /\
  NoDup (map fst (p_live s)) /\
  (forall i h e, nth_error (rev (p_live s)) i = Some (h, e) -> exists pos, e = Sym (tmpName (Z.of_nat (S i))) pos).

(** Dropping the youngest live temporary symbol. *)
Definition dropsYoungest (s : pstate) (o : sop) : Prop :=
  match o with
  | ODrop h => match p_live s with [] => True | (h', _) :: _ => h = h' end
  | _ => True
  end.

Fixpoint lifo (s : pstate) (l : list sop) : Prop :=
  match l with
  | [] => True
  | o :: rest => dropsYoungest s o /\ lifo (sstep s o) rest
  end.

(** Not more than 2^32 - 1 temporary symbols alive. *)
Fixpoint fewLive (s : pstate) (l : list sop) : Prop :=
  Z.of_nat (length (p_live s)) < 4294967295 /\
  match l with [] => True | o :: rest => fewLive (sstep s o) rest end.

Lemma stacked_tmp s pos : stacked s -> Z.of_nat (length (p_live s)) < 4294967295 ->
  stacked (fst (createTmp s pos)) /\
  snd (createTmp s pos) = Sym (tmpName (Z.of_nat (S (length (p_live s))))) pos.
Proof.
  intros (Hc & Hn & Hd & Hi) Hf. unfold createTmp. rewrite Hc.
  assert (W : wrap (Z.of_nat (length (p_live s)) + 1) = Z.of_nat (S (length (p_live s)))).
  { unfold wrap. rewrite Z.mod_small; lia. }
  rewrite W. cbn. split; [|reflexivity]. unfold stacked; cbn [p_ctr p_live p_next p_pool].
  split; [reflexivity|]. split; [|split].
  - intros h e [[= <- <-] | K]; [lia|]. specialize (Hn _ _ K). lia.
  - cbn. constructor; [|exact Hd]. intros K. apply in_map_iff in K as [[h e] [E K]]. cbn in E. subst.
    specialize (Hn _ _ K). lia.
  - intros i h e. cbn [rev]. destruct (Nat.lt_ge_cases i (length (rev (p_live s)))) as [L | L].
    + rewrite nth_error_app1 by exact L. apply Hi.
    + rewrite nth_error_app2 by exact L. rewrite rev_length in *.
      destruct (i - length (p_live s))%nat as [|j] eqn:E; cbn; [|destruct j; discriminate].
      intros [= <- <-]. exists pos. do 3 f_equal. lia.
Qed.

Lemma stacked_step s o : stacked s -> dropsYoungest s o -> Z.of_nat (length (p_live s)) < 4294967295 ->
  stacked (sstep s o).
Proof.
  intros Hs Hd Hf. destruct o as [n pos|pos|h]; cbn [sstep].
  - unfold createSym. destruct (strEq _ _); [exact Hs|]. destruct (String.prefix _ _).
    + now apply stacked_tmp.
    + unfold createNonEmptyName. destruct (poolFind _ _ _); exact Hs.
  - now apply stacked_tmp.
  - destruct Hs as (Hc & Hn & Hu & Hi). cbn in Hd. unfold dropTmp.
    destruct (p_live s) as [|[h' e] rest] eqn:EL; cbn.
    { unfold stacked. rewrite EL. auto. }
    subst h'. rewrite Nat.eqb_refl.
    destruct (Hi (length rest) h e) as [pos ->].
    { cbn. rewrite nth_error_app2 by (rewrite rev_length; lia). rewrite rev_length, Nat.sub_diag. reflexivity. }
    rewrite prefix_tmp. cbn.
    assert (F : filter (fun p : nat * expr => negb (fst p =? h)%nat) rest = rest).
    { cbn in Hu. inversion Hu as [|? ? Hx Hu']; subst. clear -Hx.
      induction rest as [|[k x] r IH]; cbn; [reflexivity|].
      destruct (Nat.eqb_spec k h) as [-> | N]; cbn.
      - exfalso. apply Hx. now left.
      - f_equal. apply IH. intros K. apply Hx. now right. }
    rewrite F. unfold stacked; cbn [p_ctr p_live p_next].
    cbn [length] in *. split; [|split; [|split]].
    + rewrite Hc. unfold wrap. rewrite Z.mod_small; lia.
    + intros k x K. apply (Hn k x). now right.
    + now inversion Hu.
    + intros i k x K. apply (Hi i k x). cbn.
      assert (L : (i < length (rev rest))%nat) by (apply nth_error_Some; congruence).
      now rewrite nth_error_app1.
Qed.

Lemma stacked_run l : forall s, stacked s -> lifo s l -> fewLive s l -> stacked (fold_left sstep l s) /\
  Z.of_nat (length (p_live (fold_left sstep l s))) < 4294967295.
Proof.
  induction l as [|o l IH]; cbn; intros s Hs.
  - intros _ [H _]. auto.
  - intros [H1 H2] [H3 H4]. apply IH; auto. now apply stacked_step.
Qed.

Lemma stacked_init : stacked pinit.
Proof.
  split; [reflexivity|]. split; [intros ? ? []|]. split; [constructor|]. intros [|i] h e; discriminate.
Qed.

(** ** The statements of PropSymbol *)
Lemma symbol_name history n p :
  (nvalue n <> EmptyString -> String.prefix "tmp#" (nvalue n) = false ->
    snd (createSym (srun history) n p) = Sym n p) /\
  (nvalue n = EmptyString -> snd (createSym (srun history) n p) = Undef).
Proof.
  split.
  - intros H1 H2. apply create_regular; [apply poolOk_run | split; assumption].
  - intros H. unfold createSym. rewrite H. reflexivity.
Qed.

Lemma symbol_identity history1 history2 n1 p1 n2 p2 :
  (nvalue n1 <> EmptyString /\ String.prefix "tmp#" (nvalue n1) = false) ->
  (nvalue n2 <> EmptyString /\ String.prefix "tmp#" (nvalue n2) = false) ->
  isEqual (snd (createSym (srun history1) n1 p1)) (snd (createSym (srun history2) n2 p2)) = true <->
  n1 = n2 /\ p1 = p2.
Proof.
  intros [A B] [C D].
  rewrite (proj1 (symbol_name history1 n1 p1) A B), (proj1 (symbol_name history2 n2 p2) C D).
  rewrite isEqual_iff by reflexivity. split; [intros [= -> ->]; auto | intros [-> ->]; auto].
Qed.

Lemma named_not_temporary history1 history2 n p q :
  (nvalue n <> EmptyString /\ String.prefix "tmp#" (nvalue n) = false) ->
  isEqual (snd (createSym (srun history1) n p)) (snd (createTmp (srun history2) q)) = false.
Proof.
  intros [A B]. rewrite (proj1 (symbol_name history1 n p) A B).
  apply isEqual_false; [reflexivity|]. unfold createTmp. cbn [snd]. intros [= -> _].
  change "tmp#"%string with tmpPrefix in B. rewrite prefix_tmp in B. discriminate.
Qed.

Lemma fresh_refuted : exists history h e,
  In (h, e) (p_live (srun history)) /\ isEqual (snd (createTmp (srun history) false)) e = true.
Proof.
  exists [OTmp false; OTmp false; ODrop 0], 1%nat, (Sym (tmpName 2) false).
  split; [now left | reflexivity].
Qed.

Lemma fresh_lifo history h e pos :
  lifo pinit history -> fewLive pinit history ->
  In (h, e) (p_live (srun history)) ->
  isEqual (snd (createTmp (srun history) pos)) e = false.
Proof.
  intros Hl Hf Hin. destruct (stacked_run history pinit stacked_init Hl Hf) as [Hs Hlt].
  fold (srun history) in Hs, Hlt.
  destruct (stacked_tmp _ pos Hs Hlt) as [_ ->].
  apply isEqual_false; [reflexivity|]. intros <-.
  apply in_rev in Hin. apply In_nth_error in Hin as [i Hi].
  destruct Hs as (_ & _ & _ & Hs). destruct (Hs _ _ _ Hi) as [q [= E _]].
  assert (L : (i < length (rev (p_live (srun history))))%nat) by (apply nth_error_Some; congruence).
  rewrite rev_length in L. apply toString_inj in E. lia.
Qed.
