(** Proofs behind PropExpr: corollaries and witnesses. *)
From Coq Require Import Permutation Sorted.
From Verif Require Import ExprModel ExprSpec ExprProofs OrderModel OrderProofs DoubleModel.
From Coq Require Import Lia QArith Qreduction.
Open Scope Z_scope.

Definition xA := Sym (nm "a"%string) false.
Definition xB := Sym (nm "b"%string) false.
Definition xC := Sym (nm "c"%string) false.

Lemma equality_decides a b : defined a -> (isEqual a b = true <-> a = b).
Proof. intros H. apply isEqual_iff. now apply defined_noUndef. Qed.

Lemma equality_reflexive a : isEqual a a = true <-> defined a.
Proof.
  rewrite defined_noUndef. split; [apply isEqual_self_noUndef | apply isEqual_refl].
Qed.

Lemma equality_transitive a b c : isEqual a b = true -> isEqual b c = true -> isEqual a c = true.
Proof. intros H1 H2. apply isEqual_eq in H1 as ->. exact H2. Qed.

Lemma undefined_unequal a : isEqual Undef a = false /\ isEqual a Undef = false.
Proof. destruct a; now cbn. Qed.

Lemma equal_hash (h : Type) (H : hashes h) a b : isEqual a b = true -> hashPtr H a = hashPtr H b.
Proof. intros E. now apply isEqual_eq in E as ->. Qed.

Lemma order_total (N : Q -> Prop) (nlt : Q -> Q -> bool) : N 1%Q -> strictTotal N (fun p q => nlt p q = true) ->
  strictTotal (orderable N) (fun a b => a <> b /\ isCorrect nlt a b = true).
Proof.
  intros N1 Hn. pose proof (order_strictTotal nlt N Hn N1) as T.
  assert (E : forall a b, orderable N a -> less nlt a b = true <-> a <> b /\ isCorrect nlt a b = true).
  { intros a b Ha. unfold less, isDifferent. rewrite andb_true_iff, negb_true_iff.
    rewrite isEqual_false by (eapply orderable_noUndef; eassumption). tauto. }
  constructor.
  - intros a Ha [H _]. now apply H.
  - intros a b c Ha Hb Hc. rewrite <- !E by assumption. now apply (st_trans _ _ T).
  - intros a b Ha Hb H. rewrite <- !E by assumption. now apply (st_total _ _ T).
Qed.

Lemma exact_numerics : strictTotal (fun q => Qred q = q) (fun p q => qltb p q = true).
Proof.
  constructor.
  - intros [n d] _. unfold qltb. cbn. lia.
  - intros [n d] [m e] [k f] _ _ _. unfold qltb. cbn. rewrite !Z.ltb_lt. nia.
  - intros p q Hp Hq Npq. unfold qltb. rewrite !Z.ltb_lt.
    destruct (Z.lt_trichotomy (Qnum p * Z.pos (Qden q)) (Qnum q * Z.pos (Qden p))) as [H | [H | H]]; auto.
    exfalso. apply Npq. rewrite <- Hp, <- Hq. apply Qred_complete. exact H.
Qed.

Lemma sorted_unique (N : Q -> Prop) (nlt : Q -> Q -> bool) l m :
  N 1%Q -> strictTotal N (fun p q => nlt p q = true) ->
  (forall x, In x l -> orderable N x) -> Permutation l m ->
  StronglySorted (fun a b => a <> b /\ isCorrect nlt a b = true) l ->
  StronglySorted (fun a b => a <> b /\ isCorrect nlt a b = true) m -> l = m.
Proof.
  intros N1 Hn. pose proof (order_total N nlt N1 Hn) as T. revert m.
  induction l as [|x xs IH]; intros m Hok P Sl Sm.
  - apply Permutation_nil in P. now subst.
  - destruct m as [|y ys].
    { symmetry in P. apply Permutation_nil in P. discriminate. }
    inversion Sl as [|? ? Sl' Fl]; subst. inversion Sm as [|? ? Sm' Fm]; subst.
    rewrite Forall_forall in Fl, Fm.
    assert (Hm : forall z, In z (y :: ys) -> orderable N z).
    { intros z Hz. apply Hok. eapply Permutation_in; [symmetry; exact P | exact Hz]. }
    assert (E : x = y).
    { destruct (expr_eq_dec x y) as [E | Nxy]; [exact E|exfalso].
      assert (Hx : In x ys).
      { assert (In x (y :: ys)) as [A | A] by (eapply Permutation_in; [exact P | now left]); congruence. }
      assert (Hy : In y xs).
      { assert (In y (x :: xs)) as [A | A] by (eapply Permutation_in; [symmetry; exact P | now left]); congruence. }
      apply (st_irrefl _ _ T x (Hok x (or_introl eq_refl))).
      apply (st_trans _ _ T x y x); auto; try (apply Hok; cbn; auto). }
    subst. f_equal. apply IH; auto.
    + intros z Hz. apply Hok. now right.
    + eapply Permutation_cons_inv; eassumption.
Qed.

Lemma atan2_order nlt :
  let a := Fct FAtan2 [xA; xB] in let b := Fct FAtan2 [xA; xC] in
  a <> b /\ isCorrect nlt a b = true /\ isCorrect nlt b a = true /\
  let p := Prod [xA; a] in let q := Prod [xA; b] in
  p <> q /\ isCorrect nlt p q = false /\ isCorrect nlt q p = false.
Proof. cbv. repeat split; discriminate. Qed.

Lemma double_order :
  let a := Num (9007199254740992 # 1) in let b := Num (9007199254740993 # 1) in
  a <> b /\ isCorrect dLt a b = true /\ isCorrect dLt b a = true.
Proof. cbv zeta. split; [discriminate|]. split; vm_compute; reflexivity. Qed.

Lemma double_equality_refuted : exists a b c, numberEq a b = true /\ numberEq b c = true /\ numberEq a c = false /\
  exists x y z, a = NDbl x /\ b = NDbl y /\ c = NDbl z /\
    doubleToFraction x = None /\ doubleToFraction y = None /\ doubleToFraction z = None.
Proof.
  exists (NDbl (S754_finite false 6004799503160661 (-54))), (NDbl (S754_finite false 6004799503160961 (-54))),
    (NDbl (S754_finite false 6004799503161261 (-54))).
  split; [vm_compute; reflexivity|]. split; [vm_compute; reflexivity|]. split; [vm_compute; reflexivity|].
  eexists _, _, _. split; [reflexivity|]. split; [reflexivity|]. split; [reflexivity|].
  split; [vm_compute; reflexivity|]. split; vm_compute; reflexivity.
Qed.

Lemma double_hash_refuted : exists x, doubleToFraction x = None /\ numberEq (NRat (1 # 3)) (NDbl x) = true /\
  numberHash (fun a b : list Z => a ++ b) [] (fun _ => []) (fun z => [z]) (NRat (1 # 3)) <>
  numberHash (fun a b : list Z => a ++ b) [] (fun _ => []) (fun z => [z]) (NDbl x).
Proof.
  exists (S754_finite false 6004799503160661 (-54)).
  split; [vm_compute; reflexivity|]. split; [vm_compute; reflexivity|]. cbv. discriminate.
Qed.

Lemma order_example :
  orderable (fun q => Qred q = q) (Sum [Num 2; xA; Prod [Num (1 # 2); Pow xB (Num 2); Fct FSin [xA]]]) /\
  isCorrect qltb (Pow xA (Num 2)) (Prod [xA; xB]) = true /\ isCorrect qltb (Prod [xA; xB]) (Pow xA (Num 2)) = false.
Proof.
  split; [|now cbv]. constructor. intros z [<- | [<- | [<- | []]]].
  - now constructor.
  - constructor.
  - constructor. intros z [<- | [<- | [<- | []]]]; [now constructor| |].
    + constructor; [discriminate|constructor|now constructor].
    + constructor. constructor.
Qed.

Lemma names_total : strictTotal (fun _ => True) (fun a b => nameLt a b = true) /\
  (forall a b, nameEq a b = true <-> a = b) /\
  (forall a b, nameGt a b = true <-> nameLt b a = true) /\
  (forall a b, nameLe a b = true <-> nameLt a b = true \/ a = b) /\
  (forall a b, nameGe a b = true <-> nameLt b a = true \/ a = b) /\
  (forall a b, nameNe a b = true <-> a <> b).
Proof.
  assert (L : forall a b, nameLe a b = true <-> nameLt a b = true \/ a = b).
  { intros a b. unfold nameLe, nameGt. rewrite negb_true_iff. split.
    - intros H. destruct (nameLt a b) eqn:E; [now left | right]. now apply nameLt_tri.
    - intros [H | <-]; [now apply nameLt_asym | apply nameLt_irrefl]. }
  split; [|split; [|split; [|split; [|split]]]].
  - constructor.
    + intros a _. rewrite nameLt_irrefl. discriminate.
    + intros a b c _ _ _. apply nameLt_trans.
    + intros a b _ _ N. destruct (nameLt a b) eqn:E; [now left|]. destruct (nameLt b a) eqn:F; [now right|].
      contradict N. now apply nameLt_tri.
  - apply nameEq_eq.
  - reflexivity.
  - exact L.
  - intros a b. change (nameGe a b) with (nameLe b a). rewrite L. split; intros [H | H]; auto.
  - intros a b. unfold nameNe. rewrite negb_true_iff. apply nameEq_neq.
Qed.
