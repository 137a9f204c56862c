(** Simplified expressions that denote polynomials, also such that aren't expanded: sums, products and
    powers of these.  Signs, powers and products always end with a result and rely on nothing but facts of
    the kind [CEven]. *)
From Verif Require Import LaurentSpec LaurentOrder LaurentProd ExprProofs NumberProofs OrderModel OrderProofs World.
From Coq Require Import Lia Bool Permutation.
From Verif Require Import Run LaurentSpec.
Open Scope Z_scope.

(** ** Executions that end *)
Definition isEven (c : cond) : Prop := exists e, c = CEven e.
Definition okE {A} (m : res A) (P : A -> Prop) : Prop := exists a l, m = Ok a l /\ Forall isEven l /\ P a.
Lemma okE_ret {A} (a : A) (P : A -> Prop) : P a -> okE (ret a) P.
Proof. intros H. exists a, []. auto. Qed.
Lemma okE_bind {A B} (m : res A) (f : A -> res B) P Q : okE m P -> (forall a, P a -> okE (f a) Q) -> okE (bind m f) Q.
Proof.
  intros (a & l & -> & Hl & Ha) H. destruct (H a Ha) as (b & l' & E & Hl' & Hb). exists b, (l ++ l'). cbn [bind]. rewrite E.
  split; [reflexivity|]. split; [now apply Forall_app | exact Hb].
Qed.
Lemma okE_imp {A} (m : res A) (P Q : A -> Prop) : okE m P -> (forall a, P a -> Q a) -> okE m Q.
Proof. intros (a & l & E & Hl & Ha) H. exists a, l. auto. Qed.
Lemma okE_quiet {A} (m : res A) P : okE m P -> okE (quiet m) P.
Proof. intros (a & l & -> & _ & Ha). exists a, []. auto. Qed.
Lemma okE_even e : okE (rely (CEven e)) (fun _ => True).
Proof. exists tt, [CEven e]. split; [reflexivity|]. split; [repeat constructor; now exists e | exact I]. Qed.
Lemma okE_eq {A} (m : res A) a : m = Ok a [] -> okE m (fun x => x = a).
Proof. intros ->. now apply okE_ret. Qed.
Ltac okb := eapply okE_bind.

(** ** The expressions *)
Definition isBase (e : expr) : bool := isSymbol e || isSum e.
Inductive ring : expr -> Prop :=
| rg_num q : canon q -> ring (Num q)
| rg_sym n p : ring (Sym n p)
| rg_pow b n : isBase b = true -> ring b -> 2 <= n -> ring (Pow b (Num (ofZ n)))
| rg_prod l : (2 <= length l)%nat -> (forall x, In x l -> ring x) -> (forall x, In x l -> isProduct x = false) ->
    (forall x, In x (tl l) -> isNumeric x = false) -> needsExpansion l = false -> ring (Prod l)
| rg_sum l : (2 <= length l)%nat -> (forall x, In x l -> ring x) -> (forall x, In x l -> isSum x = false) ->
    (forall x, In x (tl l) -> isNumeric x = false) -> ring (Sum l).

Fixpoint height (e : expr) : nat :=
  match e with
  | Sum l | Prod l => S (fold_right (fun x a => Nat.max (height x) a) O l)
  | Pow b _ => S (height b)
  | _ => 1%nat
  end.
Lemma height_in l x : In x l -> (height x <= fold_right (fun x a => Nat.max (height x) a) O l)%nat.
Proof.
  induction l as [|y l IH]; intros H; [destruct H|]. cbn [fold_right].
  destruct H as [->|H]; [lia | specialize (IH H); lia].
Qed.

Lemma tail_nonnum l : (2 <= length l)%nat -> (forall x, In x (tl l) -> isNumeric x = false) -> exists x, In x l /\ isNumeric x = false.
Proof. destruct l as [|x [|y l]]; cbn; intros H G; try lia. exists y. auto. Qed.

Lemma ring_isConst e : ring e -> isConst e = isNumeric e.
Proof.
  assert (X : forall l, (exists x, In x l /\ isNumeric x = false) -> (forall x, In x l -> isConst x = isNumeric x) -> forallb isConst l = false).
  { intros l (x & Hx & E) H. destruct (forallb isConst l) eqn:A; [|reflexivity]. rewrite forallb_forall in A. specialize (A x Hx). rewrite H in A by assumption. congruence. }
  induction 1 as [q C|n p|b n Hb Rb IH Hn|l L H IH NP N NE|l L H IH NS N]; try reflexivity.
  - cbn [isConst isNumeric]. rewrite IH. destruct b; try discriminate; reflexivity.
  - cbn [isNumeric]. rewrite <- (X l (tail_nonnum l L N) IH). cbn [isConst]. now destruct l.
  - cbn [isNumeric]. rewrite <- (X l (tail_nonnum l L N) IH). cbn [isConst]. now destruct l.
Qed.
Lemma ring_noUndef e : ring e -> noUndef e = true.
Proof.
  induction 1 as [q C|n p|b n Hb Rb IH Hn|l L H IH NP N NE|l L H IH NS N]; try reflexivity; cbn [noUndef].
  - now rewrite IH.
  - apply forallb_forall. auto.
  - apply forallb_forall. auto.
Qed.
Lemma ring_isUndefined e : ring e -> isUndefined e = false.
Proof. destruct 1; reflexivity. Qed.
Lemma ring_nev Y e : ring e -> isNumeric e = false -> numericEval Y e = None.
Proof.
  assert (X : forall (g : FloatEval.num (sD Y) -> FloatEval.num (sD Y) -> FloatEval.num (sD Y)) l a, (a = None \/ exists x, In x l /\ numericEval Y x = None) ->
    fold_left (fun a x => match a, numericEval Y x with Some s, Some v => Some (g s v) | _, _ => None end) l a = None).
  { intros g. induction l as [|y l IH]; intros a H; cbn [fold_left].
    - destruct H as [H|(x & [] & _)]. exact H.
    - apply IH. destruct H as [->|(x & [->|Hx] & E)]; [left; reflexivity | left | right; eauto].
      rewrite E. destruct a; reflexivity. }
  induction 1 as [q C|n p|b n Hb Rb IH Hn|l L H IH NP N NE|l L H IH NS N]; intros Hnum; try discriminate; try reflexivity.
  - cbn [numericEval]. rewrite IH by (destruct b; try discriminate; reflexivity). reflexivity.
  - cbn [numericEval]. apply X. right. destruct (tail_nonnum l L N) as (x & Hx & E). exists x. auto.
  - cbn [numericEval]. apply X. right. destruct (tail_nonnum l L N) as (x & Hx & E). exists x. auto.
Qed.
Lemma ring_laurent e : ring e -> laurent e.
Proof.
  induction 1 as [q C|n p|b n Hb Rb IH Hn|l L H IH NP N NE|l L H IH NS N].
  - now constructor.
  - constructor.
  - destruct b; try discriminate; [apply l_symPow | apply l_sumPow; [lia | exact IH]].
  - apply l_prod; [|exact IH]. intros ->. cbn in L. lia.
  - apply l_sum; [|exact IH]. intros ->. cbn in L. lia.
Qed.

Section Signs.
  Variables (Y : sys) (F : nat).
  Notation Wk := (world Y F).
  Notation T := (fun _ => True).

  Lemma prodSign_ok W l : (forall x, In x l -> okE (w_pos W x) T /\ okE (w_neg W x) T) -> forall s, okE (prodSign W l s) T.
  Proof.
    induction l as [|x l IH]; intros H s; cbn [prodSign]; [now apply okE_ret|].
    assert (IH' : forall s, okE (prodSign W l s) T) by (apply IH; intros y Hy; apply H; now right).
    destruct (H x) as [Hp Hn]; [now left|].
    okb; [exact Hp|]. intros [|] _; [apply IH'|]. okb; [exact Hn|]. intros [|] _; [apply IH' | now apply okE_ret].
  Qed.
  Lemma symbolicSign_ok W l : (forall x, In x l -> okE (w_pos W x) T /\ okE (w_neg W x) T) -> forall s, okE (signOfSymbolicParts W l s) T.
  Proof.
    induction l as [|x l IH]; intros H s; cbn [signOfSymbolicParts]; [now apply okE_ret|].
    assert (IH' : forall s, okE (signOfSymbolicParts W l s) T) by (apply IH; intros y Hy; apply H; now right).
    destruct (H x) as [Hp Hn]; [now left|].
    okb; [exact Hp|]. intros p _. destruct (p && _); [apply IH'|]. okb; [exact Hn|]. intros g _. destruct (g && _); [apply IH' | now apply okE_ret].
  Qed.
  Lemma numericParts_ring l : (forall x, In x l -> ring x) -> (forall x, In x (tl l) -> isNumeric x = false) ->
    numericParts Y l = [] \/ exists q, numericParts Y l = [Num q].
  Proof.
    intros R N. unfold numericParts. destruct l as [|x l]; [now left|]. cbn [tl] in N.
    assert (E : filter (fun e => match numericEval Y e with Some _ => true | None => false end) l = []).
    { assert (R' : forall x, In x l -> ring x) by (intros; apply R; now right). clear R. induction l as [|y l IH]; [reflexivity|].
      cbn [filter]. rewrite ring_nev by (auto with datatypes). apply IH.
      - intros z Hz. apply N. now right.
      - intros z Hz. apply R'. now right. }
    cbn [filter]. rewrite E. destruct (isNumeric x) eqn:Ex.
    - destruct x; try discriminate. right. exists q. reflexivity.
    - rewrite ring_nev by (auto with datatypes). now left.
  Qed.
  Lemma sumSign_ok W l : (forall x, In x l -> ring x) -> (forall x, In x (tl l) -> isNumeric x = false) ->
    (forall x, In x l -> okE (w_pos W x) T /\ okE (w_neg W x) T) -> okE (sumSign Y W l) T.
  Proof.
    intros R N H. unfold sumSign. cbn zeta. okb; [apply symbolicSign_ok|].
    - intros x Hx. apply filter_In in Hx as [Hx _]. auto.
    - intros s _. okb; [|intros ? _; now apply okE_ret]. destruct (numericParts_ring l R N) as [-> | (q & ->)]; now apply okE_ret with (P := T).
  Qed.

  Lemma sign_ok e : ring e -> forall k, (height e <= k)%nat -> okE (w_pos (Wk k) e) T /\ okE (w_neg (Wk k) e) T.
  Proof.
    induction 1 as [q C|n p|b n Hb Rb IH Hn|l L H IH NP N NE|l L H IH NS N]; intros [|k] Hk; try (cbn in Hk; lia);
      cbn [world step w_pos w_neg isPositive isNegative].
    - split; now apply okE_ret.
    - split; now apply okE_ret.
    - split; [|now apply okE_ret]. cbn [height] in Hk. destruct (IH k) as [Hp _]; [lia|]. okb; [exact Hp|].
      intros [|] _; [now apply okE_ret|]. cbn [numericEval]. destruct (_ =? 0); [|now apply okE_ret].
      okb; [apply okE_ret with (P := T); exact I|]. intros ? _. okb; [apply okE_even|]. intros ? _. now apply okE_ret.
    - cbn [height] in Hk. assert (A : forall x, In x l -> okE (w_pos (Wk k) x) T /\ okE (w_neg (Wk k) x) T).
      { intros x Hx. apply IH; [exact Hx|]. pose proof (height_in l x Hx). lia. }
      split; (okb; [now apply prodSign_ok | intros ? _; now apply okE_ret]).
    - cbn [height] in Hk. assert (A : forall x, In x l -> okE (w_pos (Wk k) x) T /\ okE (w_neg (Wk k) x) T).
      { intros x Hx. apply IH; [exact Hx|]. pose proof (height_in l x Hx). lia. }
      rewrite ring_nev by (reflexivity || now apply rg_sum).
      split; (okb; [now apply sumSign_ok | intros ? _; now apply okE_ret]).
  Qed.
End Signs.

(** ** Factors *)
Inductive gf := GN (q : Q) | GF (b : expr) (n : Z).
Definition gfE (g : gf) : expr := match g with GN q => Num q | GF b n => if n =? 1 then b else Pow b (Num (ofZ n)) end.
Definition gfOK (h : nat) (g : gf) : Prop :=
  match g with GN q => canon q | GF b n => isBase b = true /\ ring b /\ (height b <= h)%nat /\ 1 <= n end.
(** Weighted sums of the exponents. *)
Definition gwt (f : expr -> Z) (g : gf) : Z := match g with GN _ => 0 | GF b n => f b * n end.
Definition wt (f : expr -> Z) (l : list gf) : Z := fold_right (fun g a => gwt f g + a) 0 l.
Definition isGN (g : gf) : bool := match g with GN _ => true | GF _ _ => false end.
Definition nums (l : list gf) : nat := length (filter isGN l).

Lemma wt_app f a b : wt f (a ++ b) = wt f a + wt f b.
Proof. unfold wt. induction a as [|x a IH]; cbn [app fold_right]; lia. Qed.
Lemma wt_perm f a b : Permutation a b -> wt f a = wt f b.
Proof. unfold wt. induction 1; cbn [fold_right]; lia. Qed.
Lemma wt_cons f g l : wt f (g :: l) = gwt f g + wt f l. Proof. reflexivity. Qed.
Lemma nums_app a b : nums (a ++ b) = (nums a + nums b)%nat.
Proof. unfold nums. rewrite filter_app, app_length. reflexivity. Qed.
Lemma nums_cons g l : nums (g :: l) = ((if isGN g then 1 else 0) + nums l)%nat.
Proof. unfold nums. cbn [filter]. destruct (isGN g); reflexivity. Qed.

Lemma base_noPow b : isBase b = true -> base b = b /\ expo b = one /\ isNumeric b = false /\ isProduct b = false /\ isUndefined b = false /\
  isOne b = false /\ isZero b = false.
Proof. destruct b; try discriminate; cbn; auto 10. Qed.
Lemma gfE_base b n : isBase b = true -> base (gfE (GF b n)) = b.
Proof. intros H. cbn [gfE]. destruct (n =? 1); [now apply base_noPow | reflexivity]. Qed.
Lemma gfE_expo b n : isBase b = true -> expo (gfE (GF b n)) = Num (ofZ n).
Proof.
  intros H. cbn [gfE]. destruct (Z.eqb_spec n 1) as [->|N]; [|reflexivity]. destruct (base_noPow b H) as (_ & -> & _). reflexivity.
Qed.
Lemma gfE_props h g : gfOK h g -> isProduct (gfE g) = false /\ isUndefined (gfE g) = false /\ isNumeric (gfE g) = isGN g /\ ring (gfE g) /\
  isConst (gfE g) = isGN g /\ noUndef (gfE g) = true.
Proof.
  intros H. assert (R : ring (gfE g)).
  { destruct g as [q|b n]; [now constructor|]. destruct H as (Hb & Rb & _ & Hn). cbn [gfE]. destruct (Z.eqb_spec n 1); [exact Rb|]. apply rg_pow; auto. lia. }
  assert (N : isNumeric (gfE g) = isGN g).
  { destruct g as [q|b n]; [reflexivity|]. destruct H as (Hb & _). cbn [gfE isGN]. destruct (n =? 1); [now apply base_noPow | reflexivity]. }
  split; [|split; [|split; [|split; [|split]]]]; auto using ring_isUndefined, ring_noUndef.
  - destruct g as [q|b n]; [reflexivity|]. destruct H as (Hb & _). cbn [gfE]. destruct (n =? 1); [now apply base_noPow | reflexivity].
  - now rewrite ring_isConst.
Qed.
Lemma gfE_one h g : gfOK h g -> isOne (gfE g) = true -> g = GN 1.
Proof.
  intros H. destruct g as [q|b n]; cbn [gfE].
  - cbn [isOne]. intros E. apply qeqb_eq in E as ->. reflexivity.
  - destruct H as (Hb & _). destruct (n =? 1); [|discriminate]. destruct (base_noPow b Hb) as (_ & _ & _ & _ & _ & -> & _). discriminate.
Qed.
Lemma gf_view h e : ring e -> isProduct e = false -> (height e <= h)%nat -> exists g, e = gfE g /\ gfOK h g.
Proof.
  destruct 1 as [q C|n p|b n Hb Rb Hn|l L H NP N NE|l L H NS N]; intros P Hh; try discriminate.
  - exists (GN q). split; auto.
  - exists (GF (Sym n p) 1). split; [reflexivity|]. repeat split; auto; constructor || lia.
  - exists (GF b n). cbn [gfE]. rewrite (proj2 (Z.eqb_neq n 1)) by lia. cbn [height] in Hh. split; [reflexivity|]. repeat split; auto; lia.
  - exists (GF (Sum l) 1). split; [reflexivity|]. repeat split; auto; try lia. now apply rg_sum.
Qed.
Lemma gfOK_le h h' g : (h <= h')%nat -> gfOK h g -> gfOK h' g.
Proof. destruct g as [q|b n]; cbn; [auto|]. intros H (A & B & C & D). repeat split; auto. lia. Qed.

(** [u] stands for the same powers as [l]. *)
Record like (h : nat) (l u : list gf) : Prop := {
  lk_ok : Forall (gfOK h) u;
  lk_wt : forall f, wt f u = wt f l;
  lk_nums : (nums u <= nums l)%nat;
  lk_len : (length u <= length l)%nat
}.
Lemma like_refl h l : Forall (gfOK h) l -> like h l l.
Proof. intros H. constructor; auto. Qed.
Lemma like_trans h l u v : like h l u -> like h u v -> like h l v.
Proof. intros [A B C D] [A' B' C' D']. constructor; auto; try lia. intros f. now rewrite B', B. Qed.
Lemma like_cons h g l u : gfOK h g -> like h l u -> like h (g :: l) (g :: u).
Proof.
  intros Hg [A B C D]. constructor; [constructor; auto| | |cbn; lia].
  - intros f. rewrite !wt_cons, B. reflexivity.
  - rewrite !nums_cons. lia.
Qed.
Lemma like_app h a b u v : like h a u -> like h b v -> like h (a ++ b) (u ++ v).
Proof.
  intros [A B C D] [A' B' C' D']. constructor; [now apply Forall_app| | |rewrite !app_length; lia].
  - intros f. rewrite !wt_app, B, B'. reflexivity.
  - rewrite !nums_app. lia.
Qed.
Lemma nums_perm l u : Permutation l u -> nums l = nums u.
Proof.
  induction 1; [reflexivity | | |congruence]; rewrite !nums_cons; [now rewrite IHPermutation | lia].
Qed.
Lemma like_perm h l u : Forall (gfOK h) l -> Permutation l u -> like h l u.
Proof.
  intros H P. constructor.
  - rewrite Forall_forall in *. intros x Hx. apply H. eapply Permutation_in; [symmetry|]; eassumption.
  - intros f. now rewrite (wt_perm f l u).
  - now rewrite (nums_perm l u P).
  - now rewrite (Permutation_length P).
Qed.
Lemma like_perm_l h l l' u : Permutation l l' -> like h l u -> like h l' u.
Proof.
  intros P [A B C D]. constructor; auto.
  - intros f. now rewrite B, (wt_perm f _ _ P).
  - now rewrite <- (nums_perm _ _ P).
  - now rewrite <- (Permutation_length P).
Qed.

Section Prod.
  Variables (Y : sys) (F : nat) (h : nat).
  Notation Wk := (world Y F).
  Notation pairP k := (simplTwoFactorsWithoutProduct Y (Wk k)).
  Notation OK := (Forall (gfOK h)).

  Lemma ofZ_zero n : qeqb (ofZ n) 0 = (n =? 0). Proof. unfold qeqb, ofZ; cbn. now rewrite andb_true_r. Qed.
  Lemma ofZ_one n : qeqb (ofZ n) 1 = (n =? 1). Proof. unfold qeqb, ofZ; cbn. now rewrite andb_true_r. Qed.

  Lemma pow_ok k b n : (h + 3 <= k)%nat -> gfOK h (GF b n) -> okE (w_pow (Wk k) b (Num (ofZ n))) (fun x => x = gfE (GF b n)).
  Proof.
    intros Hk (Hb & Rb & Hh & Hn). destruct k as [|[|[|k]]]; try lia.
    destruct (base_noPow b Hb) as (_ & _ & _ & _ & U & O & Z).
    cbn [world step w_pow]. unfold powCreate. cbn [isUndefined orb isZero isOne]. rewrite U, O, Z. cbn [orb isZero isOne]. rewrite ofZ_zero, ofZ_one.
    rewrite (proj2 (Z.eqb_neq n 0)) by lia. cbn [orb gfE]. destruct (Z.eqb_spec n 1) as [->|N]; [now apply okE_ret|].
    destruct (sign_ok Y F b Rb (S k)) as [_ Hs]; [lia|].
    eapply okE_bind with (P := fun bx => bx = (b, Num (ofZ n))).
    - change (okE (simplifyPower Y (Wk (S k)) b (Num (ofZ n))) (fun bx => bx = (b, Num (ofZ n)))).
      unfold simplifyPower. eapply okE_bind with (P := fun x => x = false).
      + unfold doesInvolveComplexNumbers. cbn [numericEval nIsInt qIsInt qden ofZ Qden Z.eqb Pos.eqb]. okb; [apply okE_quiet, Hs|]. intros ? _; now apply okE_ret.
      + intros ? ->. destruct b; try discriminate; now apply okE_ret.
    - intros ? ->. apply okE_ret. cbn [isOne]. rewrite ofZ_one, (proj2 (Z.eqb_neq n 1) N), O. reflexivity.
  Qed.

  Lemma pair_equal k b n m : (1 <= F)%nat -> (h + 3 <= k)%nat -> gfOK h (GF b n) -> gfOK h (GF b m) ->
    okE (simplTwoEqualBases Y (Wk k) (gfE (GF b n)) (gfE (GF b m))) (fun l => l = [gfE (GF b (n + m))]).
  Proof.
    intros HF Hk (Hb & Rb & Hh & Hn) (_ & _ & _ & Hm). unfold simplTwoEqualBases. rewrite !gfE_base, !gfE_expo by assumption.
    rewrite num_sum by (auto using canon_ofZ; lia). rewrite qadd_ofZ, bind_ret.
    destruct (sign_ok Y F b Rb k) as [Hp Hg]; [lia|].
    okb; [apply okE_quiet, Hp|]. intros p _. eapply okE_bind with (P := fun _ => True).
    - destruct p; [now apply okE_ret | now apply okE_quiet].
    - intros g _. change (isFractionNumeric Y (Num (ofZ n))) with false. rewrite andb_false_r. cbn [andb].
      okb; [apply (pow_ok k b (n + m) Hk); repeat split; auto; lia|]. intros ? ->. now apply okE_ret.
  Qed.

  (** What two factors become. *)
  Definition pairRes (a b : gf) (l : list expr) : Prop :=
    exists u, l = map gfE u /\ like h [a; b] u /\ ((length u <= 1)%nat \/ u = [a; b] /\ isGN b = false \/ u = [b; a] /\ isGN a = false).

  Lemma ordered_res a b : gfOK h a -> gfOK h b -> isGN a && isGN b = false -> pairRes a b (ordered Y (gfE a) (gfE b)).
  Proof.
    intros Ha Hb N. destruct (gfE_props h a Ha) as (_ & Ua & Na & _). destruct (gfE_props h b Hb) as (_ & Ub & Nb & _).
    assert (S : isGN b = false -> pairRes a b [gfE a; gfE b]).
    { intros E. exists [a; b]. split; [reflexivity|]. split; [apply like_refl; auto | auto]. }
    assert (S' : isGN a = false -> pairRes a b [gfE b; gfE a]).
    { intros E. exists [b; a]. split; [reflexivity|]. split; [apply like_perm; [auto | apply perm_swap] | auto]. }
    unfold ordered. destruct (isGN a) eqn:A.
    - cbn [andb] in N. destruct a as [q|]; [|discriminate]. cbn [gfE] in *. unfold permuted. rewrite dp_num_left by congruence. auto.
    - destruct (isGN b) eqn:E; [|destruct (permuted Y _ _); auto].
      destruct b as [q|]; [|discriminate]. cbn [gfE] in *. unfold permuted. rewrite dp_num_right by congruence. auto.
  Qed.
  Lemma like_one1 b : gfOK h b -> like h [GN 1; b] [b].
  Proof. intros H. constructor; [auto| | |cbn; lia]; [intros f; rewrite !wt_cons; cbn [gwt]; lia | rewrite !nums_cons; cbn; lia]. Qed.
  Lemma like_one2 a : gfOK h a -> like h [a; GN 1] [a].
  Proof. intros H. constructor; [auto| | |cbn; lia]; [intros f; rewrite !wt_cons; cbn; lia | rewrite !nums_cons; cbn; lia]. Qed.

  Lemma pair_ok k a b : (1 <= F)%nat -> (h + 3 <= k)%nat -> gfOK h a -> gfOK h b ->
    okE (pairP k (gfE a) (gfE b)) (pairRes a b).
  Proof.
    intros HF Hk Ha Hb. unfold simplTwoFactorsWithoutProduct.
    destruct (gfE_props h a Ha) as (_ & _ & Na & Ra & Ca & Ua). destruct (gfE_props h b Hb) as (_ & _ & Nb & Rb & Cb & Ub).
    destruct (isOne (gfE a)) eqn:Oa.
    { apply (gfE_one h) in Oa as ->; [|assumption]. apply okE_ret. exists [b]. split; [reflexivity|]. split; [now apply like_one1 | left; cbn; lia]. }
    destruct (isOne (gfE b)) eqn:Ob.
    { apply (gfE_one h) in Ob as ->; [|assumption]. apply okE_ret. exists [a]. split; [reflexivity|]. split; [now apply like_one2 | left; cbn; lia]. }
    rewrite Ca, Cb. destruct (isGN a && isGN b) eqn:NN.
    - destruct a as [p|? ?], b as [q|? ?]; try discriminate. cbn [gfE simplTwoConst]. apply okE_ret. unfold simplTwoNumerics. cbn zeta.
      destruct (qeqb (qmul p q) 1).
      + exists []. split; [reflexivity|]. split; [|left; cbn; lia]. constructor; [constructor|intros f; reflexivity|cbn; lia|cbn; lia].
      + exists [GN (qmul p q)]. split; [reflexivity|]. split; [|left; cbn; lia]. constructor; [repeat constructor; apply qmul_spec|intros f; reflexivity|cbn; lia|cbn; lia].
    - destruct (haveEqualBases (gfE a) (gfE b)) eqn:EB; [|apply okE_ret; now apply ordered_res].
      unfold haveEqualBases in EB. apply isEqual_eq in EB. destruct a as [p|c n], b as [q|d m]; try discriminate.
      + cbn [gfE] in EB. destruct Hb as (Hd & _). change (base (if m =? 1 then d else Pow d (Num (ofZ m)))) with (base (gfE (GF d m))) in EB.
        rewrite gfE_base in EB by assumption. cbn [base] in EB. subst d. discriminate.
      + destruct Ha as (Hc & _). rewrite gfE_base in EB by assumption. cbn [gfE base] in EB. subst c. discriminate.
      + pose proof Ha as (Hc & _). pose proof Hb as (Hd & _). rewrite !gfE_base in EB by assumption. subst d.
        eapply okE_imp; [apply pair_equal; assumption|]. intros l ->. exists [GF c (n + m)]. split; [reflexivity|]. split; [|left; cbn; lia].
        destruct Ha as (_ & ? & ? & ?), Hb as (_ & _ & _ & ?). constructor.
        * repeat constructor; auto. lia.
        * intros f. rewrite !wt_cons. cbn [gwt wt fold_right]. lia.
        * cbn. lia.
        * cbn. lia.
  Qed.

  Lemma two_ok k n a b : (1 <= F)%nat -> (h + 3 <= k)%nat -> gfOK h a -> gfOK h b ->
    okE (simplTwoFactors Y (Wk k) (S n) (gfE a) (gfE b)) (pairRes a b).
  Proof.
    intros HF Hk Ha Hb. rewrite two_nonprod by (eapply gfE_props; eassumption). now apply pair_ok.
  Qed.

  Lemma areEqual_true a b : areEqual a b = true -> a = b.
  Proof.
    revert b. induction a as [|x a IH]; intros [|y b]; cbn [areEqual]; try congruence. intros H. apply andb_true_iff in H as [H1 H2].
    apply isEqual_eq in H1. now rewrite H1, (IH b).
  Qed.

  Lemma merge_ok k n' : (1 <= F)%nat -> (h + 3 <= k)%nat -> forall n p q, OK p -> OK q -> (length p + length q < n)%nat ->
    okE (merge n isOne (simplTwoFactors Y (Wk k) (S n')) (map gfE p) (map gfE q)) (fun l => exists u, l = map gfE u /\ like h (p ++ q) u /\ (p = [] -> u = q) /\ ((length p <= 1)%nat -> nums q = 0%nat -> nums (tl u) = 0%nat)).
  Proof.
    assert (NT : forall q, nums q = 0%nat -> nums (tl q) = 0%nat) by (intros [|x q]; [auto|]; rewrite nums_cons; cbn [tl]; lia).
    intros HF Hk. induction n as [|n IH]; intros p q Hp Hq Hn; [lia|].
    destruct p as [|a p]; [cbn [map merge app]; apply okE_ret; exists q; split; [|split]; auto using like_refl|].
    destruct q as [|b q]; [cbn [map merge app]; apply okE_ret; exists (a :: p); rewrite app_nil_r; split; [reflexivity|]; split; [now apply like_refl|]; split; [discriminate|]; cbn [length tl]; destruct p; [reflexivity | cbn [length]; lia]|].
    cbn [map merge]. inversion Hp as [|? ? Ha Hp']; inversion Hq as [|? ? Hb Hq']; subst. cbn [length] in Hn.
    okb; [now apply two_ok|]. intros r (u & -> & Lu & Cu).
    assert (Comb : forall v, like h (p ++ q) v -> like h ((a :: p) ++ b :: q) (u ++ v)).
    { intros v Hv. eapply like_perm_l; [|exact (like_app _ _ _ _ _ Lu Hv)]. cbn [app]. constructor. apply Permutation_middle. }
    assert (Go : okE (merge n isOne (simplTwoFactors Y (Wk k) (S n')) (map gfE p) (map gfE q)) (fun l => exists u, l = map gfE u /\ like h (p ++ q) u /\ (p = [] -> u = q))).
    { eapply okE_imp; [apply IH; auto; lia|]. intros l (v & E & K & Q & _). eauto. }
    destruct u as [|x [|y [|z u]]]; cbn [map].
    - eapply okE_imp; [exact Go|]. intros l (v & -> & Hv & Qv). exists v. split; [reflexivity|]. split; [now apply Comb|]. split; [discriminate|].
      cbn [length]. intros Lp N. rewrite Qv by (destruct p; [reflexivity | cbn [length] in Lp; lia]). apply NT. rewrite nums_cons in N. lia.
    - pose proof (lk_ok _ _ _ Lu) as Ox. inversion Ox as [|? ? Ox' _]; subst. destruct (isOne (gfE x)) eqn:O1.
      + apply (gfE_one h) in O1 as ->; [|assumption]. eapply okE_imp; [exact Go|]. intros l (v & -> & Hv & Qv). exists v. split; [reflexivity|]. split; [|split; [discriminate|]].
        * specialize (Comb v Hv). cbn [app] in *. eapply like_trans; [exact Comb|]. destruct Hv as [A B C D].
          constructor; [exact A | intros f; reflexivity | rewrite nums_cons; cbn; lia | cbn; lia].
        * cbn [length]. intros Lp N. rewrite Qv by (destruct p; [reflexivity | cbn [length] in Lp; lia]). apply NT. rewrite nums_cons in N. lia.
      + okb; [exact Go|]. intros l (v & -> & Hv & Qv). apply okE_ret. exists (x :: v). split; [reflexivity|]. split; [exact (Comb v Hv)|]. split; [discriminate|].
        cbn [length tl]. intros Lp N. rewrite Qv by (destruct p; [reflexivity | cbn [length] in Lp; lia]). rewrite nums_cons in N. lia.
    - destruct Cu as [Cu|Cu]; [cbn in Cu; lia|].
      assert (G1 : isGN b = false -> okE (t <- merge n isOne (simplTwoFactors Y (Wk k) (S n')) (map gfE p) (gfE b :: map gfE q);; ret (gfE a :: t))
        (fun l => exists u, l = map gfE u /\ like h ((a :: p) ++ b :: q) u /\ (a :: p = [] -> u = b :: q) /\ ((length (a :: p) <= 1)%nat -> nums (b :: q) = 0%nat -> nums (tl u) = 0%nat))).
      { intros Gb. okb; [apply (IH p (b :: q)); auto; cbn; lia|]. intros l (v & -> & Hv & Qv & _). apply okE_ret. exists (a :: v). split; [reflexivity|].
        split; [cbn [app]; now apply like_cons|]. split; [discriminate|].
        cbn [length tl]. intros Lp N. rewrite Qv by (destruct p; [reflexivity | cbn [length] in Lp; lia]). exact N. }
      destruct (gfE_props h a Ha) as (_ & _ & Na & _ & _ & Ua). destruct (gfE_props h b Hb) as (_ & _ & Nb & _ & _ & Ub).
      destruct Cu as [([= -> ->] & Gb)|([= -> ->] & Ga)].
      + rewrite areEqual_refl2 by assumption. now apply G1.
      + destruct (areEqual [gfE b; gfE a] [gfE a; gfE b]) eqn:E1.
        * apply G1. apply areEqual_true in E1. injection E1 as E1 _. congruence.
        * rewrite areEqual_refl2 by assumption. okb; [apply (IH (a :: p) q); auto; cbn; lia|]. intros l (v & -> & Hv & _ & Nv). apply okE_ret.
          exists (b :: v). split; [reflexivity|]. split; [eapply like_perm_l; [apply Permutation_middle|]; now apply like_cons|]. split; [discriminate|].
          cbn [length tl]. intros Lp N. pose proof (lk_nums _ _ _ Hv) as M. rewrite nums_app, nums_cons in M. rewrite nums_cons in N. rewrite Ga in M.
          destruct p; [|cbn [length] in Lp; lia]. cbn in M. lia.
    - destruct Cu as [Cu|[(Cu & _)|(Cu & _)]]; [cbn in Cu; lia | discriminate | discriminate].
  Qed.

  (** ** Preparation *)
  Lemma gf_trig a b : gfOK h a -> areContractableTrigFctPowers Y (gfE a) (gfE b) = false.
  Proof.
    intros Ha. unfold areContractableTrigFctPowers, isContractableTrigFctPower. destruct a as [q|c n]; [reflexivity|].
    rewrite gfE_base by apply Ha. destruct Ha as (Hc & _). destruct c; try discriminate; reflexivity.
  Qed.
  Lemma gf_equalExp a b : gfOK h a -> areNumPowersWithEqualExp (gfE a) (gfE b) = false.
  Proof.
    intros Ha. destruct a as [q|c n]; [reflexivity|]. destruct Ha as (Hc & _). cbn [gfE]. destruct (n =? 1); destruct c; try discriminate; reflexivity.
  Qed.
  Lemma gf_equalDenom a b : gfOK h a -> areNumPowersWithEqualExpDenom (gfE a) (gfE b) = false.
  Proof.
    intros Ha. destruct a as [q|c n]; [reflexivity|]. destruct Ha as (Hc & _). cbn [gfE]. destruct (n =? 1); destruct c; try discriminate; reflexivity.
  Qed.
  Lemma gf_extract l : OK l -> extractProducts (map gfE l) = map gfE l.
  Proof.
    unfold extractProducts. induction 1 as [|g l Hg _ IH]; [reflexivity|]. cbn [map flat_map]. rewrite IH.
    destruct (gfE_props h g Hg) as (P & _). destruct (gfE g); try discriminate; reflexivity.
  Qed.
  Lemma in_gfs (P : expr -> expr -> bool) l : OK l -> (forall a b, gfOK h a -> P (gfE a) (gfE b) = false) ->
    forall x y, In x (map gfE l) -> In y (map gfE l) -> P x y = false.
  Proof.
    intros O H x y Hx Hy. apply in_map_iff in Hx as (a & <- & Ha), Hy as (b & <- & _). apply H. rewrite Forall_forall in O. auto.
  Qed.

  Definition gnums (x : Q) (l : list gf) : Q := fold_left (fun x a => match a with GN q => qmul x q | GF _ _ => x end) l x.
  Definition gcon (l : list gf) : list gf :=
    let r := gnums 1 l in let u := filter (fun g => negb (isGN g)) l in
    if negb (qeqb r 1) then GN r :: u else match u with [] => [GN r] | _ => u end.
  Lemma gnums_E l : OK l -> forall x, fold_left (fun a e => match e with Num q => qmul a q | _ => a end) (map gfE l) x = gnums x l.
  Proof.
    induction 1 as [|g l Hg _ IH]; intros x; [reflexivity|]. cbn [map fold_left gnums]. unfold gnums in *. rewrite IH. f_equal.
    destruct (gfE_props h g Hg) as (_ & _ & N & _). destruct g as [q|b n]; [reflexivity|]. destruct (gfE (GF b n)); try discriminate; reflexivity.
  Qed.
  Lemma gfilter_E l : OK l -> filter (fun e => negb (isNumeric e)) (map gfE l) = map gfE (filter (fun g => negb (isGN g)) l).
  Proof.
    induction 1 as [|g l Hg _ IH]; [reflexivity|]. cbn [map filter]. destruct (gfE_props h g Hg) as (_ & _ & -> & _). rewrite IH.
    destruct (negb (isGN g)); reflexivity.
  Qed.
  Lemma gcon_E l : OK l -> contractNumerics (map gfE l) = map gfE (gcon l).
  Proof.
    intros O. unfold contractNumerics, gcon. cbn zeta. rewrite gnums_E, gfilter_E by assumption. destruct (negb (qeqb _ 1)); [reflexivity|].
    destruct (filter _ l); reflexivity.
  Qed.
  Lemma gnums_canon l : OK l -> forall x, canon x -> canon (gnums x l).
  Proof.
    induction 1 as [|g l Hg _ IH]; intros x Hx; [exact Hx|]. cbn [gnums fold_left]. apply IH. destruct g; [apply qmul_spec | exact Hx].
  Qed.
  Lemma gnums_none l x : nums l = O -> gnums x l = x.
  Proof.
    revert x. induction l as [|g l IH]; intros x; [reflexivity|]. rewrite nums_cons. destruct g as [q|b n]; cbn [isGN]; [lia|]. intros H. cbn [gnums fold_left]. now apply IH.
  Qed.
  Lemma filter_split l : (length (filter (fun g => negb (isGN g)) l) + nums l = length l)%nat.
  Proof. unfold nums. induction l as [|g l IH]; [reflexivity|]. cbn [filter]. destruct (isGN g); cbn [negb length]; lia. Qed.
  Lemma filter_wt f l : wt f (filter (fun g => negb (isGN g)) l) = wt f l.
  Proof. induction l as [|g l IH]; [reflexivity|]. cbn [filter]. destruct g as [q|b n]; cbn [isGN negb]; rewrite !wt_cons; cbn [gwt]; lia. Qed.
  Lemma filter_nums l : nums (filter (fun g => negb (isGN g)) l) = O.
  Proof. induction l as [|g l IH]; [reflexivity|]. cbn [filter]. destruct g as [q|b n]; cbn [isGN negb]; [exact IH|]. rewrite nums_cons. exact IH. Qed.
  Lemma gcon_ok l : l <> [] -> OK l -> like h l (gcon l) /\ nums (tl (gcon l)) = O /\ gcon l <> [].
  Proof.
    intros Hl O. set (u := filter (fun g => negb (isGN g)) l).
    assert (Ou : OK u) by (rewrite Forall_forall in *; intros x Hx; apply filter_In in Hx; now apply O).
    assert (Cn : canon (gnums 1 l)) by (apply gnums_canon; auto using canon_1).
    assert (Sp : (length u + nums l = length l)%nat) by apply filter_split.
    assert (Wu : forall f, wt f u = wt f l) by (intros; apply filter_wt).
    assert (Nu : nums u = 0%nat) by apply filter_nums.
    assert (Nt : forall a, nums (tl (a :: u)) = 0%nat) by (intros; exact Nu).
    unfold gcon. cbn zeta. fold u. destruct (qeqb (gnums 1 l) 1) eqn:E; cbn [negb].
    - destruct u as [|x u'].
      + split; [|split; [reflexivity | discriminate]]. destruct l as [|g l]; [congruence|]. cbn [length] in Sp. constructor.
        * repeat constructor; auto.
        * intros f. rewrite <- Wu. reflexivity.
        * rewrite !nums_cons in *. cbn [isGN nums filter length] in *. lia.
        * cbn. lia.
      + split; [|split; [|discriminate]].
        * constructor; auto; lia.
        * cbn [tl]. rewrite nums_cons in Nu. lia.
    - assert (nums l <> 0%nat) by (intros Z; rewrite gnums_none in E by assumption; discriminate).
      split; [|split; [exact Nu | discriminate]]. constructor.
      + constructor; auto.
      + intros f. rewrite wt_cons, Wu. reflexivity.
      + rewrite nums_cons, Nu. cbn [isGN]. lia.
      + cbn [length]. lia.
  Qed.
  Lemma gf_noConstPair l : OK l -> nums (tl l) = 0%nat -> noConstPair (map gfE l).
  Proof.
    intros O N i j a b Hij Hi Hj. destruct l as [|g l]; [now destruct i|]. cbn [tl] in N. destruct j as [|j]; [lia|]. cbn [map nth_error] in Hj.
    rewrite nth_error_map in Hj. destruct (nth_error l j) as [y|] eqn:E; [|discriminate]. injection Hj as <-. apply nth_error_In in E.
    inversion O as [|? ? _ Ol]; subst. rewrite Forall_forall in Ol. destruct (gfE_props h y (Ol y E)) as (_ & _ & _ & _ & C & _).
    assert (isGN y = false).
    { destruct (isGN y) eqn:G; [|reflexivity]. exfalso. unfold nums in N. apply length_zero_iff_nil in N.
      assert (In y (filter isGN l)) by (now apply filter_In). rewrite N in *. contradiction. }
    unfold isContractableConst. rewrite C, H. apply andb_false_r.
  Qed.

  Lemma prepare_ok k n l : OK l -> (length l < n)%nat -> prepare Y (Wk k) n (map gfE l) = Ok (map gfE l) [].
  Proof.
    intros O Hn. unfold prepare. rewrite gf_extract by assumption. apply contract_none; [|now rewrite map_length].
    apply in_gfs; auto. intros a b Ha. now apply gf_trig.
  Qed.
  Lemma prepareConst_ok k n l : l <> [] -> OK l -> (length l < n)%nat ->
    exists u, prepareConst Y (Wk k) n (map gfE l) = Ok (map gfE u) [] /\ like h l u /\ nums (tl u) = 0%nat /\ u <> [].
  Proof.
    intros Hl O Hn. destruct (Permutation_map_inv gfE l (sortFactors_perm Y (map gfE l))) as (l1 & E1 & P1).
    pose proof (like_perm h l l1 O P1) as K1. pose proof (lk_ok _ _ _ K1) as O1.
    assert (N1 : l1 <> []) by (intros ->; apply Permutation_sym, Permutation_nil in P1; congruence).
    destruct (gcon_ok l1 N1 O1) as (K2 & T2 & N2). pose proof (lk_ok _ _ _ K2) as O2. pose proof (lk_len _ _ _ K1). pose proof (lk_len _ _ _ K2).
    exists (gcon l1). split; [|split; [eapply like_trans; eassumption|auto]].
    unfold prepareConst. rewrite E1, gcon_E by assumption.
    rewrite contractConst_none by (try (now apply gf_noConstPair); rewrite map_length; lia).
    rewrite bind_ret. rewrite contract_none by (try (apply in_gfs; auto; intros; now apply gf_equalExp); rewrite map_length; lia).
    rewrite bind_ret. apply contract_none; [apply in_gfs; auto; intros; now apply gf_equalDenom | rewrite map_length; lia].
  Qed.

  Definition prodRes (l : list gf) (x : list expr) : Prop :=
    exists u, x = map gfE u /\ like h l u /\ nums (tl u) = 0%nat /\ ((forall f, wt f l = 0) -> (length u <= 1)%nat).

  Lemma gfs_wt l : OK l -> nums l <> length l -> wt (fun _ => 1) l <> 0.
  Proof.
    intros O. assert (X : 0 <= wt (fun _ => 1) l /\ (nums l <> length l -> 0 < wt (fun _ => 1) l)).
    { induction O as [|g l Hg _ [IH1 IH2]]; [cbn; split; [lia | congruence]|]. rewrite wt_cons, nums_cons. destruct g as [q|b n]; cbn [gwt isGN length].
      - split; [lia|]. intros N. apply IH2. lia.
      - destruct Hg as (_ & _ & _ & Hn). split; [lia|]. intros _. lia. }
    intros N Z. apply (proj2 X) in N. lia.
  Qed.

  Lemma simplifyProduct_ok k : (1 <= F)%nat -> (h + 3 <= k)%nat ->
    forall n l, l <> [] -> OK l -> (length l + 4 <= n)%nat -> okE (simplifyProduct Y (Wk k) n (map gfE l)) (prodRes l).
  Proof.
    intros HF Hk. induction n as [|n IH]; intros l Hl O Hn; [lia|].
    assert (Two : forall a b, like h l [a; b] -> okE (simplTwoFactors Y (Wk k) (S n) (gfE a) (gfE b)) (prodRes l)).
    { intros a b K. pose proof (lk_ok _ _ _ K) as O'. inversion O' as [|? ? Ha Ob]; inversion Ob as [|? ? Hb _]; subst.
      eapply okE_imp; [now apply two_ok|]. intros x (u & -> & Lu & Cu). exists u. split; [reflexivity|]. split; [eapply like_trans; eassumption|].
      split.
      { destruct Cu as [Cu|[(-> & G)|(-> & G)]]; [destruct u as [|x [|y u]]; cbn in Cu; try lia; reflexivity | |]; cbn [tl]; rewrite nums_cons, G; reflexivity. }
      intros Z. destruct Cu as [Cu|Cu]; [exact Cu|]. exfalso.
      assert (NN : isGN a && isGN b = false) by (destruct Cu as [(_ & ->)|(_ & ->)]; [apply andb_false_r | reflexivity]). apply (gfs_wt [a; b] O').
      - rewrite !nums_cons. destruct (isGN a), (isGN b); try discriminate; cbn; lia.
      - rewrite (lk_wt _ _ _ K). apply Z. }
    cbn [simplifyProduct]. rewrite prepare_ok by (auto; lia). rewrite bind_ret.
    assert (Gen : okE (g <- prepareConst Y (Wk k) (S n) (map gfE l);;
      match g with
      | [] => UB "front of empty list of factors"%string
      | [x] => ret g
      | [x; b] => simplTwoFactors Y (Wk k) (S n) x b
      | x :: (_ :: _ :: _) as r => s <- simplifyProduct Y (Wk k) n r;; merge (S n) isOne (simplTwoFactors Y (Wk k) (S n)) [x] s
      end) (prodRes l)).
    { destruct (prepareConst_ok k (S n) l Hl O ltac:(lia)) as (u & E & K & Nt & Nu). rewrite E, bind_ret.
      pose proof (lk_ok _ _ _ K) as Ou. pose proof (lk_len _ _ _ K) as Lu. destruct u as [|a [|b [|c u]]]; cbn [map]; [congruence| | |].
      - apply okE_ret. exists [a]. split; [reflexivity|]. split; [exact K|]. split; [reflexivity | cbn; lia].
      - now apply Two.
      - inversion Ou as [|? ? Ha Ot]; subst. cbn [length] in Lu.
        okb; [apply (IH (b :: c :: u)); auto; [discriminate | cbn [length]; lia]|].
        intros s (v & -> & Kv & _ & _). pose proof (lk_ok _ _ _ Kv) as Ov. pose proof (lk_len _ _ _ Kv) as Lv. cbn [length] in Lv.
        change [gfE a] with (map gfE [a]). eapply okE_imp; [apply merge_ok; auto; cbn [length]; lia|].
        intros x (w & -> & Kw & _ & Nw). exists w. split; [reflexivity|]. split; [|split].
        + eapply like_trans; [exact K|]. eapply like_trans; [|exact Kw]. cbn [app]. now apply like_cons.
        + apply Nw; [cbn; lia|]. pose proof (lk_nums _ _ _ Kv) as M. cbn [tl] in Nt. lia.
        + intros Z. exfalso. apply (gfs_wt (b :: c :: u) Ot).
          * cbn [tl] in Nt. rewrite Nt. cbn. lia.
          * pose proof (lk_wt _ _ _ K (fun _ => 1)) as W1. rewrite wt_cons in W1. rewrite Z in W1.
            assert (0 <= gwt (fun _ => 1) a) by (destruct a as [q|d m]; cbn [gwt]; [lia | destruct Ha as (_ & _ & _ & ?); lia]).
            assert (0 <= wt (fun _ => 1) (b :: c :: u)).
            { clear -Ot. induction Ot as [|g l Hg _ IH]; [cbn; lia|]. rewrite wt_cons. destruct g as [q|d m]; cbn [gwt]; [lia|]. destruct Hg as (_ & _ & _ & ?); lia. }
            lia. }
    destruct l as [|a [|b [|c l]]]; cbn [map] in *; try exact Gen. apply Two. now apply like_refl.
  Qed.
End Prod.
