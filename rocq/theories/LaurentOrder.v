(** The order of src/order.cpp on symbols, their powers and products of these. *)
From Verif Require Import LaurentSpec ExprProofs NumberProofs OrderModel OrderProofs SimplModel.
From Coq Require Import Lia Bool.
Open Scope Z_scope.

(** ** Symbols *)
Definition symEqb (s t : sym) : bool := nameEq (fst s) (fst t) && Bool.eqb (snd s) (snd t).
Lemma symEqb_eq s t : symEqb s t = true <-> s = t.
Proof.
  destruct s as [n p], t as [m q]; unfold symEqb; cbn. rewrite andb_true_iff, nameEq_eq, eqb_true_iff.
  split; [intros [-> ->]; reflexivity | now intros [= -> ->]].
Qed.
Lemma symEqb_refl s : symEqb s s = true. Proof. now apply symEqb_eq. Qed.
Lemma symEqb_neq s t : symEqb s t = false <-> s <> t.
Proof. rewrite <- symEqb_eq. destruct (symEqb s t); split; congruence. Qed.
Lemma sym_dec (s t : sym) : {s = t} + {s <> t}.
Proof. destruct (symEqb s t) eqn:E; [left; now apply symEqb_eq | right; now apply symEqb_neq]. Qed.

Definition symLtb (s t : sym) : bool := doPermuteBothSymbol (fst t) (snd t) (fst s) (snd s).
Lemma symLtb_lt s t : symLtb s t = true <-> symLt s t.
Proof.
  destruct s as [n p], t as [m q]; unfold symLtb, symLt, doPermuteBothSymbol, nameGt; cbn.
  destruct (nameEq m n) eqn:E.
  - apply nameEq_eq in E as ->. rewrite nameLt_irrefl. destruct p, q; cbn; intuition (discriminate || auto).
  - cbn. apply nameEq_neq in E. intuition congruence.
Qed.
Lemma symLt_irrefl s : ~ symLt s s.
Proof. unfold symLt. rewrite nameLt_irrefl. intuition congruence. Qed.
Lemma symLt_trans s t u : symLt s t -> symLt t u -> symLt s u.
Proof.
  unfold symLt. intros [H|(H & H1 & H2)] [G|(G & G1 & G2)].
  - left. eapply nameLt_trans; eauto.
  - left. now rewrite <- G.
  - left. now rewrite H.
  - congruence.
Qed.
Lemma symLt_tri s t : s <> t -> symLt s t \/ symLt t s.
Proof.
  intros N. destruct s as [n p], t as [m q]; unfold symLt; cbn.
  destruct (nameLt n m) eqn:E1; [auto|]. destruct (nameLt m n) eqn:E2; [auto|].
  assert (n = m) as -> by now apply nameLt_tri. destruct p, q; try congruence; auto.
Qed.
Lemma symLt_asym s t : symLt s t -> ~ symLt t s.
Proof. intros H G. exact (symLt_irrefl _ (symLt_trans _ _ _ H G)). Qed.
Lemma symLtb_false s t : s <> t -> symLtb s t = false -> symLt t s.
Proof. intros N H. destruct (symLt_tri s t N) as [G|G]; auto. apply symLtb_lt in G. congruence. Qed.
Lemma symLtb_not s t : symLt t s -> symLtb s t = false.
Proof. intros H. destruct (symLtb s t) eqn:E; auto. apply symLtb_lt in E. now apply symLt_asym in H. Qed.

(** ** Factors *)
Lemma fac_dec (f g : fac) : {f = g} + {f <> g}.
Proof. decide equality; [apply Z.eq_dec | apply sym_dec]. Qed.
Lemma facLt_irrefl f : ~ facLt f f.
Proof. intros [H|[_ H]]; [exact (symLt_irrefl _ H) | lia]. Qed.
Lemma facLt_trans f g h : facLt f g -> facLt g h -> facLt f h.
Proof.
  intros [H|[H H']] [G|[G G']]; unfold facLt.
  - left. eapply symLt_trans; eauto.
  - left. now rewrite <- G.
  - left. now rewrite H.
  - right. split; [congruence | lia].
Qed.
Lemma facLt_tri f g : f <> g -> facLt f g \/ facLt g f.
Proof.
  intros N. destruct f as [s z], g as [t w]; unfold facLt; cbn.
  destruct (sym_dec s t) as [->|M].
  - assert (z <> w) by congruence. assert (z < w \/ w < z) as [?|?] by lia; auto.
  - destruct (symLt_tri s t M); auto.
Qed.
Lemma facLt_asym f g : facLt f g -> ~ facLt g f.
Proof. intros H G. exact (facLt_irrefl _ (facLt_trans _ _ _ H G)). Qed.

(** ** Products *)
Section Lex.
  Context {A : Type} (lt : A -> A -> Prop).
  Hypothesis irrefl : forall x, ~ lt x x.
  Hypothesis trans : forall x y z, lt x y -> lt y z -> lt x z.
  Hypothesis tri : forall x y, x <> y -> lt x y \/ lt y x.
  Hypothesis dec : forall x y : A, {x = y} + {x <> y}.

  Lemma lex_irrefl l : ~ lexLt lt l l.
  Proof.
    induction l as [|x l IH]; intros H; inversion H; subst; auto.
    eapply irrefl; eauto.
  Qed.
  Lemma lex_trans l : forall m k, lexLt lt l m -> lexLt lt m k -> lexLt lt l k.
  Proof.
    induction l as [|x l IH]; intros m k H G; inversion H; subst; inversion G; subst;
      try (now constructor 1); try (constructor 2; now eauto); constructor 3; eauto.
  Qed.
  Lemma lex_tri l : forall m, l <> m -> lexLt lt l m \/ lexLt lt m l.
  Proof.
    induction l as [|x l IH]; intros [|y m] N; [congruence | left; constructor | right; constructor |].
    destruct (dec x y) as [->|M].
    - destruct (IH m) as [H|H]; [congruence | left | right]; now constructor 3.
    - destruct (tri x y M); [left | right]; now constructor 2.
  Qed.
End Lex.

Lemma keyLt_irrefl k : ~ keyLt k k.
Proof. apply lex_irrefl, facLt_irrefl. Qed.
Lemma keyLt_trans k l m : keyLt k l -> keyLt l m -> keyLt k m.
Proof. unfold keyLt. apply lex_trans; exact facLt_trans. Qed.
Lemma keyLt_tri k l : k <> l -> keyLt k l \/ keyLt l k.
Proof.
  intros N. apply lex_tri; [exact facLt_tri | exact fac_dec |].
  intros E. apply N. rewrite <- (rev_involutive k), <- (rev_involutive l). now rewrite E.
Qed.
Lemma keyLt_asym k l : keyLt k l -> ~ keyLt l k.
Proof. intros H G. exact (keyLt_irrefl _ (keyLt_trans _ _ _ H G)). Qed.
Lemma key_dec (k l : key) : {k = l} + {k <> l}.
Proof. decide equality. apply fac_dec. Qed.

(** ** Injectivity *)
Lemma symE_inj s t : symE s = symE t -> s = t.
Proof. destruct s, t; cbn. now intros [= -> ->]. Qed.
Lemma facE_inj f g : facE f = facE g -> f = g.
Proof.
  destruct f as [s z], g as [t w]; unfold facE; cbn [fst snd].
  destruct (Z.eqb_spec z 1), (Z.eqb_spec w 1); intros H.
  - subst. now rewrite (symE_inj _ _ H).
  - discriminate H.
  - discriminate H.
  - injection H as H1 H2 H3. destruct s, t; cbn in *. congruence.
Qed.
Lemma map_facE_inj k : forall l, map facE k = map facE l -> k = l.
Proof.
  induction k as [|f k IH]; intros [|g l] H; try discriminate; auto.
  injection H as H1 H2. apply facE_inj in H1. apply IH in H2. congruence.
Qed.
Lemma facE_noNum f q : facE f <> Num q.
Proof. unfold facE. destruct (snd f =? 1); discriminate. Qed.
Lemma facE_noUndef f : noUndef (facE f) = true.
Proof. unfold facE. destruct (snd f =? 1); reflexivity. Qed.
Lemma facE_noProd f : isProduct (facE f) = false.
Proof. unfold facE. destruct (snd f =? 1); reflexivity. Qed.
Lemma facE_noSum f : isSum (facE f) = false.
Proof. unfold facE. destruct (snd f =? 1); reflexivity. Qed.
Lemma facE_isOne f : isOne (facE f) = false.
Proof. unfold facE. destruct (snd f =? 1); reflexivity. Qed.
Lemma facE_isZero f : isZero (facE f) = false.
Proof. unfold facE. destruct (snd f =? 1); reflexivity. Qed.
Lemma facE_isNumeric f : isNumeric (facE f) = false.
Proof. unfold facE. destruct (snd f =? 1); reflexivity. Qed.
Lemma facE_isUndefined f : isUndefined (facE f) = false.
Proof. unfold facE. destruct (snd f =? 1); reflexivity. Qed.
Lemma facE_isConst f : isConst (facE f) = false.
Proof. unfold facE. destruct (snd f =? 1); reflexivity. Qed.
Lemma facE_base f : base (facE f) = symE (fst f).
Proof. unfold facE. destruct (snd f =? 1); reflexivity. Qed.
Lemma facE_expo f : expo (facE f) = Num (ofZ (snd f)).
Proof. unfold facE. destruct (Z.eqb_spec (snd f) 1) as [->|]; reflexivity. Qed.
Lemma facE_extract f : extractProduct (facE f) = [facE f].
Proof. unfold facE. destruct (snd f =? 1); reflexivity. Qed.

Lemma isEqual_facE f g : isEqual (facE f) (facE g) = if fac_dec f g then true else false.
Proof.
  destruct (fac_dec f g) as [->|N].
  - apply isEqual_refl, facE_noUndef.
  - apply isEqual_false; [apply facE_noUndef|]. intros E. now apply facE_inj in E.
Qed.
Lemma isEqual_symE s t : isEqual (symE s) (symE t) = symEqb s t.
Proof. destruct s, t; cbn. unfold symEqb; cbn. destruct (nameEq n n0); reflexivity. Qed.

(** ** The order of factors and products *)
Section Permuted.
  Variable nlt : Q -> Q -> bool.
  Variable B : Z.
  Hypothesis HB : 1 <= B.
  Hypothesis Hlt : exactUpTo B nlt.
  Notation dp := (doPermute nlt).

  Definition facIn (f : fac) : Prop := Z.abs (snd f) <= B.

  Lemma dp_sym s t : dp (symE s) (symE t) = symLtb t s.
  Proof. rewrite doPermute_eq. reflexivity. Qed.

  Lemma dp_pow_sym s z t : s <> t -> dp (Pow (symE s) (Num (ofZ z))) (symE t) = symLtb t s.
  Proof.
    intros N. rewrite doPermute_eq. cbn [permuteBody symE]. fold (symE s). fold (symE t).
    unfold isDifferent. rewrite isEqual_symE. rewrite (proj2 (symEqb_neq s t) N). cbn [negb]. apply dp_sym.
  Qed.

  (** Powers of different symbols: the exponents are not compared. *)
  Lemma dp_fac_diff f g : fst f <> fst g -> dp (facE f) (facE g) = symLtb (fst g) (fst f).
  Proof.
    destruct f as [s z], g as [t w]; cbn [fst snd]. intros N. unfold facE; cbn [fst snd].
    destruct (z =? 1), (w =? 1).
    - apply dp_sym.
    - rewrite doPermute_eq. cbn [permuteBody symE]. fold (symE s). fold (symE t).
      rewrite dp_pow_sym by congruence.
      destruct (symLtb t s) eqn:E.
      + apply symLtb_lt in E. now rewrite (symLtb_not _ _ E).
      + apply symLtb_false in E; [|congruence]. apply symLtb_lt in E. now rewrite E.
    - now apply dp_pow_sym.
    - rewrite doPermute_eq. cbn [permuteBody].
      unfold isDifferent. rewrite isEqual_symE. rewrite (proj2 (symEqb_neq s t) N). cbn [negb]. apply dp_sym.
  Qed.

  Lemma dp_num a b : dp (Num a) (Num b) = nlt b a.
  Proof. rewrite doPermute_eq. reflexivity. Qed.

  Lemma dp_fac_same s z w : z <> w -> Z.abs z <= B -> Z.abs w <= B -> dp (facE (s, z)) (facE (s, w)) = (w <? z).
  Proof.
    intros N Hz Hw. unfold facE; cbn [fst snd].
    assert (D : isDifferent (symE s) (symE s) = false).
    { unfold isDifferent. now rewrite isEqual_symE, symEqb_refl. }
    destruct (Z.eqb_spec z 1) as [->|Nz], (Z.eqb_spec w 1) as [->|Nw].
    - congruence.
    - rewrite doPermute_eq. cbn [permuteBody symE]. fold (symE s). rewrite doPermute_eq. cbn [permuteBody symE].
      fold (symE s). rewrite D, dp_num. change 1%Q with (ofZ 1). rewrite Hlt by lia.
      destruct (Z.ltb_spec 1 w), (Z.ltb_spec w 1); cbn; lia || reflexivity.
    - rewrite doPermute_eq. cbn [permuteBody symE]. fold (symE s). rewrite D, dp_num. change 1%Q with (ofZ 1).
      apply Hlt; lia.
    - rewrite doPermute_eq. cbn [permuteBody]. rewrite D, dp_num. now apply Hlt.
  Qed.

  Lemma dp_fac f g : f <> g -> facIn f -> facIn g -> dp (facE f) (facE g) = true <-> facLt g f.
  Proof.
    destruct f as [s z], g as [t w]. intros N Hf Hg. destruct (sym_dec s t) as [->|M].
    - rewrite dp_fac_same by (congruence || assumption). unfold facLt; cbn. rewrite Z.ltb_lt.
      split; [auto|]. intros [H|[_ H]]; auto. now apply symLt_irrefl in H.
    - rewrite dp_fac_diff by assumption. cbn. rewrite symLtb_lt. unfold facLt; cbn. intuition congruence.
  Qed.

  Lemma less_fac f g : facIn f -> facIn g -> less nlt (facE f) (facE g) = true <-> facLt f g.
  Proof.
    intros Hf Hg. unfold less, isDifferent, isCorrect. rewrite isEqual_facE.
    destruct (fac_dec f g) as [->|N]; cbn [negb andb].
    - split; [discriminate|]. intros H. now apply facLt_irrefl in H.
    - rewrite negb_true_iff. destruct (dp (facE f) (facE g)) eqn:E.
      + apply dp_fac in E; auto. split; [discriminate|]. intros H. now apply facLt_asym in H.
      + split; auto. intros _. destruct (facLt_tri f g N) as [H|H]; auto.
        apply dp_fac in H; auto. congruence.
  Qed.
  Lemma less_fac_false f g : facIn f -> facIn g -> ~ facLt f g -> less nlt (facE f) (facE g) = false.
  Proof. intros Hf Hg N. destruct (less _ _ _) eqn:E; auto. apply less_fac in E; tauto. Qed.

  (** A number comes before everything else. *)
  Lemma dp_num_left q e : isNumeric e = false -> dp (Num q) e = false.
  Proof. intros H. rewrite doPermute_eq. destruct e; try discriminate; reflexivity. Qed.
  Lemma dp_num_right q e : isNumeric e = false -> isUndefined e = false -> dp e (Num q) = true.
  Proof.
    intros H U. rewrite doPermute_eq. destruct e; try discriminate; cbn [permuteBody];
      rewrite dp_num_left; reflexivity.
  Qed.
  Lemma less_num_fac q f : less nlt (Num q) (facE f) = true.
  Proof.
    unfold less, isDifferent, isCorrect. rewrite dp_num_left by apply facE_isNumeric.
    unfold facE. destruct (snd f =? 1); reflexivity.
  Qed.
  Lemma less_fac_num q f : less nlt (facE f) (Num q) = false.
  Proof.
    unfold less, isDifferent, isCorrect. rewrite dp_num_right by (apply facE_isNumeric || apply facE_isUndefined).
    apply andb_false_r.
  Qed.

  (** Lists of factors, last one first, with a coefficient at the end. *)
  Lemma lex_factors k : forall l c d, Forall facIn k -> Forall facIn l -> k <> l ->
    (forall x, In x c -> exists q, x = Num q) -> (forall x, In x d -> exists q, x = Num q) ->
    lexCompare (less nlt) (map facE k ++ c) (map facE l ++ d) = true <-> lexLt facLt k l.
  Proof.
    induction k as [|f k IH]; intros l c d Hk Hl N Hc Hd.
    - destruct l as [|g l]; [congruence|]. cbn [map app]. split; [intros _; constructor | intros _].
      destruct c as [|x c]; [reflexivity|]. destruct (Hc x (or_introl eq_refl)) as [q ->]. cbn [lexCompare].
      now rewrite less_num_fac.
    - inversion Hk as [|? ? Hf Hk']; subst. destruct l as [|g l].
      + cbn [map app]. split; [|intros H; inversion H]. destruct d as [|x d]; [cbn; discriminate|].
        destruct (Hd x (or_introl eq_refl)) as [q ->]. cbn [lexCompare]. now rewrite less_fac_num, less_num_fac.
      + inversion Hl as [|? ? Hg Hl']; subst. cbn [map app lexCompare].
        destruct (fac_dec f g) as [->|M].
        * rewrite less_fac_false by (auto using facLt_irrefl).
          rewrite IH by (auto; congruence). split; [now constructor|]. intros H; inversion H; subst; auto.
          now apply facLt_irrefl in H1.
        * destruct (less nlt (facE f) (facE g)) eqn:E1.
          -- apply less_fac in E1; auto. split; auto. intros _. now constructor.
          -- assert (F : facLt g f).
             { destruct (facLt_tri f g M) as [H|H]; auto. apply less_fac in H; auto; congruence. }
             apply (less_fac g f) in F; auto. rewrite F. apply less_fac in F; auto. split; [discriminate|].
             intros H; inversion H; subst; [|now apply facLt_irrefl in F]. now apply facLt_asym in F.
  Qed.

  (** ** Products with a coefficient *)
  Lemma monoE_cases m :
    (snd m = [] /\ monoE m = Num (fst m)) \/
    (exists f, m = (1%Q, [f]) /\ monoE m = facE f) \/
    (snd m <> [] /\ monoE m = Prod (factorsE m) /\ (2 <= length (factorsE m))%nat /\
     exists c, factorsE m = c ++ map facE (snd m) /\ (forall x, In x c -> exists q, x = Num q)).
  Proof.
    destruct m as [c k]. unfold monoE, factorsE; cbn [fst snd].
    destruct (qeqb c 1) eqn:E; destruct k as [|f [|g k]]; cbn [map app length].
    - left. apply qeqb_eq in E as ->. auto.
    - right; left. exists f. apply qeqb_eq in E as ->. auto.
    - right; right. split; [discriminate|]. split; [reflexivity|]. split; [lia|]. exists []. split; [reflexivity|].
      intros x [].
    - left. auto.
    - right; right. split; [discriminate|]. split; [reflexivity|]. split; [lia|]. exists [Num c]. split; [reflexivity|].
      intros x [<-|[]]. eauto.
    - right; right. split; [discriminate|]. split; [reflexivity|]. split; [lia|]. exists [Num c]. split; [reflexivity|].
      intros x [<-|[]]. eauto.
  Qed.

  Lemma dp_swap l r : swaps l r = true -> dp l r = negb (dp r l).
  Proof. intros H. rewrite (doPermute_eq nlt l r). now apply swaps_eq. Qed.

  Lemma dp_prod_fac a f g : (exists c k, a = c ++ map facE (k ++ [f]) /\ (k = [] -> f <> g)) -> facIn f -> facIn g ->
    dp (Prod a) (facE g) = true <-> f = g \/ facLt g f.
  Proof.
    intros (c & k & -> & Hk) Hf Hg. rewrite doPermute_eq.
    assert (R : rev (c ++ map facE (k ++ [f])) = facE f :: rev (c ++ map facE k)).
    { rewrite map_app, app_assoc, rev_app_distr. reflexivity. }
    assert (P : permuteBody nlt (Prod (c ++ map facE (k ++ [f]))) (facE g) =
      if isEqual (facE f) (facE g) then true else dp (facE f) (facE g)).
    { unfold facE at 2 4 6. destruct (snd g =? 1) eqn:E; cbn [permuteBody symE]; rewrite R; reflexivity. }
    rewrite P, isEqual_facE. destruct (fac_dec f g) as [->|N]; [intuition|].
    rewrite dp_fac by auto. intuition congruence.
  Qed.

  Lemma swaps_fac_prod f l : swaps (facE f) (Prod l) = true.
  Proof. unfold facE. destruct (snd f =? 1); reflexivity. Qed.

  Lemma key_last_lt k f g : (k = [] -> f <> g) -> keyLt [g] (k ++ [f]) <-> f = g \/ facLt g f.
  Proof.
    intros Hk. unfold keyLt. rewrite rev_app_distr. cbn [rev app]. split.
    - intros H; inversion H; subst; auto.
    - intros [->|H]; [|now constructor]. constructor 3.
      destruct k as [|x k]; [now destruct Hk|]. cbn [rev]. destruct (rev k); constructor.
  Qed.

  Lemma dp_mono m n : Forall facIn (snd m) -> Forall facIn (snd n) -> snd m <> snd n ->
    dp (monoE m) (monoE n) = true <-> keyLt (snd n) (snd m).
  Proof.
    intros Hm Hn N.
    destruct (monoE_cases m) as [[Em ->]|[(f & -> & ->)|(Nm & -> & _ & cm & Fm & Cm)]];
    destruct (monoE_cases n) as [[En ->]|[(g & -> & ->)|(Nn & -> & _ & cn & Fn & Cn)]]; cbn [snd] in *.
    - congruence.
    - rewrite Em, dp_num_left by apply facE_isNumeric. split; [discriminate|]. intros H; inversion H.
    - rewrite Em, dp_num_left by reflexivity. split; [discriminate|]. unfold keyLt. cbn [rev]. intros H; inversion H.
    - rewrite En, dp_num_right by (apply facE_isNumeric || apply facE_isUndefined). split; auto. intros _. constructor.
    - inversion Hm; inversion Hn; subst. rewrite dp_fac by (congruence || auto). unfold keyLt; cbn [rev app].
      split; [now constructor|]. intros L; inversion L as [|? ? ? ? L1|? ? ? L1]; subst; auto; inversion L1.
    - rewrite dp_swap by apply swaps_fac_prod. rewrite negb_true_iff.
      destruct (exists_last Nn) as (k & x & E). rewrite E in *. apply Forall_app in Hn as [Hn1 Hn2].
      inversion Hm; inversion Hn2; subst.
      assert (Q : k = [] -> x <> f) by (intros -> ->; now apply N).
      assert (D := dp_prod_fac (factorsE n) x f). rewrite <- key_last_lt in D by exact Q.
      assert (D' : dp (Prod (factorsE n)) (facE f) = true <-> keyLt [f] (k ++ [x])).
      { apply D; auto. exists cn, k. auto. }
      destruct (dp (Prod (factorsE n)) (facE f)).
      + split; [discriminate|]. intros H. apply keyLt_asym in H. exfalso. apply H. now apply D'.
      + split; auto. intros _. destruct (keyLt_tri (k ++ [x]) [f]) as [H|H]; auto. apply D' in H. discriminate.
    - rewrite En, dp_num_right by reflexivity. split; auto. intros _. unfold keyLt.
      destruct (exists_last Nm) as (k & x & E). rewrite E, rev_app_distr. constructor.
    - destruct (exists_last Nm) as (k & x & E). rewrite E in *. apply Forall_app in Hm as [Hm1 Hm2].
      inversion Hn; inversion Hm2; subst.
      assert (Q : k = [] -> x <> g) by (intros -> ->; now apply N).
      rewrite key_last_lt by exact Q. apply dp_prod_fac; auto. exists cm, k. auto.
    - rewrite doPermute_eq. cbn [permuteBody]. rewrite Fm, Fn, !rev_app_distr, <- !map_rev.
      unfold keyLt. apply lex_factors; try (now apply Forall_rev).
      + intros E. apply N. rewrite <- (rev_involutive (snd m)), <- (rev_involutive (snd n)). now rewrite E.
      + intros y Hy. apply Cn. now apply in_rev.
      + intros y Hy. apply Cm. now apply in_rev.
  Qed.
End Permuted.
