(** Products and sums of two simplified polynomials that aren't expanded. *)
From Verif Require Import LaurentSpec LaurentOrder LaurentProd RingProd ExprProofs NumberProofs OrderModel OrderProofs World.
From Coq Require Import Lia Bool Permutation.
From Verif Require Import Run LaurentSpec.
Open Scope Z_scope.

(** ** Weights *)
Definition one1 (_ : expr) : Z := 1.
Definition sum1 (e : expr) : Z := if isSum e then 1 else 0.
Definition soleSum (l : list gf) : Prop := wt one1 l = 1 /\ wt sum1 l = 1.

Lemma wt_nonneg h f l : (forall b, ring b -> 0 <= f b) -> Forall (gfOK h) l -> 0 <= wt f l.
Proof.
  intros Hf. induction 1 as [|g l Hg _ IH]; [cbn; lia|]. rewrite wt_cons. destruct g as [q|b n]; cbn [gwt]; [lia|].
  destruct Hg as (_ & Rb & _ & Hn). specialize (Hf b Rb). nia.
Qed.
Lemma one1_nonneg h l : Forall (gfOK h) l -> 0 <= wt one1 l.
Proof. apply wt_nonneg. intros; unfold one1; lia. Qed.
Lemma len_wt h l : Forall (gfOK h) l -> Z.of_nat (length l) <= Z.of_nat (nums l) + wt one1 l.
Proof.
  induction 1 as [|g l Hg _ IH]; [cbn; lia|]. rewrite wt_cons, nums_cons. cbn [length]. destruct g as [q|b n]; cbn [isGN gwt]; [lia|].
  destruct Hg as (_ & _ & _ & Hn). unfold one1 in *. lia.
Qed.
Lemma wt_zero h l : Forall (gfOK h) l -> wt one1 l = 0 -> forall f, wt f l = 0.
Proof.
  induction 1 as [|g l Hg Hl IH]; intros H f; [reflexivity|]. rewrite wt_cons in *. pose proof (one1_nonneg h l Hl).
  destruct g as [q|b n]; cbn [gwt] in *; [rewrite IH; lia|]. destruct Hg as (_ & _ & _ & Hn). unfold one1 in *. lia.
Qed.
Lemma wt_num h l : Forall (gfOK h) l -> wt one1 l = 0 -> nums l = length l.
Proof.
  intros O Z. destruct (Nat.eq_dec (nums l) (length l)) as [E|N]; [exact E|]. exfalso. exact (gfs_wt h l O N Z).
Qed.

Lemma const_gfs h l : Forall (gfOK h) l -> constElements (map gfE l) = map gfE (filter isGN l) /\
  nonConstElements (map gfE l) = map gfE (filter (fun g => negb (isGN g)) l).
Proof.
  unfold constElements, nonConstElements. induction 1 as [|g l Hg _ [IH1 IH2]]; [auto|]. cbn [map filter].
  destruct (gfE_props h g Hg) as (_ & _ & _ & _ & -> & _). rewrite IH1, IH2. destruct (isGN g); auto.
Qed.
Lemma gfE_isSum h b n : gfOK h (GF b n) -> isSum (gfE (GF b n)) = (n =? 1) && isSum b.
Proof. intros _. cbn [gfE]. destruct (n =? 1); reflexivity. Qed.
Lemma one_factor h l : Forall (gfOK h) l -> nums l = 0%nat -> wt one1 l = 1 -> exists b, l = [GF b 1] /\ isBase b = true.
Proof.
  intros O N W. destruct O as [|g l Hg Hl]; [discriminate|]. rewrite nums_cons in N. rewrite wt_cons in W. pose proof (one1_nonneg h l Hl) as Z0.
  destruct g as [q|b n]; cbn [isGN gwt] in *; [lia|]. destruct Hg as (Hb & _ & _ & Hn). unfold one1 in W at 1.
  assert (n = 1) as -> by lia. assert (Z1 : wt one1 l = 0) by lia. apply (wt_num h) in Z1; [|assumption]. destruct l as [|x l]; [eauto|]. cbn [length] in Z1. lia.
Qed.
Lemma needs_sole h l : Forall (gfOK h) l -> needsExpansion (map gfE l) = true -> nums l <> 0%nat /\ soleSum l.
Proof.
  intros O H. unfold needsExpansion in H. cbn zeta in H. destruct (const_gfs h l O) as [E1 E2]. rewrite E1, E2 in H.
  set (v := filter (fun g => negb (isGN g)) l) in *.
  assert (Ov : Forall (gfOK h) v) by (rewrite Forall_forall in *; intros x Hx; apply filter_In in Hx; now apply O).
  destruct (filter isGN l) as [|c cs] eqn:C; cbn [map] in H; [discriminate|]. split; [unfold nums; rewrite C; discriminate|].
  assert (X : existsb isSum (gfE c :: map gfE cs) = false).
  { change (gfE c :: map gfE cs) with (map gfE (c :: cs)). rewrite <- C. clear. induction l as [|g l IH]; [reflexivity|]. cbn [filter]. destruct g; exact IH. }
  destruct (existsb isSum (map gfE v)) eqn:S; [|congruence].
  assert (Wv : forall f, wt f v = wt f l) by (intros; apply filter_wt). unfold soleSum. rewrite <- !Wv.
  rewrite map_length in H. destruct v as [|g [|g' v']]; try discriminate. cbn [map existsb] in S. rewrite orb_false_r in S.
  destruct g as [q|b n]; [discriminate|]. inversion Ov as [|? ? Hg _]; subst. rewrite (gfE_isSum h) in S by assumption.
  apply andb_true_iff in S as [S1 S2]. apply Z.eqb_eq in S1 as ->. split; [reflexivity|]. rewrite wt_cons. cbn [gwt]. unfold sum1. now rewrite S2.
Qed.

(** ** Terms *)
Definition tE (u : list gf) : expr := match u with [g] => gfE g | _ => Prod (map gfE u) end.
Definition tOK (h : nat) (u : list gf) : Prop := Forall (gfOK h) u /\ u <> [] /\ nums (tl u) = 0%nat /\ ~ soleSum u.

Lemma deg_gfE h g : gfOK h g -> degreeBound (gfE g) = gwt degreeBound g.
Proof.
  destruct g as [q|b n]; cbn [gfE gwt]; [reflexivity|]. intros (_ & _ & _ & Hn). destruct (Z.eqb_spec n 1) as [->|N]; [lia|].
  cbn [degreeBound]. unfold ofZ; cbn [Qnum]. lia.
Qed.
Lemma deg_tE h u : Forall (gfOK h) u -> degreeBound (tE u) = wt degreeBound u.
Proof.
  intros O. assert (X : fold_right (fun x a => degreeBound x + a) 0 (map gfE u) = wt degreeBound u).
  { induction O as [|g l Hg _ IH]; [reflexivity|]. cbn [map fold_right]. rewrite wt_cons, (deg_gfE h), IH by assumption. reflexivity. }
  destruct u as [|g [|g' u]]; [reflexivity| |exact X]. cbn [tE]. rewrite <- X. cbn [map fold_right]. lia.
Qed.
Lemma tE_numeric h u : Forall (gfOK h) u -> u <> [] -> nums (tl u) = 0%nat -> isNumeric (tE u) = (wt one1 u =? 0).
Proof.
  intros O N T. destruct u as [|g u]; [congruence|]. inversion O as [|? ? Hg Ou]; subst. cbn [tl] in T.
  destruct u as [|g' u].
  - cbn [tE]. destruct (gfE_props h g Hg) as (_ & _ & -> & _). rewrite wt_cons. destruct g as [q|b n]; cbn [isGN gwt]; [reflexivity|].
    destruct Hg as (_ & _ & _ & Hn). symmetry. apply Z.eqb_neq. unfold one1. cbn [wt fold_right]. lia.
  - cbn [tE isNumeric]. symmetry. apply Z.eqb_neq. intros Z. apply (wt_num h) in Z; [|assumption]. rewrite nums_cons, T in Z. cbn [length] in Z. destruct (isGN g); lia.
Qed.
Lemma tOK_ring h u : tOK h u -> ring (tE u) /\ isSum (tE u) = false.
Proof.
  intros (O & N & T & S). assert (NE : needsExpansion (map gfE u) = false).
  { destruct (needsExpansion _) eqn:E; [|reflexivity]. apply (needs_sole h) in E as [_ E]; [contradiction | exact O]. }
  destruct u as [|g [|g' u]]; [congruence| |].
  - inversion O as [|? ? Hg _]; subst. cbn [tE]. split; [apply (gfE_props h g Hg)|]. destruct g as [q|b n]; [reflexivity|].
    rewrite (gfE_isSum h) by assumption. destruct (Z.eqb_spec n 1) as [->|]; [|reflexivity]. destruct (isSum b) eqn:E; [|reflexivity].
    exfalso. apply S. split; [reflexivity|]. rewrite wt_cons. cbn [gwt]. unfold sum1. now rewrite E.
  - split; [|reflexivity]. cbn [tE]. apply rg_prod.
    + rewrite map_length. cbn. lia.
    + intros x Hx. apply in_map_iff in Hx as (y & <- & Hy). rewrite Forall_forall in O. now apply (gfE_props h y), O.
    + intros x Hx. apply in_map_iff in Hx as (y & <- & Hy). rewrite Forall_forall in O. now apply (gfE_props h y), O.
    + cbn [map tl]. intros x Hx. change (gfE g' :: map gfE u) with (map gfE (g' :: u)) in Hx. apply in_map_iff in Hx as (y & <- & Hy).
      rewrite Forall_forall in O. destruct (gfE_props h y) as (_ & _ & -> & _); [apply O; now right|].
      destruct (isGN y) eqn:G; [|reflexivity]. exfalso. cbn [tl] in T. unfold nums in T. apply length_zero_iff_nil in T.
      assert (In y (filter isGN (g' :: u))) by now apply filter_In. rewrite T in *. contradiction.
    + exact NE.
Qed.

Lemma gfs_view h l : (forall x, In x l -> ring x) -> (forall x, In x l -> isProduct x = false) -> (forall x, In x l -> (height x <= h)%nat) ->
  exists u, l = map gfE u /\ Forall (gfOK h) u.
Proof.
  induction l as [|x l IH]; intros R P H; [exists []; auto|]. destruct IH as (u & -> & O); [auto with datatypes..|].
  destruct (gf_view h x) as (g & -> & Og); [auto with datatypes..|]. exists (g :: u). auto.
Qed.
Lemma nums_tail h u : Forall (gfOK h) u -> (forall x, In x (tl (map gfE u)) -> isNumeric x = false) -> nums (tl u) = 0%nat.
Proof.
  intros O H. destruct u as [|g u]; [reflexivity|]. cbn [map tl] in *. inversion O as [|? ? _ Ou]; subst. clear O.
  induction Ou as [|y u Hy _ IH]; [reflexivity|]. rewrite nums_cons, IH by (intros x Hx; apply H; now right).
  specialize (H (gfE y) (or_introl eq_refl)). destruct (gfE_props h y Hy) as (_ & _ & E & _). rewrite E in H. now rewrite H.
Qed.
(** The summands of sums. *)
Lemma term_view h e : ring e -> isSum e = false -> (height e <= h)%nat -> exists u, e = tE u /\ tOK h u.
Proof.
  intros R S H. destruct (isProduct e) eqn:P.
  - destruct R as [q C|n p|b n Hb Rb Hn|l L Hl NP N NE|l L Hl NS N]; try discriminate. cbn [height] in H.
    destruct (gfs_view h l Hl NP) as (u & -> & O); [intros x Hx; pose proof (height_in _ _ Hx); lia|].
    rewrite map_length in L. exists u. split; [destruct u as [|? [|? ?]]; [cbn in L; lia | cbn in L; lia | reflexivity]|].
    assert (T : nums (tl u) = 0%nat) by (apply (nums_tail h); assumption).
    split; [exact O|]. split; [intros ->; cbn in L; lia|]. split; [exact T|]. intros [S1 S2].
    destruct (nums u) as [|c] eqn:En.
    + destruct (one_factor h u O En S1) as (b & -> & _). cbn in L. lia.
    + destruct u as [|g u]; [cbn in L; lia|]. cbn [tl] in T. inversion O as [|? ? Hg Ou]; subst. rewrite nums_cons, T in En.
      destruct g as [q|b n]; cbn [isGN] in En; [|lia]. rewrite wt_cons in S1, S2. cbn [gwt] in S1, S2.
      destruct (one_factor h u Ou T ltac:(lia)) as (b & -> & Hb). rewrite wt_cons in S2. cbn [gwt wt fold_right] in S2.
      unfold sum1 in S2. destruct (isSum b) eqn:Sb; [|lia]. destruct b; try discriminate.
      inversion Ou as [|? ? Hb' _]; subst. destruct Hb' as (_ & Rb & _). unfold needsExpansion in NE. cbn [map gfE Z.eqb Pos.eqb] in NE.
      cbn [constElements nonConstElements filter] in NE. rewrite (ring_isConst _ Rb) in NE. cbn in NE. discriminate.
  - destruct (gf_view h e R P H) as (g & -> & O). exists [g]. split; [reflexivity|]. split; [auto|]. split; [discriminate|]. split; [reflexivity|].
    intros [S1 S2]. destruct g as [q|b n]; [discriminate|]. rewrite (gfE_isSum h) in S by assumption. rewrite wt_cons in S1, S2. cbn [gwt wt fold_right] in S1, S2.
    unfold one1 in S1. assert (n = 1) as -> by lia. cbn in S. unfold sum1 in S2. rewrite S in S2. lia.
Qed.

Lemma extract_tE h u : Forall (gfOK h) u -> extractProduct (tE u) = map gfE u.
Proof.
  intros O. pose proof (gf_extract h u O) as E. destruct u as [|g [|g' u]]; [reflexivity| |exact E].
  cbn [tE]. unfold extractProducts in E. cbn [map flat_map] in E. now rewrite app_nil_r in E.
Qed.
Lemma gfE_zero h b n : gfOK h (GF b n) -> isZero (gfE (GF b n)) = false.
Proof. intros (Hb & _). cbn [gfE]. destruct (n =? 1); [now apply base_noPow | reflexivity]. Qed.
Lemma tE_zero h u : Forall (gfOK h) u -> nums u = 0%nat -> isZero (tE u) = false.
Proof.
  intros O N. destruct u as [|g [|g' u]]; try reflexivity. inversion O; subst. destruct g as [q|b n]; [discriminate|]. now apply (gfE_zero h).
Qed.
Lemma tE_undef h u : Forall (gfOK h) u -> isUndefined (tE u) = false.
Proof. intros O. destruct u as [|g [|g' u]]; try reflexivity. inversion O; subst. now apply (gfE_props h). Qed.

Section Terms.
  Variables (Y : sys) (F : nat) (h : nat).
  Notation Wk := (world Y F).
  Notation OK := (Forall (gfOK h)).

  (** ** Products without expansion *)
  Definition sameAs (l u : list gf) : Prop := OK u /\ u <> [] /\ nums (tl u) = 0%nat /\ (forall f, wt f u = wt f l) /\ (nums u <= S (nums l))%nat /\ (nums l = 0%nat -> nums u = 0%nat).

  Lemma prodCreate_ok k es l : (1 <= F)%nat -> (h + 3 <= k)%nat -> OK l -> l <> [] -> (length l + 4 <= F)%nat -> (2 <= length es)%nat ->
    extractProducts es = map gfE l -> existsb isUndefined es = false -> existsb isZero es = false -> ~ (nums l <> 0%nat /\ soleSum l) ->
    okE (w_prod (Wk (S k)) es) (fun e => exists u, e = tE u /\ sameAs l u /\ (nums l = 0%nat \/ ~ soleSum u)).
  Proof.
    intros HF Hk O Hl HL H2 E U Z NS. cbn [world step w_prod]. unfold prodCreate. rewrite U, Z.
    assert (R : okE (r <- simplifyProduct Y (Wk k) F es;;
        match r with [] => ret one | [x] => ret x | _ => if needsExpansion r then expandAsProduct (Wk k) F r else ret (Prod r) end)
      (fun e => exists u, e = tE u /\ sameAs l u /\ (nums l = 0%nat \/ ~ soleSum u))).
    { rewrite (simplifyProduct_ext Y (Wk k) F es (map gfE l)) by (rewrite (gf_extract h) by assumption; exact E).
      okb; [apply (simplifyProduct_ok Y F h k HF Hk F l Hl O HL)|].
      intros r (u & -> & [Ou Wu Nu Lu] & Tu & _).
      assert (NSu : nums l = 0%nat \/ ~ soleSum u).
      { destruct (nums l); [now left|]. right. unfold soleSum in *. rewrite !Wu. intros S. apply NS. split; [discriminate | exact S]. }
      destruct u as [|g [|g' u]]; cbn [map].
      - apply okE_ret. exists [GN 1]. split; [reflexivity|]. split; [|right; intros [S _]; discriminate].
        split; [repeat constructor|]. split; [discriminate|]. split; [reflexivity|]. split; [exact Wu|].
        assert (Z1 : wt one1 l = 0) by (rewrite <- Wu; reflexivity). apply (wt_num h) in Z1; [|assumption].
        destruct l; [congruence|]. cbn [length] in Z1. split; [cbn; lia|]. intros; lia.
      - apply okE_ret. exists [g]. split; [reflexivity|]. split; [|exact NSu]. split; [exact Ou|]. split; [discriminate|]. split; [reflexivity|]. split; [exact Wu|]. lia.
      - assert (NE : needsExpansion (map gfE (g :: g' :: u)) = false).
        { destruct (needsExpansion _) eqn:NE; [|reflexivity]. apply (needs_sole h) in NE as [N1 N2]; [|exact Ou]. exfalso.
          destruct NSu as [N|N]; [lia | contradiction]. }
        cbn [map] in NE. rewrite NE. apply okE_ret. exists (g :: g' :: u). split; [reflexivity|]. split; [|exact NSu].
        split; [exact Ou|]. split; [discriminate|]. split; [exact Tu|]. split; [exact Wu|]. lia. }
    destruct es as [|a [|b es]]; [cbn in H2; lia | cbn in H2; lia | exact R].
  Qed.
  Lemma gfs_flags l : OK l -> existsb isUndefined (map gfE l) = false /\ (nums l = 0%nat -> existsb isZero (map gfE l) = false).
  Proof.
    induction 1 as [|g l Hg _ [IH1 IH2]]; [auto|]. cbn [map existsb]. destruct (gfE_props h g Hg) as (_ & -> & _). rewrite IH1. split; [reflexivity|].
    rewrite nums_cons. intros N. destruct g as [q|b n]; cbn [isGN] in N; [lia|]. rewrite (gfE_zero h), IH2 by (auto; lia). reflexivity.
  Qed.

  (** What is left of a term without its coefficient. *)
  Definition bareOf (u : list gf) (c : expr) : Prop := exists v, c = tE v /\ OK v /\ v <> [] /\ nums v = 0%nat /\ (forall f, wt f v = wt f u).
  Lemma bare_prod k l : (1 <= F)%nat -> (h + 4 <= k)%nat -> OK l -> l <> [] -> nums l = 0%nat -> (length l + 4 <= F)%nat ->
    okE (w_prod (Wk k) (map gfE l)) (bareOf l).
  Proof.
    intros HF Hk O Hl N HL. destruct k as [|k]; [lia|]. destruct (gfs_flags l O) as [U Z].
    destruct l as [|a [|b l]]; [congruence| |].
    - cbn [map world step w_prod]. unfold prodCreate. cbn [map] in U, Z. rewrite U, Z by assumption. apply okE_ret.
      exists [a]. split; [reflexivity|]. auto.
    - eapply okE_imp; [apply (prodCreate_ok k _ (a :: b :: l)); auto; try lia|].
      + rewrite map_length; cbn; lia.
      + now apply (gf_extract h).
      + intros e (u & -> & (Ou & Nu & Tu & Wu & _ & Mu) & _). exists u. auto 10.
  Qed.
  Lemma bare_self u : OK u -> u <> [] -> nums u = 0%nat -> bareOf u (tE u).
  Proof. intros. exists u. auto. Qed.
  Lemma bare_wt u v c : (forall f, wt f u = wt f v) -> bareOf u c -> bareOf v c.
  Proof. intros E (w & -> & O & N & M & W). exists w. split; [reflexivity|]. repeat split; auto. intros f. now rewrite W, E. Qed.
  Lemma bare_props u c : bareOf u c -> isNumeric c = false /\ isOne c = false /\ isZero c = false /\ isUndefined c = false.
  Proof.
    intros (v & -> & O & N & M & W). assert (X : isNumeric (tE v) = false).
    { assert (T : nums (tl v) = 0%nat) by (destruct v; [congruence|]; rewrite nums_cons in M; cbn [tl]; lia). rewrite (tE_numeric h) by assumption. apply Z.eqb_neq. intros Z.
      apply (wt_num h) in Z; [|assumption]. rewrite M in Z. destruct v; [congruence | discriminate]. }
    split; [exact X|]. split; [|split; [now apply (tE_zero h) | now apply (tE_undef h)]].
    destruct (tE v); try reflexivity. discriminate.
  Qed.
  Lemma bare_trig u c s : bareOf u c -> areSinAndCosSquare Y c s = false.
  Proof.
    intros (v & -> & O & _ & _ & _). destruct v as [|g [|g' v]]; try reflexivity. inversion O as [|? ? Hg _]; subst. cbn [tE].
    destruct g as [q|b n]; [reflexivity|]. destruct Hg as (Hb & _). cbn [gfE]. destruct (n =? 1); destruct b; try discriminate; reflexivity.
  Qed.

  Definition small (L : Z) (u : list gf) : Prop := wt one1 u <= L /\ L + 6 <= Z.of_nat F.
  Lemma small_len L u : OK u -> nums (tl u) = 0%nat -> small L u -> (length u + 5 <= F)%nat.
  Proof.
    intros O T [S1 S2]. pose proof (len_wt h u O). destruct u as [|g u]; [cbn in *; lia|]. cbn [tl] in T. rewrite nums_cons, T in *. destruct (isGN g); lia.
  Qed.

  Lemma nonConst_ok k L u : (h + 4 <= k)%nat -> small L u -> tOK h u -> isNumeric (tE u) = false -> okE (nonConstTerm (Wk k) (tE u)) (bareOf u).
  Proof.
    intros Hk Sm (O & N & T & S) Num. pose proof (small_len L u O T Sm) as HL.
    destruct u as [|g [|g' u]]; [congruence| |].
    - inversion O as [|? ? Hg _]; subst. destruct (gfE_props h g Hg) as (P & _ & Ng & _ & C & _). cbn [tE] in *. rewrite Num in Ng.
      assert (E : nonConstTerm (Wk k) (gfE g) = ret (gfE g)).
      { unfold nonConstTerm. rewrite C, <- Ng. destruct (gfE g); try reflexivity. discriminate. }
      rewrite E. apply okE_ret. apply (bare_self [g]); [auto | discriminate | rewrite nums_cons, <- Ng; reflexivity].
    - cbn [tE nonConstTerm]. destruct (const_gfs h _ O) as [_ E]. unfold nonConstElements in *. rewrite E.
      set (v := filter (fun g => negb (isGN g)) (g :: g' :: u)). assert (Nv : nums v = 0%nat) by apply filter_nums.
      assert (Ov : OK v) by (rewrite Forall_forall in *; intros x Hx; apply filter_In in Hx; now apply O).
      assert (Wv : forall f, wt f v = wt f (g :: g' :: u)) by (intros; apply filter_wt).
      assert (Lv : (length v <= length (g :: g' :: u))%nat) by (pose proof (filter_split (g :: g' :: u)) as Sp; fold v in Sp; lia).
      assert (Hv : v <> []).
      { intros X. pose proof (filter_split (g :: g' :: u)) as Y0. fold v in Y0. rewrite X in Y0. cbn [tl] in T. rewrite nums_cons, T in Y0. cbn [length] in Y0. destruct (isGN g); lia. }
      assert (R : okE (w_prod (Wk k) (map gfE v)) (bareOf (g :: g' :: u))).
      { eapply okE_imp; [apply bare_prod; auto; lia|]. intros c. now apply bare_wt. }
      destruct v as [|y v]; [congruence | exact R].
  Qed.
  Lemma nonNumeric_ok k L u : (h + 4 <= k)%nat -> small L u -> tOK h u -> isNumeric (tE u) = false -> okE (nonNumericTerm (Wk k) (tE u)) (bareOf u).
  Proof.
    intros Hk Sm (O & N & T & S) Num. pose proof (small_len L u O T Sm) as HL.
    destruct u as [|g [|g' u]]; [congruence| |].
    - inversion O as [|? ? Hg _]; subst. destruct (gfE_props h g Hg) as (P & _ & Ng & _ & C & _). cbn [tE] in *. rewrite Num in Ng.
      assert (E : nonNumericTerm (Wk k) (gfE g) = ret (gfE g)).
      { unfold nonNumericTerm. destruct (gfE g); try reflexivity; discriminate. }
      rewrite E. apply okE_ret. apply (bare_self [g]); [auto | discriminate | rewrite nums_cons, <- Ng; reflexivity].
    - cbn [tE nonNumericTerm map]. inversion O as [|? ? Hg Ou]; subst. destruct (gfE_props h g Hg) as (_ & _ & -> & _). cbn [tl] in T.
      destruct g as [q|b n]; cbn [isGN].
      + eapply okE_imp; [apply (bare_prod k (g' :: u)); auto; [lia | discriminate | cbn [length] in *; lia]|]. intros c. now apply bare_wt.
      + apply okE_ret. apply (bare_self (GF b n :: g' :: u)); auto.
  Qed.
  Definition isCoeff (c : expr) : Prop := exists q, c = Num q /\ canon q.
  Lemma coeff_one : isCoeff one. Proof. exists 1%Q. split; [reflexivity | apply canon_1]. Qed.
  Lemma numericTerm_ok u : tOK h u -> okE (numericTerm (tE u)) isCoeff.
  Proof.
    intros (O & N & T & S). destruct u as [|g [|g' u]]; [congruence| |].
    - inversion O as [|? ? Hg _]; subst. cbn [tE]. destruct g as [q|b n]; [apply okE_ret; exists q; auto|].
      destruct Hg as (Hb & _). cbn [gfE]. destruct (n =? 1); [destruct b; try discriminate|]; apply okE_ret, coeff_one.
    - cbn [tE map numericTerm]. inversion O as [|? ? Hg _]; subst. apply okE_ret. destruct (gfE_props h g Hg) as (_ & _ & -> & _).
      destruct g as [q|b n]; cbn [isGN]; [exists q; auto | apply coeff_one].
  Qed.
  Lemma constTerm_ok k u : (1 <= k)%nat -> tOK h u -> okE (constTerm (Wk k) (tE u)) isCoeff.
  Proof.
    intros Hk (O & N & T & S). destruct k as [|k]; [lia|]. destruct u as [|g [|g' u]]; [congruence| |].
    - inversion O as [|? ? Hg _]; subst. cbn [tE]. destruct (gfE_props h g Hg) as (P & _ & _ & _ & C & _).
      assert (E : constTerm (Wk (Datatypes.S k)) (gfE g) = ret (if isConst (gfE g) then gfE g else one)) by (destruct (gfE g); try reflexivity; discriminate).
      rewrite E, C. apply okE_ret. destruct g as [q|b n]; cbn [isGN]; [exists q; auto | apply coeff_one].
    - cbn [tE constTerm]. destruct (const_gfs h _ O) as [E _]. unfold constElements in *. rewrite E. cbn [tl] in T.
      assert (Z : filter isGN (g' :: u) = []) by (unfold nums in T; now apply length_zero_iff_nil). cbn [filter] in *. rewrite Z.
      inversion O as [|? ? Hg _]; subst. destruct g as [q|b n]; cbn [isGN map]; [|apply okE_ret, coeff_one].
      cbn [world step w_prod gfE]. unfold prodCreate. cbn [existsb isUndefined isZero orb].
      destruct (qeqb q 0); cbn [orb]; apply okE_ret; [exists 0%Q; split; [reflexivity | apply canon_0] | exists q; auto].
  Qed.

  (** ** Terms with a bound for size and degree *)
  Definition tm (L D : Z) (e : expr) : Prop := exists u, e = tE u /\ tOK h u /\ wt one1 u <= L /\ wt degreeBound u <= D.
  Lemma tm_num L D q : 0 <= L -> 0 <= D -> canon q -> tm L D (Num q).
  Proof.
    intros HL HD C. exists [GN q]. split; [reflexivity|]. split; [|split; [cbn; lia | cbn; lia]].
    split; [auto|]. split; [discriminate|]. split; [reflexivity|]. intros [S _]. discriminate.
  Qed.
  Lemma tm_ring L D e : tm L D e -> ring e /\ isSum e = false /\ degreeBound e <= D.
  Proof. intros (u & -> & T & S & HD). split; [|split]; try now apply (tOK_ring h). rewrite (deg_tE h) by apply T. exact HD. Qed.

  Lemma scaled_ok k L D u c s : (h + 4 <= k)%nat -> L + 6 <= Z.of_nat F -> 0 <= L -> 0 <= D -> wt one1 u <= L -> wt degreeBound u <= D ->
    tOK h u -> isNumeric (tE u) = false -> bareOf u c -> canon s ->
    okE (w_prod (Wk k) [Num s; c]) (fun e => tm L D e /\ (isZero e = true \/ isNumeric e = false)).
  Proof.
    intros Hk HF HL HD Su Du Tu Num Bc Cs. destruct (bare_props u c Bc) as (_ & _ & Zc & Uc). destruct Bc as (v & -> & Ov & Nv & Mv & Wv).
    destruct k as [|k]; [lia|]. destruct (qeqb s 0) eqn:Es.
    - cbn [world step w_prod]. unfold prodCreate. cbn [existsb isUndefined isZero]. rewrite Uc, Es. cbn [orb]. apply okE_ret.
      split; [apply tm_num; auto; apply canon_0 | now left].
    - eapply okE_imp.
      + apply (prodCreate_ok k _ (GN s :: v)); try lia.
        * constructor; auto.
        * discriminate.
        * pose proof (len_wt h v Ov) as X. rewrite Mv, Wv in X. cbn [length]. lia.
        * cbn; lia.
        * unfold extractProducts. cbn [flat_map extractProduct]. rewrite (extract_tE h) by assumption. rewrite app_nil_r. reflexivity.
        * cbn [existsb isUndefined]. now rewrite Uc.
        * cbn [existsb isZero]. now rewrite Zc, Es.
        * intros [_ X]. apply Tu. destruct X as [X1 X2]. rewrite wt_cons, Wv in X1, X2. split; assumption.
      + intros e (w & -> & (Ow & Nw & Tw & Ww & _) & Sw).
        assert (Wu : forall f, wt f w = wt f u) by (intros f; rewrite Ww, wt_cons, Wv; reflexivity).
        split.
        * exists w. split; [reflexivity|]. split; [|rewrite !Wu; auto]. split; [exact Ow|]. split; [exact Nw|]. split; [exact Tw|].
          destruct Sw as [Sw|Sw]; [rewrite nums_cons in Sw; discriminate | exact Sw].
        * right. rewrite (tE_numeric h) by assumption. rewrite Wu. rewrite <- (tE_numeric h); [exact Num | apply Tu | apply Tu | apply Tu].
  Qed.

  Lemma isEqual_num_bare u c : bareOf u c -> isEqual one c = false /\ isEqual c one = false.
  Proof.
    intros B. destruct (bare_props u c B) as (N & _). split; destruct (isEqual _ _) eqn:E; try reflexivity; apply isEqual_eq in E; subst; discriminate.
  Qed.

  Definition pairS (L D : Z) (a b : expr) (r : list expr) : Prop :=
    r = [] \/ (exists x, r = [x] /\ tm L D x /\ (isZero x = true \/ isNumeric x = false \/ isNumeric a = true \/ isNumeric b = true)) \/
    (r = [a; b] /\ isNumeric b = false) \/ (r = [b; a] /\ isNumeric a = false).

  Lemma orderedS L D a b : isUndefined a = false -> isUndefined b = false -> isNumeric a && isNumeric b = false -> pairS L D a b (ordered Y a b).
  Proof.
    intros Ua Ub N. unfold ordered, pairS. destruct (isNumeric a) eqn:A.
    - cbn [andb] in N. destruct a; try discriminate. unfold permuted. rewrite dp_num_left by assumption. auto 6.
    - destruct (isNumeric b) eqn:E; [|destruct (permuted Y a b); auto 6].
      destruct b; try discriminate. unfold permuted. rewrite dp_num_right by assumption. auto 6.
  Qed.

  Definition general (W : oper) (a b : expr) : res (list expr) :=
    c <- haveEqualNonConstTerms W a b ;;
    if (c : bool) then simplEqualNonConstTerms Y W a b
    else d <- haveEqualNonNumericTerms W a b ;;
    if (d : bool) then simplEqualNonNumericTerms W a b
    else e <- haveContractableSinCos Y W a b ;;
    if (e : bool) then t <- constTerm W a ;; ret [t] else ret (ordered Y a b).
  Lemma general_eq W a b : isZero a = false -> isZero b = false -> isNumeric a && isNumeric b = false -> simplTwoSummandsWithoutSum Y W a b = general W a b.
  Proof.
    intros Za Zb N. unfold simplTwoSummandsWithoutSum. rewrite Za, Zb. destruct a; try reflexivity. destruct b; try reflexivity. discriminate.
  Qed.

  Lemma summands_ok k L D a b : (h + 4 <= k)%nat -> L + 6 <= Z.of_nat F -> 0 <= L -> 0 <= D -> tm L D a -> tm L D b ->
    okE (simplTwoSummandsWithoutSum Y (Wk k) a b) (pairS L D a b).
  Proof.
    intros Hk HF HL HD Ta Tb.
    destruct (isZero a) eqn:Za.
    { unfold simplTwoSummandsWithoutSum. rewrite Za. apply okE_ret. right. left. exists b. split; [reflexivity|]. split; [exact Tb|]. right. right. left. destruct a; try discriminate. reflexivity. }
    destruct (isZero b) eqn:Zb.
    { unfold simplTwoSummandsWithoutSum. rewrite Za, Zb. apply okE_ret. right. left. exists a. split; [reflexivity|]. split; [exact Ta|]. right. right. right. destruct b; try discriminate. reflexivity. }
    destruct Ta as (u & -> & Ou & Su & Du). destruct Tb as (v & -> & Ov & Sv & Dv).
    assert (Uu : isUndefined (tE u) = false) by (apply (tE_undef h), Ou). assert (Uv : isUndefined (tE v) = false) by (apply (tE_undef h), Ov).
    destruct (isNumeric (tE u)) eqn:Nu, (isNumeric (tE v)) eqn:Nv.
    - destruct (tE u) as [p| | | | | | |] eqn:Eu; try discriminate. destruct (tE v) as [q| | | | | | |] eqn:Ev; try discriminate. unfold simplTwoSummandsWithoutSum. rewrite Za, Zb. apply okE_ret. cbn zeta.
      destruct (qeqb (qadd p q) 0); [now left|]. right. left. exists (Num (qadd p q)). split; [reflexivity|]. split; [|auto]. apply tm_num; auto. apply qadd_spec.
    - (* number and term *)
      destruct (tE u) as [p| | | | | | |] eqn:Eu; try discriminate.
      rewrite general_eq by (auto; now rewrite Nv). unfold general.
      { eapply okE_bind with (P := fun c => c = false).
        - unfold haveEqualNonConstTerms. cbn [nonConstTerm isConst]. change (ret one) with (Ok one []). rewrite bind_ret.
          okb; [apply (nonConst_ok k L v); auto; now split|]. intros c Bc. apply okE_ret. reflexivity.
        - intros ? ->. eapply okE_bind with (P := fun c => c = false).
          + unfold haveEqualNonNumericTerms. cbn [nonNumericTerm]. change (ret one) with (Ok one []). rewrite bind_ret.
            okb; [apply (nonNumeric_ok k L v); auto; now split|]. intros c Bc. apply okE_ret. now apply isEqual_num_bare in Bc.
          + intros ? ->. eapply okE_bind with (P := fun c => c = false).
            * unfold haveContractableSinCos. cbn [nonConstTerm constTerm isConst]. change (ret one) with (Ok one []). rewrite bind_ret.
              okb; [apply (nonConst_ok k L v); auto; now split|]. intros c Bc. change (ret (Num p)) with (Ok (Num p) []). rewrite bind_ret.
              okb; [apply (constTerm_ok k v); auto; lia|]. intros d _. cbn [areSinAndCosSquare one]. rewrite andb_false_r. now apply okE_ret.
            * intros ? ->. apply okE_ret. apply orderedS; auto; now rewrite Nv. }
    - destruct (tE v) as [p| | | | | | |] eqn:Ev; try discriminate.
      rewrite general_eq by (auto; now rewrite Nu). unfold general.
      { eapply okE_bind with (P := fun c => c = false).
        - unfold haveEqualNonConstTerms. okb; [apply (nonConst_ok k L u); auto; now split|]. intros c Bc. cbn [nonConstTerm isConst]. change (ret one) with (Ok one []). rewrite bind_ret.
          apply okE_ret. cbn [isOne one]. now rewrite orb_true_r.
        - intros ? ->. eapply okE_bind with (P := fun c => c = false).
          + unfold haveEqualNonNumericTerms. okb; [apply (nonNumeric_ok k L u); auto; now split|]. intros c Bc. cbn [nonNumericTerm]. change (ret one) with (Ok one []). rewrite bind_ret.
            apply okE_ret. now apply isEqual_num_bare in Bc.
          + intros ? ->. eapply okE_bind with (P := fun c => c = false).
            * unfold haveContractableSinCos. okb; [apply (nonConst_ok k L u); auto; now split|]. intros c Bc. cbn [nonConstTerm constTerm isConst]. change (ret one) with (Ok one []). rewrite bind_ret.
              okb; [apply (constTerm_ok k u); auto; lia|]. intros d _. change (ret (Num p)) with (Ok (Num p) []). rewrite bind_ret.
              rewrite (bare_trig u c) by assumption. rewrite andb_false_r. now apply okE_ret.
            * intros ? ->. apply okE_ret. apply orderedS; auto; now rewrite Nu. }
    - rewrite general_eq by (auto; now rewrite Nu). unfold general.
      { assert (Sc : forall c s, bareOf u c -> isCoeff s -> okE (w_prod (Wk k) [s; c]) (fun e => tm L D e /\ (isZero e = true \/ isNumeric e = false))).
        { intros c s Bc (q & -> & Cq). now apply (scaled_ok k L D u). }
        assert (Sm : forall s t, isCoeff s -> isCoeff t -> okE (w_sum (Wk k) [s; t]) isCoeff).
        { intros s t (p & -> & Cp) (q & -> & Cq). rewrite num_sum by (auto; lia). apply okE_ret. exists (qadd p q). split; [reflexivity | apply qadd_spec]. }
        eapply okE_bind with (P := fun _ => True).
        - unfold haveEqualNonConstTerms. okb; [apply (nonConst_ok k L u); auto; now split|]. intros c Bc. okb; [apply (nonConst_ok k L v); auto; now split|]. intros d Bd.
          now apply okE_ret.
        - intros [|] _.
          + unfold simplEqualNonConstTerms. okb; [apply (constTerm_ok k u); auto; lia|]. intros s Hs. okb; [apply (constTerm_ok k v); auto; lia|]. intros t Ht.
            okb; [now apply Sm|]. intros w Hw. assert (isSum w = false) as -> by (destruct Hw as (q & -> & _); reflexivity). cbn [negb].
            okb; [apply (nonConst_ok k L u); auto; now split|]. intros c Bc. okb; [now apply Sc|]. intros e (Te & Ne). apply okE_ret.
            right. left. exists e. split; [reflexivity|]. split; [exact Te|]. tauto.
          + eapply okE_bind with (P := fun _ => True).
            * unfold haveEqualNonNumericTerms. okb; [apply (nonNumeric_ok k L u); auto; now split|]. intros c Bc. okb; [apply (nonNumeric_ok k L v); auto; now split|]. intros d Bd.
              now apply okE_ret.
            * intros [|] _.
              -- unfold simplEqualNonNumericTerms. okb; [apply (numericTerm_ok u); auto|]. intros s Hs. okb; [apply (numericTerm_ok v); auto|]. intros t Ht.
                 okb; [now apply Sm|]. intros w Hw. okb; [apply (nonNumeric_ok k L u); auto; now split|]. intros c Bc. okb; [now apply Sc|]. intros e (Te & Ne). apply okE_ret.
                 destruct (isZero e) eqn:Ze; [now left|]. right. left. exists e. split; [reflexivity|]. split; [exact Te|]. destruct Ne as [Ne|Ne]; [congruence | auto].
              -- eapply okE_bind with (P := fun c => c = false).
                 ++ unfold haveContractableSinCos. okb; [apply (nonConst_ok k L u); auto; now split|]. intros c Bc. okb; [apply (nonConst_ok k L v); auto; now split|]. intros d Bd.
                    okb; [apply (constTerm_ok k u); auto; lia|]. intros s _. okb; [apply (constTerm_ok k v); auto; lia|]. intros t _.
                    rewrite (bare_trig u c) by assumption. rewrite andb_false_r. now apply okE_ret.
                 ++ intros ? ->. apply okE_ret. apply orderedS; auto; now rewrite Nu. }
  Qed.

  (** ** Sums *)
  Lemma two_summands_ok k n L D a b : (h + 4 <= k)%nat -> L + 6 <= Z.of_nat F -> 0 <= L -> 0 <= D -> tm L D a -> tm L D b ->
    okE (simplTwoSummands Y (Wk k) (S n) a b) (pairS L D a b).
  Proof.
    intros Hk HF HL HD Ta Tb. cbn [simplTwoSummands]. destruct (tm_ring L D a Ta) as (_ & -> & _). destruct (tm_ring L D b Tb) as (_ & -> & _). cbn [orb]. now apply summands_ok.
  Qed.
  Definition headNum (l : list expr) : Prop := forall x, In x (tl l) -> isNumeric x = false.
  Definition noNum (l : list expr) : Prop := forall x, In x l -> isNumeric x = false.
  Lemma noNum_headNum l : noNum l -> headNum l.
  Proof. intros H x Hx. apply H. destruct l; [destruct Hx | now right]. Qed.

  Lemma mergeS_ok k n' L D : (h + 4 <= k)%nat -> L + 6 <= Z.of_nat F -> 0 <= L -> 0 <= D ->
    forall n p q, (length p + length q < n)%nat -> Forall (tm L D) p -> Forall (tm L D) q -> headNum p -> headNum q ->
    okE (merge n isZero (simplTwoSummands Y (Wk k) (S n')) p q) (fun l => Forall (tm L D) l /\ headNum l /\ (noNum p -> noNum q -> noNum l)).
  Proof.
    intros Hk HF HL HD. induction n as [|n IH]; intros p q Hn Tp Tq Hp Hq; [lia|].
    destruct p as [|a p]; [cbn [merge]; apply okE_ret; auto|]. destruct q as [|b q]; [cbn [merge]; apply okE_ret; auto|].
    cbn [merge]. inversion Tp as [|? ? Ta Tp']; inversion Tq as [|? ? Tb Tq']; subst. cbn [length] in Hn.
    assert (Np : noNum p) by exact Hp. assert (Nq : noNum q) by exact Hq.
    destruct (tm_ring L D a Ta) as (Ra & _). destruct (tm_ring L D b Tb) as (Rb & _).
    okb; [apply (two_summands_ok k n' L D); assumption|]. intros r Hr.
    assert (Go : okE (merge n isZero (simplTwoSummands Y (Wk k) (S n')) p q) (fun l => Forall (tm L D) l /\ noNum l)).
    { eapply okE_imp; [apply (IH p q); auto using noNum_headNum; lia|]. intros l (T & _ & N). auto. }
    assert (GoE : okE (merge n isZero (simplTwoSummands Y (Wk k) (S n')) p q)
        (fun l => Forall (tm L D) l /\ headNum l /\ (noNum (a :: p) -> noNum (b :: q) -> noNum l))).
    { eapply okE_imp; [exact Go|]. intros l (T & N). auto using noNum_headNum. }
    assert (G1 : isNumeric b = false -> okE (t <- merge n isZero (simplTwoSummands Y (Wk k) (S n')) p (b :: q);; ret (a :: t))
        (fun l => Forall (tm L D) l /\ headNum l /\ (noNum (a :: p) -> noNum (b :: q) -> noNum l))).
    { intros Nb. assert (NN : noNum (b :: q)) by (intros x [<-|Hx]; auto).
      okb; [apply (IH p (b :: q)); auto using noNum_headNum; cbn; lia|]. intros l (T & _ & N). apply okE_ret.
      split; [auto|]. split; [exact (N Np NN)|]. intros Na _ x [<-|Hx]; [apply Na; now left | now apply (N Np NN)]. }
    destruct Hr as [->|[(x & -> & Tx & Nx)|Hr]].
    - exact GoE.
    - destruct (isZero x) eqn:Zx; [exact GoE|]. okb; [exact Go|]. intros l (T & N). apply okE_ret. split; [auto|]. split; [exact N|].
      intros Na Nb y [<-|Hy]; [|now apply N]. destruct Nx as [Nx|[Nx|[Nx|Nx]]]; [congruence | exact Nx | |];
        exfalso; [specialize (Na a (or_introl eq_refl)) | specialize (Nb b (or_introl eq_refl))]; congruence.
    - assert (Rf : forall x y, ring x -> ring y -> areEqual [x; y] [x; y] = true) by (intros; apply areEqual_refl2; now apply ring_noUndef).
      destruct Hr as [(-> & Nb)|(-> & Na)].
      + rewrite Rf by assumption. now apply G1.
      + destruct (areEqual [b; a] [a; b]) eqn:E1.
        * apply G1. apply areEqual_true in E1. injection E1 as E1 _. congruence.
        * rewrite Rf by assumption. assert (NN : noNum (a :: p)) by (intros x [<-|Hx]; auto).
          okb; [apply (IH (a :: p) q); auto using noNum_headNum; cbn; lia|]. intros l (T & _ & N). apply okE_ret.
          split; [auto|]. split; [exact (N NN Nq)|]. intros _ Nb x [<-|Hx]; [apply Nb; now left | now apply (N NN Nq)].
  Qed.

  Definition summandsOf (e : expr) : list expr := match e with Sum l => l | _ => [e] end.
  Lemma sum_ok k L D a b : (h + 5 <= k)%nat -> L + 6 <= Z.of_nat F -> (length (summandsOf a) + length (summandsOf b) + 4 <= F)%nat -> 0 <= L -> 0 <= D ->
    ring a -> ring b -> Forall (tm L D) (summandsOf a) -> Forall (tm L D) (summandsOf b) ->
    okE (w_sum (Wk k) [a; b]) (fun e => ring e /\ degreeBound e <= D).
  Proof.
    intros Hk HF HN HL HD Ra Rb Ta Tb. destruct k as [|k]; [lia|]. cbn [world step w_sum]. unfold sumCreate.
    cbn [existsb]. rewrite (ring_isUndefined a), (ring_isUndefined b) by assumption. cbn [orb simplifySum].
    assert (Fin : forall r, Forall (tm L D) r /\ headNum r -> ring (match r with [] => zero | [x] => x | _ => Sum r end) /\
      degreeBound (match r with [] => zero | [x] => x | _ => Sum r end) <= D).
    { intros r [Tr Hr]. destruct r as [|x [|y r]].
      - split; [apply rg_num, canon_0 | cbn; lia].
      - inversion Tr; subst. destruct (tm_ring L D x) as (? & _ & ?); auto.
      - rewrite Forall_forall in Tr. split.
        + apply rg_sum; [cbn; lia| | |exact Hr]; intros z Hz; now apply (tm_ring L D z), Tr.
        + remember (x :: y :: r) as l. cbn [degreeBound]. assert (X : forall z, In z l -> degreeBound z <= D) by (intros z Hz; now apply (tm_ring L D z), Tr).
          clear -X HD. induction l as [|z l IH]; cbn [fold_right]; [lia|]. assert (degreeBound z <= D) by (apply X; now left).
          assert (fold_right (fun x a => Z.max (degreeBound x) a) 0 l <= D) by (apply IH; intros; apply X; now right). lia. }
    assert (Hd : forall e, ring e -> headNum (summandsOf e)).
    { intros e Re. destruct Re as [q C|n p|b' n Hb Rb' Hn|l L0 Hl NP N NE|l L0 Hl NS N]; try (intros x []). exact N. }
    eapply okE_bind with (P := fun r => Forall (tm L D) r /\ headNum r); [|intros r Hr; apply okE_ret; now apply Fin].
    assert (EF : exists F', F = S (S F')) by (destruct F as [|[|F']]; [lia | lia | now exists F']). destruct EF as (F' & EF).
    replace (simplTwoSummands Y (Wk k) F a b) with (simplTwoSummands Y (Wk k) (S (S F')) a b) by (now rewrite <- EF).
    destruct (isSum a || isSum b) eqn:S.
    - cbn [simplTwoSummands]. rewrite S.
      change (match a with Sum l => l | _ => [a] end) with (summandsOf a). change (match b with Sum l => l | _ => [b] end) with (summandsOf b).
      eapply okE_imp; [apply (mergeS_ok k F' L D); auto; lia|]. intros l (T & H & _). auto.
    - apply orb_false_iff in S as [Sa Sb]. eapply okE_imp; [apply (two_summands_ok k (Datatypes.S F') L D); auto; try lia|].
      + destruct a; try discriminate; now inversion Ta.
      + destruct b; try discriminate; now inversion Tb.
      + intros r [->|[(x & -> & Tx & _)|[(-> & Nb)|(-> & Na)]]].
        * split; [constructor | intros x []].
        * split; [auto | intros y []].
        * split; [constructor; [destruct a; try discriminate; now inversion Ta | destruct b; try discriminate; now inversion Tb]|]. intros x [<-|[]]. exact Nb.
        * split; [constructor; [destruct b; try discriminate; now inversion Tb | destruct a; try discriminate; now inversion Ta]|]. intros x [<-|[]]. exact Na.
  Qed.
End Terms.
