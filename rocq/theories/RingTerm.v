(** Programs that compute polynomials: they end, with a simplified polynomial. *)
From Verif Require Import LaurentSpec LaurentOrder LaurentProd LaurentIdent LaurentSum LaurentExpand LaurentMain LaurentApi RingProd RingSum RingPos RingSpec FuelMono FuelApi SimplApi ApiSpec ApiModel ExprProofs NumberProofs World RPow.
From Coq Require Import Lia Lra Bool Permutation.
From Verif Require Import Run LaurentSpec.
Open Scope Z_scope.

(** ** Executions that end with one result for all sufficiently large bounds *)
Section Runs.
  Variable Y : sys.
  Definition runs {A} (f : oper -> nat -> res A) (P : A -> Prop) : Prop :=
    exists a, P a /\ ev (fun F k => exists l, f (world Y F k) F = Ok a l /\ Forall isEven l).
  Definition mon {A} (f : oper -> nat -> res A) : Prop := forall W W' n n', ople W W' -> (n <= n')%nat -> rle (f W n) (f W' n').
  Lemma runs_of {A} (f : oper -> nat -> res A) P : mon f -> ev (fun F k => okE (f (world Y F k) F) P) -> runs f P.
  Proof.
    intros M (F0 & k0 & H). destruct (H F0 k0 (le_n _) (le_n _)) as (a & l & E & _ & Pa). exists a. split; [exact Pa|].
    exists F0, k0. intros F k HF Hk. destruct (H F k HF Hk) as (a' & l' & E' & Hl' & _). exists l'. split; [|exact Hl'].
    pose proof (M _ _ F0 F (world_mono Y F0 F k0 k HF Hk) HF) as R. rewrite E in R. destruct R as (l2 & R). congruence.
  Qed.
  Lemma runs_ret {A} (a : A) (P : A -> Prop) : P a -> runs (fun _ _ => ret a) P.
  Proof. intros H. exists a. split; [exact H|]. apply ev_all. intros _ _. exists []. auto. Qed.
  Lemma runs_bind {A B} (f : oper -> nat -> res A) (g : oper -> nat -> A -> res B) P Q :
    runs f P -> (forall a, P a -> runs (fun W n => g W n a) Q) -> runs (fun W n => bind (f W n) (g W n)) Q.
  Proof.
    intros (a & Pa & Ea) H. destruct (H a Pa) as (b & Qb & Eb). exists b. split; [exact Qb|].
    eapply ev_mp; [exact Ea|]. eapply ev_imp; [exact Eb|]. intros F k (l' & E' & Hl') (l & E & Hl).
    exists (l ++ l'). rewrite E. cbn [bind]. rewrite E'. split; [reflexivity | now apply Forall_app].
  Qed.
  Lemma runs_imp {A} (f : oper -> nat -> res A) (P Q : A -> Prop) : runs f P -> (forall a, P a -> Q a) -> runs f Q.
  Proof. intros (a & Pa & E) H. exists a. auto. Qed.
  Lemma runs_ext {A} (f g : oper -> nat -> res A) P : (forall W n, f W n = g W n) -> runs f P -> runs g P.
  Proof. intros H (a & Pa & E). exists a. split; [exact Pa|]. eapply ev_imp; [exact E|]. intros F k (l & El & Hl). exists l. rewrite <- H. auto. Qed.
  Lemma runs_step {A} (f g : oper -> nat -> res A) P : (forall F k, f (world Y F (S k)) F = g (world Y F k) F) -> runs g P -> runs f P.
  Proof. intros H (a & Pa & E). exists a. split; [exact Pa|]. apply ev_S. eapply ev_imp; [exact E|]. intros F k (l & El & Hl). exists l. rewrite H. auto. Qed.
  Lemma runs_unstep {A} (f g : oper -> nat -> res A) P : (forall F k, f (world Y F (S k)) F = g (world Y F k) F) -> runs f P -> runs g P.
  Proof.
    intros H (a & Pa & (F0 & k0 & E)). exists a. split; [exact Pa|]. exists F0, k0. intros F k HF Hk. rewrite <- H. apply E; lia.
  Qed.
  Lemma runs_prod es P : runs (fun W n => prodCreate Y W n es) P -> runs (fun W _ => w_prod W es) P.
  Proof. now apply runs_step. Qed.
End Runs.

(** ** Views of simplified polynomials *)
Lemma factors_view h e : ring e -> (height e <= h)%nat -> exists u, extractProduct e = map gfE u /\ Forall (gfOK h) u /\ u <> [] /\ wt degreeBound u = degreeBound e.
Proof.
  intros R Hh. destruct (isSum e) eqn:S.
  - exists [GF e 1]. destruct e; try discriminate. split; [reflexivity|]. split; [constructor; [repeat split; auto; lia | constructor]|]. split; [discriminate|].
    cbn [wt fold_right gwt]. lia.
  - destruct (term_view h e R S Hh) as (u & -> & O & N & T & _). exists u. split; [now apply (extract_tE h)|]. split; [exact O|]. split; [exact N|]. symmetry. now apply (deg_tE h).
Qed.
Definition degSum (es : list expr) : Z := fold_right (fun x a => degreeBound x + a) 0 es.
Lemma factors_views es : (forall x, In x es -> ring x) -> es <> [] ->
  exists h l, extractProducts es = map gfE l /\ Forall (gfOK h) l /\ l <> [] /\ wt degreeBound l = degSum es.
Proof.
  intros R N. exists (fold_right (fun x a => Nat.max (height x) a) 0%nat es).
  assert (X : forall h, (forall x, In x es -> (height x <= h)%nat) -> exists l, extractProducts es = map gfE l /\ Forall (gfOK h) l /\ (es <> [] -> l <> []) /\ wt degreeBound l = degSum es).
  { clear N. intros h Hh. induction es as [|e es IH].
    - exists []. repeat split; auto.
    - destruct (factors_view h e) as (u & E & O & N & W); [apply R; now left | apply Hh; now left|].
      destruct IH as (l & E' & O' & _ & W'); [intros; apply R; now right | intros; apply Hh; now right|].
      exists (u ++ l). unfold extractProducts in *. cbn [flat_map degSum fold_right]. rewrite E, E', map_app. split; [reflexivity|].
      split; [now apply Forall_app|]. split; [intros _ A; apply app_eq_nil in A as [-> _]; congruence|]. rewrite wt_app, W, W'. reflexivity. }
  destruct (X _ (height_in es)) as (l & ? & ? & ? & ?). exists l. auto.
Qed.

Lemma terms_view h l : (forall x, In x l -> ring x /\ isSum x = false /\ (height x <= h)%nat) -> forall D, (forall x, In x l -> degreeBound x <= D) ->
  exists L, 0 <= L /\ Forall (tm h L D) l.
Proof.
  intros R D HD. induction l as [|x l IH]; [exists 0; split; [lia | constructor]|].
  destruct IH as (L & HL & T); [intros; apply R; now right | intros; apply HD; now right|].
  destruct (R x) as (Rx & Sx & Hx); [now left|]. destruct (term_view h x Rx Sx Hx) as (u & -> & O).
  exists (Z.max L (wt one1 u)). split; [lia|]. constructor.
  - exists u. split; [reflexivity|]. split; [exact O|]. split; [lia|]. rewrite <- (deg_tE h) by apply O. apply HD. now left.
  - eapply Forall_impl; [|exact T]. intros y (v & -> & A & B & C). exists v. repeat split; auto; try apply A; lia.
Qed.
Lemma summands_ring e : ring e -> forall x, In x (summandsOf e) -> ring x /\ isSum x = false /\ (height x <= height e)%nat /\ degreeBound x <= degreeBound e.
Proof.
  assert (X : forall l x, In x l -> degreeBound x <= fold_right (fun x a => Z.max (degreeBound x) a) 0 l).
  { induction l as [|y l IH]; intros x H; [destruct H|]. cbn [fold_right]. destruct H as [->|H]; [lia | specialize (IH x H); lia]. }
  intros R. destruct R as [q C|n p|b n Hb Rb Hn|l L H NP N NE|l L H NS N]; cbn [summandsOf]; intros x Hx;
    try (destruct Hx as [<-|[]]; split; [now constructor|]; split; [reflexivity|]; split; lia).
  split; [auto|]. split; [auto|]. split; [cbn [height]; pose proof (height_in l x Hx); lia | cbn [degreeBound]; auto].
Qed.

Section Ops.
  Variables (Y : sys) (B : Z).
  Hypothesis Hlt : exactUpTo B (s_nlt Y).
  Definition within (D : Z) (e : expr) : Prop := ring e /\ degreeBound e <= D.

  Lemma run_sum a b : ring a -> ring b -> runs Y (fun W _ => w_sum W [a; b]) (within (Z.max (degreeBound a) (degreeBound b))).
  Proof.
    intros Ra Rb. set (D := Z.max (degreeBound a) (degreeBound b)). set (h := Nat.max (height a) (height b)).
    assert (Da : 0 <= degreeBound a) by (apply degreeBound_nonneg; now apply ring_laurent).
    destruct (terms_view h (summandsOf a ++ summandsOf b)) with (D := D) as (L & HL & T).
    { intros x Hx. apply in_app_or in Hx as [Hx|Hx].
      - destruct (summands_ring a Ra x Hx) as (A & C & E & _). repeat split; auto. unfold h. lia.
      - destruct (summands_ring b Rb x Hx) as (A & C & E & _). repeat split; auto. unfold h. lia. }
    { intros x Hx. apply in_app_or in Hx as [Hx|Hx].
      - destruct (summands_ring a Ra x Hx) as (_ & _ & _ & A). unfold D. lia.
      - destruct (summands_ring b Rb x Hx) as (_ & _ & _ & A). unfold D. lia. }
    apply Forall_app in T as [Ta Tb]. apply runs_of; [intros W W' n n' HW _; apply (o_sum _ _ HW)|].
    apply (ev_ge (Z.to_nat L + 6 + length (summandsOf a) + length (summandsOf b) + 4) (h + 5)). intros F k HF Hk.
    apply (sum_ok Y F h k L D a b); auto; unfold D; lia.
  Qed.

  Lemma run_expand_prod r : r <> [] -> (forall x, In x r -> ring x) -> degreeBound (Prod r) <= B ->
    runs Y (fun W n => expandAsProduct W n r) (within (degreeBound (Prod r))).
  Proof.
    intros N R D. assert (L : laurent (Prod r)) by (apply l_prod; [exact N | intros x Hx; now apply ring_laurent, R]).
    destruct (expand_laurent Y B Hlt (Prod r) L D) as (p & O & V & Dp & E).
    assert (P : posPoly p). { apply (normal_pos (Prod r) p); auto. apply (polyExpr_prod Y). intros x Hx. now apply (ring_polyExpr Y), R. }
    destruct (poly_ring p O P) as [Rp Dq].
    apply (runs_unstep Y (fun W _ => w_expand W (Prod r))); [reflexivity|]. exists (polyE p). split; [split; [exact Rp | lia]|].
    eapply ev_imp; [exact E|]. intros F k ->. exists []. auto.
  Qed.
  Lemma run_expand e : ring e -> degreeBound e <= B -> runs Y (fun W _ => w_expand W e) (within (degreeBound e)).
  Proof.
    intros R D. destruct (expand_laurent Y B Hlt e (ring_laurent e R) D) as (p & O & V & Dp & E).
    assert (P : posPoly p) by (apply (normal_pos e p); auto; now apply (ring_polyExpr Y)). destruct (poly_ring p O P) as [Rp Dq].
    exists (polyE p). split; [split; [exact Rp | lia]|]. eapply ev_imp; [exact E|]. intros F k ->. exists []. auto.
  Qed.

  Lemma run_prod es : (2 <= length es)%nat -> (forall x, In x es -> ring x) -> degSum es <= B -> runs Y (fun W _ => w_prod W es) (within (degSum es)).
  Proof.
    intros L2 R D. apply runs_prod. unfold prodCreate.
    assert (U : existsb isUndefined es = false).
    { destruct (existsb isUndefined es) eqn:U; [|reflexivity]. apply existsb_exists in U as (x & Hx & U). rewrite ring_isUndefined in U by auto. discriminate. }
    assert (D0 : 0 <= degSum es).
    { clear -R. induction es as [|x es IH]; cbn [degSum fold_right]; [lia|]. unfold degSum in IH.
      assert (0 <= degreeBound x) by (apply degreeBound_nonneg, ring_laurent, R; now left). assert (H0 : forall y, In y es -> ring y) by (intros; apply R; now right). specialize (IH H0). lia. }
    rewrite U. destruct (existsb isZero es); [apply runs_ret; split; [apply rg_num, canon_0 | exact D0]|].
    destruct (factors_views es R) as (h & l & E & O & Hl & Wd); [intros ->; cbn in L2; lia|].
    apply runs_ext with (f := fun W n => r <- simplifyProduct Y W n es ;;
        match r with [] => ret one | [x] => ret x | _ => if needsExpansion r then expandAsProduct W n r else ret (Prod r) end).
    { intros W n. destruct es as [|x [|y es]]; [cbn in L2; lia | cbn in L2; lia | reflexivity]. }
    apply runs_bind with (P := prodRes h l).
    - apply runs_of; [intros W W' n n' HW Hn; now apply m_sprod|]. apply (ev_ge (length l + 5) (h + 3)). intros F k HF Hk.
      rewrite (simplifyProduct_ext Y (world Y F k) F es (map gfE l)) by (rewrite (gf_extract h) by assumption; exact E).
      apply (simplifyProduct_ok Y F h k); auto; lia.
    - intros r (u & -> & [Ou Wu _ _] & Tu & _).
      assert (Ru : forall x, In x (map gfE u) -> ring x /\ isProduct x = false).
      { intros x Hx. apply in_map_iff in Hx as (g & <- & Hg). rewrite Forall_forall in Ou. destruct (gfE_props h g (Ou g Hg)) as (A & _ & _ & C & _). auto. }
      assert (Du : degreeBound (Prod (map gfE u)) = degSum es).
      { rewrite <- Wd, <- Wu. clear -Ou. cbn [degreeBound]. induction Ou as [|g u Hg _ IH]; [reflexivity|]. cbn [map fold_right]. now rewrite IH, wt_cons, (deg_gfE h). }
      destruct u as [|g [|g' u]]; cbn [map].
      + apply runs_ret. split; [apply rg_num, canon_1 | exact D0].
      + apply runs_ret. split; [apply Ru; now left|]. cbn [degreeBound map fold_right] in Du. lia.
      + change (gfE g :: gfE g' :: map gfE u) with (map gfE (g :: g' :: u)). destruct (needsExpansion (map gfE (g :: g' :: u))) eqn:NE.
        * rewrite <- Du. apply run_expand_prod; [discriminate | intros; now apply Ru | lia].
        * apply runs_ret. split; [|lia]. apply rg_prod; [cbn; lia | intros; now apply Ru | intros; now apply Ru | | exact NE].
          intros x Hx. cbn [map tl] in Hx. change (gfE g' :: map gfE u) with (map gfE (g' :: u)) in Hx. apply in_map_iff in Hx as (f & <- & Hf).
          cbn [tl] in Tu. assert (Of : gfOK h f) by (rewrite Forall_forall in Ou; apply Ou; now right). destruct (gfE_props h f Of) as (_ & _ & -> & _).
          clear -Tu Hf. revert Tu Hf. generalize (g' :: u). induction l as [|y l IH]; intros N H; [destruct H|]. rewrite nums_cons in N.
          destruct H as [->|H]; [destruct (isGN f); [lia | reflexivity] | apply IH; auto; lia].
  Qed.

  Lemma run_sign e : ring e -> runs Y (fun W _ => w_neg W e) (fun _ => True).
  Proof.
    intros R. apply runs_of; [intros W W' n n' HW _; apply (o_neg _ _ HW)|]. apply (ev_ge 0 (height e)). intros F k _ Hk. now apply sign_ok.
  Qed.
  Lemma run_complex e n : ring e -> runs Y (fun W _ => doesInvolveComplexNumbers Y W e (Num (ofZ n))) (fun x => x = false).
  Proof.
    intros R. unfold doesInvolveComplexNumbers. cbn [numericEval nIsInt qIsInt qden ofZ Qden Z.eqb Pos.eqb].
    destruct (run_sign e R) as (g & _ & E). exists false. split; [reflexivity|]. eapply ev_imp; [exact E|]. intros F k (l & El & _).
    rewrite El. exists []. split; [reflexivity | constructor].
  Qed.
  Lemma run_baseSpow b n : isBase b = true -> ring b -> runs Y (fun W _ => w_spow W b (Num (ofZ n))) (fun bx => bx = (b, Num (ofZ n))).
  Proof.
    intros Hb R. apply (runs_step Y _ (fun W _ => simplifyPower Y W b (Num (ofZ n)))); [reflexivity|]. unfold simplifyPower.
    eapply runs_bind; [now apply run_complex|]. intros ? ->. destruct b; try discriminate; now apply runs_ret.
  Qed.
  Lemma run_numProd a b : 2 <= a -> 2 <= b -> runs Y (fun W _ => w_prod W [Num (ofZ a); Num (ofZ b)]) (fun x => x = Num (ofZ (a * b))).
  Proof.
    intros Ha Hb. exists (Num (ofZ (a * b))). split; [reflexivity|].
    assert (NE : forall z, 2 <= z -> monoE (ofZ z, []) = Num (ofZ z) /\ monoOK (ofZ z, [])).
    { intros z Hz. unfold monoE, factorsE; cbn [fst snd]. rewrite ofZ_one, (proj2 (Z.eqb_neq z 1)) by lia. split; [reflexivity|].
      split; [apply canon_ofZ|]. split; [cbn; intros E; apply (f_equal Qnum) in E; cbn in E; lia | apply keyOK_nil]. }
    destruct (NE a Ha) as [Ea Oa], (NE b Hb) as [Eb Ob], (NE (a * b)) as [Ec Oc]; [nia|].
    eapply ev_imp; [apply (prod_is Y [(ofZ a, []); (ofZ b, [])] (ofZ (a * b), []))|].
    - discriminate.
    - exact (Forall_cons _ Oa (Forall_cons _ Ob (Forall_nil _))).
    - exact Oc.
    - intros r _. unfold monosV, monoV, keyV; cbn [fst snd fold_right]. rewrite !Q2R_ofZ, mult_IZR. ring.
    - cbn [map]. rewrite Ea, Eb, Ec. intros F k ->. exists []. auto.
  Qed.

  (** Powers of expressions without a numeric factor. *)
  Lemma run_factorPow e n : ring e -> isProduct e = false -> isNumeric e = false -> 2 <= n -> runs Y (fun W _ => w_pow W e (Num (ofZ n))) (within (degreeBound e * n)).
  Proof.
    intros R NP NN Hn. assert (D0 : 0 <= degreeBound e) by (apply degreeBound_nonneg; now apply ring_laurent).
    destruct R as [q C|s p|b m Hb Rb Hm|l L H NP' N NE|l L H NS N]; try discriminate.
    - apply runs_of; [intros W W' ? ? HW _; apply (o_pow _ _ HW)|]. apply (ev_ge 0 (1 + 3)). intros F k _ Hk.
      eapply okE_imp; [apply (pow_ok Y F 1 k (Sym s p) n Hk); repeat split; [constructor | cbn; lia | lia]|]. intros x ->. cbn [gfE]. rewrite (proj2 (Z.eqb_neq n 1)) by lia.
      split; [now constructor; [|constructor|]|]. cbn [degreeBound ofZ Qnum inject_Z]. lia.
    - apply (runs_step Y _ (fun W _ => powCreate W (Pow b (Num (ofZ m))) (Num (ofZ n)))); [reflexivity|]. unfold powCreate. cbn [isUndefined orb isZero isOne].
      rewrite ofZ_zero, ofZ_one, (proj2 (Z.eqb_neq n 0)), (proj2 (Z.eqb_neq n 1)) by lia. cbn [orb].
      apply runs_bind with (P := fun bx => bx = (b, Num (ofZ (m * n)))).
      + apply (runs_step Y _ (fun W _ => simplifyPower Y W (Pow b (Num (ofZ m))) (Num (ofZ n)))); [reflexivity|]. unfold simplifyPower.
        eapply runs_bind; [apply run_complex; now constructor|]. intros ? ->. unfold simplifyPowerBase.
        apply runs_bind with (P := fun x => x = true).
        { unfold doContractExpFirst. cbn [isInteger]. now apply runs_ret. }
        intros ? ->. apply runs_bind with (P := fun x => x = Some b); [now apply runs_ret|]. intros ? ->.
        eapply runs_bind; [now apply run_numProd|]. intros ? ->. cbn [isZero]. rewrite ofZ_zero, (proj2 (Z.eqb_neq (m * n) 0)) by nia.
        now apply run_baseSpow.
      + intros ? ->. apply runs_ret. cbn [isOne]. destruct (base_noPow b Hb) as (_ & _ & _ & _ & _ & O & _).
        rewrite ofZ_one, (proj2 (Z.eqb_neq (m * n) 1)), O by nia. split; [constructor; auto; nia|]. cbn [degreeBound ofZ Qnum inject_Z] in *. nia.
    - apply runs_of; [intros W W' ? ? HW _; apply (o_pow _ _ HW)|]. apply (ev_ge 0 (height (Sum l) + 3)). intros F k _ Hk.
      assert (RS : ring (Sum l)) by now apply rg_sum.
      eapply okE_imp; [apply (pow_ok Y F _ k (Sum l) n Hk); repeat split; [exact RS | lia | lia]|]. intros x ->. cbn [gfE]. rewrite (proj2 (Z.eqb_neq n 1)) by lia.
      split; [now constructor|]. cbn [ofZ Qnum inject_Z degreeBound]. cbn [degreeBound] in D0. nia.
  Qed.
  Lemma run_noProd : runs Y (fun W _ => w_prod W []) (fun x => x = one).
  Proof.
    exists one. split; [reflexivity|]. apply (ev_ge 2 1). intros F k HF Hk. destruct k as [|k]; [lia|].
    cbn [world step w_prod]. unfold prodCreate. cbn [existsb]. exists []. split; [|constructor].
    assert (E : exists F', F = S F') by (destruct F; [lia | now exists F]). destruct E as [F' EF]. rewrite EF at 2. cbn [simplifyProduct]. rewrite <- EF.
    assert (P0 : prepare Y (world Y F k) F [] = Ok [] []) by (apply (prepare_ok Y F 1 k F []); [constructor | cbn; lia]). rewrite P0, bind_ret.
    assert (P : prepareConst Y (world Y F k) F [] = Ok [Num 1] []).
    { unfold prepareConst. change (contractNumerics (sortFactors Y [])) with (map gfE [GN 1]).
      assert (O : Forall (gfOK 1) [GN 1]) by (repeat constructor; cbn). assert (L : (length (map gfE [GN 1]) < F)%nat) by (cbn; lia). remember [GN 1] as l1 eqn:E1.
      rewrite contractConst_none by (try (apply (gf_noConstPair 1); [exact O | now rewrite E1]); lia).
      rewrite bind_ret. rewrite contract_none by (try (apply (in_gfs 1); auto; intros; now apply (gf_equalExp 1)); lia).
      rewrite bind_ret. rewrite contract_none by (try (apply (in_gfs 1); auto; intros; now apply (gf_equalDenom 1)); lia). now rewrite E1. }
    rewrite P, bind_ret. reflexivity.
  Qed.
End Ops.
