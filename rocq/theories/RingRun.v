(** Programs that compute polynomials: powers with small numeric factors, and whole programs. *)
From Verif Require Import LaurentSpec LaurentOrder LaurentProd LaurentIdent LaurentSum LaurentExpand LaurentMain LaurentApi RingProd RingSum RingPos RingSpec RingTerm HRuns FuelMono FuelApi SimplApi ApiSpec ApiModel ExprProofs NumberProofs World RPow.
From Coq Require Import Lia Lra Bool Permutation.
From Verif Require Import Run LaurentSpec.
Open Scope Z_scope.

Section Powers.
  Variables (Y : sys) (B : Z).
  Hypothesis Hlt : exactUpTo B (s_nlt Y).

  (** Powers of numbers. *)
  Lemma run_numPow q n : canon q -> smallNumber q -> 1 <= n -> hruns Y (fun W _ => w_pow W (Num q) (Num (ofZ n))) (within 0).
  Proof.
    intros C [S1 S2] Hn. destruct (Req_EM_T (Q2R q) 0) as [E|E].
    - assert (q = 0%Q) as -> by (apply Q2R_inj; [exact C | apply canon_0 | now rewrite Q2R_0]).
      apply runs_h. exists zero. split; [split; [apply rg_num, canon_0 | reflexivity]|]. do 2 apply ev_S. apply ev_all. intros F k. exists []. split; [|constructor].
      change (w_pow (world Y F (Datatypes.S (Datatypes.S k))) (Num 0) (Num (ofZ n))) with (powCreate (world Y F (Datatypes.S k)) (Num 0) (Num (ofZ n))).
      unfold powCreate. cbn [isUndefined orb isZero isOne]. rewrite ofZ_zero, (proj2 (Z.eqb_neq n 0)) by lia. change (qeqb 0 1) with false. change (qeqb 0 0) with true. cbn [orb].
      change (w_neg (world Y F (Datatypes.S k)) (Num (ofZ n))) with (ret (qltb (ofZ n) 0)).
      assert (N : qltb (ofZ n) 0 = false) by (unfold qltb, ofZ; cbn; apply Z.ltb_ge; lia). rewrite N. reflexivity.
    - destruct (num_pow Y q n C E) as (p & Cp & Np & Sp & Ep); [lia|]. exists (Num p). split; [split; [now apply rg_num | reflexivity]|].
      eapply ev_imp; [exact Ep|]. intros F k (l & El & Hl). exists l. split; [exact El|]. apply Hl, Sp; [exact S1 | exact S2].
  Qed.
  Lemma run_inverse q : canon q -> q <> 0%Q -> smallNumber q -> hruns Y (fun W _ => oneOver W (Num q)) (within 0).
  Proof.
    intros C N [S1 S2]. assert (E : Q2R q <> 0%R) by (intros E; apply N, Q2R_inj; [exact C | apply canon_0 | now rewrite Q2R_0]).
    destruct (num_pow Y q (-1) C E) as (p & Cp & Np & Sp & Ep); [lia|]. exists (Num p). split; [split; [now apply rg_num | reflexivity]|].
    eapply ev_imp; [exact Ep|]. intros F k (l & El & Hl). exists l. split; [exact El|]. apply Hl, Sp; [exact S1 | exact S2].
  Qed.
  Lemma run_split n l : 2 <= n -> (forall x, In x l -> ring x /\ isProduct x = false /\ (forall q, x = Num q -> smallNumber q)) ->
    hruns Y (fun W _ => splitFactors W true (Num (ofZ n)) l) (fun sk => snd sk = [] /\ length (fst sk) = length l /\ (forall x, In x (fst sk) -> ring x) /\ degSum (fst sk) <= degSum l * n).
  Proof.
    intros Hn. induction l as [|x l IH]; intros H; cbn [splitFactors].
    - apply h_ret. cbn [fst snd]. split; [reflexivity|]. split; [reflexivity|]. split; [intros ? []|]. cbn. lia.
    - eapply h_bind; [now apply h_ret with (P := fun b => b = true)|]. intros ? ->. destruct (H x) as (Rx & Px & Nx); [now left|].
      apply h_bind with (P := within (degreeBound x * n)).
      { destruct (isNumeric x) eqn:NX; [|now apply runs_h, run_factorPow]. destruct x as [q| | | | | | |]; try discriminate.
        eapply h_imp; [apply run_numPow; [inversion Rx; assumption | now apply Nx | lia]|]. intros e [A1 A2]. split; [exact A1 | cbn [degreeBound]; lia]. }
      intros y (Ry & Dy). eapply h_bind; [apply IH; intros; apply H; now right|].
      intros [s k] (Ek & Ls & Rs & Ds). cbn [fst snd] in *. subst k. apply h_ret. cbn [fst snd degSum fold_right length]. split; [reflexivity|]. split; [congruence|].
      split; [intros z [<-|Hz]; auto|]. unfold degSum in *. nia.
  Qed.
  Lemma run_pow e n : ring e -> smallFactor e -> 0 <= n -> degreeBound e * n <= B -> hruns Y (fun W _ => w_pow W e (Num (ofZ n))) (within (degreeBound e * n)).
  Proof.
    intros R NC Hn HB. assert (D0 : 0 <= degreeBound e) by (apply degreeBound_nonneg; now apply ring_laurent).
    assert (C : n = 0 \/ 1 <= n) by lia. destruct C as [->|Hn1].
    { apply (h_step Y _ (fun W _ => powCreate W e (Num (ofZ 0)))); [reflexivity|]. unfold powCreate. cbn [isUndefined orb]. rewrite (ring_isUndefined e R). apply h_ret.
      split; [apply rg_num, canon_1 | cbn; lia]. }
    destruct (isNumeric e) eqn:NN.
    { destruct e as [q| | | | | | |]; try discriminate. inversion R; subst. eapply h_imp; [now apply run_numPow|]. intros e [A1 A2]. split; [exact A1 | cbn [degreeBound]; lia]. }
    assert (C : n = 1 \/ 2 <= n) by lia. destruct C as [->|Hn2].
    - assert (UZO : isUndefined e = false /\ isZero e = false /\ isOne e = false) by (split; [now apply ring_isUndefined | destruct e; [discriminate | split; reflexivity..]]).
      destruct UZO as (U & Z & O).
      apply (h_step Y _ (fun W _ => powCreate W e (Num (ofZ 1)))); [reflexivity|]. unfold powCreate. cbn [isUndefined orb]. rewrite U, Z, O. apply h_ret.
      split; [exact R | lia].
    - destruct (isProduct e) eqn:EP; [|now apply runs_h, run_factorPow]. destruct e as [| | | | | |l|]; try discriminate.
      inversion R as [| | |? L H NP N NE|]; subst. cbn [smallFactor] in NC.
      apply (h_step Y _ (fun W _ => powCreate W (Prod l) (Num (ofZ n)))); [reflexivity|]. unfold powCreate. cbn [isUndefined orb isZero isOne].
      rewrite ofZ_zero, ofZ_one, (proj2 (Z.eqb_neq n 0)), (proj2 (Z.eqb_neq n 1)) by lia. cbn [orb].
      apply h_bind with (P := fun bx => snd bx = one /\ within (degreeBound (Prod l) * n) (fst bx)).
      2: { intros [b x] [E W]. cbn [fst snd] in *. subst x. apply h_ret. exact W. }
      apply (h_step Y _ (fun W _ => simplifyPower Y W (Prod l) (Num (ofZ n)))); [reflexivity|]. unfold simplifyPower.
      eapply h_bind; [now apply runs_h, run_complex|]. intros ? ->. unfold simplifyProductBase. cbn [isInteger].
      change (qIsInt (ofZ n)) with true. cbn [relyInt].
      eapply h_bind; [now apply h_ret with (P := fun _ => True)|]. intros _ _.
      eapply h_bind; [apply (run_split n l Hn2); intros x Hx; split; [auto|]; split; [auto|]; intros q ->; auto|]. intros [s k] (Ek & Ls & Rs & Ds). cbn [fst snd] in *. subst k.
      destruct s as [|y s]; [cbn in Ls; lia|].
      eapply h_bind; [apply runs_h, run_noProd|]. intros ? ->.
      apply h_bind with (P := fun x => x = one).
      { apply (h_step Y _ (fun W _ => powCreate W one (Num (ofZ n)))); [reflexivity|]. unfold powCreate. cbn [isUndefined orb isOne one].
        rewrite orb_true_r. now apply h_ret. }
      intros ? ->.
      assert (DS : degSum ((y :: s) ++ [one]) = degSum (y :: s)).
      { clear. induction (y :: s) as [|z t IH]; [reflexivity|]. cbn [app degSum fold_right]. unfold degSum in IH. now rewrite IH. }
      eapply h_bind; [apply runs_h, (run_prod Y B Hlt ((y :: s) ++ [one]))|].
      + rewrite app_length. cbn. lia.
      + intros x Hx. apply in_app_or in Hx as [Hx|[<-|[]]]; [auto | apply rg_num, canon_1].
      + rewrite DS. change (degreeBound (Prod l)) with (degSum l) in HB. lia.
      + intros t [Rt Dt]. apply h_ret. cbn [fst snd]. split; [reflexivity|]. split; [exact Rt|]. change (degreeBound (Prod l)) with (degSum l). lia.
  Qed.
End Powers.

(** ** Programs *)
(** ** Sums of several polynomials *)
Section Sums.
  Variable Y : sys.
  Lemma summands_head e : ring e -> headNum (summandsOf e).
  Proof. intros Re. destruct Re as [q C|n p|b' n Hb Rb' Hn|l L0 Hl NP N NE|l L0 Hl NS N]; try (intros x []). exact N. Qed.
  Lemma simplifySum_cons W n a b c l : simplifySum Y W n (a :: b :: c :: l) = s <- simplifySum Y W n (b :: c :: l) ;; merge n isZero (simplTwoSummands Y W n) (summandsOf a) s.
  Proof. reflexivity. Qed.
  Definition terms (h : nat) (L D : Z) (s : list expr) : Prop := Forall (tm h L D) s /\ headNum s.
  Lemma run_merge h L D p q : 0 <= L -> 0 <= D -> terms h L D p -> terms h L D q -> runs Y (fun W n => merge n isZero (simplTwoSummands Y W n) p q) (terms h L D).
  Proof.
    intros HL HD [Tp Hp] [Tq Hq]. apply runs_of.
    - intros W W' n n' HW Hn. apply m_merge; [exact Hn|]. intros a b. now apply m_tsum.
    - apply (ev_ge (Z.to_nat L + 6 + length p + length q + 4) (h + 5)). intros F k HF Hk. destruct F as [|F]; [lia|].
      eapply okE_imp; [apply (mergeS_ok Y (Datatypes.S F) h k F L D); auto; lia|]. intros l (T & H & _). now split.
  Qed.
  Lemma run_two h L D a b : 0 <= L -> 0 <= D -> ring a -> ring b -> Forall (tm h L D) (summandsOf a) -> Forall (tm h L D) (summandsOf b) ->
    runs Y (fun W n => simplTwoSummands Y W n a b) (terms h L D).
  Proof.
    intros HL HD Ra Rb Ta Tb. apply runs_of; [intros W W' n n' HW Hn; now apply m_tsum|].
    apply (ev_ge (Z.to_nat L + 6 + length (summandsOf a) + length (summandsOf b) + 4) (h + 5)). intros F k HF Hk.
    assert (EF : exists F', F = Datatypes.S (Datatypes.S F')) by (destruct F as [|[|F']]; [lia | lia | now exists F']). destruct EF as (F' & EF).
    replace (simplTwoSummands Y (world Y F k) F a b) with (simplTwoSummands Y (world Y F k) (Datatypes.S (Datatypes.S F')) a b) by (now rewrite <- EF).
    destruct (isSum a || isSum b) eqn:S.
    - cbn [simplTwoSummands]. rewrite S.
      change (match a with Sum l => l | _ => [a] end) with (summandsOf a). change (match b with Sum l => l | _ => [b] end) with (summandsOf b).
      eapply okE_imp; [apply (mergeS_ok Y F h k F' L D); auto using summands_head; lia|]. intros l (T & H & _). now split.
    - apply orb_false_iff in S as [Sa Sb].
      assert (Ta' : tm h L D a) by (destruct a; try discriminate; now inversion Ta). assert (Tb' : tm h L D b) by (destruct b; try discriminate; now inversion Tb).
      eapply okE_imp; [apply (two_summands_ok Y F h k (Datatypes.S F') L D); auto; lia|].
      intros r [->|[(x & -> & Tx & _)|[(-> & Nb)|(-> & Na)]]]; split; auto; intros y Hy; cbn [tl] in Hy; try (destruct Hy as [<-|[]]; assumption); destruct Hy.
  Qed.
  Lemma terms_run h L D es : 0 <= L -> 0 <= D -> (2 <= length es)%nat -> (forall x, In x es -> ring x /\ Forall (tm h L D) (summandsOf x)) ->
    runs Y (fun W n => simplifySum Y W n es) (terms h L D).
  Proof.
    intros HL HD. induction es as [|a [|b [|c l]] IH]; intros Hl R; [cbn in Hl; lia | cbn in Hl; lia | |].
    - destruct (R a) as [Ra Ta]; [now left|]. destruct (R b) as [Rb Tb]; [right; now left|]. exact (run_two h L D a b HL HD Ra Rb Ta Tb).
    - eapply runs_ext; [intros W n; symmetry; apply simplifySum_cons|]. destruct (R a) as [Ra Ta]; [now left|].
      eapply runs_bind; [apply IH; [cbn; lia | intros x Hx; apply R; now right]|]. intros s Hs. apply run_merge; auto. split; [exact Ta | now apply summands_head].
  Qed.
  Lemma terms_ring h L D r : 0 <= D -> terms h L D r -> within D (match r with [] => zero | [x] => x | _ => Sum r end).
  Proof.
    intros HD [Tr Hr]. destruct r as [|x [|y r]].
    - split; [apply rg_num, canon_0 | cbn; lia].
    - inversion Tr; subst. destruct (tm_ring h L D x) as (? & _ & ?); [auto|]. now split.
    - rewrite Forall_forall in Tr. split.
      + apply rg_sum; [cbn; lia| | |exact Hr]; intros z Hz; now apply (tm_ring h L D z), Tr.
      + remember (x :: y :: r) as l. cbn [degreeBound]. assert (X : forall z, In z l -> degreeBound z <= D) by (intros z Hz; now apply (tm_ring h L D z), Tr).
        clear -X HD. induction l as [|z l IH]; cbn [fold_right]; [lia|]. assert (degreeBound z <= D) by (apply X; now left).
        assert (fold_right (fun x a => Z.max (degreeBound x) a) 0 l <= D) by (apply IH; intros; apply X; now right). lia.
  Qed.
  Lemma run_sums D es : 0 <= D -> (2 <= length es)%nat -> (forall x, In x es -> within D x) -> runs Y (fun W _ => w_sum W es) (within D).
  Proof.
    intros HD Hl R. set (h := fold_right (fun x a => Nat.max (height x) a) O es).
    destruct (terms_view h (flat_map summandsOf es)) with (D := D) as (L & HL & T).
    { intros x Hx. apply in_flat_map in Hx as (e & He & Hx). destruct (summands_ring e (proj1 (R e He)) x Hx) as (A & C & E & _). pose proof (height_in es e He) as G. fold h in G. repeat split; auto. lia. }
    { intros x Hx. apply in_flat_map in Hx as (e & He & Hx). destruct (R e He) as [Re De]. destruct (summands_ring e Re x Hx) as (_ & _ & _ & A). lia. }
    apply (runs_step Y _ (fun W n => sumCreate Y W n es)); [reflexivity|].
    apply (runs_ext Y (fun W n => r <- simplifySum Y W n es ;; ret (match r with [] => zero | [x] => x | _ => Sum r end))).
    { intros W n. unfold sumCreate. assert (U : existsb isUndefined es = false). { apply not_true_iff_false. intros U. apply existsb_exists in U as (x & Hx & U). rewrite ring_isUndefined in U; [discriminate | apply R, Hx]. }
      rewrite U. destruct es as [|a [|b es]]; [cbn in Hl; lia | cbn in Hl; lia | reflexivity]. }
    eapply runs_bind; [apply (terms_run h L D es HL HD Hl)|].
    - intros x Hx. split; [apply R, Hx|]. rewrite Forall_forall in *. intros y Hy. apply T. apply in_flat_map. eauto.
    - intros r Hr. apply runs_ret. now apply (terms_ring h L D).
  Qed.
End Sums.

(** ** Substitution of a polynomial for a symbol of an expanded polynomial *)
Section Subst.
  Variables (Y : sys) (B : Z).
  Hypothesis Hlt : exactUpTo B (s_nlt Y).
  Notation hruns := (hruns Y).
  Lemma h_mapM (f : oper -> expr -> res expr) (P : expr -> expr -> Prop) l : (forall x, In x l -> hruns (fun W _ => f W x) (P x)) -> hruns (fun W _ => mapM (f W) l) (Forall2 P l).
  Proof.
    induction l as [|x l IH]; intros H; [apply h_ret; constructor|].
    apply (h_ext Y (fun W n => y <- f W x ;; s <- mapM (f W) l ;; ret (y :: s))); [reflexivity|].
    eapply h_bind; [apply H; now left|]. intros y Hy. eapply h_bind; [apply IH; intros; apply H; now right|]. intros s Hs. apply h_ret. now constructor.
  Qed.

  Variables (t : sym) (to : expr) (D : Z).
  Hypotheses (Rto : ring to) (Sto : smallFactor to) (Dto : degreeBound to <= D) (D1 : 1 <= D).
  Notation subst := (fun W x => w_subst W x (symE t) to).
  Definition grown (x y : expr) : Prop := within (D * degreeBound x) y.

  Lemma subst_step x P : hruns (fun W _ => substExpr W x (symE t) to) P -> hruns (fun W _ => subst W x) P.
  Proof. apply h_step. reflexivity. Qed.
  Lemma subst_num q : canon q -> hruns (fun W _ => subst W (Num q)) (fun y => y = Num q).
  Proof. intros C. apply subst_step. apply (h_ext Y (fun _ _ => ret (Num q))); [reflexivity|]. now apply h_ret. Qed.
  Lemma subst_sym s : hruns (fun W _ => subst W (symE s)) (fun y => ring y /\ smallFactor y /\ degreeBound y <= D).
  Proof.
    apply subst_step. apply (h_ext Y (fun _ _ => ret (if isEqual (symE s) (symE t) then to else symE s))).
    - intros W n. unfold substExpr, symE. destruct (isEqual _ _); reflexivity.
    - apply h_ret. destruct (isEqual _ _); [auto|]. split; [constructor|]. split; [exact I | cbn; lia].
  Qed.
  Lemma subst_fac f : 0 < snd f -> D * snd f <= B -> hruns (fun W _ => subst W (facE f)) (grown (facE f)).
  Proof.
    intros Hf HD. unfold facE. destruct (Z.eqb_spec (snd f) 1) as [E|N].
    - eapply h_imp; [apply subst_sym|]. intros y (A & _ & C). split; [exact A|]. cbn [degreeBound symE]. lia.
    - apply subst_step. apply (h_ext Y (fun W _ => b <- subst W (symE (fst f)) ;; x <- subst W (Num (ofZ (snd f))) ;; w_pow W b x)); [reflexivity|].
      eapply h_bind; [apply subst_sym|]. intros b (Rb & Sb & Db). eapply h_bind; [apply subst_num, canon_ofZ|]. intros ? ->.
      pose proof (degreeBound_nonneg b (ring_laurent b Rb)). eapply h_imp; [apply (run_pow Y B Hlt b (snd f) Rb Sb); [lia | nia]|]. intros y [A C]. split; [exact A|]. change (degreeBound (Pow (symE (fst f)) (Num (ofZ (snd f))))) with (1 * Z.abs (snd f)). rewrite Z.abs_eq by lia. nia.
  Qed.
  Lemma f2_length (P : expr -> expr -> Prop) es ys : Forall2 P es ys -> length es = length ys.
  Proof. induction 1; cbn; congruence. Qed.
  Lemma grown_sum es ys : Forall2 grown es ys -> degSum ys <= D * degSum es.
  Proof. induction 1 as [|x y es ys [_ H] _ IH]; cbn [degSum fold_right]; [lia|]. unfold degSum in IH. lia. Qed.
  Lemma grown_ring es ys : Forall2 grown es ys -> forall y, In y ys -> ring y.
  Proof. induction 1 as [|x y es ys [R H] _ IH]; intros z []; [now subst | now apply IH]. Qed.
  Lemma factors_deg m : monoOK m -> posKey (snd m) -> degSum (factorsE m) = kdeg (snd m).
  Proof.
    intros O P. rewrite <- gfsOf_E. pose proof (gfsOf_OK m O P) as G. assert (E : degSum (map gfE (gfsOf m)) = wt degreeBound (gfsOf m)).
    { clear -G. induction G as [|g l Hg _ IH]; [reflexivity|]. cbn [map degSum fold_right]. unfold degSum in IH. rewrite IH, wt_cons. f_equal. eapply deg_gfE. exact Hg. }
    rewrite E. unfold gfsOf. rewrite wt_app, gfs_deg by exact P. destruct (qeqb _ _); cbn; lia.
  Qed.
  Lemma subst_mono m : monoOK m -> posKey (snd m) -> D * kdeg (snd m) <= B -> hruns (fun W _ => subst W (monoE m)) (within (D * kdeg (snd m))).
  Proof.
    intros O P HD. assert (F : forall f, In f (snd m) -> hruns (fun W _ => subst W (facE f)) (grown (facE f))).
    { intros f Hf. apply subst_fac; [unfold posKey in P; rewrite Forall_forall in P; now apply P|].
      assert (snd f <= kdeg (snd m)); [|nia]. clear -Hf P. unfold kdeg, posKey in *. induction (snd m) as [|g k IH]; [destruct Hf|]. cbn [fold_right] in *. apply Forall_cons_iff in P as [Pg Pk].
      assert (N : 0 <= fold_right (fun f a => Z.abs (snd f) + a) 0 k) by (clear; induction k; cbn; lia). destruct Hf as [->|Hf]; [lia | specialize (IH Pk Hf); lia]. }
    destruct (monoE_cases m) as [[K E]|[(f & -> & E)|(_ & E & L & c & EF & Hc)]]; rewrite E.
    - destruct m as [q k]. cbn [fst snd] in *. subst k. eapply h_imp; [apply subst_num, O|]. intros y ->. split; [apply rg_num, O | cbn; lia].
    - eapply h_imp; [apply F; now left|]. intros y [A C]. split; [exact A|]. etransitivity; [exact C|]. apply Z.mul_le_mono_nonneg_l; [lia|].
      pose proof (factors_deg (1%Q, [f]) O P) as G. unfold factorsE in G. cbn [fst snd app map degSum fold_right] in G. change (qeqb 1 1) with true in G. cbn [app degSum fold_right] in G. unfold degSum in G. cbn [fold_right] in G. cbn [snd]. lia.
    - apply subst_step. apply (h_ext Y (fun W _ => x <- mapM (subst W) (factorsE m) ;; w_prod W x)); [reflexivity|].
      eapply h_bind; [apply (h_mapM subst grown)|].
      + intros x Hx. rewrite EF in Hx. apply in_app_or in Hx as [Hx|Hx].
        * assert (X : x = Num (fst m)). { unfold factorsE in EF. destruct (qeqb (fst m) 1).
            - cbn [app] in EF. assert (c = []) as -> by (symmetry; exact (app_inv_tail _ [] c EF)). destruct Hx.
            - destruct c as [|c0 c]; [destruct Hx|]. injection EF as <- EF. assert (c = []) as -> by (symmetry; exact (app_inv_tail _ [] c EF)). destruct Hx as [<-|[]]. reflexivity. }
          subst x. eapply h_imp; [apply subst_num, O|]. intros y ->. split; [apply rg_num, O | cbn; lia].
        * apply in_map_iff in Hx as (f & <- & Hf). now apply F.
      + intros ys Hys. pose proof (grown_sum _ _ Hys) as G. rewrite factors_deg in G by assumption. pose proof (f2_length _ _ _ Hys) as GL.
        eapply h_imp; [apply runs_h, (run_prod Y B Hlt ys); [lia | apply (grown_ring _ _ Hys) | lia]|]. intros y [A C]. split; [exact A | lia].
  Qed.
  Lemma subst_poly p : polyOK p -> posPoly p -> D * polyDeg p <= B -> hruns (fun W _ => subst W (polyE p)) (within (D * polyDeg p)).
  Proof.
    intros O P HD. assert (M : forall m, In m p -> hruns (fun W _ => subst W (monoE m)) (within (D * polyDeg p))).
    { intros m Hm. assert (K : kdeg (snd m) <= polyDeg p).
      { clear -Hm. unfold polyDeg. induction p as [|n p IH]; [destruct Hm|]. cbn [fold_right]. destruct Hm as [->|Hm]; [lia | specialize (IH Hm); lia]. }
      destruct O as [O _]. rewrite Forall_forall in O. unfold posPoly in P. rewrite Forall_forall in P.
      eapply h_imp; [apply subst_mono; [now apply O | now apply P | nia]|]. intros y [A C]. split; [exact A | nia]. }
    destruct (polyE_cases p) as [[-> E]|[(m & -> & E)|[L E]]]; rewrite E.
    - eapply h_imp; [apply subst_num, canon_0|]. intros y ->. split; [apply rg_num, canon_0 | cbn; lia].
    - apply M. now left.
    - apply subst_step. apply (h_ext Y (fun W _ => x <- mapM (subst W) (map monoE p) ;; w_sum W x)); [reflexivity|].
      eapply h_bind; [apply (h_mapM subst (fun _ => within (D * polyDeg p)))|].
      + intros x Hx. apply in_map_iff in Hx as (m & <- & Hm). now apply M.
      + intros ys Hys. pose proof (f2_length _ _ _ Hys) as GL. rewrite map_length in GL. apply runs_h, run_sums; [pose proof (polyDeg_nonneg p); nia | lia|].
        clear -Hys. induction Hys as [|x y es ys R _ IH]; intros z []; [now subst | now apply IH].
  Qed.
End Subst.

Section Programs.
  Variables (Y : sys) (B : Z).
  Hypothesis Hlt : exactUpTo B (s_nlt Y).

  Lemma polyTerm_nonneg t d : polyTerm Y t d -> 0 <= d.
  Proof. induction 1; nia. Qed.
  Lemma build_bound t d : polyTerm Y t d -> forall W n n', build W n t = build W n' t.
  Proof.
    induction 1 as [z|n d Hd|n p|a b d d' Ha IHa Hb IHb|a b d d' Ha IHa Hb IHb|a d Ha IHa|a b d d' Ha IHa Hb IHb|a d z Ha IHa Hz NC|a b d d' Ha IHa Hb IHb NC|a d Ha IHa|a b n d d' Ha IHa Hb IHb NC]; intros W m m'; cbn [build]; try reflexivity.
    - rewrite (IHa W m m'), (IHb W m m'). reflexivity.
    - rewrite (IHa W m m'), (IHb W m m'). reflexivity.
    - rewrite (IHa W m m'). reflexivity.
    - rewrite (IHa W m m'), (IHb W m m'). reflexivity.
    - rewrite (IHa W m m'). reflexivity.
    - rewrite (IHa W m m'), (IHb W m m'). reflexivity.
    - rewrite (IHa W m m'). reflexivity.
    - rewrite (IHa W m m'), (IHb W m m'). reflexivity.
  Qed.
  Lemma run_minus e : ring e -> degreeBound e <= B -> runs Y (fun W _ => minus W [e]) (within (degreeBound e)).
  Proof.
    intros R D. unfold minus. assert (E : degSum [mOne; e] = degreeBound e) by (cbn; lia).
    rewrite <- E. apply (run_prod Y B Hlt); [cbn; lia | | lia]. intros x [<-|[<-|[]]]; [|exact R]. apply rg_num. reflexivity.
  Qed.
  Lemma h_inEnv {A} m (f : oper -> nat -> res A) P : hruns Y f P -> hruns Y (fun W n => inEnv m (f W n)) P.
  Proof.
    intros (a & Pa & E). exists a. split; [exact Pa|]. eapply ev_imp; [exact E|]. intros F k (l & -> & Hl). exists (map (CIn m) l). split; [reflexivity|].
    rewrite Forall_map. eapply Forall_impl; [|exact Hl]. intros c Hc r. apply Hc.
  Qed.
  Lemma h_normal x : ring x -> forall d, degreeBound x <= d -> d <= B -> hruns Y (fun W _ => w_expand W x) (fun e => exists p, e = polyE p /\ polyOK p /\ posPoly p /\ polyDeg p <= d).
  Proof.
    intros R d D HB. destruct (expand_laurent Y B Hlt x (ring_laurent x R)) as (p & O & V & Dp & E); [lia|].
    assert (P : posPoly p) by (apply (normal_pos x p); auto; now apply (ring_polyExpr Y)).
    eapply h_imp; [apply h_eq, E|]. intros e ->. exists p. split; [reflexivity|]. split; [exact O|]. split; [exact P | lia].
  Qed.
  Theorem run_term t d : polyTerm Y t d -> d <= B -> hruns Y (fun W n => build W n t) (within d).
  Proof.
    assert (WI : forall d d' e, d <= d' -> within d e -> within d' e) by (intros ? ? ? ? []; split; [assumption | lia]).
    induction 1 as [z|n d Hd|n p|a b d d' Ha IHa Hb IHb|a b d d' Ha IHa Hb IHb|a d Ha IHa|a b d d' Ha IHa Hb IHb|a d z Ha IHa Hz NC|a b d d' Ha IHa Hb IHb NC|a d Ha IHa|a b n d d' Ha IHa Hb IHb NC]; intros HB; cbn [build].
    - apply h_ret. split; [apply rg_num, canon_ofZ | cbn; lia].
    - destruct (mkRat n d) as [q|] eqn:E; [|apply mkRat_none in E; contradiction]. apply h_ret. split; [apply rg_num; now apply (mkRat_spec n d) | cbn; lia].
    - apply h_ret. split; [constructor | cbn; lia].
    - eapply h_bind; [apply IHa; lia|]. intros x [Rx Dx]. eapply h_bind; [apply IHb; lia|]. intros y [Ry Dy].
      eapply h_imp; [now apply runs_h, run_sum|]. intros e. apply WI. lia.
    - eapply h_bind; [apply IHa; lia|]. intros x [Rx Dx]. eapply h_bind; [apply IHb; lia|]. intros y [Ry Dy]. unfold varSub.
      eapply h_bind; [apply runs_h, run_minus; [exact Ry | lia]|]. intros m [Rm Dm].
      eapply h_imp; [now apply runs_h, run_sum|]. intros e. apply WI. lia.
    - eapply h_bind; [apply IHa; lia|]. intros x [Rx Dx]. eapply h_imp; [apply runs_h, run_minus; [exact Rx | lia]|]. intros e. now apply WI.
    - pose proof (polyTerm_nonneg _ _ Ha). pose proof (polyTerm_nonneg _ _ Hb).
      eapply h_bind; [apply IHa; lia|]. intros x [Rx Dx]. eapply h_bind; [apply IHb; lia|]. intros y [Ry Dy]. unfold varMul.
      eapply h_imp; [apply runs_h, (run_prod Y B Hlt); [cbn; lia | intros z [<-|[<-|[]]]; assumption | cbn; lia]|]. intros e. apply WI. cbn. lia.
    - pose proof (polyTerm_nonneg _ _ Ha).
      apply h_bind with (P := fun x => within d x /\ smallFactor x).
      + destruct IHa as (x & Wx & E); [nia|]. exists x. split; [|exact E]. split; [exact Wx|]. destruct (ev_ex _ E) as (F & k & l & E' & _). eapply NC. exact E'.
      + intros x [[Rx Dx] Nx]. eapply h_bind; [now apply h_ret with (P := fun y => y = numZ z)|]. intros ? ->.
        eapply h_imp; [apply (run_pow Y B Hlt x z); [exact Rx | exact Nx | lia | nia]|]. intros e. apply WI. nia.
    - eapply h_bind; [apply IHa; lia|]. intros x [Rx Dx].
      apply h_bind with (P := fun y => ring y /\ exists q, y = Num q /\ q <> 0%Q /\ smallNumber q).
      + destruct IHb as (y & [Ry _] & E); [lia|]. exists y. split; [|exact E]. split; [exact Ry|]. destruct (ev_ex _ E) as (F & k & l & E' & _). eapply NC. exact E'.
      + intros ? [Ry (q & -> & Nq & Sq)]. unfold varDiv. eapply h_bind; [apply run_inverse; [now inversion Ry | exact Nq | exact Sq]|]. intros i [Ri Di].
        eapply h_imp; [apply runs_h, (run_prod Y B Hlt); [cbn; lia | intros z [<-|[<-|[]]]; assumption | cbn; lia]|]. intros e. apply WI. cbn. lia.
    - eapply h_bind; [apply IHa; lia|]. intros x [Rx Dx]. eapply h_imp; [apply runs_h, (run_expand Y B Hlt); [exact Rx | lia]|]. intros e. now apply WI.
    - pose proof (polyTerm_nonneg _ _ Ha). pose proof (polyTerm_nonneg _ _ Hb).
      assert (K1 : 1 <= Z.max 1 d') by lia. assert (K2 : Z.max 1 d' * d <= B) by lia. assert (K3 : d <= B) by nia.
      apply h_bind with (P := fun y => within d' y /\ smallFactor y).
      + destruct IHb as (y & Wy & E); [lia|]. exists y. split; [|exact E]. split; [exact Wy|]. destruct (ev_ex _ E) as (F & k & l & E' & _). eapply NC. exact E'.
      + intros y [[Ry Dy] Sy]. eapply h_bind; [apply h_inEnv; eapply h_bind; [apply IHa; nia|]; intros x [Rx Dx]; apply (h_normal x Rx d); lia|].
        intros x (p & -> & Op & Pp & Dp). assert (K4 : Z.max 1 d' * polyDeg p <= Z.max 1 d' * d) by (apply Z.mul_le_mono_nonneg_l; lia).
        eapply h_imp; [apply (subst_poly Y B Hlt (n, false) y (Z.max 1 d')); auto; lia|]. intros e. apply WI. lia.
  Qed.

  Lemma run_value F k n t e l v r : posEnv r -> build (world Y F k) n t = Ok e l -> Forall harmless l -> tval r t = Some v -> eval r e = Some v.
  Proof. intros Hr E Hl Hv. exact (program_value Y F k r Hr n t e l v E (harmless_right l r Hl Hr) Hv). Qed.
  Lemma term_total t d r : posEnv r -> polyTerm Y t d -> d <= B -> exists v, tval r t = Some v.
  Proof.
    intros Hr P. revert r Hr. induction P as [z|n d Hd|n p|a b d d' Ha IHa Hb IHb|a b d d' Ha IHa Hb IHb|a d Ha IHa|a b d d' Ha IHa Hb IHb|a d z Ha IHa Hz NC|a b d d' Ha IHa Hb IHb NC|a d Ha IHa|a b n d d' Ha IHa Hb IHb NC];
      intros r Hr HB; cbn [tval]; eauto; try (pose proof (polyTerm_nonneg _ _ Ha)); try (pose proof (polyTerm_nonneg _ _ Hb));
      try (destruct (IHb r Hr) as [w IHb']; [nia|]; rewrite IHb'); try (destruct (IHa r Hr) as [v IHa']; [nia|]; rewrite IHa'); cbn [omap omap2]; eauto.
    - destruct (Req_EM_T _ _) as [E|E]; [|eauto]. exfalso. apply eq_IZR in E. contradiction.
    - rewrite rpow_intnn by lia. eauto.
    - destruct (Req_EM_T w 0) as [E|E]; [|eauto]. exfalso. destruct (run_term b d' Hb) as (e & [Re _] & Ev); [lia|].
      destruct (ev_ex _ Ev) as (F & k & l & E1 & Hl). destruct (NC _ _ _ _ _ E1) as (q & -> & Nq & _). pose proof (run_value F k F b (Num q) l w r Hr E1 Hl IHb') as V.
      rewrite evalNum in V. apply Nq. apply Q2R_inj; [now inversion Re | apply canon_0|]. rewrite Q2R_0. congruence.
    - apply IHa; [|nia]. intros m. unfold upd. destruct (nameEq _ _); cbn; apply Hr.
  Qed.

  (** Everything a user observes of such a program. *)
  Theorem term_result t d : polyTerm Y t d -> d <= B -> exists e, returns Y t e /\ ring e /\ degreeBound e <= d /\
    (exists F0 k0, forall F k n, (F0 <= F)%nat -> (k0 <= k)%nat -> exists facts, build (world Y F k) n t = Ok e facts) /\
    (forall F k n, build (world Y F k) n t = Fuel \/ exists facts, build (world Y F k) n t = Ok e facts) /\
    (forall r, posEnv r -> exists v, tval r t = Some v /\ eval r e = Some v).
  Proof.
    intros P D. destruct (run_term t d P D) as (e & [Re De] & E). exists e. destruct (ev_ex _ E) as (F1 & k1 & l1 & E1 & H1).
    split; [now exists F1, k1, F1, l1|]. split; [exact Re|]. split; [exact De|]. split; [|split].
    - destruct E as (F0 & k0 & E). exists F0, k0. intros F k n HF Hk. destruct (E F k HF Hk) as (l & El & _). exists l. rewrite <- El. eapply build_bound. exact P.
    - intros F k n. rewrite (build_bound t d P (world Y F k) n 0%nat). rewrite (build_bound t d P (world Y F1 k1) F1 0%nat) in E1.
      eapply (only_result (fun W => build W 0 t)); [|exact E1]. intros W W' HW. now apply m_build.
    - intros r Hr. destruct (term_total t d r Hr P D) as [v Hv]. exists v. split; [exact Hv|].
      exact (run_value F1 k1 F1 t e l1 v r Hr E1 H1 Hv).
  Qed.

  Lemma returns_unique t e e' : returns Y t e -> returns Y t e' -> e = e'.
  Proof.
    intros (F & k & n & a & E) (F' & k' & n' & a' & E'). pose proof (build_unique Y F F' k k' n n' t) as H. rewrite E, E' in H. apply H; discriminate.
  Qed.
  Lemma returns_expand t x e : returns Y t x -> returns Y (TExpand t) e -> expandsTo Y x e.
  Proof.
    intros (F & k & n & a & E) (F' & k' & n' & a' & E').
    cbn [build] in E'. destruct (build (world Y F' k') n' t) as [x' b| | |] eqn:E2; try discriminate. cbn [bind] in E'.
    destruct (w_expand (world Y F' k') x') as [y c| | |] eqn:E3; try discriminate. injection E' as <- _.
    assert (x = x') as -> by (apply (returns_unique t); [now exists F, k, n, a | now exists F', k', n', b]). now exists F', k', c.
  Qed.
  (** expand decides equality of such programs. *)
  Theorem same_polynomial t1 t2 d1 d2 e1 e2 : polyTerm Y t1 d1 -> polyTerm Y t2 d2 -> d1 <= B -> d2 <= B ->
    returns Y (TExpand t1) e1 -> returns Y (TExpand t2) e2 ->
    (e1 = e2 <-> forall r, allPos r -> tval r t1 = tval r t2).
  Proof.
    intros P1 P2 D1 D2 E1 E2.
    assert (V : forall t d e, polyTerm Y t d -> d <= B -> returns Y (TExpand t) e -> exists p, e = polyE p /\ polyOK p /\ forall r, allPos r -> tval r t = Some (polyV r p)).
    { clear -Hlt. intros t d e P D E. destruct (term_result t d P D) as (x & Rx & Ri & Dx & _ & _ & Vx).
      destruct (normalForm Y B Hlt x) as [p Hp]; [now apply ring_laurent | lia|]. exists p. split; [|split; [apply Hp|]].
      - eapply normal_result; [exact Hp | eapply returns_expand; eassumption].
      - intros r Hr. destruct (Vx r) as (v & -> & Ev); [intros n; apply Hr|]. destruct Hp as (_ & _ & Vp & _). rewrite Vp in Ev by exact Hr. congruence. }
    destruct (V t1 d1 e1 P1 D1 E1) as (p1 & -> & O1 & V1), (V t2 d2 e2 P2 D2 E2) as (p2 & -> & O2 & V2). split.
    - intros E r Hr. rewrite V1, V2 by exact Hr. apply polyE_inj in E; auto. now subst.
    - intros H. f_equal. apply poly_unique; auto. intros r Hr. specialize (H r Hr). rewrite V1, V2 in H by exact Hr. congruence.
  Qed.
  (** subst called with the results of two programs, the first of them expanded. *)
  Theorem subst_result a b n d d' x y : polyTerm Y a d -> polyTerm Y b d' -> Z.max d' (Z.max 1 d' * d) <= B ->
    returns Y (TExpand a) x -> returns Y b y -> smallFactor y -> exists e,
    (exists F0 k0, forall F k, (F0 <= F)%nat -> (k0 <= k)%nat -> exists facts, w_subst (world Y F k) x (Sym n false) y = Ok e facts) /\
    (forall F k, w_subst (world Y F k) x (Sym n false) y = Fuel \/ exists facts, w_subst (world Y F k) x (Sym n false) y = Ok e facts) /\
    laurent e /\ degreeBound e <= Z.max d' (Z.max 1 d' * d) /\
    (forall r, posEnv r -> exists v w, eval r y = Some v /\ eval (upd r n false v) x = Some w /\ eval r e = Some w).
  Proof.
    intros Pa Pb HD Ex Ey Sy. pose proof (polyTerm_nonneg _ _ Pa). pose proof (polyTerm_nonneg _ _ Pb).
    assert (K2 : Z.max 1 d' * d <= B) by lia. assert (K3 : d <= B) by nia.
    destruct (term_result b d' Pb) as (y' & Ey' & Ry & Dy & _ & _ & Vy); [lia|]. rewrite <- (returns_unique b y y' Ey Ey') in *. clear y' Ey'.
    destruct (term_result (TExpand a) d (p_expand Y a d Pa) K3) as (x' & Ex' & Rx & Dx & _ & _ & Vx). rewrite <- (returns_unique _ x x' Ex Ex') in *. clear x' Ex'.
    destruct (term_result a d Pa K3) as (u & Eu & Ru & Du & _ & _ & _).
    assert (N : exists p, x = polyE p /\ polyOK p /\ posPoly p /\ polyDeg p <= d).
    { destruct (h_normal u Ru d Du K3) as (e & (p & -> & Hp) & E). exists p. split; [|exact Hp]. destruct (ev_ex _ E) as (F & k & l & E' & _).
      eapply expandsTo_unique; [exact (returns_expand a u x Eu Ex) | now exists F, k, l]. }
    destruct N as (p & -> & Op & Pp & Dp). assert (K4 : Z.max 1 d' * polyDeg p <= Z.max 1 d' * d) by (apply Z.mul_le_mono_nonneg_l; lia).
    destruct (subst_poly Y B Hlt (n, false) y (Z.max 1 d')) with (p := p) as (e & [Re De] & E); auto; try lia. exists e.
    destruct (ev_ex _ E) as (F1 & k1 & l1 & E1 & H1). split; [|split; [|split; [|split; [lia|]]]].
    - destruct E as (F0 & k0 & E). exists F0, k0. intros F k HF Hk. destruct (E F k HF Hk) as (l & El & _). now exists l.
    - intros F k. eapply (only_result (fun W => w_subst W (polyE p) (Sym n false) y)); [|exact E1]. intros W W' HW. apply (o_subst _ _ HW).
    - now apply ring_laurent.
    - intros r Hr. destruct (Vy r Hr) as (v & _ & Ev). assert (Hu : posEnv (upd r n false v)) by (intros m; unfold upd; destruct (nameEq _ _); cbn; apply Hr).
      destruct (Vx _ Hu) as (w & _ & Ew). exists v, w. split; [exact Ev|]. split; [exact Ew|].
      refine (subst_value Y F1 k1 r Hr n false y (polyE p) e l1 v w _ _ E1 (harmless_right l1 r H1 Hr) Ev _); [now apply laurent_wf, ring_laurent | now apply laurent_wf, ring_laurent|exact Ew].
  Qed.
  (** Signs of the results of programs. *)
  Lemma run_pos e : ring e -> runs Y (fun W _ => w_pos W e) (fun _ => True).
  Proof.
    intros R. apply runs_of; [intros W W' n n' HW _; apply (o_pos _ _ HW)|]. apply (ev_ge 0 (height e)). intros F k _ Hk. now apply sign_ok.
  Qed.
  Lemma even_right l r : Forall isEven l -> Forall (holds false r) l.
  Proof. intros H. eapply Forall_impl; [|exact H]. intros c (e & ->) A. discriminate A. Qed.
  Theorem sign_result t d e : polyTerm Y t d -> d <= B -> returns Y t e -> exists p n : bool,
    (exists F0 k0, forall F k, (F0 <= F)%nat -> (k0 <= k)%nat -> (exists facts, w_pos (world Y F k) e = Ok p facts) /\ exists facts, w_neg (world Y F k) e = Ok n facts) /\
    (forall F k, w_pos (world Y F k) e = Fuel \/ exists facts, w_pos (world Y F k) e = Ok p facts) /\
    (forall F k, w_neg (world Y F k) e = Fuel \/ exists facts, w_neg (world Y F k) e = Ok n facts) /\
    (forall r, posEnv r -> exists v, eval r e = Some v /\ (p = true -> 0 <= v)%R /\ (n = true -> v <= 0)%R).
  Proof.
    intros P D E. destruct (term_result t d P D) as (e' & E' & R & _ & _ & _ & V). rewrite <- (returns_unique t e e' E E') in *. clear e' E'.
    destruct (run_pos e R) as (p & _ & Ep). destruct (run_sign Y e R) as (n & _ & En). exists p, n.
    destruct (ev_ex _ Ep) as (F1 & k1 & l1 & E1 & H1). destruct (ev_ex _ En) as (F2 & k2 & l2 & E2 & H2). split; [|split; [|split]].
    - destruct (ev_and _ _ Ep En) as (F0 & k0 & H). exists F0, k0. intros F k HF Hk. destruct (H F k HF Hk) as [(l & El & _) (l' & El' & _)]. eauto.
    - intros F k. eapply (only_result (fun W => w_pos W e)); [|exact E1]. intros W W' HW. apply (o_pos _ _ HW).
    - intros F k. eapply (only_result (fun W => w_neg W e)); [|exact E2]. intros W W' HW. apply (o_neg _ _ HW).
    - intros r Hr. destruct (V r Hr) as (v & _ & Ev). exists v. split; [exact Ev|]. pose proof (posEnv_good false r Hr) as Hg. pose proof (laurent_wf e (ring_laurent e R)) as Hw.
      split; intros ->.
      + pose proof (so_pos _ (world_sound Y F1 k1) false r _ e Hg Hw) as S. unfold spec in S. rewrite E1 in S. exact (S (even_right l1 r H1) eq_refl v Ev).
      + pose proof (so_neg _ (world_sound Y F2 k2) false r _ e Hg Hw) as S. unfold spec in S. rewrite E2 in S. pose proof (S (even_right l2 r H2) eq_refl v Ev) as X. cbn in X. lra.
  Qed.
End Programs.
