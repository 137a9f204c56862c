(** The derivative of an expanded polynomial is computed exactly: it is the expanded formal derivative. *)
From Verif Require Import LaurentSpec LaurentOrder LaurentProd LaurentIdent LaurentSum LaurentExpand LaurentMain LaurentApi DiffModel DerivSpec NumberProofs ExprProofs World RPow.
From Coq Require Import Lia Lra Bool Permutation.
From Verif Require Import Run LaurentSpec.
Open Scope Z_scope.

(** ** Values of formal derivatives *)
Definition symV (r : env) (t : sym) : R := r (fst t) (snd t).

Lemma lower_absent t k : ~ In t (map fst k) -> lowerKey t k = k.
Proof.
  induction k as [|f k IH]; [reflexivity|]. cbn [map In]. intros H. unfold lowerKey. cbn [flat_map].
  destruct (sym_dec (fst f) t) as [E|_]; [exfalso; apply H; now left|]. cbn [app]. f_equal. apply IH. intros X. apply H. now right.
Qed.
Lemma keyOK_tl f k : keyOK (f :: k) -> keyOK k.
Proof. intros [S N]. inversion S; inversion N; subst. now split. Qed.
Lemma keyOK_hd f k : keyOK (f :: k) -> ~ In (fst f) (map fst k).
Proof.
  intros [S _] H. inversion S as [|? ? _ A]; subst. apply in_map_iff in H as (g & E & Hg). rewrite Forall_forall in A. specialize (A g Hg).
  rewrite E in A. now apply symLt_irrefl in A.
Qed.
Lemma exponentOf_kget t k : exponentOf t k = kget k t.
Proof. reflexivity. Qed.
Lemma kget_notin k t : ~ In t (map fst k) -> kget k t = 0.
Proof.
  induction k as [|f k IH]; [reflexivity|]. cbn [map In]. intros H. unfold kget. cbn [fold_right]. fold (kget k t).
  rewrite IH by (intros X; apply H; now right). destruct (sym_dec (fst f) t) as [E|_]; [exfalso; apply H; now left | reflexivity].
Qed.
Lemma lower_V r t k : allPos r -> keyOK k ->
  (keyV r (lowerKey t k) * IZR (exponentOf t k) = keyV r k * IZR (exponentOf t k) / symV r t)%R.
Proof.
  intros Hr. pose proof (Hr (fst t) (snd t)) as Ht. fold (symV r t) in Ht. rewrite exponentOf_kget.
  induction k as [|f k IH]; intros O; [cbn; field; lra|].
  pose proof (keyOK_hd f k O) as Nf. pose proof (keyOK_tl f k O) as Ok. specialize (IH Ok).
  unfold lowerKey. cbn [flat_map]. fold (lowerKey t k). unfold kget. cbn [fold_right]. fold (kget k t).
  destruct (sym_dec (fst f) t) as [E|E].
  - rewrite lower_absent by (now rewrite <- E). rewrite (kget_notin k t) by (now rewrite <- E). rewrite Z.add_0_r.
    assert (P : facV r f = (powerRZ (symV r t) (snd f - 1) * symV r t)%R).
    { unfold facV. rewrite E. fold (symV r t). replace (snd f) with ((snd f - 1) + 1) at 1 by lia. rewrite powerRZ_add by lra. now rewrite powerRZ_1. }
    assert (Q : keyV r ((if snd f =? 1 then [] else [(fst f, snd f - 1)]) ++ k) = (powerRZ (symV r t) (snd f - 1) * keyV r k)%R).
    { destruct (Z.eqb_spec (snd f) 1) as [->|N]; cbn [app].
      - change (powerRZ (symV r t) (1 - 1)) with 1%R. ring.
      - change (keyV r ((fst f, snd f - 1) :: k)) with (facV r (fst f, (snd f - 1)%Z) * keyV r k)%R. rewrite E. reflexivity. }
    rewrite Q. cbn [keyV fold_right]. fold (keyV r k). rewrite P. field. lra.
  - cbn [app keyV fold_right]. fold (keyV r (lowerKey t k)) (keyV r k). rewrite Z.add_0_l.
    replace (facV r f * keyV r (lowerKey t k) * IZR (kget k t))%R with (facV r f * (keyV r (lowerKey t k) * IZR (kget k t)))%R by ring.
    rewrite IH. field. lra.
Qed.
Lemma deriv_key_V r t m : allPos r -> keyOK (snd m) -> monoV r (derivMono t m) = (monoV r m * IZR (exponentOf t (snd m)) / symV r t)%R.
Proof.
  intros Hr K. unfold derivMono, monoV. cbn [fst snd]. rewrite Q2R_qmul, Q2R_ofZ.
  pose proof (lower_V r t (snd m) Hr K) as L.
  replace (Q2R (fst m) * IZR (exponentOf t (snd m)) * keyV r (lowerKey t (snd m)))%R with (Q2R (fst m) * (keyV r (lowerKey t (snd m)) * IZR (exponentOf t (snd m))))%R by ring.
  rewrite L. unfold Rdiv. ring.
Qed.
Lemma deriv_mono_V r t m : allPos r -> monoOK m -> monoV r (derivMono t m) = (monoV r m * IZR (exponentOf t (snd m)) / symV r t)%R.
Proof. intros Hr (_ & _ & K). now apply deriv_key_V. Qed.

(** ** What the code computes *)
Lemma log_sym Y F k s : (2 <= k)%nat -> w_log (world Y F k) (symE s) = Ok (Fct FLog [symE s]) [].
Proof. destruct k as [|[|k]]; try lia. intros _. destruct s as [n [|]]; reflexivity. Qed.
Lemma diffE_pow W n x b y : diffE W (S n) x (Pow b y) =
  (lb <- w_log W b ;; dy <- diffE W n x y ;; p <- w_prod W [lb; dy] ;;
   ib <- oneOver W b ;; db <- diffE W n x b ;; q <- w_prod W [y; ib; db] ;;
   s <- w_sum W [p; q] ;; w_prod W [Pow b y; s]).
Proof. reflexivity. Qed.
Lemma diffE_num W n x q : diffE W (S n) x (Num q) = Ok zero [].
Proof. reflexivity. Qed.
Lemma monosDeg_cons x l : monosDeg (x :: l) = kdeg (snd x) + monosDeg l.
Proof. reflexivity. Qed.
Lemma monosV_cons r x l : monosV r (x :: l) = (monoV r x * monosV r l)%R.
Proof. reflexivity. Qed.
Lemma monosV_app r a b : monosV r (a ++ b) = (monosV r a * monosV r b)%R.
Proof. induction a as [|x a IH]; [unfold monosV; cbn [app fold_right]; ring|]. cbn [app monosV fold_right]. unfold monosV in *. rewrite IH. ring. Qed.
Lemma monosDeg_app a b : monosDeg (a ++ b) = monosDeg a + monosDeg b.
Proof. induction a as [|x a IH]; [reflexivity|]. cbn [app monosDeg fold_right]. unfold monosDeg in *. rewrite IH. lia. Qed.
Lemma monosDeg_nonneg a : 0 <= monosDeg a.
Proof. induction a as [|x a IH]; [easy|]. cbn [monosDeg fold_right]. fold (monosDeg a). pose proof (kdeg_nonneg (snd x)). lia. Qed.

(** Zero or one monomial. *)
Definition atMostOne (q : poly) : Prop := q = [] \/ exists m, q = [m] /\ monoOK m.
Lemma atMostOne_OK q : atMostOne q -> polyOK q.
Proof. intros [->|(m & -> & O)]; [apply polyOK_nil | now apply mono_polyOK]. Qed.

Section Diff.
  Variables (Y : sys) (B : Z).
  Hypothesis Hlt : exactUpTo B (s_nlt Y).
  Notation W F k := (world Y F k).

  Lemma prod_zero F k l : (1 <= k)%nat -> existsb isUndefined l = false -> existsb isZero l = true -> w_prod (W F k) l = Ok zero [].
  Proof. destruct k as [|k]; [lia|]. intros _ U Z. cbn [world step w_prod]. unfold prodCreate. now rewrite U, Z. Qed.

  (** The derivative of a factor. *)
  Definition derives (n : nat) (t : sym) (x : mono) (q : poly) : Prop :=
    (forall r, allPos r -> polyV r q = (monoV r x * IZR (exponentOf t (snd x)) / symV r t)%R) /\ pdeg (kdeg (snd x) + 1) q /\
    ev (fun F k => diffE (W F k) n (symE t) (monoE x) = Ok (polyE q) []).

  Lemma derive_num n t c : derives (S n) t (c, []) [].
  Proof.
    split; [|split].
    - intros r Hr. unfold monoV. cbn [snd exponentOf fold_right keyV polyV]. unfold Rdiv. ring.
    - constructor.
    - rewrite <- Num_monoE. apply ev_all. reflexivity.
  Qed.
  Lemma diff_sym n t s F k : diffE (W F k) (S n) (symE t) (symE s) = Ok (if sym_dec s t then one else zero) [].
  Proof.
    cbn [diffE symE]. change (Sym (fst s) (snd s)) with (symE s). rewrite isEqual_symE.
    destruct (sym_dec s t) as [E|E]; [apply symEqb_eq in E | apply symEqb_neq in E]; now rewrite E.
  Qed.
  Lemma derive_fac n t s z : 1 <= B -> z <> 0 -> exists q, atMostOne q /\ derives (S (S n)) t (1%Q, [(s, z)]) q.
  Proof.
    intros HB Hz.
    assert (Vx : forall r, monoV r (1%Q, [(s, z)]) = powerRZ (symV r s) z).
    { intros r. unfold monoV, keyV, facV, symV. cbn [fst snd fold_right]. rewrite Q2R_1. ring. }
    destruct (Z.eq_dec z 1) as [->|N1].
    { exists (if sym_dec s t then [(1%Q, [])] else []). split.
      - destruct (sym_dec s t); [right | now left]. exists (1%Q, []). split; [reflexivity | apply one_OK].
      - split; [|split].
        + intros r Hr. rewrite Vx. pose proof (Hr (fst t) (snd t)) as Ht. cbn [snd exponentOf fold_right fst]. destruct (sym_dec s t) as [->|_].
          * rewrite polyV_cons, powerRZ_1. change (polyV r []) with 0%R. unfold monoV, symV. cbn [fst snd keyV fold_right]. change (IZR (1 + 0)) with 1%R. rewrite Q2R_1. field. lra.
          * change (polyV r []) with 0%R. change (IZR (0 + 0)) with 0%R. unfold Rdiv. ring.
        + destruct (sym_dec s t); repeat constructor. cbn. lia.
        + apply ev_all. intros F k. change (monoE (1%Q, [(s, 1)])) with (symE s). rewrite diff_sym. destruct (sym_dec s t); reflexivity. }
    assert (E : monoE (1%Q, [(s, z)]) = Pow (symE s) (Num (ofZ z))).
    { unfold monoE, factorsE. cbn [fst snd map app qeqb]. unfold facE; cbn [fst snd]. now rewrite (proj2 (Z.eqb_neq _ _) N1). }
    assert (Ox : monoOK (1%Q, [(s, z)])) by (split; [apply canon_1|]; split; [discriminate | now apply keyOK_one]).
    destruct (sym_dec s t) as [<-|Nt].
    - (* the symbol itself *)
      destruct (prod_ev Y [(ofZ z, []); (1%Q, [(s, -1)]); (1%Q, [])]) as (m & Om & Vm & Dm & Em); [discriminate| |].
      { constructor; [|constructor; [|constructor; [apply one_OK | constructor]]].
        - split; [apply canon_ofZ|]. split; [|apply keyOK_nil]. intros X. apply Hz. now injection X.
        - split; [apply canon_1|]. split; [discriminate | apply keyOK_one; cbn; lia]. }
      cbn in Dm.
      destruct (sum_ev Y B Hlt [[]; [m]]) as (u & (Ou & Vu & _) & Eu); [discriminate| | |].
      { constructor; [apply polyOK_nil | constructor; [now apply mono_polyOK | constructor]]. }
      { constructor; [constructor | constructor; [constructor; [lia | constructor] | constructor]]. }
      assert (u = [m]) as ->.
      { apply poly_unique; [exact Ou | now apply mono_polyOK |]. intros r _. rewrite Vu. cbn. ring. }
      destruct (prod_ev Y [(1%Q, [(s, z)]); m]) as (d & Od & Vd & Dd & Ed); [discriminate|repeat (constructor; auto)|].
      exists [d]. split; [right; now exists d|]. split; [|split].
      + intros r Hr. pose proof (Hr (fst s) (snd s)) as Hs. rewrite polyV_cons. change (polyV r []) with 0%R. rewrite Vd by exact Hr.
        unfold monosV. cbn [fold_right]. rewrite Vm by exact Hr. unfold monosV. cbn [fold_right]. cbn [snd exponentOf fold_right fst].
        destruct (sym_dec s s) as [_|X]; [|congruence]. rewrite Vx. unfold monoV. cbn [fst snd keyV fold_right]. unfold facV. cbn [fst snd].
        unfold symV. rewrite Q2R_1, Q2R_ofZ, Z.add_0_r. replace (powerRZ (r (fst s) (snd s)) (-1)) with (/ r (fst s) (snd s))%R by (unfold powerRZ; change (Pos.to_nat 1) with 1%nat; now rewrite pow_1). field. lra.
      + constructor; [|constructor]. cbn in Dd |- *. lia.
      + rewrite E. eapply ev_mp; [exact Em|]. eapply ev_mp; [exact Eu|]. eapply ev_mp; [exact Ed|].
        apply (ev_ge 0 3). intros F k _ Hk X1 X2 X3. cbn [map] in X1, X2, X3. rewrite diffE_pow.
        rewrite log_sym by lia. rewrite bind_ret. rewrite diffE_num, bind_ret. rewrite prod_zero by (lia || reflexivity). rewrite bind_ret.
        unfold oneOver. change mOne with (Num (ofZ (-1))). rewrite pow_sym by exact Hk. rewrite bind_ret. rewrite diff_sym, bind_ret.
        destruct (sym_dec s s) as [_|X]; [|congruence]. rewrite <- Num_monoE in X3. change (powE s (-1)) with (monoE (1%Q, [(s, -1)])).
        change one with (monoE (1%Q, [])).
        etransitivity; [eapply (f_equal (fun y => bind y _)); exact X3|]. cbv beta. rewrite bind_ret. change zero with (polyE []). change (monoE m) with (polyE [m]). rewrite X2, bind_ret.
        rewrite <- E. change (polyE [m]) with (monoE m). rewrite X1. reflexivity.
    - exists []. split; [now left|]. split; [|split; [constructor|]].
      + intros r _. cbn [snd exponentOf fold_right fst]. destruct (sym_dec s t) as [X|_]; [congruence|]. change (polyV r []) with 0%R. change (IZR (0 + 0)) with 0%R. unfold Rdiv. ring.
      + rewrite E. destruct (sum_ev Y B Hlt [[]; []]) as (u & (Ou & Vu & _) & Eu); [discriminate|repeat constructor|repeat constructor|].
        assert (u = []) as ->.
        { apply poly_unique; [exact Ou | apply polyOK_nil |]. intros r _. rewrite Vu. cbn. ring. }
        eapply ev_mp; [exact Eu|].
        apply (ev_ge 0 3). intros F k _ Hk X2. cbn [map] in X2. rewrite diffE_pow.
        rewrite log_sym by lia. rewrite bind_ret. rewrite diffE_num, bind_ret. rewrite prod_zero by (lia || reflexivity). rewrite bind_ret.
        unfold oneOver. change mOne with (Num (ofZ (-1))). rewrite pow_sym by exact Hk. rewrite bind_ret. rewrite diff_sym, bind_ret.
        destruct (sym_dec s t) as [X|_]; [congruence|]. rewrite prod_zero by (lia || reflexivity || (cbn [existsb]; change (isZero zero) with true; now rewrite !orb_true_r)). rewrite bind_ret.
        change zero with (polyE []) at 1 2. rewrite X2, bind_ret. apply prod_zero; [lia | reflexivity | reflexivity].
  Qed.

  (** The summands of the product rule. *)
  Lemma rule_ev n t ms : 1 <= B -> Forall (fun x => exists q, atMostOne q /\ derives n t x q) ms -> Forall monoOK ms -> forall pre, Forall monoOK pre ->
    exists qs, Forall atMostOne qs /\ length qs = length ms /\
      (forall r, allPos r -> polysV r qs = (monosV r pre * monosV r ms * fold_right (fun x a => IZR (exponentOf t (snd x)) + a) 0 ms / symV r t)%R) /\
      Forall (pdeg (monosDeg pre + monosDeg ms + 1)) qs /\
      ev (fun F k => productRule (W F k) (diffE (W F k) n (symE t)) (map monoE pre) (map monoE ms) = Ok (map polyE qs) []).
  Proof.
    intros HB. induction ms as [|x ms IH]; intros D O pre Op.
    - exists []. repeat split; try constructor.
      + intros r _. cbn. unfold Rdiv. ring.
      + apply ev_all. reflexivity.
    - inversion D as [|? ? (q & Aq & Vq & Dq & Eq) Dr]; subst. inversion O as [|? ? Ox Or]; subst.
      destruct (IH Dr Or (pre ++ [x])) as (qs & Aqs & Lqs & Vqs & Dqs & Eqs).
      { apply Forall_app. split; [exact Op | repeat constructor; apply Ox]. }
      assert (P : exists p, atMostOne p /\ (forall r, allPos r -> polyV r p = (polyV r q * monosV r pre * monosV r ms)%R) /\
        pdeg (monosDeg pre + monosDeg (x :: ms) + 1) p /\
        ev (fun F k => w_prod (W F k) (polyE q :: map monoE pre ++ map monoE ms) = Ok (polyE p) [])).
      { destruct Aq as [->|(m & -> & Om)].
        - exists []. split; [now left|]. split; [intros r _; cbn; ring|]. split; [constructor|].
          apply (ev_ge 0 1). intros F k _ Hk. apply prod_zero; [exact Hk| |reflexivity].
          cbn [existsb]. change (isUndefined (polyE [])) with false. rewrite <- map_app. cbn [orb].
          apply not_true_iff_false. intros X. apply existsb_exists in X as (y & Hy & X). apply in_map_iff in Hy as (z & <- & _).
          now rewrite monoE_isUndefined in X.
        - destruct (prod_ev Y (m :: pre ++ ms)) as (p & O' & V' & D' & E').
          { discriminate. }
          { constructor; [exact Om|]. apply Forall_app. now split. }
          exists [p]. split; [right; now exists p|]. split; [|split].
          + intros r Hr. rewrite !polyV_cons. change (polyV r []) with 0%R. rewrite V' by exact Hr. rewrite monosV_cons, monosV_app. ring.
          + constructor; [|constructor]. rewrite monosDeg_cons, monosDeg_app in D'. rewrite monosDeg_cons. inversion Dq; subst. lia.
          + cbn [map] in E'. rewrite map_app in E'. exact E'. }
      destruct P as (p & Ap & Vp & Dp & Ep).
      exists (p :: qs). split; [now constructor|]. split; [cbn; now rewrite Lqs|]. split; [|split].
      + intros r Hr. pose proof (Hr (fst t) (snd t)) as Ht. fold (symV r t) in Ht. cbn [polysV fold_right]. fold (polysV r qs). rewrite Vp, Vq, Vqs by exact Hr.
        rewrite monosV_app, !monosV_cons. change (monosV r []) with 1%R. cbn [fold_right]. field. lra.
      + constructor; [exact Dp|]. rewrite monosDeg_app in Dqs. eapply Forall_impl; [|exact Dqs]. intros y. apply pdeg_le. rewrite !monosDeg_cons. change (monosDeg []) with 0. lia.
      + rewrite map_app in Eqs. cbn [map] in Eqs |- *.
        eapply ev_mp; [exact Eq|]. eapply ev_mp; [exact Ep|]. eapply ev_imp; [exact Eqs|]. intros F k X1 X2 X3.
        cbn [productRule]. rewrite X3, bind_ret, X2, bind_ret, X1, bind_ret. reflexivity.
  Qed.

  Lemma parts_derive n t m : 1 <= B -> monoOK m -> Forall (fun x => exists q, atMostOne q /\ derives (S (S n)) t x q) (parts m).
  Proof.
    intros HB (_ & _ & _ & K). unfold parts. apply Forall_app. split.
    - destruct (qeqb (fst m) 1); constructor; [|constructor]. exists []. split; [now left | apply derive_num].
    - apply Forall_map. eapply Forall_impl; [|exact K]. intros [s z] Hf. now apply derive_fac.
  Qed.
  Lemma parts_exp t m : fold_right (fun x a => IZR (exponentOf t (snd x)) + a)%R 0%R (parts m) = IZR (exponentOf t (snd m)).
  Proof.
    assert (X : forall k, fold_right (fun x a => IZR (exponentOf t (snd x)) + a)%R 0%R (map (fun f => (1%Q, [f])) k) = IZR (exponentOf t k)).
    { induction k as [|f k IH]; [reflexivity|]. cbn [map fold_right]. rewrite IH. cbn [snd exponentOf fold_right]. fold (exponentOf t k). rewrite <- plus_IZR. f_equal. lia. }
    unfold parts. destruct (qeqb (fst m) 1); cbn [app fold_right]; rewrite X; [reflexivity|]. cbn. ring.
  Qed.
  Lemma parts_deg m : monosDeg (parts m) = kdeg (snd m).
  Proof.
    assert (X : forall k, monosDeg (map (fun f => (1%Q, [f])) k) = kdeg k).
    { induction k as [|f k IH]; [reflexivity|]. cbn [map]. rewrite monosDeg_cons, IH. unfold kdeg. cbn [snd fold_right]. lia. }
    unfold parts. destruct (qeqb (fst m) 1); cbn [app]; [apply X|]. rewrite monosDeg_cons, X. reflexivity.
  Qed.

  Lemma derive_mono n t m : kdeg (snd m) + 1 <= B -> monoOK m -> exists q, polyOK q /\ derives (S (S (S n))) t m q.
  Proof.
    intros HB O. pose proof (kdeg_nonneg (snd m)) as K0.
    destruct (monoE_cases m) as [[Em E]|[(f & -> & E)|(Nm & E & L & _)]].
    - exists []. split; [apply polyOK_nil|]. destruct m as [c k]. cbn [snd] in Em. subst k. apply derive_num.
    - destruct f as [s z]. destruct (derive_fac (S n) t s z) as (q & A & D).
      + lia.
      + destruct O as (_ & _ & _ & K). now inversion K.
      + exists q. split; [now apply atMostOne_OK | exact D].
    - destruct (rule_ev (S (S n)) t (parts m)) with (pre := @nil mono) as (qs & A & Lq & V & D & Er); auto.
      + lia.
      + apply parts_derive; [lia | exact O].
      + now apply parts_OK.
      + rewrite parts_deg in D. change (monosDeg []) with 0 in D.
        destruct (sum_ev Y B Hlt qs) as (s & (Os & Vs & Is & _) & Es).
        * intros ->. rewrite <- parts_E, map_length in L. cbn in Lq. lia.
        * eapply Forall_impl; [|exact A]. apply atMostOne_OK.
        * eapply Forall_impl; [|exact D]. intros q. apply pdeg_le. lia.
        * exists s. split; [exact Os|]. split; [|split].
          -- intros r Hr. rewrite Vs, V by exact Hr. rewrite parts_exp, parts_V. change (monosV r []) with 1%R. unfold Rdiv. ring.
          -- apply (pdeg_incl _ s (map snd (concat qs))); [exact Is|]. intros k Hk. apply in_map_iff in Hk as (x & <- & Hx).
             apply in_concat in Hx as (q & Hq & Hx). rewrite Forall_forall in D. specialize (D q Hq). unfold pdeg in D. rewrite Forall_forall in D.
             specialize (D x Hx). lia.
          -- rewrite E. rewrite parts_E in Er. eapply ev_mp; [exact Er|]. eapply ev_imp; [exact Es|]. intros F k X1 X2.
             cbn [map] in X2. change (diffE (W F k) (S (S (S n))) (symE t) (Prod (factorsE m))) with
               (s <- productRule (W F k) (diffE (W F k) (S (S n)) (symE t)) [] (factorsE m) ;; w_sum (W F k) s).
             rewrite X2, bind_ret. exact X1.
  Qed.

  Theorem derive_poly n t p : polyOK p -> pdeg (B - 1) p -> 1 <= B ->
    exists d, polyOK d /\ pdeg (polyDeg p + 1) d /\ (forall r, allPos r -> polyV r d = polyV r (derivPoly t p)) /\
      ev (fun F k => diffTop (W F k) (S (S (S (S n)))) (polyE p) (symE t) = Ok (polyE d) []).
  Proof.
    intros O D HB.
    assert (X : exists qs, Forall polyOK qs /\ length qs = length p /\ Forall (pdeg (polyDeg p + 1)) qs /\
      (forall r, allPos r -> polysV r qs = polyV r (derivPoly t p)) /\
      (forall i, (2 <= i)%nat -> ev (fun F k => mapM (diffE (W F k) (S (i + n)) (symE t)) (map monoE p) = Ok (map polyE qs) []))).
    { destruct O as [O _]. pose proof (polyDeg_pdeg p) as P. revert P. generalize (polyDeg p) as g. induction p as [|m p IH]; intros g P.
      - exists []. repeat split; try constructor. intros. now apply ev_all.
      - inversion O; subst. inversion D; subst. inversion P; subst. destruct (IH ltac:(assumption) ltac:(assumption) g) as (qs & Oq & Lq & Dq & Vq & Eq); [assumption|].
        destruct (derive_mono n t m) as (q & Om & Vm & Dm & Em); [lia | assumption|].
        exists (q :: qs). split; [now constructor|]. split; [cbn; now rewrite Lq|]. split; [constructor; [|exact Dq]; eapply pdeg_le; [|exact Dm]; lia|]. split.
        + intros r Hr. cbn [polysV fold_right derivPoly map]. rewrite polyV_cons. fold (polysV r qs) (derivPoly t p). rewrite Vq, Vm by exact Hr.
          now rewrite deriv_mono_V.
        + intros i Hi. eapply ev_mp; [exact (Eq i Hi)|].
          destruct (derive_mono (i - 2 + n) t m) as (q' & Om' & Vm' & _ & Em'); [lia | assumption|].
          assert (q' = q) as -> by (apply poly_unique; auto; intros r Hr; now rewrite Vm, Vm').
          eapply ev_imp; [exact Em'|]. intros F k X1 X2. cbn [map mapM]. replace (S (i + n)) with (S (S (S (i - 2 + n)))) in * by lia.
          rewrite X1, bind_ret, X2, bind_ret. reflexivity. }
    destruct X as (qs & Oq & Lq & Dq & Vq & Eq).
    pose proof (polyDeg_nonneg p) as P0. assert (PB : polyDeg p <= B - 1) by (apply pdeg_polyDeg; [lia | exact D]).
    destruct (polyE_cases p) as [[-> E]|[(m & -> & E)|[L E]]].
    - exists []. split; [apply polyOK_nil|]. split; [constructor|]. split; [reflexivity|]. apply ev_all. reflexivity.
    - destruct O as [O _]. inversion O; subst. inversion D; subst. destruct (derive_mono (S n) t m) as (q & Om & Vm & Dm & Em); [lia | assumption|].
      exists q. split; [exact Om|]. split; [|split].
      + eapply pdeg_le; [|exact Dm]. cbn [polyDeg fold_right]. lia.
      + intros r Hr. cbn [derivPoly map]. rewrite polyV_cons, deriv_mono_V by assumption. change (polyV r []) with 0%R. rewrite Vm by exact Hr. ring.
      + rewrite E. exact Em.
    - destruct (sum_ev Y B Hlt qs) as (s & (Os & Vs & Is & _) & Es).
      + intros ->. cbn in Lq. lia.
      + exact Oq.
      + eapply Forall_impl; [|exact Dq]. intros q. apply pdeg_le. lia.
      + exists s. split; [exact Os|]. split; [|split].
        * apply (pdeg_incl _ s (map snd (concat qs))); [exact Is|]. intros k Hk. apply in_map_iff in Hk as (x & <- & Hx).
          apply in_concat in Hx as (q & Hq & Hx). rewrite Forall_forall in Dq. specialize (Dq q Hq). unfold pdeg in Dq. rewrite Forall_forall in Dq.
          now apply Dq.
        * intros r Hr. rewrite Vs. now apply Vq.
        * rewrite E. eapply ev_mp; [exact (Eq 2%nat ltac:(lia))|]. eapply ev_imp; [exact Es|]. intros F k X1 X2.
          change (diffTop (W F k) (S (S (S (S n)))) (Sum (map monoE p)) (symE t)) with
            (s <- mapM (diffE (W F k) (S (2 + n)) (symE t)) (map monoE p) ;; w_sum (W F k) s).
          rewrite X2, bind_ret. exact X1.
  Qed.
End Diff.
