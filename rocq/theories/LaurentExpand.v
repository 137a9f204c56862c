(** Expansion of expressions that denote Laurent polynomials. *)
From Verif Require Import LaurentSpec LaurentOrder LaurentProd LaurentIdent LaurentSum LaurentInert ExprProofs NumberProofs OrderModel OrderProofs World.
From Coq Require Import Lia Lra Bool Permutation Classical_Prop.
From Verif Require Import Run LaurentSpec.
Open Scope Z_scope.

(** For all sufficiently large bounds of loops and depths. *)
Definition ev (P : nat -> nat -> Prop) : Prop := exists F0 k0, forall F k, (F0 <= F)%nat -> (k0 <= k)%nat -> P F k.

Lemma ev_all (P : nat -> nat -> Prop) : (forall F k, P F k) -> ev P.
Proof. intros H. exists O, O. auto. Qed.
Lemma ev_ge a b (P : nat -> nat -> Prop) : (forall F k, (a <= F)%nat -> (b <= k)%nat -> P F k) -> ev P.
Proof. intros H. now exists a, b. Qed.
Lemma ev_mp (P Q : nat -> nat -> Prop) : ev P -> ev (fun F k => P F k -> Q F k) -> ev Q.
Proof.
  intros (a & b & H) (c & d & H'). exists (Nat.max a c), (Nat.max b d). intros F k HF Hk. apply H'; try lia. apply H; lia.
Qed.
Lemma ev_imp (P Q : nat -> nat -> Prop) : ev P -> (forall F k, P F k -> Q F k) -> ev Q.
Proof. intros H I. eapply ev_mp; [exact H|]. now apply ev_all. Qed.
Lemma ev_S (P : nat -> nat -> Prop) : ev (fun F k => P F (S k)) -> ev P.
Proof. intros (a & b & H). exists a, (S b). intros F [|k] HF Hk; [lia|]. apply H; lia. Qed.
Lemma ev_ex (P : nat -> nat -> Prop) : ev P -> exists F k, P F k.
Proof. intros (a & b & H). exists a, b. apply H; lia. Qed.
Lemma ev_and (P Q : nat -> nat -> Prop) : ev P -> ev Q -> ev (fun F k => P F k /\ Q F k).
Proof.
  intros HP HQ. eapply ev_mp; [exact HP|]. eapply ev_imp; [exact HQ|]. auto.
Qed.

Lemma mapM_ev {A B} (f : nat -> nat -> A -> res B) l l' :
  Forall2 (fun x y => ev (fun F k => f F k x = Ok y [])) l l' -> ev (fun F k => mapM (f F k) l = Ok l' []).
Proof.
  induction 1 as [|x y l l' H _ IH]; [now apply ev_all|].
  eapply ev_mp; [exact H|]. eapply ev_imp; [exact IH|]. intros F k E1 E2. cbn [mapM]. rewrite E2, bind_ret. rewrite E1, bind_ret. reflexivity.
Qed.

Definition pdeg (d : Z) (p : poly) : Prop := Forall (fun m => kdeg (snd m) <= d) p.

Lemma pdeg_le d d' p : d <= d' -> pdeg d p -> pdeg d' p.
Proof. intros H. apply Forall_impl. intros m Hm. lia. Qed.
Lemma pdeg_incl d s l : incl (map snd s) l -> (forall k, In k l -> kdeg k <= d) -> pdeg d s.
Proof. intros I H. apply Forall_forall. intros m Hm. apply H, I. now apply in_map. Qed.

Definition maxLen1 (p : poly) : nat := fold_right (fun m a => Nat.max (length (snd m)) a) O p.
Definition maxLen (ps : list poly) : nat := maxLen1 (concat ps).
Lemma maxLen1_in p m : In m p -> (length (snd m) <= maxLen1 p)%nat.
Proof.
  induction p as [|n l IH]; intros H; [destruct H|]. unfold maxLen1. cbn [fold_right]. destruct H as [->|H]; [apply Nat.le_max_l|].
  eapply Nat.le_trans; [exact (IH H) | apply Nat.le_max_r].
Qed.
Lemma maxLen_in ps p m : In p ps -> In m p -> (length (snd m) <= maxLen ps)%nat.
Proof. intros Hp Hm. apply maxLen1_in. apply in_concat; eauto. Qed.
Lemma pfits_max F B ps : (maxLen ps + 8 <= F)%nat -> Forall (pdeg B) ps -> Forall (pfits F B) ps.
Proof.
  intros HF H. rewrite Forall_forall in *. intros p Hp. specialize (H p Hp). apply Forall_forall. intros m Hm.
  unfold pdeg in H. rewrite Forall_forall in H. split; [|now apply H]. pose proof (maxLen_in _ _ _ Hp Hm) as L. eapply Nat.le_trans; [|exact HF]. apply Nat.add_le_mono_r. exact L.
Qed.

Section Ex.
  Variables (Y : sys) (B : Z).
  Hypothesis Hlt : exactUpTo B (s_nlt Y).
  Notation W F k := (world Y F k).

  Lemma sum_ev ps : ps <> [] -> Forall polyOK ps -> Forall (pdeg B) ps ->
    exists s, isSumsOf s ps /\ ev (fun F k => w_sum (W F k) (map polyE ps) = Ok (polyE s) []).
  Proof.
    intros N O D. pose (F0 := (length (concat ps) + maxLen ps + 12)%nat).
    assert (H : forall F k, (F0 <= F)%nat -> (5 <= k)%nat -> exists s, w_sum (W F k) (map polyE ps) = Ok (polyE s) [] /\ isSumsOf s ps).
    { intros F k HF Hk. apply (sum_polys Y F B Hlt); auto; [unfold F0 in HF; lia|]. apply pfits_max; [unfold F0 in HF; lia | exact D]. }
    destruct (H F0 5%nat ltac:(lia) ltac:(lia)) as (s & _ & Hs). exists s. split; [exact Hs|].
    apply (ev_ge F0 5). intros F k HF Hk. destruct (H F k HF Hk) as (s' & E & Hs'). rewrite E.
    assert (s' = s) as ->; [|reflexivity]. destruct Hs as (O1 & V1 & _), Hs' as (O2 & V2 & _). apply poly_unique; auto.
    intros r _. now rewrite V1, V2.
  Qed.

  Lemma prod_ev ms : ms <> [] -> Forall monoOK ms ->
    exists m, monoOK m /\ (forall r, allPos r -> monoV r m = monosV r ms) /\ kdeg (snd m) <= monosDeg ms /\
      ev (fun F k => w_prod (W F k) (map monoE ms) = Ok (monoE m) []).
  Proof.
    intros N O.
    assert (H : forall F k, (monosSize ms + 5 <= F)%nat -> (4 <= k)%nat -> exists m, w_prod (W F k) (map monoE ms) = Ok (monoE m) [] /\ monoOK m /\
      (forall r, allPos r -> monoV r m = monosV r ms) /\ kdeg (snd m) <= monosDeg ms).
    { intros F k HF Hk. now apply prod_monos. }
    destruct (H (monosSize ms + 5)%nat 4%nat) as (m & _ & Om & Vm & Dm); [lia|lia|]. exists m. repeat (split; [assumption|]).
    apply (ev_ge (monosSize ms + 5) 4). intros F k HF Hk. destruct (H F k HF Hk) as (m' & E & Om' & Vm' & _). rewrite E.
    assert (m' = m) as ->; [|reflexivity]. apply mono_unique; auto. intros r Hr. now rewrite Vm, Vm'.
  Qed.
  Lemma prod_is ms m : ms <> [] -> Forall monoOK ms -> monoOK m -> (forall r, allPos r -> monoV r m = monosV r ms) ->
    ev (fun F k => w_prod (W F k) (map monoE ms) = Ok (monoE m) []).
  Proof.
    intros N O Om Vm. destruct (prod_ev ms N O) as (m' & Om' & Vm' & _ & E).
    assert (m' = m) as <-; [|exact E]. apply mono_unique; auto. intros r Hr. now rewrite Vm, Vm'.
  Qed.

  (** The factors of a product as products of one factor. *)
  Definition parts (m : mono) : list mono := (if qeqb (fst m) 1 then [] else [(fst m, [])]) ++ map (fun f => (1%Q, [f])) (snd m).
  Lemma parts_E m : map monoE (parts m) = factorsE m.
  Proof.
    unfold parts, factorsE. rewrite map_app, map_map. f_equal.
    destruct (qeqb (fst m) 1); [reflexivity|]. cbn [map]. now rewrite <- Num_monoE.
  Qed.
  Lemma parts_V r m : monosV r (parts m) = monoV r m.
  Proof.
    assert (X : forall l a b, monosV r (a ++ b) = (monosV r a * monosV r b)%R /\ monosV r (map (fun f => (1%Q, [f])) l) = keyV r l).
    { intros l a b. split.
      - induction a as [|x a IH]; [unfold monosV; cbn [app fold_right]; ring|]. cbn [app monosV fold_right]. unfold monosV in *. rewrite IH. ring.
      - induction l as [|f l IH]; [reflexivity|]. cbn [map monosV fold_right]. unfold monosV in IH. rewrite IH. unfold monoV, keyV; cbn. rewrite Q2R_1. ring. }
    unfold parts. rewrite (proj1 (X [] _ _)), (proj2 (X (snd m) [] [])). unfold monoV. f_equal.
    destruct (qeqb (fst m) 1) eqn:E.
    - apply qeqb_eq in E. rewrite E, Q2R_1. reflexivity.
    - unfold monosV, monoV; cbn. ring.
  Qed.
  Lemma keyOK_nil : keyOK [].
  Proof. split; constructor. Qed.
  Lemma keyOK_one f : snd f <> 0 -> keyOK [f].
  Proof. intros H. split; repeat constructor. exact H. Qed.
  Lemma parts_OK m : monoOK m -> Forall monoOK (parts m).
  Proof.
    intros (C & N & K). unfold parts. apply Forall_app. split.
    - destruct (qeqb _ _); repeat constructor; auto.
    - apply Forall_map. destruct K as [_ K]. eapply Forall_impl; [|exact K]. intros f Hf. split; [apply canon_1|].
      split; [discriminate | now apply keyOK_one].
  Qed.
  Lemma prod_factors m l : monoOK m -> l <> [] -> Permutation (factorsE m) l ->
    ev (fun F k => w_prod (W F k) l = Ok (monoE m) []).
  Proof.
    intros O N P. rewrite <- parts_E in P. apply Permutation_sym, Permutation_map_inv in P as (ms & -> & P).
    apply prod_is.
    - intros ->. now apply N.
    - pose proof (parts_OK m O) as H. rewrite Forall_forall in *. intros x Hx. apply H. eapply Permutation_in; [symmetry; exact P | exact Hx].
    - exact O.
    - intros r _. rewrite <- parts_V. clear -P. induction P; [reflexivity| | |congruence]; unfold monosV in *; cbn [fold_right].
      + now rewrite IHP.
      + ring.
  Qed.

  (** ** Nothing happens to a polynomial *)
  Lemma expandFac f : snd f <> 0 -> ev (fun F k => w_expand (W F k) (facE f) = Ok (facE f) []).
  Proof.
    intros Hf. apply ev_S. apply (ev_ge 0 3). intros F k _ Hk. unfold facE.
    destruct (snd f =? 1) eqn:E1; [reflexivity|].
    cbn [world step w_expand expandExpr symE numericEval]. 
    replace (qIsInt (ofZ (snd f))) with true by reflexivity.
    change (Sym (fst (fst f)) (snd (fst f))) with (symE (fst f)). rewrite pow_sym by assumption. unfold powE, facE; cbn [fst snd].
    rewrite E1. now rewrite (proj2 (Z.eqb_neq _ _) Hf).
  Qed.
  Lemma filter_all {A} (p : A -> bool) l : (forall x, In x l -> p x = true) -> filter p l = l.
  Proof. intros H. induction l as [|x l IH]; [reflexivity|]. cbn [filter]. rewrite (H x) by now left. f_equal. apply IH. intros y Hy. apply H. now right. Qed.
  Lemma filter_none {A} (p : A -> bool) l : (forall x, In x l -> p x = false) -> filter p l = [].
  Proof. intros H. induction l as [|x l IH]; [reflexivity|]. cbn [filter]. rewrite (H x) by now left. apply IH. intros y Hy. apply H. now right. Qed.
  Lemma factorsE_in m x : In x (factorsE m) -> (x = Num (fst m) /\ fst m <> 1%Q) \/ exists f, In f (snd m) /\ x = facE f.
  Proof.
    unfold factorsE. intros H. apply in_app_or in H as [H|H].
    - destruct (qeqb (fst m) 1) eqn:E; [destruct H|]. apply qeqb_neq in E. destruct H as [<-|[]]. auto.
    - apply in_map_iff in H as (f & <- & Hf). right. eauto.
  Qed.
  Lemma expandFactor m x : monoOK m -> In x (factorsE m) -> isSum x = false /\ ev (fun F k => w_expand (W F k) x = Ok x []).
  Proof.
    intros (C & N & S & K) H. apply factorsE_in in H as [[-> _]|(f & Hf & ->)].
    - split; [reflexivity|]. apply ev_S. now apply ev_all.
    - split; [apply facE_noSum|]. apply expandFac. rewrite Forall_forall in K. now apply K.
  Qed.
  Lemma expandMono m : monoOK m -> ev (fun F k => w_expand (W F k) (monoE m) = Ok (monoE m) []).
  Proof.
    intros O. destruct (monoE_cases m) as [[Em E]|[(f & X & E)|(Nm & E & L & _)]]; rewrite E.
    - apply ev_S. now apply ev_all.
    - apply (expandFactor m); auto. rewrite X. now left.
    - apply ev_S. cbn [world step w_expand expandExpr]. unfold expandAsProduct.
      eapply ev_mp; [apply (mapM_ev (fun F k => w_expand (W F k)) (factorsE m) (factorsE m))|].
      + assert (X : forall l, incl l (factorsE m) -> Forall2 (fun x y => ev (fun F k => w_expand (W F k) x = Ok y [])) l l).
        { induction l as [|x l IH]; intros I; constructor.
          - apply (expandFactor m x O). apply I. now left.
          - apply IH. intros z Hz. apply I. now right. }
        apply X, incl_refl.
      + eapply ev_imp; [apply (prod_factors m (factorsE m) O)|].
        * intros X. rewrite X in L. cbn in L. lia.
        * reflexivity.
        * intros F k E2 E1. cbn beta in E1. rewrite E1, bind_ret.
          rewrite (filter_none isSum) by (intros x Hx; now apply (expandFactor m x O)).
          rewrite (filter_all (fun e => negb (isSum e))) by (intros x Hx; now rewrite (proj1 (expandFactor m x O Hx))).
          assert (X : forall (A : Type) (a b : A), match factorsE m with [] => a | _ :: _ => b end = b).
          { destruct (factorsE m); [cbn in L; lia | reflexivity]. }
          destruct (factorsE m) as [|x0 l0]; [cbn in L; lia|]. rewrite E2, bind_ret. unfold ret. now rewrite E.
  Qed.

  Lemma polysV_single r l : polysV r (map (fun m => [m]) l) = polyV r l.
  Proof.
    induction l as [|m l IH]; [reflexivity|]. cbn [map polysV fold_right]. unfold polysV in IH. rewrite IH, !polyV_cons. change (polyV r []) with 0%R. ring.
  Qed.
  Lemma concat_single {A} (l : list A) : concat (map (fun m => [m]) l) = l.
  Proof. induction l as [|x l IH]; [reflexivity|]. cbn. now rewrite IH. Qed.
  Lemma mono_polyOK m : monoOK m -> polyOK [m].
  Proof. intros O. split; repeat constructor; apply O. Qed.

  (** The sum of monomials in any order. *)
  Lemma sum_monos_ev l : l <> [] -> Forall monoOK l -> pdeg B l ->
    exists s, polyOK s /\ (forall r, polyV r s = polyV r l) /\ incl (map snd s) (map snd l) /\
      ev (fun F k => w_sum (W F k) (map monoE l) = Ok (polyE s) []).
  Proof.
    intros N O D. destruct (sum_ev (map (fun m => [m]) l)) as (s & (Os & Vs & Is & _) & E).
    - destruct l; [congruence | discriminate].
    - apply Forall_map. eapply Forall_impl; [|exact O]. apply mono_polyOK.
    - apply Forall_map. eapply Forall_impl; [|exact D]. intros m Hm. repeat constructor. exact Hm.
    - exists s. split; [exact Os|]. split; [intros r; rewrite Vs; apply polysV_single|].
      rewrite concat_single in Is. split; [exact Is|]. rewrite map_map in E. exact E.
  Qed.

  Lemma expandPoly p : polyOK p -> pdeg B p -> ev (fun F k => w_expand (W F k) (polyE p) = Ok (polyE p) []).
  Proof.
    intros O D. destruct (polyE_cases p) as [[_ ->]|[(m & -> & ->)|[L E]]].
    - apply ev_S. now apply ev_all.
    - apply expandMono. now apply polyOK_one in O.
    - rewrite E. apply ev_S. cbn [world step w_expand expandExpr].
      destruct (sum_monos_ev p) as (s & Os & Vs & _ & Es); [destruct p; [cbn in L; lia | discriminate] | apply O | exact D |].
      assert (s = p) as -> by (apply poly_unique; auto). rewrite E in Es.
      eapply ev_mp; [exact Es|]. eapply ev_imp; [apply (mapM_ev (fun F k => w_expand (W F k)) (map monoE p) (map monoE p))|].
      + destruct O as [O _]. clear -O. induction O as [|m p Hm _ IH]; constructor; auto. now apply expandMono.
      + intros F k E1 E2. cbn beta in E1. rewrite E1, bind_ret. exact E2.
  Qed.

  (** ** A monomial times a sum *)
  Lemma scale_ev m p : monoOK m -> polyOK p -> p <> [] -> forall d, pdeg d p -> kdeg (snd m) + d <= B ->
    exists s, polyOK s /\ (forall r, allPos r -> polyV r s = monoV r m * polyV r p)%R /\ pdeg (kdeg (snd m) + d) s /\
      ev (fun F k => expandScalarProduct (W F k) (monoE m) (map monoE p) = Ok (polyE s) []).
  Proof.
    intros Om [Op _] N d D HD.
    assert (X : exists ms, length ms = length p /\ Forall monoOK ms /\ pdeg (kdeg (snd m) + d) ms /\
      (forall r, allPos r -> polyV r ms = monoV r m * polyV r p)%R /\
      Forall2 (fun x y => ev (fun F k => (q <- w_prod (W F k) [monoE m; x] ;; w_expand (W F k) q) = Ok y [])) (map monoE p) (map monoE ms)).
    { clear N. induction p as [|x p IH].
      - exists []. repeat split; try constructor. intros r _. change (polyV r []) with 0%R. ring.
      - inversion Op as [|? ? Ox Op']; inversion D as [|? ? Dx D']; subst. destruct (IH Op' D') as (ms & L & O & Dm & V & E).
        destruct (prod_ev [m; x]) as (y & Oy & Vy & Dy & Ey); [discriminate | auto |].
        exists (y :: ms). split; [cbn; lia|]. split; [now constructor|]. split; [constructor; [|exact Dm]|split].
        + cbn in Dy. lia.
        + intros r Hr. rewrite !polyV_cons, V, Vy by assumption. unfold monosV; cbn [fold_right]. ring.
        + cbn [map]. constructor; [|exact E]. eapply ev_mp; [exact Ey|]. eapply ev_imp; [apply (expandMono y Oy)|].
          intros F k E1 E2. cbn [map] in E2. now rewrite E2, bind_ret. }
    destruct X as (ms & L & O & Dm & V & E).
    destruct (sum_monos_ev ms) as (s & Os & Vs & Is & Es); auto.
    - destruct ms; [destruct p; [congruence | discriminate] | discriminate].
    - now apply pdeg_le with (2 := Dm).
    - exists s. split; [exact Os|]. split; [intros r Hr; rewrite Vs; auto|]. split.
      + apply pdeg_incl with (1 := Is). intros k Hk. apply in_map_iff in Hk as (n & <- & Hn). unfold pdeg in Dm. rewrite Forall_forall in Dm. now apply Dm.
      + eapply ev_mp; [exact Es|]. eapply ev_imp; [apply (mapM_ev (fun F k x => q <- w_prod (W F k) [monoE m; x] ;; w_expand (W F k) q)); exact E|].
        intros F k E1 E2. unfold expandScalarProduct. cbn beta in E1. rewrite E1, bind_ret. exact E2.
  Qed.

  (** ** Facts about permuted lists *)
  Lemma filter_perm {A} (p : A -> bool) l l' : Permutation l l' -> Permutation (filter p l) (filter p l').
  Proof.
    induction 1 as [|x l l' _ IH|x y l|l l' l'' _ IH1 _ IH2]; cbn [filter]; [constructor| | |now rewrite IH1].
    - destruct (p x); [now constructor | exact IH].
    - destruct (p x), (p y); try reflexivity. apply perm_swap.
  Qed.
  Lemma existsb_perm {A} (p : A -> bool) l l' : Permutation l l' -> existsb p l = existsb p l'.
  Proof.
    intros H. destruct (existsb p l) eqn:E, (existsb p l') eqn:E'; try reflexivity.
    - apply existsb_exists in E as (x & Hx & Px). rewrite <- E'. symmetry. apply existsb_exists. exists x. split; [|exact Px]. eapply Permutation_in; eassumption.
    - apply existsb_exists in E' as (x & Hx & Px). rewrite <- E. apply existsb_exists. exists x. split; [|exact Px].
      eapply Permutation_in; [symmetry|]; eassumption.
  Qed.
  Lemma needsExpansion_perm l l' : Permutation l l' -> needsExpansion l = needsExpansion l'.
  Proof.
    intros H. unfold needsExpansion, constElements, nonConstElements. cbn zeta.
    pose proof (filter_perm isConst _ _ H) as Hc. pose proof (filter_perm (fun e => negb (isConst e)) _ _ H) as Hv.
    rewrite (existsb_perm isSum _ _ Hc), (existsb_perm isSum _ _ Hv), (Permutation_length Hv).
    destruct (filter isConst l) eqn:E1, (filter isConst l') eqn:E2; try reflexivity.
    - apply Permutation_nil in Hc. discriminate.
    - symmetry in Hc. apply Permutation_nil in Hc. discriminate.
  Qed.
  Lemma keyOK_inj k f g : keyOK k -> In f k -> In g k -> fst f = fst g -> f = g.
  Proof.
    intros [S _] Hf Hg E. induction S as [|x k S IH H]; [destruct Hf|]. rewrite Forall_forall in H.
    destruct Hf as [->|Hf], Hg as [->|Hg]; auto.
    - apply H in Hg. rewrite E in Hg. now apply symLt_irrefl in Hg.
    - apply H in Hf. rewrite E in Hf. now apply symLt_irrefl in Hf.
  Qed.
  Lemma keyOK_NoDup k : keyOK k -> NoDup k.
  Proof.
    intros [S _]. induction S as [|x k S IH H]; constructor; auto. intros Hx. rewrite Forall_forall in H. apply H in Hx.
    now apply symLt_irrefl in Hx.
  Qed.
  Lemma factors_NoDup m : monoOK m -> NoDup (factorsE m).
  Proof.
    intros (_ & _ & K). apply keyOK_NoDup in K. unfold factorsE.
    assert (X : NoDup (map facE (snd m))).
    { induction K as [|f k A _ IH]; constructor; auto. intros X. apply in_map_iff in X as (g & E & Hg). apply facE_inj in E as ->. auto. }
    destruct (qeqb (fst m) 1); [exact X|]. cbn [app]. constructor; [|exact X].
    intros H. apply in_map_iff in H as (f & E & _). now apply facE_noNum in E.
  Qed.

  (** All lists of a length. *)
  Fixpoint listsOf {A} (u : list A) (n : nat) : list (list A) :=
    match n with O => [[]] | Datatypes.S n' => flat_map (fun x => map (cons x) (listsOf u n')) u end.
  Lemma listsOf_in {A} (u v : list A) n : length v = n -> incl v u -> In v (listsOf u n).
  Proof.
    revert v. induction n as [|n IH]; intros v L I.
    - destruct v; [now left | discriminate].
    - destruct v as [|x v]; [discriminate|]. cbn [listsOf]. apply in_flat_map. exists x. split; [apply I; now left|].
      apply in_map, IH; [now injection L|]. intros z Hz. apply I. now right.
  Qed.

  (** ** A sum with at least two terms *)
  Section Big.
    Variables (m : mono) (p : poly).
    Hypothesis Om : monoOK m.
    Hypothesis Op : polyOK p.
    Hypothesis Lp : (2 <= length p)%nat.
    Notation S := (Sum (map monoE p)).
    Notation U := (factorsE m ++ [S]).

    Lemma big_E : polyE p = S.
    Proof. destruct p as [|x [|y q]]; [cbn in Lp; lia | cbn in Lp; lia | reflexivity]. Qed.
    Lemma mono_notConst n : snd n <> [] -> isConst (monoE n) = false.
    Proof.
      intros N. destruct (monoE_cases n) as [[E _]|[(f & _ & ->)|(_ & -> & _ & c & -> & _)]].
      - destruct n; cbn in *; congruence.
      - apply facE_isConst.
      - cbn [isConst]. rewrite forallb_app. destruct n as [q k]; cbn [snd] in *.
        destruct k as [|f k]; [congruence|]. cbn [map forallb]. rewrite facE_isConst. cbn [andb]. rewrite andb_false_r.
        destruct (c ++ _); reflexivity.
    Qed.
    Lemma big_isConst : isConst S = false.
    Proof.
      cbn [isConst]. destruct p as [|x [|y q]]; [cbn in Lp; lia | cbn in Lp; lia |].
      assert (N : snd y <> []).
      { pose proof (polyOK_head _ _ Op (snd y) (or_introl eq_refl)) as H. intros E. rewrite E in H. unfold keyLt in H. inversion H. }
      cbn [map forallb]. rewrite (mono_notConst y N). cbn [andb]. apply andb_false_r.
    Qed.
    Lemma big_noUndef : noUndef S = true.
    Proof. cbn [noUndef]. apply forallb_forall. intros x Hx. apply in_map_iff in Hx as (n & <- & _). apply monoE_noUndef. Qed.
    Lemma U_in x : In x U -> (x = Num (fst m) /\ fst m <> 1%Q) \/ (exists f, In f (snd m) /\ x = facE f) \/ x = S.
    Proof. intros H. apply in_app_or in H as [H|[<-|[]]]; [|auto]. apply factorsE_in in H as [H|H]; auto. Qed.

    Lemma big_inert F k : (forall x y, In x U -> In y U -> x <> y ->
      simplTwoFactorsWithoutProduct Y (W F k) x y = Ok [x; y] [] \/ simplTwoFactorsWithoutProduct Y (W F k) x y = Ok [y; x] []).
    Proof.
      assert (Ord : forall x y, ret (ordered Y x y) = Ok [x; y] [] \/ ret (ordered Y x y) = Ok [y; x] []).
      { intros x y. unfold ordered. destruct (permuted Y x y); [right | left]; reflexivity. }
      pose proof big_isConst as C. intros x y Hx Hy N.
      destruct (U_in x Hx) as [[-> Nx]|[(f & Hf & ->)| ->]], (U_in y Hy) as [[-> Ny]|[(g & Hg & ->)| ->]].
      - congruence.
      - rewrite pair_num_fac. left. now rewrite (proj2 (qeqb_neq _ _) Nx).
      - unfold simplTwoFactorsWithoutProduct. rewrite C. cbn [isOne]. rewrite (proj2 (qeqb_neq _ _) Nx). cbn [andb isConst].
        apply Ord.
      - rewrite pair_fac_num. right. now rewrite (proj2 (qeqb_neq _ _) Ny).
      - rewrite pair_diff.
        + destruct (symLtb _ _); auto.
        + intros E. apply N. f_equal. apply (keyOK_inj (snd m)); auto. apply Om.
      - unfold simplTwoFactorsWithoutProduct. rewrite facE_isOne, facE_isConst. cbn [isOne andb].
        unfold haveEqualBases. rewrite facE_base. apply Ord.
      - unfold simplTwoFactorsWithoutProduct. rewrite C. cbn [isOne andb]. rewrite (proj2 (qeqb_neq _ _) Ny). apply Ord.
      - unfold simplTwoFactorsWithoutProduct. rewrite facE_isOne, C. cbn [isOne andb].
        unfold haveEqualBases. rewrite facE_base. apply Ord.
      - congruence.
    Qed.
    Lemma U_NoDup : NoDup U.
    Proof.
      apply Permutation_NoDup with (S :: factorsE m); [apply Permutation_cons_append|].
      constructor; [|now apply factors_NoDup]. intros H. apply factorsE_in in H as [[E _]|(f & _ & E)]; [discriminate|].
      pose proof (facE_noSum f) as X. rewrite <- E in X. discriminate.
    Qed.

    (** Product::create. *)
    Lemma big_simplify F k : (length U + 3 <= F)%nat ->
      exists v, simplifyProduct Y (W F k) F U = Ok v [] /\ Permutation U v.
    Proof.
      intros HF. apply (inert_simplify Y F k U).
      - intros x Hx. destruct (U_in x Hx) as [[-> _]|[(f & _ & ->)| ->]]; auto using facE_noProd.
      - intros x Hx. destruct (U_in x Hx) as [[-> _]|[(f & _ & ->)| ->]]; auto using facE_noUndef, big_noUndef.
      - intros x y Hx _. unfold areContractableTrigFctPowers, isContractableTrigFctPower.
        destruct (U_in x Hx) as [[-> _]|[(f & _ & ->)| ->]]; [reflexivity| |reflexivity]. now rewrite facE_base.
      - intros x y Hx _. destruct (U_in x Hx) as [[-> _]|[(f & _ & ->)| ->]]; try reflexivity. unfold facE. destruct (snd f =? 1); reflexivity.
      - intros x y Hx _. destruct (U_in x Hx) as [[-> _]|[(f & _ & ->)| ->]]; try reflexivity. unfold facE. destruct (snd f =? 1); reflexivity.
      - apply big_inert.
      - intros x y Hx Hy Nx Ny. destruct (U_in x Hx) as [[-> _]|[(f & _ & ->)| ->]]; [|now rewrite facE_isNumeric in Nx | discriminate].
        destruct (U_in y Hy) as [[-> _]|[(g & _ & ->)| ->]]; [reflexivity | now rewrite facE_isNumeric in Ny | discriminate].
      - intros x Hx. unfold isContractableConst. destruct (U_in x Hx) as [[-> _]|[(f & _ & ->)| ->]]; [reflexivity| |].
        + now rewrite facE_isConst.
        + now rewrite big_isConst.
      - intros q Hq. destruct (U_in _ Hq) as [[E Ne]|[(f & _ & E)|E]]; [|now symmetry in E; apply facE_noNum in E | discriminate].
        injection E as ->. split; [apply Om | exact Ne].
      - intros X. symmetry in X. now apply app_cons_not_nil in X.
      - apply incl_refl.
      - apply U_NoDup.
      - exact HF.
    Qed.

    Lemma extract_factors : factorsE m <> [] -> extractProduct (monoE m) = factorsE m.
    Proof.
      rewrite extract_mono. unfold atomsOf, factorsE. destruct m as [c k]; cbn [fst snd]. intros N.
      destruct (qeqb c 1); cbn [app map] in *.
      - destruct k as [|f k]; [now cbn in N|]. cbn [map atomE]. f_equal. rewrite map_map. reflexivity.
      - cbn [atomE]. f_equal. rewrite map_map. reflexivity.
    Qed.
    Lemma big_prod F k : (length U + 3 <= F)%nat -> factorsE m <> [] ->
      exists v, Permutation U v /\
        w_prod (W F (Datatypes.S k)) [monoE m; S] = if needsExpansion U then expandAsProduct (W F k) F v else ret (Prod v).
    Proof.
      intros HF N. destruct (big_simplify F k HF) as (v & E & P). exists v. split; [exact P|].
      cbn [world step w_prod]. unfold prodCreate. cbn [existsb isUndefined isZero orb].
      rewrite monoE_isUndefined, monoE_isZero by assumption. cbn [orb].
      rewrite (simplifyProduct_ext Y _ _ _ U).
      - rewrite E, bind_ret. rewrite (needsExpansion_perm _ _ P). pose proof (Permutation_length P) as L. rewrite app_length in L. cbn [length] in L.
        destruct (factorsE m); [congruence|]. cbn [length] in L. destruct v as [|x [|y v]]; cbn [length] in L; try lia. reflexivity.
      - unfold extractProducts. cbn [flat_map]. rewrite extract_factors by assumption. cbn [extractProduct app].
        rewrite flat_map_app. cbn [flat_map extractProduct app]. f_equal.
        assert (X : forall l, incl l (factorsE m) -> flat_map extractProduct l = l).
        { induction l as [|x l IH]; intros I; [reflexivity|]. cbn [flat_map]. rewrite IH by (intros z Hz; apply I; now right).
          assert (Hx : In x U) by (apply in_or_app; left; apply I; now left).
          destruct (U_in x Hx) as [[-> _]|[(f & _ & ->)| ->]]; [reflexivity | now rewrite facE_extract | reflexivity]. }
        symmetry. apply X, incl_refl.
    Qed.
    Lemma needsExpansion_big : needsExpansion U = (match snd m with [] => negb (qeqb (fst m) 1) | _ => false end).
    Proof.
      unfold needsExpansion. cbn zeta. destruct (elements m) as [E1 E2]. unfold constElements, nonConstElements in *.
      rewrite !filter_app, E1, E2. cbn [filter]. rewrite big_isConst. cbn [negb]. rewrite app_nil_r.
      rewrite existsb_app. cbn [existsb isSum orb]. rewrite orb_true_r, app_length. cbn [length].
      destruct m as [c k]; cbn [fst snd]. destruct (qeqb c 1); cbn [negb].
      - destruct k; reflexivity.
      - destruct k as [|f k]; [reflexivity|]. cbn [map length]. rewrite Nat.add_1_r. reflexivity.
    Qed.

    Variable d : Z.
    Hypothesis Dp : pdeg d p.
    Hypothesis HD : kdeg (snd m) + d <= B.
    Variable s : poly.
    Hypothesis Hs : ev (fun F k => expandScalarProduct (W F k) (monoE m) (map monoE p) = Ok (polyE s) []).

    Lemma pdeg_B : pdeg B p.
    Proof. eapply pdeg_le; [|exact Dp]. pose proof (kdeg_nonneg (snd m)). lia. Qed.

    Lemma big_asProduct v : factorsE m <> [] -> Permutation U v -> ev (fun F k => expandAsProduct (W F k) F v = Ok (polyE s) []).
    Proof.
      intros N P. assert (Nv : v <> []) by (intros ->; symmetry in P; apply Permutation_nil in P; now symmetry in P; apply app_cons_not_nil in P).
      assert (FS : filter isSum v = [S]).
      { pose proof (filter_perm isSum _ _ P) as Q. rewrite filter_app in Q. cbn [filter isSum app] in Q.
        rewrite (filter_none isSum (factorsE m)) in Q by (intros x Hx; now apply (expandFactor m x Om)).
        cbn [app] in Q. now apply Permutation_length_1_inv in Q. }
      assert (FN : Permutation (factorsE m) (filter (fun e => negb (isSum e)) v)).
      { pose proof (filter_perm (fun e => negb (isSum e)) _ _ P) as Q. rewrite filter_app in Q. cbn [filter isSum app negb] in Q.
        rewrite app_nil_r in Q. rewrite filter_all in Q; [exact Q|]. intros x Hx. now rewrite (proj1 (expandFactor m x Om Hx)). }
      assert (NN : filter (fun e => negb (isSum e)) v <> []).
      { intros X. rewrite X in FN. symmetry in FN. now apply Permutation_nil in FN. }
      pose proof (prod_factors m _ Om NN FN) as Ep.
      assert (Ev : ev (fun F k => mapM (w_expand (W F k)) v = Ok v [])).
      { apply (mapM_ev (fun F k => w_expand (W F k))).
        assert (X : forall l, incl l U -> Forall2 (fun x y => ev (fun F k => w_expand (W F k) x = Ok y [])) l l).
        { induction l as [|x l IH]; intros I; constructor.
          - assert (Hx : In x U) by (apply I; now left). apply in_app_or in Hx as [Hx|[<-|[]]].
            + now apply (expandFactor m x Om).
            + rewrite <- big_E. apply expandPoly; [exact Op | exact pdeg_B].
          - apply IH. intros z Hz. apply I. now right. }
        apply X. intros x Hx. eapply Permutation_in; [symmetry; exact P | exact Hx]. }
      eapply ev_mp; [exact Ep|]. eapply ev_mp; [exact Ev|]. eapply ev_mp; [exact Hs|]. apply (ev_ge 1 0).
      intros F k HF _ E1 E2 E3. unfold expandAsProduct. rewrite E2, bind_ret, FS.
      destruct (filter (fun e => negb (isSum e)) v) as [|x0 l0]; [congruence|]. rewrite E3, bind_ret.
      destruct F as [|F]; [lia|]. cbn [expandProductOf]. unfold ret. rewrite bind_ret. exact E1.
    Qed.

    Hypothesis Os : polyOK s.
    Hypothesis Ds : pdeg B s.
    Hypothesis Vs : forall r, allPos r -> (polyV r s = monoV r m * polyV r p)%R.

    Lemma big_scale : ev (fun F k => (q <- w_prod (W F k) [monoE m; S] ;; w_expand (W F k) q) = Ok (polyE s) []).
    Proof.
      destruct (classic (factorsE m = [])) as [E0|N].
      - assert (X : m = (1%Q, [])).
        { destruct m as [c k]; unfold factorsE in E0; cbn [fst snd] in E0. destruct (qeqb c 1) eqn:E; [|discriminate].
          apply qeqb_eq in E as ->. destruct k; [reflexivity | discriminate]. }
        assert (s = p) as ->.
        { apply poly_unique; auto. intros r Hr. rewrite Vs by assumption. rewrite X. unfold monoV; cbn. rewrite Q2R_1. ring. }
        rewrite X. change (monoE (1%Q, [])) with one.
        eapply ev_mp; [apply (expandPoly p Op pdeg_B)|]. apply (ev_ge 5 1). intros F k HF Hk E. rewrite big_E in *.
        destruct k as [|k]; [lia|].
        assert (w_prod (W F (Datatypes.S k)) [one; S] = Ok S []) as ->.
        { cbn [world step w_prod]. unfold prodCreate. cbn [existsb isUndefined isZero orb one].
          destruct F as [|F]; [lia|]. cbn [simplifyProduct]. unfold prepare. cbn [extractProducts flat_map extractProduct app].
          rewrite contract_none; [|intros x y [<-|[<-|[]]] _; reflexivity | cbn; lia]. reflexivity. }
        rewrite bind_ret. exact E.
      - assert (L : ev (fun F k => forall v, Permutation U v -> expandAsProduct (W F k) F v = Ok (polyE s) [])).
        { pose (vs := listsOf U (length U)).
          assert (X : ev (fun F k => forall v, In v vs -> Permutation U v -> expandAsProduct (W F k) F v = Ok (polyE s) [])).
          { clearbody vs. induction vs as [|v vs IH]; [apply ev_all; intros F k v []|].
            destruct (classic (Permutation U v)) as [P|P].
            - eapply ev_mp; [apply (big_asProduct v N P)|]. eapply ev_imp; [exact IH|]. intros F k H1 H2 w [<-|Hw]; auto.
            - eapply ev_imp; [exact IH|]. intros F k H w [<-|Hw]; auto. intros; contradiction. }
          eapply ev_imp; [exact X|]. intros F k H v Hv. apply H; [|exact Hv]. apply listsOf_in; [symmetry; now apply Permutation_length|].
          intros x Hx. eapply Permutation_in; [symmetry; exact Hv | exact Hx]. }
        apply ev_S. destruct L as (F0 & k0 & L). pose proof (expandPoly s Os Ds) as (F1 & k1 & X).
        exists (F0 + F1 + length U + 3)%nat, (Datatypes.S (k0 + k1)). intros F k HF Hk.
        destruct (big_prod F k ltac:(lia) N) as (v & P & E). rewrite E. destruct (needsExpansion U) eqn:NE.
        + rewrite (L F k ltac:(lia) ltac:(lia) v P), bind_ret. apply X; lia.
        + unfold ret. rewrite bind_ret. cbn [world step w_expand expandExpr]. exact (L F k ltac:(lia) ltac:(lia) v P).
    Qed.
  End Big.
End Ex.
