(** degree and coeff of polynomials in normal form. *)
From Verif Require Import LaurentSpec LaurentOrder LaurentProd LaurentIdent LaurentSum LaurentExpand LaurentMain LaurentApi RingPos LaurentCoeff PolyModel ExprProofs NumberProofs World RPow.
From Coq Require Import Lia Lra Bool Permutation.
From Verif Require Import Run LaurentSpec.
Open Scope Z_scope.

(** ** The degree *)
Section Degree.
  Variable Y : sys.
  Lemma degree_fac f t : 0 < snd f < intMax -> degree Y (facE f) (symE t) = if sym_dec (fst f) t then snd f else 0.
  Proof.
    destruct f as [s z]. cbn [fst snd]. intros Hz. unfold facE; cbn [fst snd].
    assert (S1 : degree Y (symE s) (symE t) = if sym_dec s t then 1 else 0).
    { change (degree Y (symE s) (symE t)) with (if isEqual (symE s) (symE t) then 1 else 0). rewrite isEqual_symE.
      destruct (sym_dec s t) as [->|N]; [now rewrite symEqb_refl | now rewrite (proj2 (symEqb_neq s t) N)]. }
    destruct (Z.eqb_spec z 1) as [->|N1]; [exact S1|].
    change (degree Y (Pow (symE s) (Num (ofZ z))) (symE t)) with (powerDegree z (degree Y (symE s) (symE t))). rewrite S1.
    destruct (sym_dec s t); unfold powerDegree; cbn [Z.eqb]; [|reflexivity]. rewrite Z.mul_1_r. unfold intMax, intMin, fitsInt in *.
    assert (G : (-2147483648 <=? z) && (z <=? 2147483647) && (0 <? 1) && (z <? 2147483647) && (-2147483648 <? z) = true).
    { rewrite !andb_true_iff. repeat split; (apply Z.leb_le || apply Z.ltb_lt); lia. }
    unfold intMax, intMin. now rewrite G.
  Qed.
  Lemma degree_key k t : posKey k -> kdeg k < intMax -> forall a, fold_left (fun a s => a + degree Y s (symE t)) (map facE k) a = a + kget k t.
  Proof.
    induction 1 as [|f k Hf Hk IH]; intros D a; cbn [map fold_left]; [cbn; lia|]. cbn [kdeg fold_right] in D. fold (kdeg k) in D. pose proof (kdeg_nonneg k).
    rewrite IH, kget_cons, degree_fac by lia. lia.
  Qed.
  Lemma degree_mono m t : posKey (snd m) -> kdeg (snd m) < intMax -> degree Y (monoE m) (symE t) = kget (snd m) t.
  Proof.
    intros P D. pose proof (degree_key (snd m) t P D) as K. unfold monoE, factorsE.
    destruct (qeqb (fst m) 1); cbn [app].
    - destruct (snd m) as [|f [|g k]]; cbn [map].
      + reflexivity.
      + specialize (K 0). cbn [map fold_left] in K. cbn [kget fold_right] in *. lia.
      + specialize (K 0). cbn [map] in K. exact K.
    - specialize (K 0). destruct (snd m) as [|f k]; cbn [map]; [reflexivity|]. cbn [map] in K. exact K.
  Qed.
  Lemma degree_poly p t : posPoly p -> polyDeg p < intMax -> degree Y (polyE p) (symE t) = degIn t p.
  Proof.
    intros P D. assert (M : forall m, In m p -> degree Y (monoE m) (symE t) = kget (snd m) t /\ 0 <= kget (snd m) t).
    { intros m Hm. unfold posPoly in P. rewrite Forall_forall in P. pose proof (polyDeg_pdeg p) as Q. unfold pdeg in Q. rewrite Forall_forall in Q.
      specialize (Q m Hm). split; [apply degree_mono; [auto | lia] | apply kget_nonneg; auto]. }
    clear P D. destruct p as [|m [|m' p]].
    - reflexivity.
    - change (polyE [m]) with (monoE m). destruct (M m) as [-> N]; [now left|]. cbn [degIn fold_right]. lia.
    - assert (X : forall l a, (forall m, In m l -> degree Y (monoE m) (symE t) = kget (snd m) t /\ 0 <= kget (snd m) t) -> l <> [] -> a <= degIn t l \/ 0 <= a ->
        fold_left (fun a s => Z.max a (degree Y s (symE t))) (map monoE l) a = Z.max a (degIn t l)).
      { clear. induction l as [|n l IH]; intros a M N Ha; [congruence|]. cbn [map fold_left]. destruct (M n) as [-> Nn]; [now left|].
        cbn [degIn fold_right]. fold (degIn t l). pose proof (degIn_nonneg t l). destruct l as [|n' l].
        - cbn. lia.
        - rewrite IH; [lia | intros; apply M; now right | discriminate | right; lia]. }
      change (degree Y (polyE (m :: m' :: p)) (symE t)) with (fold_left (fun a s => Z.max a (degree Y s (symE t))) (map monoE (m :: m' :: p)) intMin).
      rewrite X; [|exact M | discriminate | left; pose proof (degIn_nonneg t (m :: m' :: p)); unfold intMin; lia].
      pose proof (degIn_nonneg t (m :: m' :: p)). unfold intMin. lia.
  Qed.

  (** Which symbols occur. *)
  Lemma has_fac f t : has (facE f) (symE t) = if sym_dec (fst f) t then true else false.
  Proof.
    destruct f as [s z]. unfold facE; cbn [fst snd].
    assert (S1 : has (symE s) (symE t) = if sym_dec s t then true else false).
    { change (has (symE s) (symE t)) with (isEqual (symE s) (symE t)). rewrite isEqual_symE.
      destruct (sym_dec s t) as [->|N]; [apply symEqb_refl | now apply symEqb_neq]. }
    destruct (z =? 1); [exact S1|]. change (has (symE s) (symE t) || false = if sym_dec s t then true else false). now rewrite orb_false_r.
  Qed.
  Lemma has_factors m t : posKey (snd m) -> existsb (fun x => has x (symE t)) (factorsE m) = negb (kget (snd m) t =? 0).
  Proof.
    intros P. unfold factorsE. rewrite existsb_app.
    assert (X : forall c, existsb (fun x => has x (symE t)) (if qeqb c 1 then [] else [Num c]) = false) by (intros c; destruct (qeqb c 1); reflexivity).
    rewrite X. cbn [orb]. induction P as [|f k Hf Hk IH]; [reflexivity|]. cbn [map existsb]. rewrite has_fac, IH, kget_cons. pose proof (kget_nonneg k t Hk).
    destruct (sym_dec (fst f) t); cbn [orb]; [|reflexivity]. symmetry. apply negb_true_iff, Z.eqb_neq. lia.
  Qed.
  Lemma has_mono m t : posKey (snd m) -> has (monoE m) (symE t) = negb (kget (snd m) t =? 0).
  Proof.
    intros P. rewrite <- has_factors by exact P. unfold monoE. destruct (factorsE m) as [|x [|y l]]; cbn [existsb]; [reflexivity | now rewrite orb_false_r|]. reflexivity.
  Qed.
  Lemma has_poly p t : posPoly p -> has (polyE p) (symE t) = negb (degIn t p =? 0).
  Proof.
    intros P. assert (X : existsb (fun x => has x (symE t)) (map monoE p) = negb (degIn t p =? 0)).
    { induction P as [|m p Hm Hp IH]; [reflexivity|]. cbn [map existsb degIn fold_right]. fold (degIn t p). rewrite IH, has_mono by exact Hm.
      pose proof (kget_nonneg _ t Hm). pose proof (degIn_nonneg t p).
      destruct (Z.eqb_spec (kget (snd m) t) 0), (Z.eqb_spec (degIn t p) 0), (Z.eqb_spec (Z.max (kget (snd m) t) (degIn t p)) 0); try reflexivity; lia. }
    rewrite <- X. unfold polyE. destruct (map monoE p) as [|x [|y l]]; cbn [existsb]; [reflexivity | now rewrite orb_false_r | reflexivity].
  Qed.

  (** isInputValid *)
  Lemma valid_fac f : 0 < snd f < intMax -> hasValidType Y (facE f) = true.
  Proof.
    destruct f as [s z]. cbn [fst snd]. intros Hz. unfold facE; cbn [fst snd]. destruct (z =? 1); [reflexivity|].
    cbn [hasValidType symE andb]. unfold validExp. cbn [numericEval]. unfold intMax in Hz.
    assert (A : qltb 0 (ofZ z) = true) by (unfold qltb; cbn; destruct z; try lia; reflexivity). rewrite A.
    unfold fitsInt, intMin, intMax. change (qnum (ofZ z)) with z. change (qIsInt (ofZ z)) with true. cbn [andb]. rewrite andb_true_r.
    apply andb_true_iff; split; apply Z.leb_le; lia.
  Qed.
  Lemma valid_poly p : posPoly p -> polyDeg p < intMax -> hasValidType Y (polyE p) = true.
  Proof.
    intros P D. assert (M : forall m, In m p -> hasValidType Y (monoE m) = true).
    { intros m Hm. unfold posPoly in P. rewrite Forall_forall in P. specialize (P m Hm). pose proof (polyDeg_pdeg p) as Q. unfold pdeg in Q. rewrite Forall_forall in Q. specialize (Q m Hm).
      assert (F : forall x, In x (factorsE m) -> hasValidType Y x = true).
      { intros x Hx. apply factorsE_in in Hx as [[-> _]|(f & Hf & ->)]; [reflexivity|]. apply valid_fac. pose proof (kdeg_in _ f Hf). unfold posKey in P. rewrite Forall_forall in P. specialize (P f Hf). lia. }
      unfold monoE. destruct (factorsE m) as [|x [|y l]]; [reflexivity | apply F; now left|]. cbn [hasValidType]. apply forallb_forall. exact F. }
    unfold polyE. assert (M' : forall x, In x (map monoE p) -> hasValidType Y x = true) by (intros x Hx; apply in_map_iff in Hx as (m & <- & Hm); auto).
    destruct (map monoE p) as [|x [|y l]]; [reflexivity | apply M'; now left|]. cbn [hasValidType]. apply forallb_forall. exact M'.
  Qed.
End Degree.

Lemma polyE_isZero p : polyOK p -> isZero (polyE p) = match p with [] => true | _ => false end.
Proof.
  intros O. destruct p as [|m [|m' p]]; [reflexivity | | reflexivity]. change (polyE [m]) with (monoE m). apply polyOK_one in O.
  destruct O as (C & N & K). unfold monoE, factorsE. destruct (qeqb (fst m) 1) eqn:E; cbn [app].
  - destruct (snd m) as [|f [|g k]]; cbn [map]; [reflexivity | | reflexivity]. unfold facE. destruct (snd f =? 1); reflexivity.
  - destruct (snd m); cbn [map]; [|reflexivity]. cbn [isZero]. now apply qeqb_neq.
Qed.

(** ** The coefficients *)
Section Coeff.
  Variables (Y : sys) (B : Z).
  Hypothesis Hlt : exactUpTo B (s_nlt Y).
  Notation W F k := (world Y F k).

  Lemma monomial_ev t i : ev (fun F k => monomial (W F k) (symE t) i = Ok (powE t i) []).
  Proof. apply (ev_ge 0 3). intros F k _ Hk. unfold monomial. now apply pow_sym. Qed.

  Lemma without_other t i l : (forall f, In f l -> f <> (t, i)) -> 1 <= i -> withoutFirst (facE (t, i)) (map facE l) = None.
  Proof.
    induction l as [|f l IH]; intros H Hi; [reflexivity|]. cbn [map withoutFirst]. rewrite isEqual_facE.
    destruct (fac_dec f (t, i)) as [E|_]; [exfalso; now apply (H f (or_introl eq_refl))|]. rewrite IH; [reflexivity | | exact Hi]. intros g Hg. apply H. now right.
  Qed.
  Lemma without_found t i k : keyOK k -> In (t, i) k -> withoutFirst (facE (t, i)) (map facE k) = Some (map facE (dropSym t k)).
  Proof.
    induction k as [|f k IH]; intros [S N] H; [destruct H|]. cbn [map withoutFirst dropSym filter]. rewrite isEqual_facE. fold (dropSym t k).
    inversion S as [|? ? S' F]; inversion N as [|? ? N1 N']; subst. destruct (fac_dec f (t, i)) as [->|D].
    - cbn [fst]. destruct (sym_dec t t); [|congruence]. unfold dropSym. rewrite filter_all; [reflexivity|]. intros g Hg. rewrite Forall_forall in F. specialize (F g Hg). cbn [fst] in F.
      destruct (sym_dec (fst g) t) as [E|]; [|reflexivity]. rewrite E in F. now apply symLt_irrefl in F.
    - destruct H as [->|H]; [congruence|]. rewrite IH by (auto; now split). destruct (sym_dec (fst f) t) as [E|]; [|reflexivity].
      exfalso. rewrite Forall_forall in F. specialize (F _ H). cbn [fst] in F. rewrite E in F. now apply symLt_irrefl in F.
  Qed.
  Lemma kget_in k t i : keyOK k -> In (t, i) k -> kget k t = i.
  Proof.
    induction k as [|f k IH]; intros [S N] H; [destruct H|]. inversion S as [|? ? S' F]; inversion N as [|? ? N1 N']; subst. rewrite kget_cons.
    destruct H as [->|H].
    - cbn [fst snd]. destruct (sym_dec t t); [|congruence]. rewrite kget_lt; [lia | exact F].
    - rewrite IH by (auto; now split). destruct (sym_dec (fst f) t) as [E|]; [|lia]. exfalso. rewrite Forall_forall in F. specialize (F _ H). cbn [fst] in F. rewrite E in F. now apply symLt_irrefl in F.
  Qed.
  Lemma kget_has k t : kget k t <> 0 -> keyOK k -> In (t, kget k t) k.
  Proof.
    intros N K. destruct (in_dec sym_dec t (map fst k)) as [I|I]; [|now rewrite kget_notin in N].
    apply in_map_iff in I as ([s z] & E & I). cbn [fst] in E. subst s. now rewrite (kget_in k t z K I).
  Qed.
  Lemma dropT_none t m : kget (snd m) t = 0 -> keyOK (snd m) -> dropT t m = m.
  Proof.
    intros Z0 K. destruct m as [c k]. unfold dropT; cbn [fst snd] in *. f_equal. apply filter_all. intros f Hf. destruct (sym_dec (fst f) t) as [E|]; [|reflexivity].
    exfalso. destruct f as [s z]. cbn [fst] in E. subst s. rewrite (kget_in k t z K Hf) in Z0. destruct K as [_ K]. rewrite Forall_forall in K. now apply (K _ Hf).
  Qed.

  Definition coefM (t : sym) (i : Z) (m : mono) : poly := if kget (snd m) t =? i then [dropT t m] else [].
  Lemma coeff_mono t i m : monoOK m -> posKey (snd m) -> 0 <= i -> ev (fun F k => coeff (W F k) (monoE m) (symE t) i = Ok (polyE (coefM t i m)) []).
  Proof.
    intros (C & N & K) P Hi. unfold coefM.
    assert (Num1 : forall c, ev (fun F k => coeff (W F k) (Num c) (symE t) i = Ok (if i =? 0 then Num c else zero) [])) by (intros c; now apply ev_all).
    assert (E0 : forall (b : bool) x, polyE (if b then [x] else []) = if b then monoE x else zero) by (intros [|] ?; reflexivity). rewrite E0. clear E0.
    destruct (monoE_cases m) as [[Em E]|[(x & X & E)|(Nm & E & L & _)]].
    - rewrite E. assert (Km : snd m = []) by exact Em.
      rewrite Km. cbn [kget fold_right]. rewrite (Z.eqb_sym 0 i). eapply ev_imp; [apply Num1|]. intros F k ->. destruct (i =? 0); [|reflexivity].
      rewrite dropT_none; [now rewrite E | now rewrite Km | exact K].
    - rewrite E. clear E Num1. rename x into f.
      + subst m. cbn [snd] in *. destruct f as [s z]. unfold posKey in P. inversion P as [|? ? Pz _]; subst. cbn [snd] in Pz.
        match goal with |- context [kget ?k t] => assert (KG : kget k t = if sym_dec s t then z else 0) by (cbn; destruct (sym_dec s t); lia) end. rewrite KG.
        match goal with |- context [dropT t ?k] => assert (DT : dropT t k = if sym_dec s t then (1%Q, []) else (1%Q, [(s, z)])) by (unfold dropT, dropSym; cbn; destruct (sym_dec s t); reflexivity) end. rewrite DT.
        unfold facE; cbn [fst snd]. destruct (Z.eqb_spec z 1) as [->|Nz].
        * apply ev_all. intros F k. change (coeff (W F k) (symE s) (symE t) i) with
            (if isEqual (symE s) (symE t) then coeffSelf i else ret (if negb (has (symE s) (symE t)) && (i =? 0) then symE s else zero)).
          change (has (symE s) (symE t)) with (isEqual (symE s) (symE t)). rewrite isEqual_symE.
          destruct (sym_dec s t) as [->|D].
          -- rewrite symEqb_refl. unfold coeffSelf. rewrite (Z.eqb_sym 1 i). destruct (i =? 1); reflexivity.
          -- rewrite (proj2 (symEqb_neq s t) D). cbn [negb andb]. rewrite (Z.eqb_sym 0 i). destruct (i =? 0); reflexivity.
        * eapply ev_imp; [apply (monomial_ev t i)|]. intros F k M.
          change (coeff (W F k) (Pow (symE s) (Num (ofZ z))) (symE t) i) with (coeffPower (W F k) (Pow (symE s) (Num (ofZ z))) (symE s) (symE t) i).
          unfold coeffPower. rewrite M, bind_ret. unfold powE.
          assert (F1 : Pow (symE s) (Num (ofZ z)) = facE (s, z)) by (unfold facE; cbn [fst snd]; now rewrite (proj2 (Z.eqb_neq z 1) Nz)).
          destruct (Z.eqb_spec i 0) as [->|Ni].
          -- change (isEqual (Pow (symE s) (Num (ofZ z))) one) with false. cbn [fst snd]. rewrite isEqual_symE. destruct (sym_dec s t) as [->|D].
             ++ rewrite symEqb_refl. cbn [negb]. rewrite (proj2 (Z.eqb_neq z 0)) by lia. reflexivity.
             ++ rewrite (proj2 (symEqb_neq s t) D). cbn [negb Z.eqb]. rewrite F1. reflexivity.
          -- rewrite F1, isEqual_facE, isEqual_symE. destruct (sym_dec s t) as [->|D].
             ++ rewrite symEqb_refl. cbn [negb]. destruct (fac_dec (t, z) (t, i)) as [Ef|Ef].
                ** injection Ef as ->. now rewrite Z.eqb_refl.
                ** rewrite (proj2 (Z.eqb_neq z i)) by congruence. reflexivity.
             ++ destruct (fac_dec (s, z) (t, i)) as [Ef|_]; [congruence|]. rewrite (proj2 (symEqb_neq s t) D). cbn [negb]. rewrite (Z.eqb_sym 0 i), (proj2 (Z.eqb_neq i 0) Ni). reflexivity.
    - pose proof (has_factors m t P) as Hh. rewrite E.
      assert (CE : forall F k, coeff (W F k) (Prod (factorsE m)) (symE t) i = if negb (negb (kget (snd m) t =? 0)) && (i =? 0) then ret (Prod (factorsE m)) else coeffFactorMatch (W F k) (factorsE m) (symE t) i).
      { intros F k. rewrite <- Hh. reflexivity. }
      destruct (Z.eqb_spec (kget (snd m) t) 0) as [Z0|Z0]; cbn [negb] in CE.
      + rewrite Z0. destruct (Z.eqb_spec i 0) as [->|Ni]; cbn [andb] in CE.
        * apply ev_all. intros F k. rewrite CE. cbn [Z.eqb]. rewrite dropT_none by assumption. now rewrite E.
        * eapply ev_imp; [apply (monomial_ev t i)|]. intros F k M. rewrite CE. unfold coeffFactorMatch. rewrite M, bind_ret. unfold powE.
          rewrite (proj2 (Z.eqb_neq i 0) Ni), (Z.eqb_sym 0 i), (proj2 (Z.eqb_neq i 0) Ni).
          assert (WO : withoutFirst (facE (t, i)) (map facE (snd m)) = None).
          { apply without_other; [|lia]. intros f Hf ->. apply (kget_in _ _ _ K) in Hf. lia. }
          unfold factorsE. destruct (qeqb (fst m) 1); cbn [app withoutFirst]; [now rewrite WO|].
          replace (isEqual (Num (fst m)) (facE (t, i))) with false by (unfold facE; destruct (_ =? 1); reflexivity). now rewrite WO.
      + cbn [andb] in CE. destruct (Z.eqb_spec (kget (snd m) t) i) as [Ei|Ei].
        * subst i. pose proof (kget_has _ t Z0 K) as I. set (i := kget (snd m) t) in *.
          assert (WO := without_found t i (snd m) K I).
          assert (FD : withoutFirst (facE (t, i)) (factorsE m) = Some (factorsE (dropT t m))).
          { unfold factorsE, dropT; cbn [fst snd]. destruct (qeqb (fst m) 1); cbn [app withoutFirst]; [exact WO|].
            replace (isEqual (Num (fst m)) (facE (t, i))) with false by (unfold facE; destruct (_ =? 1); reflexivity). now rewrite WO. }
          eapply ev_mp; [apply (monomial_ev t i)|]. eapply ev_imp; [apply (prod_factors Y (dropT t m) (factorsE (dropT t m)))|].
          -- apply dropT_OK. split; auto.
          -- intros A. unfold factorsE in A. apply app_eq_nil in A as [A1 A2]. cbn [dropT fst snd] in *. apply map_eq_nil in A2.
             destruct (qeqb (fst m) 1) eqn:Ec; [|discriminate].
             assert (LF : length (factorsE m) = length (snd m)) by (unfold factorsE; rewrite Ec; apply map_length).
             assert (LK : (length (snd m) <= 1)%nat).
             { destruct K as [S _]. clear -S A2. destruct (snd m) as [|f [|g k]]; cbn; try lia. exfalso. inversion S as [|? ? S' F]; subst. inversion F as [|? ? L _]; subst.
               cbn [dropSym filter] in A2. destruct (sym_dec (fst f) t) as [E1|]; [|discriminate]. destruct (sym_dec (fst g) t) as [E2|]; [|discriminate]. rewrite E1, E2 in L. now apply symLt_irrefl in L. }
             lia.
          -- reflexivity.
          -- intros F k PF M. rewrite CE. unfold coeffFactorMatch. rewrite M, bind_ret. unfold powE. rewrite (proj2 (Z.eqb_neq i 0)) by exact Z0. rewrite FD. exact PF.
        * eapply ev_imp; [apply (monomial_ev t i)|]. intros F k M. rewrite CE. unfold coeffFactorMatch. rewrite M, bind_ret. unfold powE.
          destruct (Z.eqb_spec i 0) as [->|Ni].
          -- assert (WO : withoutFirst one (factorsE m) = None).
             { assert (A : forall x, In x (factorsE m) -> isEqual x one = false).
               { intros x Hx. apply factorsE_in in Hx as [[-> Nc]|(f & Hf & ->)]; [cbn; now apply qeqb_neq|]. unfold facE. destruct (_ =? 1); reflexivity. }
               revert A. clear. induction (factorsE m) as [|x l IHl]; intros A; [reflexivity|]. cbn [withoutFirst]. rewrite A by now left. rewrite IHl; [reflexivity|]. intros y Hy. apply A. now right. }
             now rewrite WO.
          -- assert (WO : withoutFirst (facE (t, i)) (map facE (snd m)) = None).
             { apply without_other; [|lia]. intros f Hf ->. apply (kget_in _ _ _ K) in Hf. lia. }
             unfold factorsE. destruct (qeqb (fst m) 1); cbn [app withoutFirst]; [now rewrite WO|].
             replace (isEqual (Num (fst m)) (facE (t, i))) with false by (unfold facE; destruct (_ =? 1); reflexivity). now rewrite WO.
  Qed.

  Lemma coefM_OK t i m : monoOK m -> polyOK (coefM t i m).
  Proof. intros O. unfold coefM. destruct (_ =? _); [now apply mono_polyOK, dropT_OK | apply polyOK_nil]. Qed.
  Lemma coefL_cons t i m p : coefL t i (m :: p) = coefM t i m ++ coefL t i p.
  Proof. unfold coefL, coefM, atDeg. cbn [filter]. destruct (_ =? _); reflexivity. Qed.
  Definition isCoef (t : sym) (i : Z) (p s : poly) : Prop :=
    polyOK s /\ (forall r, polyV r s = coefV t i r p) /\ incl (map snd s) (map snd (coefL t i p)).

  Lemma coeff_fold t i p : 0 <= i -> Forall monoOK p -> posPoly p -> pdeg B p -> forall s0 (a : nat -> nat -> res expr), polyOK s0 -> pdeg B s0 -> ev (fun F k => a F k = Ok (polyE s0) []) ->
    exists s, polyOK s /\ (forall r, polyV r s = polyV r s0 + coefV t i r p)%R /\ incl (map snd s) (map snd s0 ++ map snd (coefL t i p)) /\
      ev (fun F k => fold_left (fun a s => c <- a ;; d <- coeff (W F k) s (symE t) i ;; w_sum (W F k) [c; d]) (map monoE p) (a F k) = Ok (polyE s) []).
  Proof.
    intros Hi. induction p as [|m p IH]; intros O P D s0 a O0 D0 E.
    - exists s0. split; [exact O0|]. split; [intros r; cbn; ring|]. split; [intros x Hx; apply in_or_app; now left | exact E].
    - apply Forall_cons_iff in O as [Om Op]. unfold posPoly in P. apply Forall_cons_iff in P as [Pm Pp]. unfold pdeg in D. apply Forall_cons_iff in D as [Dm Dp].
      assert (DM : pdeg B (coefM t i m)).
      { unfold coefM. destruct (_ =? _); [|constructor]. constructor; [|constructor]. pose proof (dropSym_kdeg t _ Pm). pose proof (kget_nonneg _ t Pm). cbn [dropT snd]. lia. }
      destruct (sum_ev Y B Hlt [s0; coefM t i m]) as (s1 & (O1 & V1 & I1 & _) & E1); [discriminate | auto using coefM_OK | auto|].
      cbn [concat] in I1. rewrite app_nil_r in I1.
      assert (D1 : pdeg B s1).
      { apply pdeg_incl with (1 := I1). intros k Hk. rewrite map_app in Hk. apply in_app_or in Hk as [Hk|Hk]; apply in_map_iff in Hk as (n & <- & Hn).
        - unfold pdeg in D0. rewrite Forall_forall in D0. now apply D0.
        - unfold pdeg in DM. rewrite Forall_forall in DM. now apply DM. }
      destruct (IH Op Pp Dp s1 (fun F k => c <- a F k ;; d <- coeff (W F k) (monoE m) (symE t) i ;; w_sum (W F k) [c; d]) O1 D1) as (s & Os & Vs & Is & Es).
      { eapply ev_mp; [exact E|]. eapply ev_mp; [apply (coeff_mono t i m Om Pm Hi)|]. eapply ev_imp; [exact E1|].
        intros F k E1' EM EA. rewrite EA, bind_ret, EM, bind_ret. exact E1'. }
      exists s. split; [exact Os|]. split; [|split; [|exact Es]].
      + intros r. rewrite Vs, V1. rewrite <- !(coefL_V t i r), coefL_cons, (polyV_app r). unfold polysV; cbn [fold_right]. ring.
      + intros k Hk. apply Is in Hk. rewrite coefL_cons, map_app. apply in_app_or in Hk as [Hk|Hk]; [|apply in_or_app; right; apply in_or_app; now right].
        apply I1 in Hk. rewrite map_app in Hk. apply in_app_or in Hk as [Hk|Hk]; apply in_or_app; [now left|right; apply in_or_app; now left].
  Qed.

  Lemma coeff_poly t i p : polyOK p -> posPoly p -> 0 <= i -> polyDeg p <= B ->
    exists s, isCoef t i p s /\ ev (fun F k => coeff (W F k) (polyE p) (symE t) i = Ok (polyE s) []).
  Proof.
    intros O P Hi D. destruct (polyE_cases p) as [[-> E]|[(m & -> & E)|[L E]]].
    - exists []. split; [split; [apply polyOK_nil | split; [reflexivity | intros x []]]|]. apply ev_all. intros F k. change (ret (if i =? 0 then zero else zero) = Ok zero []). now destruct (i =? 0).
    - exists (coefM t i m). apply polyOK_one in O. unfold posPoly in P. apply Forall_inv in P. split.
      + split; [now apply coefM_OK|]. rewrite coefL_cons. cbn [coefL atDeg filter map]. rewrite app_nil_r. split; [|apply incl_refl].
        intros r. rewrite <- (coefL_V t i r), coefL_cons. cbn [coefL atDeg filter map]. now rewrite app_nil_r.
      + rewrite E. now apply coeff_mono.
    - assert (HE : forall F k, coeff (W F k) (polyE p) (symE t) i =
        if negb (has (polyE p) (symE t)) && (i =? 0) then ret (polyE p) else fold_left (fun a s => c <- a ;; d <- coeff (W F k) s (symE t) i ;; w_sum (W F k) [c; d]) (map monoE p) (ret zero)).
      { intros F k. rewrite E. reflexivity. }
      rewrite has_poly in HE by exact P. rewrite negb_involutive in HE. destruct ((degIn t p =? 0) && (i =? 0)) eqn:Z0.
      + apply andb_true_iff in Z0 as [Z1 Z2]. apply Z.eqb_eq in Z1, Z2. subst i. exists p.
        assert (EL : coefL t 0 p = p).
        { assert (G : forall m, In m p -> kget (snd m) t = 0 /\ keyOK (snd m)).
          { intros m Hm. pose proof (degIn_ge t p m Hm). unfold posPoly in P. destruct O as [O _]. rewrite Forall_forall in P, O. pose proof (kget_nonneg _ t (P m Hm)). split; [lia | apply O; exact Hm]. }
          clear -G. induction p as [|m p IH]; [reflexivity|]. rewrite coefL_cons, IH by (intros; apply G; now right). destruct (G m) as [G1 G2]; [now left|]. unfold coefM. rewrite G1.
          cbn [Z.eqb app]. now rewrite dropT_none. }
        split; [|apply ev_all; intros F k; apply HE]. split; [exact O|]. split; [intros r; rewrite <- coefL_V; now rewrite EL | rewrite EL; apply incl_refl].
      + destruct (coeff_fold t i p Hi (proj1 O) P) with (s0 := @nil mono) (a := fun (_ _ : nat) => ret zero) as (s & Os & Vs & Is & Es); [now apply pdeg_le with (2 := polyDeg_pdeg p) | apply polyOK_nil | constructor | now apply ev_all|].
        exists s. split; [split; [exact Os | split; [|exact Is]]|].
        * intros r. rewrite Vs. change (polyV r []) with 0%R. ring.
        * eapply ev_imp; [exact Es|]. intros F k Ek. rewrite HE. exact Ek.
  Qed.

  (** What the coefficient is like. *)
  Lemma isCoef_pos t i p s : isCoef t i p s -> posPoly p -> posPoly s.
  Proof.
    intros (_ & _ & I) P. pose proof (coefL_pos t i p P) as Q. unfold posPoly in *. rewrite Forall_forall in *. intros m Hm. apply (in_map snd) in Hm. apply I in Hm. apply in_map_iff in Hm as (n & <- & Hn). now apply Q.
  Qed.
  Lemma isCoef_deg t i p s : isCoef t i p s -> posPoly p -> s <> [] -> polyDeg s + i <= polyDeg p.
  Proof.
    intros (O & _ & I) P N. pose proof (coefL_deg t i p P) as Q.
    assert (Q' : pdeg (polyDeg p - i) s) by (apply pdeg_incl with (1 := I); intros k Hk; apply in_map_iff in Hk as (n & <- & Hn); unfold pdeg in Q; rewrite Forall_forall in Q; now apply Q).
    assert (0 <= polyDeg p - i) by (destruct s as [|m s]; [congruence|]; unfold pdeg in Q'; apply Forall_inv in Q'; pose proof (kdeg_nonneg (snd m)); lia).
    pose proof (pdeg_polyDeg _ s H Q'). lia.
  Qed.
  Lemma isCoef_free t i p s : isCoef t i p s -> degIn t s = 0.
  Proof.
    intros (_ & _ & I). apply Z.le_antisymm; [|apply degIn_nonneg]. apply degIn_le; [lia|]. intros m Hm. apply (in_map snd) in Hm. apply I in Hm.
    apply in_map_iff in Hm as (n & <- & Hn). apply in_map_iff in Hn as (n' & <- & _). cbn [dropT snd]. rewrite dropSym_kget_same. lia.
  Qed.
  Lemma isCoef_degIn t i p s u : isCoef t i p s -> degIn u s <= degIn u p.
  Proof.
    intros (_ & _ & I). apply degIn_le; [apply degIn_nonneg|]. intros m Hm. apply (in_map snd) in Hm. apply I in Hm.
    apply in_map_iff in Hm as (n & <- & Hn). apply in_map_iff in Hn as (n' & <- & Hn'). apply filter_In in Hn' as [Hn' _]. cbn [dropT snd].
    destruct (sym_dec u t) as [->|N]; [rewrite dropSym_kget_same; apply degIn_nonneg | rewrite dropSym_kget by exact N; now apply degIn_ge].
  Qed.
  Lemma isCoef_lead t p s : isCoef t (degIn t p) p s -> polyOK p -> posPoly p -> p <> [] -> s <> [].
  Proof.
    intros (_ & V & _) O P N ->. destruct (degIn_attained t p P N) as (m & Hm & Em). destruct (coef_nonzero t (degIn t p) p m O Hm Em) as (r & Hr & C). apply C. now rewrite <- V.
  Qed.
End Coeff.
