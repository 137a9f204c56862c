(** Executions that rely on harmless facts only; values of results; powers of numbers. *)
From Verif Require Import LaurentSpec LaurentOrder LaurentProd LaurentIdent LaurentSum LaurentExpand LaurentMain LaurentApi RingProd RingSum RingPos RingSpec RingTerm FuelMono FuelApi SimplApi ApiSpec ApiModel ExprProofs NumInt NumberProofs NumPowerProofs ShapeProd World RPow RunSpec NumberSpec PolyModel.
From Coq Require Import Lia Lra Bool Permutation.
From Verif Require Import Run LaurentSpec.
Open Scope Z_scope.

(** Facts that are true for all values of the symbols. *)
Definition harmless (c : cond) : Prop := forall r, holds false r c.
Lemma isEven_harmless c : isEven c -> harmless c.
Proof. intros (e & ->) r A. discriminate A. Qed.
Lemma harmless_right l r : Forall harmless l -> posEnv r -> rightFacts r l.
Proof. intros H Hr. exists false. eapply Forall_impl; [|exact H]. intros c Hc. apply Hc. Qed.
Lemma allPos_posEnv r : allPos r -> posEnv r.
Proof. intros H n. apply H. Qed.

Section Runs.
  Variable Y : sys.
  Definition hruns {A} (f : oper -> nat -> res A) (P : A -> Prop) : Prop :=
    exists a, P a /\ ev (fun F k => exists l, f (world Y F k) F = Ok a l /\ Forall harmless l).
  Lemma runs_h {A} (f : oper -> nat -> res A) P : runs Y f P -> hruns f P.
  Proof. intros (a & Pa & E). exists a. split; [exact Pa|]. eapply ev_imp; [exact E|]. intros F k (l & El & Hl). exists l. split; [exact El|]. eapply Forall_impl; [|exact Hl]. apply isEven_harmless. Qed.
  Lemma h_ret {A} (a : A) (P : A -> Prop) : P a -> hruns (fun _ _ => ret a) P.
  Proof. intros H. now apply runs_h, runs_ret. Qed.
  Lemma h_eq {A} (f : oper -> nat -> res A) a : ev (fun F k => f (world Y F k) F = Ok a []) -> hruns f (fun x => x = a).
  Proof. intros E. exists a. split; [reflexivity|]. eapply ev_imp; [exact E|]. intros F k H. exists []. auto. Qed.
  Lemma h_bind {A B} (f : oper -> nat -> res A) (g : oper -> nat -> A -> res B) P Q :
    hruns f P -> (forall a, P a -> hruns (fun W n => g W n a) Q) -> hruns (fun W n => bind (f W n) (g W n)) Q.
  Proof.
    intros (a & Pa & Ea) H. destruct (H a Pa) as (b & Qb & Eb). exists b. split; [exact Qb|].
    eapply ev_mp; [exact Ea|]. eapply ev_imp; [exact Eb|]. intros F k (l' & E' & Hl') (l & E & Hl).
    exists (l ++ l'). rewrite E. cbn [bind]. rewrite E'. split; [reflexivity | now apply Forall_app].
  Qed.
  Lemma h_imp {A} (f : oper -> nat -> res A) (P Q : A -> Prop) : hruns f P -> (forall a, P a -> Q a) -> hruns f Q.
  Proof. intros (a & Pa & E) H. exists a. auto. Qed.
  Lemma h_ext {A} (f g : oper -> nat -> res A) P : (forall W n, f W n = g W n) -> hruns f P -> hruns g P.
  Proof. intros H (a & Pa & E). exists a. split; [exact Pa|]. eapply ev_imp; [exact E|]. intros F k (l & El & Hl). exists l. rewrite <- H. auto. Qed.
  Lemma h_step {A} (f g : oper -> nat -> res A) P : (forall F k, f (world Y F (S k)) F = g (world Y F k) F) -> hruns g P -> hruns f P.
  Proof. intros H (a & Pa & E). exists a. split; [exact Pa|]. apply ev_S. eapply ev_imp; [exact E|]. intros F k (l & El & Hl). exists l. rewrite H. auto. Qed.
  (** What holds of all results. *)
  Lemma h_also {A} (f : oper -> nat -> res A) (P Q : A -> Prop) : hruns f P ->
    (forall F k a l, f (world Y F k) F = Ok a l -> Forall harmless l -> P a -> Q a) -> hruns f (fun a => P a /\ Q a).
  Proof.
    intros (a & Pa & E) H. exists a. split; [|exact E]. split; [exact Pa|]. destruct (ev_ex _ E) as (F & k & l & El & Hl). eapply H; eauto.
  Qed.

  (** Loops with a bound of their own. *)
  Definition lruns {A} (f : oper -> nat -> nat -> res A) (P : A -> Prop) : Prop :=
    exists a j0, P a /\ ev (fun F k => forall j, (j0 <= j)%nat -> exists l, f (world Y F k) F j = Ok a l /\ Forall harmless l).
  Lemma l_of {A} (f : oper -> nat -> nat -> res A) P : lruns f P -> hruns (fun W n => f W n n) P.
  Proof. intros (a & j0 & Pa & F0 & k0 & E). exists a. split; [exact Pa|]. exists (Nat.max F0 j0), k0. intros F k HF Hk. apply E; lia. Qed.
  Lemma l_const {A} (f : oper -> nat -> res A) P : hruns f P -> lruns (fun W n _ => f W n) P.
  Proof. intros (a & Pa & E). exists a, 0%nat. split; [exact Pa|]. eapply ev_imp; [exact E|]. auto. Qed.
  Lemma l_bind {A B} (f : oper -> nat -> res A) (g : oper -> nat -> nat -> A -> res B) P Q :
    hruns f P -> (forall a, P a -> lruns (fun W n j => g W n j a) Q) -> lruns (fun W n j => bind (f W n) (g W n j)) Q.
  Proof.
    intros (a & Pa & Ea) H. destruct (H a Pa) as (b & j0 & Qb & Eb). exists b, j0. split; [exact Qb|].
    eapply ev_mp; [exact Ea|]. eapply ev_imp; [exact Eb|]. intros F k H' (l & E & Hl) j Hj. destruct (H' j Hj) as (l' & E' & Hl').
    exists (l ++ l'). rewrite E. cbn [bind]. rewrite E'. split; [reflexivity | now apply Forall_app].
  Qed.
  Lemma l_S {A} (f g : oper -> nat -> nat -> res A) P : (forall W n j, f W n (S j) = g W n j) -> lruns g P -> lruns f P.
  Proof.
    intros H (a & j0 & Pa & E). exists a, (S j0). split; [exact Pa|]. eapply ev_imp; [exact E|]. intros F k K [|j] Hj; [lia|]. rewrite H. apply K. lia.
  Qed.
  Lemma l_ext {A} (f g : oper -> nat -> nat -> res A) P : (forall W n j, f W n j = g W n j) -> lruns f P -> lruns g P.
  Proof. intros H (a & j0 & Pa & E). exists a, j0. split; [exact Pa|]. eapply ev_imp; [exact E|]. intros F k K j Hj. rewrite <- H. auto. Qed.
  Lemma l_imp {A} (f : oper -> nat -> nat -> res A) (P Q : A -> Prop) : lruns f P -> (forall a, P a -> Q a) -> lruns f Q.
  Proof. intros (a & j0 & Pa & E) H. exists a, j0. auto. Qed.
End Runs.

(** ** Powers of numbers *)
Section NumPow.
  Variable Y : sys.
  Notation W F k := (world Y F k).

  Lemma numE q : canon q -> q <> 0%Q -> monoE (q, []) = Num q /\ monoOK (q, []).
  Proof.
    intros C N. unfold monoE, factorsE; cbn [fst snd map app]. split; [|split; [exact C | split; [exact N | apply keyOK_nil]]].
    destruct (qeqb q 1) eqn:E; [apply qeqb_eq in E as ->|]; reflexivity.
  Qed.
  Lemma num_prod a b c : canon a -> canon b -> canon c -> Q2R a <> 0%R -> Q2R b <> 0%R -> (Q2R c = Q2R a * Q2R b)%R ->
    ev (fun F k => w_prod (W F k) [Num a; Num b] = Ok (Num c) []).
  Proof.
    intros Ca Cb Cc Na Nb E. assert (NZ : forall q, Q2R q <> 0%R -> q <> 0%Q) by (intros q H ->; apply H, Q2R_0).
    assert (Nc : Q2R c <> 0%R) by (rewrite E; now apply Rmult_integral_contrapositive).
    destruct (numE a Ca (NZ a Na)) as [Ea Oa], (numE b Cb (NZ b Nb)) as [Eb Ob], (numE c Cc (NZ c Nc)) as [Ec Oc].
    eapply ev_imp; [apply (prod_is Y [(a, []); (b, [])] (c, []))|].
    - discriminate.
    - exact (Forall_cons _ Oa (Forall_cons _ Ob (Forall_nil _))).
    - exact Oc.
    - intros r _. unfold monosV, monoV, keyV; cbn [fst snd fold_right]. rewrite E. ring.
    - cbn [map]. rewrite Ea, Eb, Ec. auto.
  Qed.

  Lemma payVal_int b z : Q2R b <> 0%R -> payVal (mkPay b (ofZ z) 1) = Some (powerRZ (Q2R b) z).
  Proof. intros N. unfold payVal; cbn [pBase pExp pPre]. rewrite Q2R_ofZ, rpow_int by exact N. f_equal. rewrite Q2R_1. ring. Qed.
  Definition shapeOf (p' : payload) (q : Q) : Prop :=
    pExp p' = 1%Q /\ pPre p' = 1%Q /\ pBase p' = q \/ pExp p' = 0%Q /\ pPre p' = q /\ (0 < Q2R (pBase p'))%R.
  Lemma shape_val p' q : Q2R q <> 0%R -> shapeOf p' q -> payVal p' = Some (Q2R q).
  Proof.
    intros N S. unfold payVal. destruct S as [(E & P & B)|(E & P & B)]; rewrite E, P.
    - rewrite B. change 1%Q with (ofZ 1). rewrite Q2R_ofZ. rewrite rpow_int by exact N. f_equal. rewrite powerRZ_1. ring.
    - change 0%Q with (ofZ 0). rewrite Q2R_ofZ. rewrite rpow_int by lra. f_equal. cbn [powerRZ]. ring.
  Qed.
  Lemma fact_right b z p' q : Q2R b <> 0%R -> payCanon p' -> (Q2R q = powerRZ (Q2R b) z)%R -> shapeOf p' q -> harmless (CNumPow (mkPay b (ofZ z) 1) p').
  Proof.
    intros N C V S r. cbn [holds]. split; [|exact C]. rewrite payVal_int by exact N. cbn [ole]. rewrite <- V. apply shape_val; [|exact S].
    rewrite V. now apply powerRZ_NOR.
  Qed.
  Lemma num_pow b z : canon b -> Q2R b <> 0%R -> z <> 0 -> exists q, canon q /\ Q2R q <> 0%R /\ (Z.abs (qnum b) < 324 -> qden b < 324 -> Q2R q = powerRZ (Q2R b) z) /\
    ev (fun F k => exists l, w_pow (W F k) (Num b) (Num (ofZ z)) = Ok (Num q) l /\ (Q2R q = powerRZ (Q2R b) z -> Forall harmless l)).
  Proof.
    intros Cb Nb Hz. assert (NZ : forall q, Q2R q <> 0%R -> qeqb q 0 = false) by (intros q H; apply qeqb_neq; intros ->; apply H, Q2R_0).
    assert (Z0 : qeqb (ofZ z) 0 = false) by (apply qeqb_neq; intros E; apply (f_equal Qnum) in E; cbn in E; lia).
    assert (PC : forall W, powCreate W (Num b) (Num (ofZ z)) = if qeqb b 1 then ret one else if qeqb (ofZ z) 1 then ret (Num b) else
      '(b', x') <- w_spow W (Num b) (Num (ofZ z)) ;; ret (if isOne x' then b' else if isOne b' then one else Pow b' x')).
    { intros V. unfold powCreate. cbn [isUndefined orb isZero isOne]. rewrite Z0, (NZ b Nb). reflexivity. }
    assert (X : forall c, canon c -> Q2R c <> 0%R -> Q2R c = powerRZ (Q2R b) z -> (forall W, powCreate W (Num b) (Num (ofZ z)) = ret (Num c)) -> exists q, canon q /\ Q2R q <> 0%R /\ (Z.abs (qnum b) < 324 -> qden b < 324 -> Q2R q = powerRZ (Q2R b) z) /\
      ev (fun F k => exists l, w_pow (W F k) (Num b) (Num (ofZ z)) = Ok (Num q) l /\ (Q2R q = powerRZ (Q2R b) z -> Forall harmless l))).
    { intros c Cc Nc Vc H. exists c. split; [exact Cc|]. split; [exact Nc|]. split; [intros; exact Vc|]. apply ev_S, ev_all. intros F k. exists []. split; [|constructor]. cbn [world step w_pow]. now rewrite H. }
    destruct (qeqb b 1) eqn:B1; [apply (X 1%Q); [reflexivity | rewrite Q2R_1; lra | apply qeqb_eq in B1 as ->; rewrite Q2R_1; symmetry; apply powerRZ_R1 | exact PC]|].
    destruct (qeqb (ofZ z) 1) eqn:Z1; [apply (X b); [exact Cb | exact Nb | apply qeqb_eq, (f_equal Qnum) in Z1; cbn in Z1; subst z; now rewrite powerRZ_1 | exact PC]|]. clear X.
    destruct (numPower_int (s_fl Y) (s_limit Y) b z Cb Nb Hz) as (p' & Ep & S). assert (PCan : payCanon p').
    { apply numPowerSimpl_canon in Ep; [exact Ep|]. split; [exact Cb|]. split; [apply canon_ofZ | reflexivity]. }
    destruct (run_complex Y (Num b) z (rg_num b Cb)) as (c & -> & Ec).
    assert (SP : forall F k, simplifyPower Y (W F k) (Num b) (Num (ofZ z)) = c <- doesInvolveComplexNumbers Y (W F k) (Num b) (Num (ofZ z)) ;;
      if (c : bool) then ret (Undef, one) else _ <- rely (CNumPow (mkPay b (ofZ z) 1) p') ;;
        if qeqb (pPre p') 1 then ret (Num (pBase p'), Num (pExp p')) else r <- w_pow (W F k) (Num (pBase p')) (Num (pExp p')) ;; t <- w_prod (W F k) [Num (pPre p'); r] ;; ret (t, one)).
    { intros F k. unfold simplifyPower, simplifyNumericPower, runNumPow. rewrite Ep. destruct (doesInvolveComplexNumbers _ _ _ _) as [[]| | |]; reflexivity. }
    assert (SM : forall q, Q2R q <> 0%R -> shapeOf p' q -> Z.abs (qnum b) < 324 -> qden b < 324 -> Q2R q = powerRZ (Q2R b) z).
    { intros q Nq Sq H1 H2. destruct (numPower_small _ _ _ _ _ Cb Nb Hz H1 H2 Ep) as [V _]. rewrite (shape_val p' q Nq Sq), payVal_int in V by exact Nb. congruence. }
    destruct S as [(E & P & B)|(E & B & P & R1)].
    - exists (pBase p'). split; [apply PCan|]. split; [exact B|]. split; [apply SM; [exact B | left; auto]|]. do 2 apply ev_S. eapply ev_imp; [exact Ec|]. intros F k (l & El & Hl).
      change (w_pow (W F (S (S k))) (Num b) (Num (ofZ z))) with (powCreate (W F (S k)) (Num b) (Num (ofZ z))). rewrite PC.
        change (w_spow (W F (S k)) (Num b) (Num (ofZ z))) with (simplifyPower Y (W F k) (Num b) (Num (ofZ z))). rewrite SP, El.
      rewrite P, E. change (qeqb 1 1) with true. cbn [bind rely ret isOne app]. change (qeqb 1 1) with true. cbn [app]. eexists. split; [reflexivity|].
      intros V. rewrite !Forall_app. split; [|constructor]. split; [eapply Forall_impl; [|exact Hl]; apply isEven_harmless|]. constructor; [|constructor].
      apply fact_right with (pBase p'); auto. left; auto.
    - exists (pPre p'). split; [apply PCan|]. split; [exact P|]. split; [apply SM; [exact P | right; auto]|]. destruct (qeqb (pPre p') 1) eqn:P1.
      + apply qeqb_eq in P1. assert (B1' : pBase p' = 1%Q). { apply Q2R_inj; [apply PCan | reflexivity|]. rewrite Q2R_1. apply R1. rewrite P1, Q2R_1. apply Rabs_R1. }
        do 2 apply ev_S. eapply ev_imp; [exact Ec|]. intros F k (l & El & Hl).
        change (w_pow (W F (S (S k))) (Num b) (Num (ofZ z))) with (powCreate (W F (S k)) (Num b) (Num (ofZ z))). rewrite PC.
        change (w_spow (W F (S k)) (Num b) (Num (ofZ z))) with (simplifyPower Y (W F k) (Num b) (Num (ofZ z))). rewrite SP, El.
        rewrite B1', E, P1. cbn [bind rely ret isOne app]. change (qeqb 0 1) with false. change (qeqb 1 1) with true. cbn [app]. eexists. split; [reflexivity|].
        intros V. rewrite !Forall_app. split; [|constructor]. split; [eapply Forall_impl; [|exact Hl]; apply isEven_harmless|]. constructor; [|constructor].
        apply fact_right with (pPre p'); auto; [|right; auto]. rewrite P1. exact V.
      + do 2 apply ev_S. eapply ev_mp; [exact Ec|]. eapply ev_mp; [apply (num_prod (pPre p') 1 (pPre p')); [apply PCan | reflexivity | apply PCan | exact P | rewrite Q2R_1; lra | rewrite Q2R_1; ring]|].
        apply ev_S, ev_all. intros F k EP (l & El & Hl).
        change (w_pow (W F (S (S (S k)))) (Num b) (Num (ofZ z))) with (powCreate (W F (S (S k))) (Num b) (Num (ofZ z))). rewrite PC.
        change (w_spow (W F (S (S k))) (Num b) (Num (ofZ z))) with (simplifyPower Y (W F (S k)) (Num b) (Num (ofZ z))). rewrite SP, El.
        rewrite E. assert (PW : w_pow (W F (S k)) (Num (pBase p')) (Num 0) = Ok one []) by reflexivity. change (w_prod (W F (S k)) [Num (pPre p'); one] = Ok (Num (pPre p')) []) in EP. cbn [bind rely ret app]. rewrite PW. cbn [bind]. rewrite EP. cbn [ret bind isOne app].
        change (isOne one) with true. eexists. split; [reflexivity|].
        intros V. rewrite !Forall_app. split; [|constructor]. split; [eapply Forall_impl; [|exact Hl]; apply isEven_harmless|]. constructor; [|constructor].
        apply fact_right with (pPre p'); auto. right; auto.
  Qed.
End NumPow.
