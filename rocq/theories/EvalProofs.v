(** The error of numeric evaluation. *)
From Verif Require Import DoubleModel DoubleExact MixedModel MixedSpec DoubleOps FractionProofs MixedProofs MixedBounds MixedPow NumberProofs NumberSpec MixedAmple ExprProofs RunFacts EvalConst EvalSpec EvalPow.
Require Import Flocq.Core.Core Flocq.IEEE754.BinarySingleNaN.
From Coq Require Import List Lia Lra Reals Qreals MVT.
Import ListNotations.
Open Scope R_scope.

Lemma lipschitz f f' : (forall c, derivable_pt_lim f c (f' c)) -> (forall c, Rabs (f' c) <= 1) -> forall a b, Rabs (f b - f a) <= Rabs (b - a).
Proof.
  intros D B a b. destruct (MVT_abs f f' a b) as (c & E & _); [intros; apply D|]. rewrite E. rewrite <- (Rmult_1_l (Rabs (b - a))) at 2.
  apply Rmult_le_compat_r; [apply Rabs_pos|apply B].
Qed.
Lemma fct_lipschitz f : In f [FSin; FCos; FAtan] -> forall a b, Rabs (fctR f b - fctR f a) <= Rabs (b - a).
Proof.
  intros [<-|[<-|[<-|[]]]]; cbn [fctR].
  - apply (lipschitz sin cos); [apply derivable_pt_lim_sin|]. intros c. apply Rabs_le. apply COS_bound.
  - apply (lipschitz cos (fun x => - sin x)); [apply derivable_pt_lim_cos|]. intros c. rewrite Rabs_Ropp. apply Rabs_le. apply SIN_bound.
  - apply (lipschitz atan (fun x => / (1 + x ^ 2))).
    + intros c. exact (derivable_pt_lim_atan c).
    + intros c. assert (0 <= c ^ 2) by (replace (c ^ 2) with (Rsqr c) by (unfold Rsqr; ring); apply Rle_0_sqr). rewrite Rabs_pos_eq.
      * rewrite <- Rinv_1. apply Rinv_le; lra.
      * left. apply Rinv_0_lt_compat. lra.
Qed.
Lemma fct_bound f x : In f [FSin; FCos; FAtan] -> Rabs (fctR f x) <= 2.
Proof.
  intros [<-|[<-|[<-|[]]]]; cbn [fctR]; apply Rabs_le.
  - pose proof (SIN_bound x). lra.
  - pose proof (COS_bound x). lra.
  - pose proof (atan_bound x). pose proof PI_4. lra.
Qed.
Lemma fct_value f x : In f [FSin; FCos; FAtan] -> fct1 f x = Some (fctR f x).
Proof. intros [<-|[<-|[<-|[]]]]; reflexivity. Qed.

Notation qq := (1 + 32 * u).
Lemma qq_grow n : 1 <= qq ^ n.
Proof. apply pow_R1_Rle. lra. Qed.

Section Run.
  Variables (lib : library) (limit : Z) (r : env).
  Hypothesis Hlib : accurate lib.
  Notation Y := (doubleSys lib limit).
  Notation run := (numericEval Y).
  (** What is known of the evaluation of [e]. *)
  Definition good (e : expr) : Prop :=
    exists n v, run e = Some n /\ eval r e = Some v /\ proper (toNumber n) /\ Rabs v <= size e /\ 1 <= size e /\
      Rabs (numberValue (toNumber n) - v) <= size e * (qq ^ steps e - 1).

  Lemma size_sum l x : size (Sum (l ++ [x])) = size (Sum l) + size x /\ steps (Sum (l ++ [x])) = S (steps (Sum l) + steps x).
  Proof.
    induction l as [|y l [IH1 IH2]]; [cbn; split; [ring|lia]|]. cbn [app size steps fold_right] in *. rewrite IH1, IH2. split; [ring|lia].
  Qed.
  Lemma size_prod l x : size (Prod (l ++ [x])) = size (Prod l) * size x /\ steps (Prod (l ++ [x])) = S (steps (Prod l) + steps x).
  Proof.
    induction l as [|y l [IH1 IH2]]; [cbn; split; [ring|lia]|]. cbn [app size steps fold_right] in *. rewrite IH1, IH2. split; [ring|lia].
  Qed.
  Lemma run_sum l x : run (Sum (l ++ [x])) = match run (Sum l), run x with Some s, Some v => Some (nadd Y s v) | _, _ => None end.
  Proof. cbn [numericEval]. rewrite fold_left_app. reflexivity. Qed.
  Lemma run_prod l x : run (Prod (l ++ [x])) = match run (Prod l), run x with Some s, Some v => Some (nmul Y s v) | _, _ => None end.
  Proof. cbn [numericEval]. rewrite fold_left_app. reflexivity. Qed.
  Lemma nadd_is a b : toNumber (nadd Y a b) = numberAdd (toNumber a) (toNumber b).
  Proof. destruct a as [p|x], b as [q|y]; try reflexivity; cbn [nadd s_add doubleSys]; now destruct (numberAdd _ _). Qed.
  Lemma nmul_is a b : toNumber (nmul Y a b) = numberMul (toNumber a) (toNumber b).
  Proof. destruct a as [p|x], b as [q|y]; try reflexivity; cbn [nmul s_mul doubleSys]; now destruct (numberMul _ _). Qed.
  Lemma ofNumber_is a : toNumber (ofNumber a) = a.
  Proof. now destruct a. Qed.
  Lemma stages_self e : In e (stages e).
  Proof. destruct e; now left. Qed.

  Lemma firstn_prefix {A} k (l : list A) x : (k <= length l)%nat -> firstn k (l ++ [x]) = firstn k l.
  Proof. intros H. rewrite firstn_app. replace (k - length l)%nat with 0%nat by lia. cbn. apply app_nil_r. Qed.
  Lemma prefix_sum l x : ampleRun lib limit (Sum (l ++ [x])) -> ampleRun lib limit (Sum l) /\ ampleRun lib limit x.
  Proof.
    intros H. split; [intros s n [<-|I] E|intros s n I E].
    - apply (H (Sum l)); [|exact E]. right. apply in_or_app. right. apply in_map_iff. exists (length l). rewrite firstn_prefix, firstn_all by lia.
      split; [reflexivity|]. apply in_seq. rewrite app_length. cbn. lia.
    - apply (H s); [|exact E]. right. apply in_or_app. apply in_app_or in I as [I|I].
      + left. rewrite flat_map_app. apply in_or_app. now left.
      + right. apply in_map_iff in I as (k & <- & I). apply in_seq in I. apply in_map_iff. exists k. rewrite firstn_prefix by lia. split; [reflexivity|].
        apply in_seq. rewrite app_length. lia.
    - apply (H s); [|exact E]. right. apply in_or_app. left. rewrite flat_map_app. apply in_or_app. right. cbn [flat_map]. rewrite app_nil_r. exact I.
  Qed.
  Lemma prefix_prod l x : ampleRun lib limit (Prod (l ++ [x])) -> ampleRun lib limit (Prod l) /\ ampleRun lib limit x.
  Proof.
    intros H. split; [intros s n [<-|I] E|intros s n I E].
    - apply (H (Prod l)); [|exact E]. right. apply in_or_app. right. apply in_map_iff. exists (length l). rewrite firstn_prefix, firstn_all by lia.
      split; [reflexivity|]. apply in_seq. rewrite app_length. cbn. lia.
    - apply (H s); [|exact E]. right. apply in_or_app. apply in_app_or in I as [I|I].
      + left. rewrite flat_map_app. apply in_or_app. now left.
      + right. apply in_map_iff in I as (k & <- & I). apply in_seq in I. apply in_map_iff. exists k. rewrite firstn_prefix by lia. split; [reflexivity|].
        apply in_seq. rewrite app_length. lia.
    - apply (H s); [|exact E]. right. apply in_or_app. left. rewrite flat_map_app. apply in_or_app. right. cbn [flat_map]. rewrite app_nil_r. exact I.
  Qed.

  (** One addition, one multiplication. *)
  Lemma add_bound a A v V M N E F : Rabs V <= M -> Rabs v <= N -> 1 <= M -> 1 <= N -> 1 <= E -> 1 <= F ->
    Rabs (A - V) <= M * (E - 1) -> Rabs (a - v) <= N * (F - 1) ->
    forall s, Rabs (s - (A + a)) <= 8 * u * (1 + Rabs A + Rabs a) -> Rabs (s - (V + v)) <= (M + N) * (qq * (E * F) - 1).
  Proof.
    intros HV Hv HM HN HE HF H1 H2 s H3. pose proof (tri A V). pose proof (tri a v).
    assert (A1 : Rabs A <= M * E) by lra. assert (A2 : Rabs a <= N * F) by lra.
    assert (B : Rabs (s - (V + v)) <= Rabs (s - (A + a)) + (Rabs (A - V) + Rabs (a - v))).
    { replace (s - (V + v)) with ((s - (A + a)) + ((A - V) + (a - v))) by ring. eapply Rle_trans; [apply Rabs_triang|]. apply Rplus_le_compat_l, Rabs_triang. }
    assert (EF1 : E <= E * F) by (rewrite <- (Rmult_1_r E) at 1; apply Rmult_le_compat_l; lra).
    assert (EF2 : F <= E * F) by (rewrite <- (Rmult_1_l F) at 1; apply Rmult_le_compat_r; lra).
    set (G := E * F) in *. assert (ME : M * E <= M * G) by (apply Rmult_le_compat_l; lra). assert (NF : N * F <= N * G) by (apply Rmult_le_compat_l; lra).
    assert (MG : 1 <= M * G) by (rewrite <- (Rmult_1_l 1); apply Rmult_le_compat; lra).
    assert (NG : 1 <= N * G) by (rewrite <- (Rmult_1_l 1); apply Rmult_le_compat; lra).
    replace ((M + N) * (qq * G - 1)) with ((M * G - M) + (N * G - N) + 32 * u * (M * G + N * G)) by ring. lra.
  Qed.
  Lemma mul_bound a A v V M N E F : Rabs V <= M -> Rabs v <= N -> 1 <= M -> 1 <= N -> 1 <= E -> 1 <= F ->
    Rabs (A - V) <= M * (E - 1) -> Rabs (a - v) <= N * (F - 1) ->
    forall s, Rabs (s - A * a) <= 16 * u * (1 + Rabs (A * a)) -> Rabs (s - V * v) <= (M * N) * (qq * (E * F) - 1).
  Proof.
    intros HV Hv HM HN HE HF H1 H2 s H3. pose proof (tri A V). pose proof (tri a v).
    assert (A1 : Rabs A <= M * E) by lra. assert (A2 : Rabs a <= N * F) by lra.
    assert (B : Rabs (s - V * v) <= Rabs (s - A * a) + (Rabs A * Rabs (a - v) + Rabs (A - V) * Rabs v)).
    { replace (s - V * v) with ((s - A * a) + (A * (a - v) + (A - V) * v)) by ring. eapply Rle_trans; [apply Rabs_triang|]. apply Rplus_le_compat_l.
      rewrite <- !Rabs_mult. apply Rabs_triang. }
    assert (B1 : Rabs A * Rabs (a - v) <= M * E * (N * (F - 1))) by (apply Rmult_le_compat; try apply Rabs_pos; lra).
    assert (B2 : Rabs (A - V) * Rabs v <= M * (E - 1) * N) by (apply Rmult_le_compat; try apply Rabs_pos; lra).
    assert (B3 : Rabs (A * a) <= M * E * (N * F)) by (rewrite Rabs_mult; apply Rmult_le_compat; try apply Rabs_pos; lra).
    assert (P : 1 <= M * N) by (rewrite <- (Rmult_1_l 1); apply Rmult_le_compat; lra).
    assert (Q : 1 <= E * F) by (rewrite <- (Rmult_1_l 1); apply Rmult_le_compat; lra).
    assert (PQ : 1 <= M * N * (E * F)) by (rewrite <- (Rmult_1_l 1); apply Rmult_le_compat; lra).
    replace (M * E * (N * F)) with (M * N * (E * F)) in B3 by ring.
    replace ((M * N) * (qq * (E * F) - 1)) with (M * E * (N * (F - 1)) + M * (E - 1) * N + 32 * u * (M * N * (E * F))) by ring. lra.
  Qed.
  Lemma fct_step a v M E x X Z s f : In f [FSin; FCos; FAtan] -> Rabs v <= M -> 1 <= M -> 1 <= E -> Rabs (a - v) <= M * (E - 1) -> x = fctR f v ->
    Rabs (X - a) <= 4 * u * Rabs a -> Rabs (Z - fctR f X) <= 2 * u -> Rabs (s - x) <= Rabs (Z - x) + 2 * u * (1 + Rabs Z) ->
    Rabs (s - x) <= (M + 2) * (qq * E - 1).
  Proof.
    intros If Hv HM HE Ha -> HX HZ Hs. pose proof (tri a v) as T1. assert (A : Rabs a <= M * E) by lra.
    pose proof (fct_lipschitz f If v X) as L. pose proof (fct_bound f X If) as FB. pose proof (tri Z (fctR f X)) as T2.
    assert (D : Rabs (X - v) <= Rabs (X - a) + Rabs (a - v)) by (replace (X - v) with ((X - a) + (a - v)) by ring; apply Rabs_triang).
    assert (D2 : Rabs (Z - fctR f v) <= Rabs (Z - fctR f X) + Rabs (fctR f X - fctR f v)) by (replace (Z - fctR f v) with ((Z - fctR f X) + (fctR f X - fctR f v)) by ring; apply Rabs_triang).
    assert (P : 1 <= M * E) by (rewrite <- (Rmult_1_l 1); apply Rmult_le_compat; lra).
    replace ((M + 2) * (qq * E - 1)) with ((M * E - M) + 2 * (E - 1) + 32 * u * (M * E) + 64 * u * E) by ring. lra.
  Qed.

  Lemma constants_app l x : (fold_right (fun x P => constExpr x /\ P) True (l ++ [x])) -> fold_right (fun x P => constExpr x /\ P) True l /\ constExpr x.
  Proof. induction l as [|y l IH]; cbn; [tauto|]. intros [H1 H2]. apply IH in H2. tauto. Qed.
  Lemma good_sum l : (forall x, In x l -> constExpr x -> ampleRun lib limit x -> good x) -> constExpr (Sum l) -> ampleRun lib limit (Sum l) -> good (Sum l).
  Proof.
    induction l as [|x l IH] using rev_ind; intros HI C A.
    - exists (NQ 0%Q), 0. split; [reflexivity|]. split; [reflexivity|]. split; [reflexivity|]. cbn [size steps fold_right pow toNumber numberValue].
      rewrite RMicromega.Q2R_0 || unfold Q2R. cbn. rewrite ?Rmult_0_l, Rminus_0_r, Rabs_R0. lra.
    - destruct (prefix_sum l x A) as [A1 A2]. destruct (constants_app l x C) as [C1 C2].
      destruct (IH ltac:(intros; apply HI; try assumption; apply in_or_app; now left) C1 A1) as (n & v & R1 & V1 & P1 & M1 & G1 & E1).
      destruct (HI x ltac:(apply in_or_app; right; now left) C2 A2) as (m & w & R2 & V2 & P2 & M2 & G2 & E2).
      assert (An : ample (toNumber n)) by (apply (A1 (Sum l)); [apply stages_self|exact R1]).
      assert (Am : ample (toNumber m)) by (apply (A2 x); [apply stages_self|exact R2]).
      destruct (add_ample _ _ P1 P2 An Am) as [PA EA]. destruct (size_sum l x) as [S1 S2].
      exists (nadd Y n m), (v + w). rewrite run_sum, R1, R2, nadd_is, S1, S2. split; [reflexivity|]. split.
      { change (eval r (Sum (l ++ [x]))) with (sumVal r (l ++ [x])). rewrite sumVal_app, sumVal_cons, sumVal_nil, V2. change (sumVal r l) with (eval r (Sum l)). rewrite V1. cbn. f_equal. ring. }
      split; [exact PA|]. split; [eapply Rle_trans; [apply Rabs_triang|lra]|]. split; [lra|].
      change (qq ^ S (steps (Sum l) + steps x)) with (qq * qq ^ (steps (Sum l) + steps x)). rewrite pow_add.
      eapply add_bound; try eassumption; try apply qq_grow. replace (8 * u) with (bpow radix2 (-50)); [exact EA|change (bpow radix2 (-50)) with (/ 1125899906842624); lra].
  Qed.
  Lemma good_prod l : (forall x, In x l -> constExpr x -> ampleRun lib limit x -> good x) -> constExpr (Prod l) -> ampleRun lib limit (Prod l) -> good (Prod l).
  Proof.
    induction l as [|x l IH] using rev_ind; intros HI C A.
    - exists (NQ 1%Q), 1. split; [reflexivity|]. split; [reflexivity|]. split; [reflexivity|]. cbn [size steps fold_right pow toNumber numberValue].
      rewrite Q2R_1. unfold Rminus. rewrite Rplus_opp_r, Rabs_R0, Rabs_R1. lra.
    - destruct (prefix_prod l x A) as [A1 A2]. destruct (constants_app l x C) as [C1 C2].
      destruct (IH ltac:(intros; apply HI; try assumption; apply in_or_app; now left) C1 A1) as (n & v & R1 & V1 & P1 & M1 & G1 & E1).
      destruct (HI x ltac:(apply in_or_app; right; now left) C2 A2) as (m & w & R2 & V2 & P2 & M2 & G2 & E2).
      assert (An : ample (toNumber n)) by (apply (A1 (Prod l)); [apply stages_self|exact R1]).
      assert (Am : ample (toNumber m)) by (apply (A2 x); [apply stages_self|exact R2]).
      destruct (mul_ample _ _ P1 P2 An Am) as [PA EA]. destruct (size_prod l x) as [S1 S2].
      exists (nmul Y n m), (v * w). rewrite run_prod, R1, R2, nmul_is, S1, S2. split; [reflexivity|]. split.
      { change (eval r (Prod (l ++ [x]))) with (prodVal r (l ++ [x])). rewrite prodVal_app, prodVal_cons, prodVal_nil, V2. change (prodVal r l) with (eval r (Prod l)). rewrite V1. cbn. f_equal. ring. }
      split; [exact PA|]. split; [rewrite Rabs_mult; apply Rmult_le_compat; try apply Rabs_pos; assumption|].
      split; [rewrite <- (Rmult_1_l 1); apply Rmult_le_compat; lra|].
      change (qq ^ S (steps (Prod l) + steps x)) with (qq * qq ^ (steps (Prod l) + steps x)). rewrite pow_add.
      eapply mul_bound; try eassumption; try apply qq_grow. replace (16 * u) with (bpow radix2 (-49)); [exact EA|change (bpow radix2 (-49)) with (/ 562949953421312); lra].
  Qed.
  Lemma good_cst c : good (Cst c).
  Proof.
    assert (K : exists x v, run (Cst c) = Some (ofNumber (ofDouble x)) /\ eval r (Cst c) = Some v /\ isDouble x /\ Rabs (doubleValue x - v) <= bpow radix2 (-50) /\ 0 <= v <= 4).
    { destruct c.
      - exists mPi, PI. destruct pi_close. pose proof PI_RGT_0. pose proof PI_4. repeat (split; [reflexivity || assumption|]). lra.
      - exists mE, (exp 1). destruct e_close. pose proof (exp_pos 1). pose proof exp_le_3. repeat (split; [reflexivity || assumption|]). lra. }
    destruct K as (x & v & R & V & D & E & B). exists (ofNumber (ofDouble x)), v. split; [exact R|]. split; [exact V|]. rewrite ofNumber_is.
    split; [now apply proper_root|]. cbn [size steps pow]. rewrite (Rabs_pos_eq v) by lra. split; [lra|]. split; [lra|].
    eapply Rle_trans; [apply ofDouble_err; exact D|]. pose proof (tri (doubleValue x) v) as T. rewrite (Rabs_pos_eq v) in T by lra.
    change (bpow radix2 (-50)) with (/ 1125899906842624) in E. lra.
  Qed.
  Lemma sub_run e s : In s (stages e) -> (forall t, In t (stages s) -> In t (stages e)) -> ampleRun lib limit e -> ampleRun lib limit s.
  Proof. intros I J A t n It E. apply (A t); [now apply J|exact E]. Qed.
  Lemma all_good e : constExpr e -> ampleRun lib limit e -> good e.
  Proof.
    induction e as [q|n p|c| |f l IH|l IH|l IH|b x IHb IHx] using expr_ind2; intros C A.
    - exists (NQ q), (Q2R q). split; [reflexivity|]. split; [reflexivity|]. split; [exact C|]. cbn [size steps toNumber numberValue pow]. pose proof (Rabs_pos (Q2R q)).
      split; [lra|]. split; [lra|]. unfold Rminus at 1. rewrite Rplus_opp_r, Rabs_R0. apply Rmult_le_pos; lra.
    - destruct C.
    - apply good_cst.
    - destruct C.
    - destruct l as [|x [|y l]]; try destruct C as []; try (destruct f; contradiction). 
      assert (If : In f [FSin; FCos; FAtan]) by assumption. assert (Cx : constExpr x) by assumption.
      assert (Ax : ampleRun lib limit x).
      { apply (sub_run (Fct f [x])); [right; cbn; rewrite app_nil_r; apply stages_self| |exact A]. intros t I. right. cbn. now rewrite app_nil_r. }
      assert (G : good x) by (apply IH; [now left|assumption..]). destruct G as (n & v & R & V & P & M & G & E).
      assert (An : ample (toNumber n)) by (apply (Ax x); [apply stages_self|exact R]).
      destruct (toDouble_ample _ P An) as (D & DE & _). destruct Hlib as (LF & _). destruct (LF f _ If D) as [ZD ZE].
      exists (ofNumber (ofDouble (l_fct lib f (toDouble (toNumber n))))), (fctR f v).
      assert (RU : run (Fct f [x]) = Some (ofNumber (ofDouble (l_fct lib f (toDouble (toNumber n)))))).
      { destruct If as [<-|[<-|[<-|[]]]]; cbn [numericEval]; rewrite R; reflexivity. }
      assert (VU : eval r (Fct f [x]) = Some (fctR f v)).
      { rewrite <- (fct_value f v If). destruct If as [<-|[<-|[<-|[]]]]; cbn [eval]; rewrite V; reflexivity. }
      split; [exact RU|]. split; [exact VU|]. rewrite ofNumber_is. split; [now apply proper_root|]. cbn [size steps].
      pose proof (fct_bound f v If). split; [lra|]. split; [lra|]. change (qq ^ S (steps x)) with (qq * qq ^ steps x).
      eapply fct_step; try eassumption; try apply qq_grow; try reflexivity.
      + change (bpow radix2 (-52)) with (/ 4503599627370496) in ZE. eapply Rle_trans; [exact ZE|lra].
      + apply ofDouble_err. exact ZD.
    - apply good_sum; try assumption.
    - apply good_prod; try assumption.
    - destruct b as [b| | | | | | |]; try destruct C. destruct x as [x| | | | | | |]; try destruct C. destruct H0 as [Cx P]. rename H into Cb.
      assert (Ab : ample (NRat b)) by (apply (A (Num b) (NQ b)); [right; left; reflexivity|reflexivity]).
      assert (Ax : ample (NRat x)) by (apply (A (Num x) (NQ x)); [right; right; left; reflexivity|reflexivity]).
      assert (B : 0 < Q2R b) by (unfold Q2R; apply Rmult_lt_0_compat; [apply IZR_lt; lia|apply Rinv_0_lt_compat, IZR_lt; lia]).
      destruct (pow_leaf lib limit Hlib b x Cb Cx P Ab Ax) as (n & R & PR & E).
      { intros n R. apply (A (Pow (Num b) (Num (ofZ (Qnum x))))); [right; right; right; left; reflexivity|exact R]. }
      exists n, (Rpower (Q2R b) (Q2R x)). split; [exact R|]. split; [cbn [eval]; now rewrite rpow_pos|]. split; [exact PR|]. cbn [size].
      set (w := Rpower (Q2R b) (Q2R x)) in *. assert (W : 0 < w) by apply exp_pos. rewrite (Rabs_pos_eq w) by lra. split; [lra|]. split; [lra|].
      eapply Rle_trans; [exact E|]. rewrite Rmult_comm. apply Rmult_le_compat_l; [lra|]. change (steps (Pow (Num b) (Num x))) with 64%nat.
      pose proof (poly 64 (32 * u) ltac:(lra)) as PO. replace (INR 64) with 64 in PO by (rewrite INR_IZR_INZ; reflexivity). lra.
  Qed.
End Run.
Lemma linear_bound n : (Z.of_nat n < 2 ^ 47)%Z -> qq ^ S n - 1 <= INR (S n) * bpow radix2 (-47).
Proof.
  intros H. assert (B : INR (S n) <= 140737488355328).
  { rewrite INR_IZR_INZ. apply IZR_le. lia. }
  assert (P : 0 <= INR (S n)) by apply pos_INR. set (t := INR (S n) * (32 * u)). assert (T : 0 <= t <= / 2) by (unfold t; lra).
  assert (L : qq ^ S n <= exp t).
  { unfold t. clear. induction (S n) as [|m IH].
    - cbn [pow INR]. rewrite Rmult_0_l, exp_0. lra.
    - rewrite S_INR, Rmult_plus_distr_r, Rmult_1_l, exp_plus. cbn [pow]. rewrite (Rmult_comm qq). apply Rmult_le_compat; [apply pow_le; lra|lra|exact IH|apply exp_ineq1_le]. }
  pose proof (exp_near t ltac:(rewrite Rabs_pos_eq; lra)) as E. rewrite (Rabs_pos_eq t) in E by lra. apply Rabs_le_inv in E.
  change (bpow radix2 (-47)) with (/ 140737488355328). unfold t in *. lra.
Qed.
Lemma toDouble_accurate lib limit r e : accurate lib -> constExpr e -> ampleRun lib limit e -> (Z.of_nat (steps e) < 2 ^ 47)%Z ->
  exists x v, varToDouble lib limit e = Gives x /\ isDouble x /\ eval r e = Some v /\
    Rabs (doubleValue x - v) <= size e * INR (S (steps e)) * bpow radix2 (-47).
Proof.
  intros HL C A St. destruct (all_good lib limit r HL e C A) as (n & v & R & V & P & M & G & E).
  assert (An : ample (toNumber n)) by (apply (A e); [apply stages_self|exact R]). destruct (toDouble_ample _ P An) as (D & DE & _).
  exists (toDouble (toNumber n)), v. unfold varToDouble. rewrite R. split; [reflexivity|]. split; [exact D|]. split; [exact V|].
  pose proof (linear_bound (steps e) St) as LI. rewrite Rmult_assoc. apply Rle_trans with (size e * (qq ^ S (steps e) - 1)); [|apply Rmult_le_compat_l; lra].
  pose proof (tri (numberValue (toNumber n)) v) as T. set (a := numberValue (toNumber n)) in *. set (X := doubleValue (toDouble (toNumber n))) in *.
  pose proof (qq_grow (steps e)) as Q. change (qq ^ S (steps e)) with (qq * qq ^ steps e). set (F := qq ^ steps e) in *.
  assert (Rabs (X - v) <= Rabs (X - a) + Rabs (a - v)) by (replace (X - v) with ((X - a) + (a - v)) by ring; apply Rabs_triang).
  assert (1 <= size e * F) by (rewrite <- (Rmult_1_l 1); apply Rmult_le_compat; lra).
  replace (size e * (qq * F - 1)) with ((size e * F - size e) + 32 * u * (size e * F)) by ring. lra.
Qed.
