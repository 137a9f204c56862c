(** Tangent of every multiple of pi/8 and pi/6 with IEEE doubles and an accurate C library. *)
From Coq Require Import Lia List Lra Reals Qreals.
From Verif Require Import TrigApi FuelMono FuelApi ApiModel Run World Certain ExprProofs EvalSpec PiArith PiTrig PiBase PiDouble PiMultiples.
Import ListNotations.
Open Scope Z_scope.

Definition plain (z : Z) : bool := (z mod 3 =? 0) || (z mod 4 =? 0).
Definition steps48 : list Z := filter plain (map Z.of_nat (seq 0 48)).
Definition isNum (e : expr) (z : Z) : bool := match e with Num q => qeqb q (ofZ z) | _ => false end.
Definition isUndef (e : expr) : bool := match e with Undef => true | _ => false end.
(** The tangent of z/24*pi and its negative; no value for 12 and 36.  The products that lead to the values for 18, 30 and 42
    increment an end iterator. *)
Definition unit4 (z : Z) : Z := if z mod 24 =? 6 then 1 else -1.
Definition tanOk (lib : library) (m : BinNums.positive) (z : Z) : bool :=
  let Y := doubleSys (fixLib lib m) 1000 in
  match simplTan Y (world Y 40 40) 40 (piE (mult z)) with
  | Ok (Some e) l =>
      match minus (world Y 40 41) [e] with
      | Ok e' l' =>
          noFct e && noFct e' &&
          (if (z =? 12) || (z =? 36) then isUndef e && isUndef e'
           else if z mod 12 =? 6 then isNum e (unit4 z) && isNum e' (- unit4 z)
           else nilb (doubtful l) && nilb (doubtful l') && (negb (z =? 0) || isNum e' 0))
      | _ => false
      end
  | _ => false
  end.
Lemma tan1 lib : forallb (tanOk lib 6369051672525772) steps48 = true.
Proof. vm_compute. reflexivity. Qed.
Lemma tan2 lib : forallb (tanOk lib 6369051672525773) steps48 = true.
Proof. vm_compute. reflexivity. Qed.

Lemma plain_nice z : plain z = true -> nice z = true.
Proof.
  unfold plain, nice. rewrite !orb_true_iff, !Z.eqb_eq. intros [H|H]; [now right|left]. rewrite (Znumtheory.Zmod_div_mod 2 4 z), H; [reflexivity|lia|lia|now exists 2].
Qed.
Lemma plain_mod z : plain (z mod 48) = plain z.
Proof.
  unfold plain. rewrite <- (Znumtheory.Zmod_div_mod 3 48 z), <- (Znumtheory.Zmod_div_mod 4 48 z); try lia; [exists 12|exists 16]; reflexivity.
Qed.
Lemma plain_opp z : plain (- z) = plain z.
Proof.
  unfold plain. assert (A : forall n, n <> 0 -> (- z mod n =? 0) = (z mod n =? 0)).
  { intros n Hn. apply eq_true_iff_eq. rewrite !Z.eqb_eq, !Z.mod_divide by exact Hn. apply Z.divide_opp_r. }
  now rewrite !A by lia.
Qed.
Lemma plain_in z : 0 <= z < 48 -> plain z = true -> In z steps48.
Proof. intros B N. apply filter_In. split; [|exact N]. rewrite <- (Z2Nat.id z) by lia. apply in_map, in_seq. lia. Qed.
Lemma cos_zero z : cos (IZR z / 24 * PI) = 0%R <-> z mod 24 = 12.
Proof.
  split; intros H.
  - apply cos_eq_0_0 in H as [k H]. assert (P : PI <> 0%R) by (pose proof PI_RGT_0; lra).
    assert (E : (IZR z / 24 = IZR k + 1 / 2)%R) by (apply (Rmult_eq_reg_r PI); [rewrite H; field|exact P]).
    assert (E' : IZR z = IZR (12 + k * 24)) by (rewrite plus_IZR, mult_IZR; lra). apply eq_IZR in E'. rewrite E', Z_mod_plus_full. reflexivity.
  - apply cos_eq_0_1. exists (z / 24). pose proof (Z.div_mod z 24 ltac:(lia)) as D. rewrite H in D. rewrite D at 1. rewrite plus_IZR, mult_IZR. field.
Qed.
Lemma tan_turns x i : cos x <> 0%R -> 0 <= i -> tan (x + IZR i * (2 * PI)) = tan x.
Proof.
  intros _ Hi. unfold tan. assert (I : IZR i = INR (Z.to_nat i)) by (rewrite INR_IZR_INZ, Z2Nat.id by lia; reflexivity).
  replace (x + IZR i * (2 * PI))%R with (x + 2 * INR (Z.to_nat i) * PI)%R by (rewrite I; ring). now rewrite sin_period, cos_period.
Qed.
Lemma tan_quarter z : z mod 12 = 6 -> tan (IZR z / 24 * PI) = IZR (unit4 z).
Proof.
  intros H. assert (S2 : sqrt 2 <> 0%R) by (apply Rgt_not_eq, sqrt_lt_R0; lra).
  assert (per : forall x i, tan (x + IZR i * PI) = tan x).
  { assert (pos : forall x n, tan (x + INR n * PI) = tan x).
    { intros x n. induction n as [|n IH]; [cbn [INR]; f_equal; ring|]. rewrite <- IH. rewrite S_INR. replace (x + (INR n + 1) * PI)%R with (x + INR n * PI + PI)%R by ring.
      unfold tan. rewrite neg_sin, neg_cos. unfold Rdiv. rewrite Rinv_opp. ring. }
    intros x i. destruct (Z_lt_le_dec i 0) as [L|L].
    - rewrite <- (pos (x + IZR i * PI)%R (Z.to_nat (- i))). rewrite INR_IZR_INZ, Z2Nat.id, opp_IZR by lia. f_equal. ring.
    - rewrite <- (Z2Nat.id i) by lia. rewrite <- INR_IZR_INZ. apply pos. }
  pose proof (Z.div_mod z 24 ltac:(lia)) as D. pose proof (Z.mod_pos_bound z 24 ltac:(lia)) as B.
  assert (C : z mod 24 = 6 \/ z mod 24 = 18).
  { rewrite D in H. replace (24 * (z / 24)) with (2 * (z / 24) * 12) in H by lia. rewrite Z.add_comm, Z_mod_plus_full in H. pose proof (Z.div_mod (z mod 24) 12 ltac:(lia)). assert (0 <= z mod 24 / 12 < 2) by (split; [apply Z.div_pos|apply Z.div_lt_upper_bound]; lia). lia. }
  unfold unit4. destruct C as [C|C]; rewrite C in *; cbn [Z.eqb].
  - replace (IZR z / 24 * PI)%R with (PI / 4 + IZR (z / 24) * PI)%R by (rewrite D at 2; rewrite plus_IZR, mult_IZR; field). rewrite per. apply tan_PI4.
  - change (18 =? 6) with false. cbv iota.
    replace (IZR z / 24 * PI)%R with (- (PI / 4) + IZR (z / 24 + 1) * PI)%R by (rewrite D at 2; rewrite !plus_IZR, mult_IZR; field). rewrite per, tan_neg, tan_PI4. reflexivity.
Qed.

Section Tan.
  Variable lib : library.
  Hypothesis Hlib : accurate lib.
  Notation Y := (doubleSys lib 1000).
  Variable r : env.
  Hypothesis Hr : posEnv r.

  (** Full turns don't matter. *)
  Lemma turns F k z : (40 <= F)%nat -> (40 <= k)%nat -> 0 <= z < 2 ^ 300 -> nice z = true -> (Z.to_nat (z / 48) < F)%nat ->
    simplTan Y (world Y F k) F (piE (mult z)) = simplTan Y (world Y F k) F (piE (mult (z mod 48))).
  Proof.
    intros HF Hk B N L. pose proof (Z.mod_pos_bound z 48 ltac:(lia)) as M. pose proof (Z.div_mod z 48 ltac:(lia)) as D. assert (0 <= z / 48) by (apply Z.div_pos; lia).
    assert (N' : nice (z mod 48) = true) by (rewrite nice_mod; exact N). assert (48 < 2 ^ 300) by reflexivity.
    assert (X : forall q A (x y : res A), (if negb (isZero (piE q)) && isNumeric (piE q) then x else y) = y).
    { intros q A x y. unfold piE. destruct (qeqb q 0); [reflexivity|]. destruct (qeqb q 1); reflexivity. }
    assert (ZZ : forall q, (if isNumeric (piE q) then w_prod (world Y F k) [Run.zero; pi] else ret (piE q)) = Ok (piE q) []).
    { intros q. unfold piE. destruct (qeqb q 0) eqn:E; [apply (r_prod Y F k ltac:(lia) ltac:(lia) 0)|]. destruct (qeqb q 1); reflexivity. }
    assert (Adj : forall y j, y = mult (z mod 48 + 48 * Z.of_nat j) -> (j < F)%nat -> z mod 48 + 48 * Z.of_nat j < 2 ^ 300 ->
      adjustArgRange Y (world Y F k) F (piE y) = Ok (piE (mult (z mod 48))) []).
    { intros y j -> Lj Bj. rewrite <- up_mult. replace F with (S j + (F - S j))%nat by lia.
      replace (world Y (S j + (F - S j)) k) with (world Y F k) by (f_equal; lia).
      apply r_adjust; try lia; [apply mult_canon| |apply below; lia || assumption|intros i Hi; apply beyond; lia || assumption].
      rewrite mult_val. unfold Qle. cbn [Qnum Qden]. lia. }
    unfold simplTan. rewrite !X, !ZZ. cbn [bind].
    rewrite (Adj (mult z) (Z.to_nat (z / 48))) by (rewrite ?Z2Nat.id by lia; lia || (f_equal; lia)).
    rewrite (Adj (mult (z mod 48)) 0%nat) by (cbn [Z.of_nat]; lia || (f_equal; lia)).
    rewrite !(loop lib Hlib F k HF Hk z) by assumption.
    rewrite !(loop lib Hlib F k HF Hk (z mod 48)) by (lia || assumption || (rewrite Z.div_small by lia; cbn; lia)). rewrite Z.mod_mod by lia. reflexivity.
  Qed.
  Lemma base_tan z : 0 <= z < 48 -> plain z = true -> exists e l e' l', simplTan Y (world Y 40 40) 40 (piE (mult z)) = Ok (Some e) l /\
    minus (world Y 40 41) [e] = Ok e' l' /\ noFct e = true /\ noFct e' = true /\
    (z mod 24 = 12 /\ e = Undef /\ e' = Undef \/ z mod 24 <> 12 /\
      (z mod 12 = 6 /\ e = Num (ofZ (unit4 z)) /\ e' = Num (ofZ (- unit4 z)) \/ doubtful l = [] /\ doubtful l' = [] /\ (z = 0 -> e' = Run.zero))).
  Proof.
    intros B N. destruct (sqrt2_cases lib Hlib) as (m & Im & E).
    assert (O : tanOk lib m z = true).
    { pose proof (plain_in z B N) as G. destruct Im as [<-|[<-|[]]]; [pose proof (tan1 lib) as H|pose proof (tan2 lib) as H]; rewrite forallb_forall in H; exact (H _ G). }
    unfold tanOk in O. rewrite E in O. cbv zeta in O.
    destruct (simplTan Y (world Y 40 40) 40 (piE (mult z))) as [[e|] l| | |]; try discriminate O.
    destruct (minus (world Y 40 41) [e]) as [e' l'| | |] eqn:Em; try discriminate O. apply andb_prop in O as [O1 O2]. apply andb_prop in O1 as [O1 O3].
    exists e, l, e', l'. do 4 (split; [assumption || reflexivity|]).
    assert (Z1 : z mod 24 = 12 <-> (z =? 12) || (z =? 36) = true).
    { rewrite orb_true_iff, !Z.eqb_eq. split; [|intros [->| ->]; reflexivity]. intros H. pose proof (Z.div_mod z 24 ltac:(lia)). assert (0 <= z / 24 < 2) by (split; [apply Z.div_pos|apply Z.div_lt_upper_bound]; lia). lia. }
    destruct ((z =? 12) || (z =? 36)).
    - left. apply andb_prop in O2 as [O2 O4]. split; [now apply Z1|]. destruct e, e'; try discriminate. now split.
    - right. split; [intros H; apply Z1 in H; discriminate|]. destruct (Z.eqb_spec (z mod 12) 6) as [Z2|_].
      + left. split; [exact Z2|]. apply andb_prop in O2 as [O2 O4]. unfold isNum in O2, O4. destruct e; try discriminate O2. destruct e'; try discriminate O4.
        apply qeqb_eq in O2, O4. subst. now split.
      + right. apply andb_prop in O2 as [O2 O5]. apply andb_prop in O2 as [O2 O4]. split; [destruct (doubtful l); [reflexivity|discriminate]|]. split; [destruct (doubtful l'); [reflexivity|discriminate]|].
        intros ->. cbn [Z.eqb negb orb] in O5. unfold isNum in O5. destruct e'; try discriminate O5. apply qeqb_eq in O5. now subst.
  Qed.
  Lemma run_tan F k z e l : (40 <= F)%nat -> (40 <= k)%nat -> 0 <= z < 2 ^ 300 -> simplTan Y (world Y F k) F (piE (mult z)) = Ok (Some e) l ->
    w_trig (world Y F (S k)) FTan (piE (mult z)) = Ok e l.
  Proof.
    intros HF Hk B E. change (w_trig (world Y F (S k))) with (trigCreate Y (world Y F k) F). rewrite (direct lib Hlib F k HF Hk) by lia.
    unfold createNumerically. cbn [numTrigo]. rewrite E. cbn [bind ret]. now rewrite app_nil_r.
  Qed.
  (** The tangent of a negative multiple. *)
  Lemma mirror F k z e l e' l' : (40 <= F)%nat -> (40 <= k)%nat -> 0 < z < 2 ^ 300 -> w_trig (world Y F k) FTan (piE (mult z)) = Ok e l ->
    minus (world Y F k) [e] = Ok e' l' -> w_trig (world Y F (S k)) FTan (piE (mult (- z))) = Ok e' (l ++ l').
  Proof.
    intros HF Hk B T E'. change (w_trig (world Y F (S k))) with (trigCreate Y (world Y F k) F).
    assert (A : doesSymmetryApply (world Y F k) (piE (mult (- z))) = Ok true []).
    { rewrite r_symmetry by (lia || apply mult_canon). rewrite mult_sign. destruct (Z.ltb_spec (- z) 0); [reflexivity|lia]. }
    assert (Q : bySymmetry (world Y F k) true FTan (piE (mult (- z))) = Ok e' (l ++ l')).
    { unfold bySymmetry. rewrite r_minus by (lia || apply mult_canon). cbn [bind]. rewrite neg_mult, Z.opp_involutive, T. cbn [bind]. rewrite E'. cbn [bind app]. reflexivity. }
    unfold trigCreate. destruct (piE (mult (- z))) as [q|n p|c| |g ll|ll|ll|b x] eqn:P; rewrite ?A; cbn [bind]; rewrite ?Q; cbn [bind app]; try reflexivity;
    exfalso; revert P; unfold piE; destruct (qeqb (mult (- z)) 0); try discriminate; destruct (qeqb (mult (- z)) 1); discriminate.
  Qed.
  (** What the result is: z/24*pi has the tangent v, or none. *)
  Definition isTan (z : Z) (e : expr) : Prop :=
    (z mod 24 = 12 -> e = Undef) /\ (z mod 24 <> 12 -> eval r e = Some (tan (IZR z / 24 * PI))).
  Lemma tan_values z : 0 <= z < 48 -> plain z = true -> exists e e', noFct e = true /\ noFct e' = true /\ isTan z e /\ isTan (- z) e' /\
    forall F k, (40 <= F)%nat -> (41 <= k)%nat -> exists l l', simplTan Y (world Y F k) F (piE (mult z)) = Ok (Some e) l /\ minus (world Y F k) [e] = Ok e' l'.
  Proof.
    intros B N. destruct (base_tan z B N) as (e & l & e' & l' & E & E' & C & C' & K). exists e, e'. split; [exact C|]. split; [exact C'|].
    assert (48 < 2 ^ 300) by reflexivity.
    assert (T : w_trig (world Y 40 41) FTan (piE (mult z)) = Ok e l) by (apply run_tan; lia || assumption).
    assert (Om : - z mod 24 = 12 <-> z mod 24 = 12).
    { pose proof (Z.div_mod z 24 ltac:(lia)). pose proof (Z.mod_pos_bound z 24 ltac:(lia)). pose proof (Z.div_mod (- z) 24 ltac:(lia)). pose proof (Z.mod_pos_bound (- z) 24 ltac:(lia)). lia. }
    assert (V : isTan z e /\ isTan (- z) e').
    { destruct K as [(K1 & -> & ->)|[K1 [(K2 & -> & ->)|(K2 & K3 & K4)]]].
      - split; split; intros; [reflexivity|contradiction|reflexivity|tauto].
      - split; (split; [tauto|intros _]).
        + rewrite (tan_quarter z K2). cbn [eval]. f_equal. unfold Q2R, ofZ. cbn [Qnum Qden]. lra.
        + rewrite opp_IZR. replace (- IZR z / 24 * PI)%R with (- (IZR z / 24 * PI))%R by field. rewrite tan_neg, (tan_quarter z K2). cbn [eval]. f_equal. unfold Q2R, ofZ. cbn [Qnum Qden]. rewrite opp_IZR. lra.
      - assert (Cz : cos (IZR z / 24 * PI) <> 0%R) by (rewrite cos_zero; exact K1).
        split; (split; [tauto|intros _]).
        + apply (trig_multiple Y 40 41 r Hr FTan (mult z) (piE (mult z)) [] e l); [apply mult_canon|apply r_prod; lia|exact T|apply checked_right; exact K2|].
          cbn [trigVal]. rewrite mult_R. destruct (Req_EM_T _ 0); [contradiction|reflexivity].
        + destruct (Z.eq_dec z 0) as [->|NZ].
          { rewrite (K4 eq_refl). unfold Run.zero. cbn [eval Z.opp]. replace (0 / 24 * PI)%R with 0%R by field. rewrite tan_0. unfold Q2R. cbn. now rewrite Rmult_0_l. }
          assert (S : w_trig (world Y 40 42) FTan (piE (mult (- z))) = Ok e' (l ++ l')) by (apply (mirror 40 41 z e l e' l'); lia || assumption).
          apply (trig_multiple Y 40 42 r Hr FTan (mult (- z)) (piE (mult (- z))) [] e' (l ++ l')); [apply mult_canon|apply r_prod; lia|exact S| |].
          * cbn [app]. apply checked_right. unfold doubtful in *. rewrite filter_app, K2, K3. reflexivity.
          * cbn [trigVal]. rewrite mult_R. destruct (Req_EM_T _ 0) as [H0|]; [apply cos_zero in H0; tauto|reflexivity]. }
    split; [apply V|]. split; [apply V|]. intros F k HF Hk.
    pose proof (m_stan Y _ _ (world_mono Y 40 F 40 k HF ltac:(lia)) 40 F (piE (mult z)) HF) as M1. rewrite E in M1. destruct M1 as [l1 M1].
    pose proof (m_minus _ _ (world_mono Y 40 F 41 k HF Hk) [e]) as M2. rewrite E' in M2. destruct M2 as [l2 M2]. exists l1, l2. now split.
  Qed.
  Lemma isTan_turns z e i : isTan z e -> 0 <= i -> isTan (z + 48 * i) e.
  Proof.
    intros [H1 H2] Hi. unfold isTan. replace (z + 48 * i) with (z + (2 * i) * 24) by lia. rewrite Z_mod_plus_full. split; [exact H1|]. intros H. rewrite (H2 H). f_equal.
    rewrite <- (tan_turns (IZR z / 24 * PI) i) by (lia || (rewrite cos_zero; exact H)). f_equal. rewrite plus_IZR, !mult_IZR. field.
  Qed.
  Theorem tan_multiples z : Z.abs z < 2 ^ 300 -> plain z = true -> exists e, noFct e = true /\ isTan z e /\
    exists F0 k0, forall F k n, (F0 <= F)%nat -> (k0 <= k)%nat ->
      exists facts, build (world Y F k) n (TTrig FTan (TMul (TFrac z 24) (TConst CPi))) = Ok e facts.
  Proof.
    intros B N. set (y := Z.abs z). assert (Hy : 0 <= y) by (unfold y; lia). assert (Ny : plain y = true) by (unfold y; destruct (Z.abs_spec z) as [[_ ->]|[_ ->]]; rewrite ?plain_opp; exact N).
    pose proof (Z.mod_pos_bound y 48 ltac:(lia)) as M. pose proof (Z.div_mod y 48 ltac:(lia)) as D. assert (Hd : 0 <= y / 48) by (apply Z.div_pos; lia).
    assert (Dy : IZR y = (48 * IZR (y / 48) + IZR (y mod 48))%R) by (rewrite <- mult_IZR, <- plus_IZR; f_equal; exact D).
    destruct (tan_values (y mod 48) M ltac:(rewrite plain_mod; exact Ny)) as (e & e' & C & C' & V & V' & R).
    set (F0 := (41 + Z.to_nat (y / 48))%nat).
    destruct (R F0 41%nat ltac:(unfold F0; lia) ltac:(lia)) as (l & l1 & R1 & _). destruct (R F0 42%nat ltac:(unfold F0; lia) ltac:(lia)) as (l2 & l' & _ & R2).
    rewrite <- (turns F0 41 y) in R1 by (try (unfold F0; lia); try lia; apply plain_nice, Ny).
    apply run_tan in R1; [|unfold F0; lia|lia|lia].
    assert (P : exists x, noFct x = true /\ isTan z x /\ exists lx, w_trig (world Y F0 43) FTan (piE (mult z)) = Ok x lx).
    { destruct (Z_lt_le_dec z 0) as [L|L].
      - exists e'. split; [exact C'|]. split.
        + unfold isTan in *. assert (Q : y = y mod 48 + 48 * (y / 48)) by lia. assert (Hz : z = - y) by (unfold y; lia). rewrite Hz.
          assert (Qm : (- y) mod 24 = (- (y mod 48)) mod 24) by (rewrite Q at 1; replace (- (y mod 48 + 48 * (y / 48))) with (- (y mod 48) + (- 2 * (y / 48)) * 24) by lia; now rewrite Z_mod_plus_full).
          rewrite Qm. split; [apply V'|]. intros H. rewrite (proj2 V' H). f_equal. rewrite !opp_IZR.
          replace (- IZR (y mod 48) / 24 * PI)%R with (- (IZR (y mod 48) / 24 * PI))%R by field. replace (- IZR y / 24 * PI)%R with (- (IZR y / 24 * PI))%R by field. rewrite !tan_neg. f_equal.
          rewrite <- (tan_turns (IZR (y mod 48) / 24 * PI) (y / 48)); [f_equal; rewrite Dy; field| |exact Hd].
          rewrite cos_zero. intros H0. apply H. pose proof (Z.div_mod (y mod 48) 24 ltac:(lia)) as D2. rewrite H0 in D2. rewrite D2. replace (- (24 * (y mod 48 / 24) + 12)) with (12 + (- (y mod 48 / 24) - 1) * 24) by lia. rewrite Z_mod_plus_full. reflexivity.
        + exists (l ++ l'). assert (Hz : z = - y) by (unfold y; lia). rewrite Hz. apply (mirror F0 42 y e l e' l'); try (unfold F0; lia); try lia; assumption.
      - exists e. split; [exact C|]. split.
        + assert (Hz : z = y mod 48 + 48 * (y / 48)) by (unfold y in *; lia). rewrite Hz. apply isTan_turns; assumption.
        + assert (Hz : z = y) by (unfold y; lia). rewrite Hz. pose proof (o_trig _ _ (world_mono Y F0 F0 42 43 (le_n _) ltac:(lia)) FTan (piE (mult y))) as Mo. rewrite R1 in Mo. exact Mo. }
    destruct P as (x & Cx & Vx & lx & E). exists x. split; [exact Cx|]. split; [exact Vx|]. exists F0, 43%nat. intros F k n L1 L2.
    pose proof (o_trig _ _ (world_mono Y F0 F 43 k L1 L2) FTan (piE (mult z))) as Mo. rewrite E in Mo. destruct Mo as [lm Mo].
    assert (10 <= F)%nat by (unfold F0 in L1; lia).
    cbn [build mkRat bind ret varMul]. unfold varMul. change (Qred (z # 24)) with (mult z). rewrite (r_prod Y F k) by lia. cbn [bind app]. rewrite Mo. cbn [bind]. eexists. reflexivity.
  Qed.
End Tan.
(** Eighths and sixths. *)
Theorem eighths_sixths lib r a b : accurate lib -> posEnv r -> b = 8 \/ b = 6 -> Z.abs a < 2 ^ 290 -> exists e, noFct e = true /\
  (cos (IZR a / IZR b * PI) = 0%R -> e = Undef) /\ (cos (IZR a / IZR b * PI) <> 0%R -> eval r e = Some (tan (IZR a / IZR b * PI))) /\
  exists F0 k0, forall F k n, (F0 <= F)%nat -> (k0 <= k)%nat ->
    exists facts, build (world (doubleSys lib 1000) F k) n (TTrig FTan (TMul (TFrac a b) (TConst CPi))) = Ok e facts.
Proof.
  intros Hl Hr Hb B. set (c := match b with 8 => 3 | _ => 4 end). assert (Hc : c = 3 /\ b = 8 \/ c = 4 /\ b = 6) by (unfold c; destruct Hb as [->| ->]; [left|right]; split; reflexivity).
  assert (2 ^ 290 * 4 < 2 ^ 300) by reflexivity.
  destruct (tan_multiples lib Hl r Hr (a * c)) as (e & C & V & F0 & k0 & R); [destruct Hc as [[-> _]|[-> _]]; lia| |].
  { unfold plain. destruct Hc as [[-> _]|[-> _]]; rewrite Z_mod_mult; cbn [Z.eqb orb]; [reflexivity|apply orb_true_r]. }
  assert (X : (IZR a / IZR b * PI = IZR (a * c) / 24 * PI)%R) by (destruct Hc as [[-> ->]|[-> ->]]; rewrite mult_IZR; field).
  exists e. split; [exact C|]. rewrite X, cos_zero. split; [apply V|]. split; [apply V|].
  exists F0, k0. intros F k n H1 H2. destruct (R F k n H1 H2) as [facts E]. exists facts. rewrite <- E. cbn [build].
  assert (M : mkRat a b = mkRat (a * c) 24).
  { destruct Hc as [[-> ->]|[-> ->]]; cbn [mkRat]; f_equal; apply Qred_complete; unfold Qeq; cbn [Qnum Qden]; lia. }
  now rewrite M.
Qed.
