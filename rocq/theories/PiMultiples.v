(** Sine and cosine of every multiple of pi/12 and pi/8 with IEEE doubles and an accurate C library. *)
From Coq Require Import Lia List Lra Reals Qreals.
From Verif Require Import TrigApi FuelMono FuelApi ApiModel Run World Certain ExprProofs EvalSpec PiArith PiTrig PiBase PiDouble.
Import ListNotations.
Open Scope Z_scope.

(** z/24. *)
Definition mult (z : Z) : Q := Qred (z # 24).
Definition nice (z : Z) : bool := (z mod 2 =? 0) || (z mod 3 =? 0).
Lemma mult_canon z : canon (mult z). Proof. apply canon_Qred. Qed.
Lemma mult_val z : (mult z == z # 24)%Q. Proof. apply Qred_correct. Qed.
Lemma mult_R z : Q2R (mult z) = (IZR z / 24)%R.
Proof. rewrite (Qeq_eqR _ _ (mult_val z)). reflexivity. Qed.
Lemma up_mult z j : up (mult z) j = mult (z + 48 * Z.of_nat j).
Proof.
  unfold up, mult. apply Qred_complete. rewrite Qred_correct. unfold Qeq, Qplus, inject_Z. cbn [Qnum Qden]. lia.
Qed.
Lemma add_mult z : qadd (mult z) (1 # 2) = mult (z + 12).
Proof. unfold qadd, mult. apply Qred_complete. rewrite Qred_correct. unfold Qeq, Qplus. cbn [Qnum Qden]. lia. Qed.
Lemma neg_mult z : qmul (-1 # 1) (mult z) = mult (- z).
Proof. unfold qmul, mult. apply Qred_complete. rewrite Qred_correct. unfold Qeq, Qmult. cbn [Qnum Qden]. lia. Qed.
Lemma mult_sign z : qltb (mult z) 0 = (z <? 0).
Proof.
  apply eq_true_iff_eq. rewrite qltb_spec, Z.ltb_lt, mult_val. unfold Qlt. cbn [Qnum Qden]. lia.
Qed.
Lemma mult_zero z : qeqb (mult z) 0 = true -> z = 0.
Proof. intros E. apply qeqb_eq in E. pose proof (mult_val z) as V. rewrite E in V. unfold Qeq in V. cbn [Qnum Qden] in V. lia. Qed.
Lemma mult_modest z : Z.abs z < 2 ^ 300 -> modest (mult z).
Proof.
  intros B. unfold modest, mult, Qred. pose proof (Z.ggcd_gcd z 24) as G. pose proof (Z.ggcd_correct_divisors z 24) as D. cbn [Qnum Qden] in *.
  destruct (Z.ggcd z 24) as [g [a b]]. cbn [fst snd] in *. destruct D as [D1 D2]. assert (0 <= g) by (subst g; apply Z.gcd_nonneg). assert (24 < 2 ^ 300) by reflexivity.
  set (t := 2 ^ 300) in *. clearbody t. assert (0 < g) by (destruct (Z.eq_dec g 0) as [E|]; [rewrite E in D2; discriminate D2|lia]). clear G.
  assert (0 < b) by (destruct (Z_lt_le_dec 0 b); [assumption|nia]). cbn [Qnum Qden]. rewrite Z2Pos.id by lia. split; [|nia].
  apply Z.le_lt_trans with (Z.abs z); [|exact B]. rewrite D1, Z.abs_mul. nia.
Qed.
Lemma nice_grid z : 0 <= z < 48 -> nice z = true -> In (mult z) grid.
Proof.
  intros B N. apply (in_map (fun z => Qred (z # 24))). apply filter_In. split; [|exact N]. rewrite <- (Z2Nat.id z) by lia. apply in_map, in_seq. lia.
Qed.
Lemma nice_mod z : nice (z mod 48) = nice z.
Proof.
  unfold nice. rewrite <- (Znumtheory.Zmod_div_mod 2 48 z), <- (Znumtheory.Zmod_div_mod 3 48 z); try lia; [exists 16|exists 24]; reflexivity.
Qed.
Lemma nice_12 z : nice (z + 12) = nice z.
Proof. unfold nice. change 12 with (6 * 2) at 1. rewrite Z_mod_plus_full. change 12 with (4 * 3). rewrite Z_mod_plus_full. reflexivity. Qed.
Lemma nice_opp z : nice (- z) = nice z.
Proof.
  unfold nice. assert (A : forall n, n <> 0 -> (- z mod n =? 0) = (z mod n =? 0)).
  { intros n Hn. apply eq_true_iff_eq. rewrite !Z.eqb_eq, !Z.mod_divide by exact Hn. apply Z.divide_opp_r. }
  now rewrite !A by lia.
Qed.

Section Multiples.
  Variable lib : library.
  Hypothesis Hlib : accurate lib.
  Notation Y := (doubleSys lib 1000).
  Variable r : env.
  Hypothesis Hr : posEnv r.

  Lemma below z : 0 <= z < 48 -> nice z = true -> ge2 Y (mult z) = false.
  Proof.
    intros B N. pose proof (grid_below lib 1000) as G. rewrite forallb_forall in G. specialize (G _ (nice_grid z B N)). now destruct (ge2 Y (mult z)).
  Qed.
  Lemma beyond z i : 0 <= z < 48 -> nice z = true -> (1 <= i)%nat -> z + 48 * Z.of_nat i < 2 ^ 300 -> ge2 Y (up (mult z) i) = true.
  Proof.
    intros B N Hi L. rewrite up_mult. destruct (Z.eq_dec (z + 48 * Z.of_nat i) 48) as [E|E].
    - rewrite E. change (mult 48) with 2%Q. apply ge_two.
    - apply above; [exact Hlib|apply mult_canon|apply mult_modest; lia|]. rewrite mult_R.
      assert (49 <= z + 48 * Z.of_nat i) as H by lia. apply IZR_le in H. lra.
  Qed.

  Section Big.
    Variables (F k : nat).
    Hypotheses (HF : (40 <= F)%nat) (Hk : (40 <= k)%nat).
    Notation W := (world Y F k).
    (** Loops of the sine's argument. *)
    Lemma loop z : 0 <= z < 2 ^ 300 -> nice z = true -> (Z.to_nat (z / 48) < F)%nat -> forall cosine,
      simplSinCos Y W F cosine (piE (mult z)) = if cosine then numCos Y W F (piE (mult (z mod 48))) else numSin Y W (piE (mult (z mod 48))).
    Proof.
      intros B N L cosine. pose proof (Z.mod_pos_bound z 48 ltac:(lia)) as M. pose proof (Z.div_mod z 48 ltac:(lia)) as D. assert (0 <= z / 48) by (apply Z.div_pos; lia).
      assert (N' : nice (z mod 48) = true) by (rewrite nice_mod; exact N).
      set (j := Z.to_nat (z / 48)) in *. assert (J : Z.of_nat j = z / 48) by (apply Z2Nat.id; lia).
      assert (E : mult z = up (mult (z mod 48)) j) by (rewrite up_mult; f_equal; lia).
      replace F with (S j + (F - S j))%nat by lia. rewrite E.
      replace (world Y (S j + (F - S j)) k) with W by (f_equal; lia).
      apply r_simpl; try lia; [apply mult_canon| |apply below; lia || assumption|intros i Hi; apply beyond; lia || assumption].
      rewrite mult_val. unfold Qle. cbn [Qnum Qden]. lia.
    Qed.
    Lemma cosine_is z : 0 <= z < 48 -> nice z = true -> numCos Y W F (piE (mult z)) = numSin Y W (piE (mult ((z + 12) mod 48))).
    Proof.
      intros B N. pose proof (Z.mod_pos_bound (z + 12) 48 ltac:(lia)) as M. pose proof (Z.div_mod (z + 12) 48 ltac:(lia)) as D.
      assert (0 <= (z + 12) / 48) by (apply Z.div_pos; lia). assert ((z + 12) / 48 < 2) by (apply Z.div_lt_upper_bound; lia).
      assert (N' : nice ((z + 12) mod 48) = true) by (rewrite nice_mod, nice_12; exact N).
      set (j := Z.to_nat ((z + 12) / 48)) in *. assert (J : Z.of_nat j = (z + 12) / 48) by (apply Z2Nat.id; lia).
      replace F with (S j + (F - S j))%nat by lia.
      replace (world Y (S j + (F - S j)) k) with W by (f_equal; lia).
      assert (48 * 2 < 2 ^ 300) by reflexivity.
      apply r_cos; try lia; [apply mult_canon| |apply below; lia || assumption|intros i Hi; apply beyond; lia || assumption|apply mult_canon|].
      - rewrite mult_val. unfold Qle. cbn [Qnum Qden]. lia.
      - rewrite add_mult, up_mult. f_equal. lia.
    Qed.
    (** No symmetry is used for positive arguments. *)
    Lemma direct f z : 0 <= z < 2 ^ 300 -> trigCreate Y W F f (piE (mult z)) = createNumerically Y W F f (piE (mult z)).
    Proof.
      intros B. assert (S : doesSymmetryApply W (piE (mult z)) = Ok false []).
      { rewrite r_symmetry by (lia || apply mult_canon). rewrite mult_sign. destruct (Z.ltb_spec z 0); [lia|reflexivity]. }
      assert (N : numericEval Y (piE (mult z)) <> None) by (apply has_value; [exact Hlib|apply mult_canon|apply mult_modest; lia]).
      unfold trigCreate. destruct (piE (mult z)) as [q|n p|c| |g l|l|l|b x] eqn:E; rewrite ?S; cbn [bind];
        try (destruct (numericEval Y _); [destruct (createNumerically _ _ _ _ _); reflexivity|contradiction]);
        exfalso; revert E; unfold piE; destruct (qeqb (mult z) 0); try discriminate; destruct (qeqb (mult z) 1); discriminate.
    Qed.
  End Big.
  (** With bounds of 40. *)
  Lemma base z : 0 <= z < 48 -> nice z = true -> exists e l e' l', numSin Y (world Y 40 40) (piE (mult z)) = Ok (Some e) l /\ doubtful l = [] /\ noFct e = true /\
    minus (world Y 40 41) [e] = Ok e' l' /\ doubtful l' = [] /\ noFct e' = true /\ (z = 0 -> e' = Run.zero).
  Proof.
    intros B N. destruct (sqrt2_cases lib Hlib) as (m & Im & E).
    assert (O : sinOk lib m (mult z) = true).
    { pose proof (nice_grid z B N) as G. destruct Im as [<-|[<-|[]]]; [pose proof (base1 lib) as H|pose proof (base2 lib) as H]; rewrite forallb_forall in H; exact (H _ G). }
    unfold sinOk in O. rewrite E in O. cbv zeta in O.
    destruct (numSin Y (world Y 40 40) (piE (mult z))) as [[e|] l| | |]; try discriminate O. apply andb_prop in O as [O1 O2]. apply andb_prop in O1 as [O1 O3].
    destruct (minus (world Y 40 41) [e]) as [e' l'| | |] eqn:Em; try discriminate O2. apply andb_prop in O2 as [O2 O5]. apply andb_prop in O2 as [O2 O4].
    exists e, l, e', l'. repeat split; try assumption; try (destruct (doubtful l); [reflexivity|discriminate]); try (destruct (doubtful l'); [reflexivity|discriminate]).
    intros ->. change (qeqb (mult 0) 0) with true in O5. cbn [negb orb] in O5. destruct e'; try discriminate O5. cbn [isZero] in O5. apply qeqb_eq in O5. now subst.
  Qed.
  Lemma run_sin F k z e l : (40 <= F)%nat -> (40 <= k)%nat -> 0 <= z < 48 -> nice z = true -> numSin Y (world Y F k) (piE (mult z)) = Ok (Some e) l ->
    w_trig (world Y F (S k)) FSin (piE (mult z)) = Ok e l.
  Proof.
    intros HF Hk B N E. change (w_trig (world Y F (S k))) with (trigCreate Y (world Y F k) F). assert (48 < 2 ^ 300) by reflexivity. rewrite direct by lia.
    unfold createNumerically. cbn [numTrigo]. rewrite (loop F k HF Hk z) by (lia || assumption || (rewrite Z.div_small by lia; cbn; lia)).
    rewrite Z.mod_small, E by lia. cbn [bind ret]. now rewrite app_nil_r.
  Qed.
  Lemma values z : 0 <= z < 48 -> nice z = true -> exists e e', noFct e = true /\ noFct e' = true /\
    eval r e = Some (sin (IZR z / 24 * PI)) /\ eval r e' = Some (- sin (IZR z / 24 * PI))%R /\
    forall F k, (40 <= F)%nat -> (41 <= k)%nat -> exists l l', numSin Y (world Y F k) (piE (mult z)) = Ok (Some e) l /\ minus (world Y F k) [e] = Ok e' l'.
  Proof.
    intros B N. destruct (base z B N) as (e & l & e' & l' & E & D & C & E' & D' & C' & Z0). exists e, e'. split; [exact C|]. split; [exact C'|].
    assert (T : w_trig (world Y 40 41) FSin (piE (mult z)) = Ok e l) by (apply run_sin; try assumption; lia).
    assert (V : eval r e = Some (sin (IZR z / 24 * PI))).
    { rewrite <- mult_R. apply (trig_multiple Y 40 41 r Hr FSin (mult z) (piE (mult z)) [] e l); [apply mult_canon|apply r_prod; lia|exact T|apply checked_right; exact D|reflexivity]. }
    split; [exact V|]. split.
    - destruct (Z.eq_dec z 0) as [->|NZ].
      { rewrite (Z0 eq_refl). unfold Run.zero. cbn [eval]. replace (0 / 24 * PI)%R with 0%R by field. rewrite sin_0, Ropp_0. unfold Q2R. cbn. now rewrite Rmult_0_l. }
      assert (S : w_trig (world Y 40 42) FSin (piE (mult (- z))) = Ok e' (l ++ l')).
      { change (w_trig (world Y 40 42)) with (trigCreate Y (world Y 40 41) 40).
        assert (A : doesSymmetryApply (world Y 40 41) (piE (mult (- z))) = Ok true []).
        { rewrite r_symmetry by (lia || apply mult_canon). rewrite mult_sign. destruct (Z.ltb_spec (- z) 0); [reflexivity|lia]. }
        assert (Q : bySymmetry (world Y 40 41) true FSin (piE (mult (- z))) = Ok e' (l ++ l')).
        { unfold bySymmetry. rewrite r_minus by (lia || apply mult_canon). cbn [bind]. rewrite neg_mult, Z.opp_involutive, T. cbn [bind]. rewrite E'. cbn [bind app]. reflexivity. }
        unfold trigCreate. destruct (piE (mult (- z))) as [q|n p|c| |g ll|ll|ll|b x] eqn:P; rewrite ?A; cbn [bind]; rewrite ?Q; cbn [bind app]; try reflexivity;
        exfalso; revert P; unfold piE; destruct (qeqb (mult (- z)) 0); try discriminate; destruct (qeqb (mult (- z)) 1); discriminate. }
      assert (V' : eval r e' = Some (sin (Q2R (mult (- z)) * PI))).
      { apply (trig_multiple Y 40 42 r Hr FSin (mult (- z)) (piE (mult (- z))) [] e' (l ++ l')); [apply mult_canon|apply r_prod; lia|exact S| |reflexivity].
        cbn [app]. apply checked_right. unfold doubtful in *. rewrite filter_app, D, D'. reflexivity. }
      rewrite V', mult_R. f_equal. rewrite opp_IZR. rewrite <- sin_neg. f_equal. field.
    - intros F k HF Hk. pose proof (m_numSin Y _ _ (world_mono Y 40 F 40 k HF ltac:(lia)) (piE (mult z))) as M1. rewrite E in M1. destruct M1 as [l1 M1].
      pose proof (m_minus _ _ (world_mono Y 40 F 41 k HF Hk) [e]) as M2. rewrite E' in M2. destruct M2 as [l2 M2]. exists l1, l2. now split.
  Qed.
  (** Nonnegative multiples. *)
  Lemma positive f z : In f [FSin; FCos] -> 0 <= z < 2 ^ 300 -> nice z = true -> exists e e', noFct e = true /\ noFct e' = true /\
    (let v := match f with FSin => sin | _ => cos end (IZR z / 24 * PI)%R in eval r e = Some v /\ eval r e' = Some (- v)%R) /\
    forall F k, (40 <= F)%nat -> (41 <= k)%nat -> (Z.to_nat (z / 48) < F)%nat ->
      (exists l, w_trig (world Y F (S k)) f (piE (mult z)) = Ok e l) /\ exists l', minus (world Y F k) [e] = Ok e' l'.
  Proof.
    intros If B N. pose proof (Z.mod_pos_bound z 48 ltac:(lia)) as M. pose proof (Z.div_mod z 48 ltac:(lia)) as D.
    assert (N' : nice (z mod 48) = true) by (rewrite nice_mod; exact N).
    set (s := match f with FSin => z mod 48 | _ => (z mod 48 + 12) mod 48 end).
    assert (Sb : 0 <= s < 48 /\ nice s = true).
    { unfold s. destruct If as [<-|[<-|[]]]; [now split|]. split; [apply Z.mod_pos_bound; lia|]. rewrite nice_mod, nice_12. exact N'. }
    destruct (values s (proj1 Sb) (proj2 Sb)) as (e & e' & C & C' & V & V' & R). exists e, e'. split; [exact C|]. split; [exact C'|]. split.
    - assert (X : match f with FSin => sin | _ => cos end (IZR z / 24 * PI)%R = sin (IZR s / 24 * PI)).
      { assert (per : forall x i, 0 <= i -> sin (x + IZR i * (2 * PI)) = sin x).
        { intros x i Hi. rewrite <- (sin_period x (Z.to_nat i)). rewrite INR_IZR_INZ, Z2Nat.id by lia. f_equal. ring. }
        assert (0 <= z / 48) by (apply Z.div_pos; lia). unfold s. destruct If as [<-|[<-|[]]].
        - rewrite <- (per (IZR (z mod 48) / 24 * PI)%R (z / 48)) by lia. f_equal. rewrite D at 1. rewrite plus_IZR, mult_IZR. field.
        - pose proof (Z.div_mod (z mod 48 + 12) 48 ltac:(lia)) as D2. assert (0 <= (z mod 48 + 12) / 48) by (apply Z.div_pos; lia).
          rewrite <- (per (IZR ((z mod 48 + 12) mod 48) / 24 * PI)%R (z / 48 + (z mod 48 + 12) / 48)) by lia. rewrite cos_sin. f_equal.
          assert (Q : IZR z = (IZR ((z mod 48 + 12) mod 48) + 48 * (IZR (z / 48) + IZR ((z mod 48 + 12) / 48)) - 12)%R).
          { rewrite <- plus_IZR, <- mult_IZR, <- plus_IZR, <- minus_IZR. f_equal. lia. }
          rewrite Q, plus_IZR. field. }
      cbv zeta. rewrite X. now split.
    - intros F k HF Hk HL. destruct (R F k HF Hk) as (l & l' & R1 & R2). split; [|now exists l'].
      exists (l ++ []). change (w_trig (world Y F (S k))) with (trigCreate Y (world Y F k) F). rewrite direct by lia. unfold createNumerically.
      assert (T : numTrigo Y (world Y F k) F f (piE (mult z)) = Ok (Some e) l).
      { unfold s in R1. destruct If as [<-|[<-|[]]]; cbn [numTrigo]; rewrite (loop F k HF ltac:(lia) z) by assumption; [exact R1|]. rewrite cosine_is by (lia || assumption). exact R1. }
      rewrite T. reflexivity.
  Qed.
  Theorem multiples f z : In f [FSin; FCos] -> Z.abs z < 2 ^ 300 -> nice z = true -> exists e, noFct e = true /\
    eval r e = Some (match f with FSin => sin | _ => cos end (IZR z / 24 * PI)%R) /\
    exists F0 k0, forall F k n, (F0 <= F)%nat -> (k0 <= k)%nat ->
      exists facts, build (world Y F k) n (TTrig f (TMul (TFrac z 24) (TConst CPi))) = Ok e facts.
  Proof.
    intros If B N.
    assert (P : exists e, noFct e = true /\ eval r e = Some (match f with FSin => sin | _ => cos end (IZR z / 24 * PI)%R) /\
      exists F0 k0, (10 <= F0)%nat /\ (2 <= k0)%nat /\ exists l, w_trig (world Y F0 k0) f (piE (mult z)) = Ok e l).
    { destruct (Z_lt_le_dec z 0) as [L|L].
      - destruct (positive f (- z) If ltac:(lia) ltac:(rewrite nice_opp; exact N)) as (e & e' & C & C' & [V V'] & R).
        set (F := (41 + Z.to_nat (- z / 48))%nat).
        assert (R0 : (exists l, w_trig (world Y F 42) f (piE (mult (- z))) = Ok e l) /\ (exists l', minus (world Y F 42) [e] = Ok e' l')).
        { split; [apply (proj1 (R F 41%nat ltac:(unfold F; lia) ltac:(lia) ltac:(unfold F; lia)))|apply (proj2 (R F 42%nat ltac:(unfold F; lia) ltac:(lia) ltac:(unfold F; lia)))]. }
        destruct R0 as [[l R1] [l' R2]].
        assert (A : doesSymmetryApply (world Y F 42) (piE (mult z)) = Ok true []).
        { rewrite r_symmetry by (unfold F; lia || apply mult_canon). rewrite mult_sign. destruct (Z.ltb_spec z 0); [reflexivity|lia]. }
        assert (Q : exists g, bySymmetry (world Y F 42) true f (piE (mult z)) = Ok (match f with FSin => e' | _ => e end) g).
        { unfold bySymmetry. rewrite r_minus by (unfold F; lia || apply mult_canon). cbn [bind]. rewrite neg_mult, R1. cbn [bind]. destruct If as [<-|[<-|[]]]; [rewrite R2|]; cbn [bind ret]; eexists; reflexivity. }
        destruct Q as [g Q]. exists (match f with FSin => e' | _ => e end). split; [now destruct If as [<-|[<-|[]]]|]. split.
        + destruct If as [<-|[<-|[]]]; [rewrite V'|rewrite V]; f_equal; rewrite opp_IZR; [rewrite <- sin_neg|rewrite <- cos_neg]; f_equal; field.
        + exists F, 43%nat. split; [unfold F; lia|]. split; [lia|]. exists g. change (w_trig (world Y F 43)) with (trigCreate Y (world Y F 42) F).
          unfold trigCreate. destruct (piE (mult z)) as [q|n p|c| |g1 ll|ll|ll|b x] eqn:Pz; rewrite ?A; cbn [bind]; rewrite ?Q; cbn [bind app]; try reflexivity;
          exfalso; revert Pz; unfold piE; destruct (qeqb (mult z) 0); try discriminate; destruct (qeqb (mult z) 1); discriminate.
      - destruct (positive f z If ltac:(lia) N) as (e & e' & C & C' & [V V'] & R). exists e. split; [exact C|]. split; [exact V|].
        exists (41 + Z.to_nat (z / 48))%nat, 42%nat. split; [lia|]. split; [lia|]. apply R; lia. }
    destruct P as (e & C & V & F0 & k0 & HF & Hk & l & E). exists e. split; [exact C|]. split; [exact V|]. exists F0, k0. intros F k n L1 L2.
    pose proof (o_trig _ _ (world_mono Y F0 F k0 k L1 L2) f (piE (mult z))) as M. rewrite E in M. destruct M as [l' M].
    cbn [build mkRat bind ret varMul]. unfold varMul. change (Qred (z # 24)) with (mult z). rewrite (r_prod Y F k) by lia. cbn [bind app]. rewrite M. cbn [bind]. eexists. reflexivity.
  Qed.
End Multiples.
(** Eighths and twelfths. *)
Theorem eighths_twelfths lib r f a b : accurate lib -> posEnv r -> In f [FSin; FCos] -> b = 8 \/ b = 12 -> Z.abs a < 2 ^ 290 -> exists e, noFct e = true /\
  eval r e = Some (match f with FSin => sin | _ => cos end (IZR a / IZR b * PI)%R) /\
  exists F0 k0, forall F k n, (F0 <= F)%nat -> (k0 <= k)%nat ->
    exists facts, build (world (doubleSys lib 1000) F k) n (TTrig f (TMul (TFrac a b) (TConst CPi))) = Ok e facts.
Proof.
  intros Hl Hr If Hb B. set (c := match b with 8 => 3 | _ => 2 end). assert (Hc : c = 3 /\ b = 8 \/ c = 2 /\ b = 12) by (unfold c; destruct Hb as [->| ->]; [left|right]; split; reflexivity).
  assert (2 ^ 290 * 3 < 2 ^ 300) by reflexivity.
  destruct (multiples lib Hl r Hr f (a * c) If) as (e & C & V & F0 & k0 & R); [destruct Hc as [[-> _]|[-> _]]; lia| |].
  { unfold nice. destruct Hc as [[-> _]|[-> _]]; rewrite Z_mod_mult; cbn [Z.eqb orb]; [apply orb_true_r|reflexivity]. }
  exists e. split; [exact C|]. split.
  - rewrite V. do 2 f_equal. destruct Hc as [[-> ->]|[-> ->]]; rewrite mult_IZR; field.
  - exists F0, k0. intros F k n H1 H2. destruct (R F k n H1 H2) as [facts E]. exists facts. rewrite <- E. cbn [build].
    assert (M : mkRat a b = mkRat (a * c) 24).
    { destruct Hc as [[-> ->]|[-> ->]]; cbn [mkRat]; f_equal; apply Qred_complete; unfold Qeq; cbn [Qnum Qden]; lia. }
    now rewrite M.
Qed.
