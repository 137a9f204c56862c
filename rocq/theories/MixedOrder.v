(** Comparisons of numbers that may hold doubles. *)
From Verif Require Import DoubleModel DoubleExact MixedModel MixedSpec DoubleOps FractionProofs MixedProofs MixedBounds NumberProofs NumberSpec NumberWitness.
Require Import Flocq.Core.Core Flocq.IEEE754.BinarySingleNaN Flocq.Prop.Relative.
From Coq Require Import Lia Lra Reals Qreals.
Open Scope R_scope.
#[local] Existing Instance Hprec.
#[local] Existing Instance Hmax.

(** ** operator< *)
Definition rank (x : spec_float) : R :=
  match x with S754_infinity s => if s then - bpow radix2 1024 else bpow radix2 1024 | _ => doubleValue x end.
Lemma valid_toDouble a : proper a -> valid_binary 53 1024 (toDouble a) = true.
Proof.
  destruct a as [q|x]; cbn [proper toDouble]; intros H; [|apply H]. rewrite dRat_equiv. apply (valid_binary_B2SF prec emax).
Qed.
Lemma finite_double x : valid_binary 53 1024 x = true -> x <> S754_nan -> (exists s, x = S754_infinity s) \/ isDouble x.
Proof. intros V N. destruct x as [s|s| |s m e]; [right; now split|left; now exists s|now destruct N|right; now split]. Qed.
Lemma lt_rank x y : valid_binary 53 1024 x = true -> valid_binary 53 1024 y = true -> x <> S754_nan -> y <> S754_nan ->
  SFltb x y = Rlt_bool (rank x) (rank y).
Proof.
  intros Vx Vy Nx Ny. assert (P : 0 < bpow radix2 1024) by apply bpow_gt_0.
  assert (K : forall z, isDouble z -> rank z = doubleValue z) by (intros z [_ F]; destruct z; reflexivity || discriminate F).
  destruct (finite_double x Vx Nx) as [[s ->]|Dx], (finite_double y Vy Ny) as [[t ->]|Dy].
  - destruct s, t; cbn [rank]; [rewrite Rlt_bool_false by lra|rewrite Rlt_bool_true by lra|rewrite Rlt_bool_false by lra|rewrite Rlt_bool_false by lra]; reflexivity.
  - rewrite (K y Dy). pose proof (value_bound y Dy) as B. apply Rabs_def2 in B. cbn [rank].
    destruct s; [rewrite Rlt_bool_true by lra|rewrite Rlt_bool_false by lra]; destruct Dy as [_ F]; destruct y; reflexivity || discriminate F.
  - rewrite (K x Dx). pose proof (value_bound x Dx) as B. apply Rabs_def2 in B. cbn [rank].
    destruct t; [rewrite Rlt_bool_false by lra|rewrite Rlt_bool_true by lra]; destruct Dx as [_ F]; destruct x; reflexivity || discriminate F.
  - rewrite !K by assumption. now apply lt_value.
Qed.
Lemma numberLt_rank a b : proper a -> proper b -> toDouble a <> S754_nan -> toDouble b <> S754_nan ->
  numberLt a b = true <-> rank (toDouble a) < rank (toDouble b).
Proof.
  intros A B Na Nb. unfold numberLt. rewrite lt_rank by (assumption || now apply valid_toDouble).
  destruct (Rlt_bool_spec (rank (toDouble a)) (rank (toDouble b))) as [L|G]; split; intros H; try easy; lra.
Qed.
Lemma numberLt_weak : strictWeak (fun n => proper n /\ toDouble n <> S754_nan) (fun a b => numberLt a b = true).
Proof.
  repeat split.
  - intros a [A N] H. apply numberLt_rank in H; [lra|assumption..].
  - intros a b c [A Na] [B Nb] [C Nc] H1 H2. apply numberLt_rank in H1; [|assumption..]. apply numberLt_rank in H2; [|assumption..].
    apply numberLt_rank; [assumption..|lra].
  - intros a b c [A Na] [B Nb] [C Nc] H. apply numberLt_rank in H; [|assumption..].
    destruct (Rlt_or_le (rank (toDouble a)) (rank (toDouble b))) as [L|G]; [left|right]; (apply numberLt_rank; [assumption..|lra]).
Qed.
Lemma toDouble_value a : proper a -> moderate a -> isDouble (toDouble a) /\ doubleValue (toDouble a) = rnd (numberValue a).
Proof.
  destruct a as [q|x]; cbn [proper moderate toDouble numberValue]; intros P M.
  - destruct (bRat_value q M) as [V F]. rewrite dRat_equiv. destruct (float_is _ F) as [D W]. rewrite W, V. now split.
  - destruct P as [D N]. rewrite format_value by exact D. now split.
Qed.
Lemma numberLt_sound a b : proper a -> proper b -> moderate a -> moderate b -> numberLt a b = true -> numberValue a < numberValue b.
Proof.
  intros A B Ma Mb H. destruct (toDouble_value a A Ma) as [Da Va], (toDouble_value b B Mb) as [Db Vb]. unfold numberLt in H.
  rewrite lt_value, Va, Vb in H by assumption. destruct (Rlt_bool_spec (rnd (numberValue a)) (rnd (numberValue b))) as [L|]; [|discriminate].
  destruct (Rlt_or_le (numberValue a) (numberValue b)) as [|G]; [assumption|]. apply rnd_le in G. lra.
Qed.

(** ** operator== *)
Lemma sub_self x : isDouble x -> SFabs (sub x x) = S754_zero false.
Proof.
  intros [_ F]. destruct x as [[|]|s| |s m e]; try discriminate F; try reflexivity. cbn [SFsub]. rewrite Z.min_id.
  rewrite Z.sub_diag. reflexivity.
Qed.
Lemma sub_abs_comm x y : SFabs (sub x y) = SFabs (sub y x).
Proof.
  destruct x as [[|]|[|]| |s m e], y as [[|]|[|]| |s' m' e']; try reflexivity; try (now destruct s); try (now destruct s').
  cbn [SFsub]. rewrite (Z.min_comm e' e). set (z := (SpecFloat.cond_Zopp s _ - SpecFloat.cond_Zopp s' _)%Z).
  replace (SpecFloat.cond_Zopp s' _ - SpecFloat.cond_Zopp s _)%Z with (- z)%Z by (unfold z; lia).
  destruct (Z.eq_dec z 0) as [-> |N]; [reflexivity|]. rewrite norm_opp by exact N. now destruct (SpecFloat.binary_normalize 53 1024 z _ false).
Qed.
Definition tolUnit : spec_float := Eval vm_compute in mul (dOfZ 100) dEps.
Definition larger (l r : spec_float) : spec_float :=
  let m := if SFltb (dOfZ 1) (SFabs l) then SFabs l else dOfZ 1 in if SFltb m (SFabs r) then SFabs r else m.
Lemma areEqual_is l r : dAreEqual l r = SFltb (SFabs (sub l r)) (mul tolUnit (larger l r)).
Proof. reflexivity. Qed.
Lemma dTolUnit : isDouble tolUnit /\ doubleValue tolUnit = 100 * / 4503599627370496.
Proof.
  split; [split; vm_compute; reflexivity|]. unfold tolUnit. rewrite finite_value. unfold F2R. cbn [Fnum Fexp cond_Zopp].
  match goal with |- _ * bpow _ ?e = _ => change (bpow radix2 e) with (/ IZR (2 ^ (- e))) end. vm_compute Z.pow. lra.
Qed.
Lemma d1 : isDouble (dOfZ 1) /\ doubleValue (dOfZ 1) = 1.
Proof. apply ofZ_value; [apply rnd_int; lia|]. rewrite Rabs_pos_eq by lra. change 1 with (bpow radix2 0). apply bpow_lt. lia. Qed.
Lemma larger_value l r : isDouble l -> isDouble r -> isDouble (larger l r) /\
  doubleValue (larger l r) = Rmax (Rmax 1 (Rabs (doubleValue l))) (Rabs (doubleValue r)).
Proof.
  intros L R. destruct d1 as [D1 V1]. destruct (abs_value l L) as [DL VL], (abs_value r R) as [DR VR]. unfold larger. cbv zeta.
  set (m := if SFltb (dOfZ 1) (SFabs l) then SFabs l else dOfZ 1).
  assert (M : isDouble m /\ doubleValue m = Rmax 1 (Rabs (doubleValue l))).
  { unfold m. rewrite lt_value, V1, VL by assumption. destruct (Rlt_bool_spec 1 (Rabs (doubleValue l))) as [H|H].
    - split; [exact DL|]. rewrite VL, Rmax_right; lra.
    - split; [exact D1|]. rewrite V1, Rmax_left; lra. }
  destruct M as [DM VM]. rewrite lt_value, VR by assumption. destruct (Rlt_bool_spec (doubleValue m) (Rabs (doubleValue r))) as [H|H]; rewrite VM in H.
  - split; [exact DR|]. rewrite VR, Rmax_right; lra.
  - split; [exact DM|]. rewrite VM. symmetry. apply Rmax_left. lra.
Qed.
Lemma value_inj_pos x y : isDouble x -> isDouble y -> doubleValue x = doubleValue y -> 0 < doubleValue x -> x = y.
Proof.
  intros Dx Dy E P. destruct (is_float x Dx) as (a & -> & Va & Fa), (is_float y Dy) as (b & -> & Vb & Fb). f_equal.
  rewrite <- Va in *. rewrite <- Vb in *. apply B2R_inj; [| |exact E].
  - destruct a as [z|z| |z m' e' B']; [cbn [B2R] in P; lra|discriminate Fa|discriminate Fa|reflexivity].
  - rewrite E in P. destruct b as [z|z| |z m' e' B']; [cbn [B2R] in P; lra|discriminate Fb|discriminate Fb|reflexivity].
Qed.
Lemma larger_comm l r : isDouble l -> isDouble r -> larger l r = larger r l.
Proof.
  intros L R. destruct (larger_value l r L R) as [D V], (larger_value r l R L) as [D' V']. apply value_inj_pos; try assumption.
  - rewrite V, V'. rewrite !Rmax_assoc || idtac. rewrite (Rmax_comm (Rmax 1 (Rabs (doubleValue r)))). rewrite Rmax_assoc. f_equal. apply Rmax_comm.
  - rewrite V. apply Rlt_le_trans with 1; [lra|]. eapply Rle_trans; [apply Rmax_l|apply Rmax_l].
Qed.
Lemma areEqual_comm l r : isDouble l -> isDouble r -> dAreEqual l r = dAreEqual r l.
Proof. intros L R. now rewrite !areEqual_is, sub_abs_comm, larger_comm. Qed.
Lemma numberEq_comm a b : proper a -> proper b -> moderate a -> moderate b -> numberEq a b = numberEq b a.
Proof.
  intros A B Ma Mb. destruct (toDouble_value a A Ma) as [Da _], (toDouble_value b B Mb) as [Db _].
  destruct a as [p|x], b as [q|y]; cbn [numberEq toDouble] in *; try (now apply areEqual_comm). unfold qeqb. now rewrite Z.eqb_sym, Pos.eqb_sym.
Qed.
Lemma tol_value l r : isDouble l -> isDouble r -> Rabs (doubleValue l) <= bpow radix2 401 -> Rabs (doubleValue r) <= bpow radix2 401 ->
  isDouble (mul tolUnit (larger l r)) /\
  doubleValue (mul tolUnit (larger l r)) = rnd (100 * / 4503599627370496 * Rmax (Rmax 1 (Rabs (doubleValue l))) (Rabs (doubleValue r))).
Proof.
  intros L R BL BR. destruct (larger_value l r L R) as [D V], dTolUnit as [DT VT]. rewrite <- VT, <- V. apply mul_value; [exact DT|exact D|].
  apply bpow_mul.
  - rewrite VT, Rabs_pos_eq by lra. apply Rle_trans with (bpow radix2 0); [cbn; lra|apply bpow_le; lia].
  - rewrite V, Rabs_pos_eq by (apply Rle_trans with 1; [lra|eapply Rle_trans; [apply Rmax_l|apply Rmax_l]]).
    apply Rmax_lub; [apply Rmax_lub|]; [|exact BL|exact BR]. change 1 with (bpow radix2 0). apply bpow_le. lia.
Qed.
Lemma numberEq_refl a : proper a -> moderate a -> numberEq a a = true.
Proof.
  intros A M. destruct (toDouble_close a A M) as (D & _ & B). destruct a as [q|x]; cbn [numberEq toDouble] in *.
  - unfold qeqb. now rewrite Z.eqb_refl, Pos.eqb_refl.
  - rewrite areEqual_is, sub_self by exact D. destruct (tol_value x x D D B B) as [DT VT].
    rewrite lt_value, VT; [|now split|exact DT]. apply Rlt_bool_true. change (doubleValue (S754_zero false)) with 0.
    set (m := Rmax _ _). assert (1 <= m) by (unfold m; eapply Rle_trans; [apply Rmax_l|apply Rmax_l]).
    apply Rlt_le_trans with (rnd (bpow radix2 (-52))).
    + destruct deps as [DE VE]. rewrite <- VE, format_value by exact DE. rewrite VE. apply bpow_gt_0.
    + apply rnd_le. change (bpow radix2 (-52)) with (/ 4503599627370496). nra.
Qed.
(** What counts as equal differs by less than 2^-45 of its size. *)
Lemma numberEq_sound a b : proper a -> proper b -> moderate a -> moderate b -> numberEq a b = true ->
  Rabs (numberValue a - numberValue b) <= bpow radix2 (-45) * (1 + Rabs (numberValue a) + Rabs (numberValue b)).
Proof.
  intros A B Ma Mb H. destruct (toDouble_close a A Ma) as (Da & Ea & Ba), (toDouble_close b B Mb) as (Db & Eb & Bb).
  replace (bpow radix2 (-45)) with (128 * / 4503599627370496) by (change (bpow radix2 (-45)) with (/ 35184372088832); lra).
  assert (K : dAreEqual (toDouble a) (toDouble b) = true ->
    Rabs (numberValue a - numberValue b) <= 128 * / 4503599627370496 * (1 + Rabs (numberValue a) + Rabs (numberValue b))).
  { clear H. intros H. rewrite areEqual_is in H. set (x := toDouble a) in *. set (y := toDouble b) in *.
    assert (F : fits (doubleValue x - doubleValue y)) by (apply (bpow_sum _ (- doubleValue y)); [exact Ba|now rewrite Rabs_Ropp]).
    destruct (sub_value x y Da Db F) as [DS VS]. destruct (abs_value _ DS) as [DA VA]. destruct (tol_value x y Da Db Ba Bb) as [DT VT].
    rewrite lt_value, VA, VS, VT in H by assumption. rewrite <- rnd_abs in H.
    set (m := Rmax _ _) in *. assert (M1 : m <= 1 + Rabs (doubleValue x) + Rabs (doubleValue y)).
    { unfold m. pose proof (Rabs_pos (doubleValue x)). pose proof (Rabs_pos (doubleValue y)). repeat apply Rmax_lub; lra. }
    destruct (Rlt_bool_spec (rnd (Rabs (doubleValue x - doubleValue y))) (rnd (100 * / 4503599627370496 * m))) as [L|]; [|discriminate].
    assert (L2 : Rabs (doubleValue x - doubleValue y) < 100 * / 4503599627370496 * m).
    { destruct (Rlt_or_le (Rabs (doubleValue x - doubleValue y)) (100 * / 4503599627370496 * m)) as [|G]; [assumption|]. apply rnd_le in G. lra. }
    replace (numberValue a - numberValue b) with ((numberValue a - doubleValue x) + ((doubleValue x - doubleValue y) + (doubleValue y - numberValue b))) by ring.
    eapply Rle_trans; [apply Rabs_triang|]. eapply Rle_trans; [apply Rplus_le_compat_l, Rabs_triang|].
    rewrite (Rabs_minus_sym (numberValue a)). pose proof (tri (doubleValue x) (numberValue a)). pose proof (tri (doubleValue y) (numberValue b)).
    pose proof (Rabs_pos (numberValue a)). pose proof (Rabs_pos (numberValue b)). lra. }
  destruct a as [p|x], b as [q|y]; try (exact (K H)). cbn [numberEq numberValue] in *. apply qeqb_value in H; [|exact A|exact B]. rewrite H.
  unfold Rminus. rewrite Rplus_opp_r, Rabs_R0. pose proof (Rabs_pos (Q2R q)). lra.
Qed.
