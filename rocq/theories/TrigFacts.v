(** Facts about the trigonometric functions of real numbers. *)
From Verif Require Export Sem.
From Coq Require Import Lra Lia.
Open Scope R_scope.

Lemma rpow_half v : 0 <= v -> rpow v (/ 2) = Some (sqrt v).
Proof.
  intros [H| <-].
  - rewrite rpow_pos by assumption. f_equal. now apply Rpower_sqrt.
  - rewrite rpow_0_pos by lra. now rewrite sqrt_0.
Qed.
Lemma rpow_half_inv v w : rpow v (/ 2) = Some w -> 0 <= v /\ w = sqrt v.
Proof.
  intros H. assert (Hv : 0 <= v).
  { apply (rpow_nonint_base v (/ 2) w); [|assumption]. intros z E.
    assert (E2 : IZR (2 * z) = IZR 1) by (rewrite mult_IZR, <- E; lra). apply eq_IZR in E2. lia. }
  split; [assumption|]. rewrite rpow_half in H by assumption. congruence.
Qed.

Lemma sqrt_unique_pos x y : 0 <= y -> y * y = x -> y = sqrt x.
Proof. intros Hy <-. now rewrite sqrt_square. Qed.

Lemma s2_sq : sqrt 2 * sqrt 2 = 2. Proof. apply sqrt_sqrt. lra. Qed.
Lemma s3_sq : sqrt 3 * sqrt 3 = 3. Proof. apply sqrt_sqrt. lra. Qed.
Lemma s6_eq : sqrt 6 = sqrt 2 * sqrt 3.
Proof. rewrite <- sqrt_mult by lra. f_equal; lra. Qed.
Lemma s2_pos : 0 < sqrt 2. Proof. apply sqrt_lt_R0. lra. Qed.
Lemma s3_pos : 0 < sqrt 3. Proof. apply sqrt_lt_R0. lra. Qed.
Lemma s2_gt1 : 1 < sqrt 2. Proof. rewrite <- sqrt_1 at 1. apply sqrt_lt_1; lra. Qed.
Lemma s2_lt2 : sqrt 2 < 2. Proof. pose proof s2_sq. pose proof s2_gt1. nra. Qed.
Lemma inv_s2 : / sqrt 2 = sqrt 2 / 2.
Proof. pose proof s2_sq. pose proof s2_pos. apply Rmult_eq_reg_l with (sqrt 2); [|lra]. rewrite Rinv_r by lra. lra. Qed.
Lemma inv_s3 : / sqrt 3 = sqrt 3 / 3.
Proof. pose proof s3_sq. pose proof s3_pos. apply Rmult_eq_reg_l with (sqrt 3); [|lra]. rewrite Rinv_r by lra. lra. Qed.

Lemma sin_PI4' : sin (PI / 4) = sqrt 2 / 2.
Proof. rewrite sin_PI4, <- inv_s2. lra. Qed.
Lemma cos_PI4' : cos (PI / 4) = sqrt 2 / 2.
Proof. rewrite cos_PI4, <- inv_s2. lra. Qed.

Lemma sin_PI12 : sin (PI / 12) = 1 / 4 * (sqrt 6 - sqrt 2).
Proof.
  replace (PI / 12) with (PI / 3 - PI / 4) by field. rewrite sin_minus, sin_PI3, cos_PI3, sin_PI4', cos_PI4', s6_eq. field.
Qed.
Lemma cos_PI12 : cos (PI / 12) = 1 / 4 * (sqrt 6 + sqrt 2).
Proof.
  replace (PI / 12) with (PI / 3 - PI / 4) by field. rewrite cos_minus, sin_PI3, cos_PI3, sin_PI4', cos_PI4', s6_eq. field.
Qed.
Lemma sin_5PI12 : sin (5 * (PI / 12)) = 1 / 4 * (sqrt 6 + sqrt 2).
Proof. replace (5 * (PI / 12)) with (PI / 2 - PI / 12) by field. now rewrite sin_shift, cos_PI12. Qed.
Lemma cos_5PI12 : cos (5 * (PI / 12)) = 1 / 4 * (sqrt 6 - sqrt 2).
Proof. replace (5 * (PI / 12)) with (PI / 2 - PI / 12) by field. now rewrite cos_shift, sin_PI12. Qed.
Lemma sin_PI8 : sin (PI / 8) = 1 / 2 * sqrt (2 - sqrt 2).
Proof.
  pose proof PI_RGT_0. pose proof s2_lt2.
  assert (Hs : 0 < sin (PI / 8)) by (apply sin_gt_0; lra).
  assert (Hc : 1 - 2 * sin (PI / 8) * sin (PI / 8) = sqrt 2 / 2).
  { rewrite <- cos_2a_sin, <- cos_PI4'. f_equal. field. }
  assert (E : 2 * sin (PI / 8) = sqrt (2 - sqrt 2)).
  { apply sqrt_unique_pos; [lra|]. nra. }
  lra.
Qed.
Lemma cos_PI8 : cos (PI / 8) = 1 / 2 * sqrt (2 + sqrt 2).
Proof.
  pose proof PI_RGT_0. pose proof s2_pos.
  assert (Hs : 0 < cos (PI / 8)) by (apply cos_gt_0; lra).
  assert (Hc : 2 * cos (PI / 8) * cos (PI / 8) - 1 = sqrt 2 / 2).
  { rewrite <- cos_2a_cos, <- cos_PI4'. f_equal. field. }
  assert (E : 2 * cos (PI / 8) = sqrt (2 + sqrt 2)).
  { apply sqrt_unique_pos; [lra|]. nra. }
  lra.
Qed.
Lemma sin_3PI8 : sin (3 * (PI / 8)) = 1 / 2 * sqrt (2 + sqrt 2).
Proof. replace (3 * (PI / 8)) with (PI / 2 - PI / 8) by field. now rewrite sin_shift, cos_PI8. Qed.
Lemma cos_3PI8 : cos (3 * (PI / 8)) = sin (PI / 8).
Proof. replace (3 * (PI / 8)) with (PI / 2 - PI / 8) by field. now rewrite cos_shift. Qed.

Lemma tan_of s c t : c <> 0 -> s = t * c -> s / c = t.
Proof. intros Hc ->. field. assumption. Qed.

Lemma tan_PI12 : tan (PI / 12) = 2 + - sqrt 3.
Proof.
  pose proof s2_pos. pose proof s3_pos. pose proof s3_sq.
  unfold tan. apply tan_of; rewrite cos_PI12, ?sin_PI12, s6_eq; nra.
Qed.
Lemma tan_5PI12 : tan (5 * (PI / 12)) = 2 + sqrt 3.
Proof.
  pose proof s2_pos. pose proof s3_pos. pose proof s3_sq. assert (1 < sqrt 3) by nra.
  unfold tan. apply tan_of; rewrite cos_5PI12, ?sin_5PI12, s6_eq; nra.
Qed.
Lemma tan_PI8 : tan (PI / 8) = sqrt 2 + -1.
Proof.
  pose proof PI_RGT_0. pose proof s2_sq. pose proof s2_gt1.
  assert (Hc : 0 < cos (PI / 8)) by (apply cos_gt_0; lra).
  assert (Hs : 0 < sin (PI / 8)) by (apply sin_gt_0; lra).
  assert (E : 2 * sin (PI / 8) * cos (PI / 8) = cos (PI / 8) * cos (PI / 8) - sin (PI / 8) * sin (PI / 8)).
  { rewrite <- sin_2a, <- cos_2a. replace (2 * (PI / 8)) with (PI / 4) by field. now rewrite sin_PI4', cos_PI4'. }
  unfold tan. apply tan_of; [lra|].
  set (s := sin (PI / 8)) in *. set (c := cos (PI / 8)) in *.
  assert (F : (s + c) * (s + c) = (sqrt 2 * c) * (sqrt 2 * c)) by nra.
  assert (s + c = sqrt 2 * c).
  { apply Rsqr_inj; [lra| |exact F]. apply Rmult_le_pos; lra. }
  lra.
Qed.
Lemma tan_3PI8 : tan (3 * (PI / 8)) = sqrt 2 + 1.
Proof.
  pose proof PI_RGT_0. pose proof s2_sq. pose proof s2_gt1.
  assert (Hs : 0 < sin (PI / 8)) by (apply sin_gt_0; lra).
  unfold tan. rewrite cos_3PI8. apply tan_of; [lra|].
  replace (sin (3 * (PI / 8))) with (cos (PI / 8)) by (rewrite sin_3PI8, cos_PI8; reflexivity).
  pose proof tan_PI8 as T. unfold tan in T.
  assert (Hc : 0 < cos (PI / 8)) by (apply cos_gt_0; lra).
  assert (E : sin (PI / 8) = (sqrt 2 + -1) * cos (PI / 8)).
  { rewrite <- T. field. lra. }
  rewrite E. nra.
Qed.
Lemma tan_PI6' : tan (PI / 6) = / sqrt 3.
Proof. rewrite tan_PI6. lra. Qed.

Lemma cos_first_pos t : 0 <= t < PI / 2 -> 0 < cos t.
Proof. intros. pose proof PI_RGT_0. apply cos_gt_0; lra. Qed.

(** ** Periods *)

Lemma sin_turn x : sin (x + 2 * PI) = sin x.
Proof. pose proof (sin_period x 1) as E. replace (2 * INR 1 * PI) with (2 * PI) in E by (simpl; ring). exact E. Qed.
Lemma cos_turn x : cos (x + 2 * PI) = cos x.
Proof. pose proof (cos_period x 1) as E. replace (2 * INR 1 * PI) with (2 * PI) in E by (simpl; ring). exact E. Qed.
Lemma sin_turn' x : sin (x + - (2 * PI)) = sin x.
Proof. rewrite <- (sin_turn (x + - (2 * PI))). f_equal. ring. Qed.
Lemma cos_turn' x : cos (x + - (2 * PI)) = cos x.
Proof. rewrite <- (cos_turn (x + - (2 * PI))). f_equal. ring. Qed.

(** Same point on the unit circle. *)
Definition sameAngle (a b : R) : Prop := sin a = sin b /\ cos a = cos b.

Lemma sameAngle_refl a : sameAngle a a. Proof. now split. Qed.
Lemma sameAngle_trans a b c : sameAngle a b -> sameAngle b c -> sameAngle a c.
Proof. unfold sameAngle. intuition congruence. Qed.
Lemma sameAngle_up a b : sameAngle a b -> sameAngle a (b + 2 * PI).
Proof. unfold sameAngle. now rewrite sin_turn, cos_turn. Qed.
Lemma sameAngle_down a b : sameAngle a b -> sameAngle a (b + - (2 * PI)).
Proof. unfold sameAngle. now rewrite sin_turn', cos_turn'. Qed.
Lemma sameAngle_tan a b : sameAngle a b -> fct1 FTan a = fct1 FTan b.
Proof. intros [Es Ec]. cbn. unfold tan. now rewrite Es, Ec. Qed.

(** ** Inverse functions *)

Lemma asin_of t v : - (PI / 2) <= t <= PI / 2 -> sin t = v -> fct1 FAsin v = Some t.
Proof.
  intros Ht <-. pose proof (SIN_bound t). cbn. destruct (Rle_dec _ _); [|lra]. destruct (Rle_dec _ _); [|lra].
  f_equal. apply asin_sin. lra.
Qed.
Lemma acos_of t v : 0 <= t <= PI -> cos t = v -> fct1 FAcos v = Some t.
Proof.
  intros Ht <-. pose proof (COS_bound t). cbn. destruct (Rle_dec _ _); [|lra]. destruct (Rle_dec _ _); [|lra].
  f_equal. apply acos_cos. lra.
Qed.
Lemma fct1_asin x v : fct1 FAsin x = Some v -> -1 <= x <= 1 /\ v = asin x.
Proof. cbn. destruct (Rle_dec _ _); [|discriminate]. destruct (Rle_dec _ _); [|discriminate]. intros E. injection E as <-. lra. Qed.
Lemma fct1_acos x v : fct1 FAcos x = Some v -> -1 <= x <= 1 /\ v = acos x.
Proof. cbn. destruct (Rle_dec _ _); [|discriminate]. destruct (Rle_dec _ _); [|discriminate]. intros E. injection E as <-. lra. Qed.
Lemma fct1_tan x v : fct1 FTan x = Some v -> cos x <> 0 /\ v = tan x.
Proof. cbn. destruct (Req_EM_T _ _); [discriminate|]. intros E. injection E as <-. auto. Qed.
Lemma tan_some x : cos x <> 0 -> fct1 FTan x = Some (tan x).
Proof. intros. cbn. destruct (Req_EM_T _ _); [contradiction|reflexivity]. Qed.
Lemma fct1_log x v : fct1 FLog x = Some v -> 0 < x /\ v = ln x.
Proof. cbn. destruct (Rlt_dec _ _); [|discriminate]. intros E. injection E as <-. auto. Qed.

Lemma asin_neg x v : fct1 FAsin x = Some v -> fct1 FAsin (- x) = Some (- v).
Proof.
  intros E. apply fct1_asin in E as [Hx ->]. pose proof (asin_bound x). apply asin_of; [lra|].
  rewrite sin_neg, sin_asin; lra.
Qed.
Lemma acos_neg x v : fct1 FAcos x = Some v -> fct1 FAcos (- x) = Some (PI - v).
Proof.
  intros E. apply fct1_acos in E as [Hx ->]. pose proof (acos_bound x). apply acos_of; [lra|].
  rewrite cos_minus, cos_acos, sin_PI, cos_PI by lra. ring.
Qed.
Lemma acos_from_asin x v : fct1 FAsin x = Some v -> fct1 FAcos x = Some (PI / 2 - v).
Proof.
  intros E. apply fct1_asin in E as [Hx ->]. pose proof (asin_bound x). apply acos_of; [lra|].
  rewrite cos_shift, sin_asin; lra.
Qed.

Lemma sin_acos' x : -1 <= x <= 1 -> sin (acos x) = sqrt (1 - x * x).
Proof. intros. rewrite sin_acos by assumption. f_equal. Qed.
Lemma cos_asin' x : -1 <= x <= 1 -> cos (asin x) = sqrt (1 - x * x).
Proof. intros. rewrite cos_asin by assumption. f_equal. Qed.
Lemma one_sq_pos x : 0 < 1 + x * x. Proof. nra. Qed.
Lemma cos_atan' x : cos (atan x) = / sqrt (1 + x * x).
Proof. rewrite cos_atan. unfold Rsqr. field_simplify_eq; [reflexivity|]; apply Rgt_not_eq, sqrt_lt_R0, one_sq_pos. Qed.
Lemma sin_atan' x : sin (atan x) = x * / sqrt (1 + x * x).
Proof. rewrite sin_atan. unfold Rsqr. reflexivity. Qed.

(** ** The angle of a point *)

Lemma angle_cos y x a : angle y x = Some a ->
  0 < x * x + y * y /\ cos a = x / sqrt (x * x + y * y) /\ sin a = y / sqrt (x * x + y * y) /\ 0 <= a < 2 * PI.
Proof.
  pose proof PI_RGT_0. unfold angle. destruct (Req_EM_T x 0) as [->|Hx].
  { destruct (Req_EM_T y 0) as [|Hy]; [discriminate|]. intros E. injection E as <-.
    assert (0 < y * y) by nra. replace (0 * 0 + y * y) with (y * y) by ring. split; [assumption|].
    replace (0 / sqrt (y * y)) with 0 by (unfold Rdiv; ring).
    destruct (Rlt_dec 0 y).
    - rewrite sqrt_square by lra. rewrite cos_PI2, sin_PI2. repeat split; try lra. field. assumption.
    - replace (y * y) with ((- y) * (- y)) by ring. rewrite sqrt_square by lra.
      rewrite cos_3PI2, sin_3PI2. repeat split; try lra. field. lra. }
  intros E. set (d := sqrt (x * x + y * y)) in *. set (c := x / d) in *.
  assert (Hp : 0 < x * x + y * y) by nra. assert (Hd : 0 < d) by now apply sqrt_lt_R0.
  assert (Hdd : d * d = x * x + y * y) by (apply sqrt_sqrt; lra).
  assert (Hc : c * c + (y / d) * (y / d) = 1).
  { unfold c. apply Rmult_eq_reg_r with (d * d); [|nra]. rewrite Rmult_plus_distr_r. field_simplify; [lra|lra]. }
  assert (Hb : -1 <= c <= 1) by nra.
  pose proof (acos_bound c) as Ha.
  assert (Hs : sin (acos c) = sqrt ((y / d) * (y / d))).
  { rewrite sin_acos' by assumption. f_equal. lra. }
  split; [assumption|]. destruct (Rle_dec 0 y) as [Hy|Hy]; injection E as <-.
  - rewrite cos_acos by assumption. rewrite Hs, sqrt_square; [repeat split; lra|].
    apply Rmult_le_pos; [assumption|]. left. now apply Rinv_0_lt_compat.
  - rewrite cos_minus, sin_minus, cos_2PI, sin_2PI, cos_acos by assumption. rewrite Hs.
    replace (y / d * (y / d)) with (((- y) / d) * ((- y) / d)) by (field; lra).
    assert (Hn : 0 < - y / d) by (apply Rmult_lt_0_compat; [lra|now apply Rinv_0_lt_compat]).
    rewrite sqrt_square by lra. repeat split; try lra.
    + assert (acos c <> 0); [|lra]. intros E0.
      assert (Hs0 : sin (acos c) = 0) by now rewrite E0, sin_0.
      rewrite Hs in Hs0. replace (y / d * (y / d)) with (((- y) / d) * ((- y) / d)) in Hs0 by (field; lra).
      rewrite sqrt_square in Hs0; lra.
Qed.

Lemma sin_eq_cos_eq a b : 0 <= a < 2 * PI -> 0 <= b < 2 * PI -> cos a = cos b -> sin a = sin b -> a = b.
Proof.
  pose proof PI_RGT_0. intros Ha Hb Ec Es.
  assert (Hd : cos (a - b) = 1).
  { rewrite cos_minus, Ec, Es. pose proof (sin2_cos2 b). unfold Rsqr in *. lra. }
  assert (Hz : sin ((a - b) / 2) = 0).
  { replace (a - b) with (2 * ((a - b) / 2)) in Hd by field. rewrite cos_2a_sin in Hd. nra. }
  destruct (Rtotal_order ((a - b) / 2) 0) as [Hc|[Hc|Hc]].
  - assert (0 < sin (- ((a - b) / 2))) by (apply sin_gt_0; lra). rewrite sin_neg in *. lra.
  - lra.
  - assert (0 < sin ((a - b) / 2)) by (apply sin_gt_0; lra). lra.
Qed.

(** Characterisation of the angle. *)
Lemma angle_unique y x a : 0 < x * x + y * y -> 0 <= a < 2 * PI ->
  cos a = x / sqrt (x * x + y * y) -> sin a = y / sqrt (x * x + y * y) -> angle y x = Some a.
Proof.
  intros Hp Ha Ec Es. destruct (angle y x) as [b|] eqn:E.
  - apply angle_cos in E as (_ & Ecb & Esb & Hb). f_equal. apply sin_eq_cos_eq; congruence.
  - exfalso. unfold angle in E. destruct (Req_EM_T x 0) as [->|]; [|discriminate].
    destruct (Req_EM_T y 0) as [->|]; [|discriminate]. lra.
Qed.

Lemma tan_angle y x a v : angle y x = Some a -> fct1 FTan a = Some v -> x <> 0 /\ v = y * / x.
Proof.
  intros E Et. apply angle_cos in E as (Hp & Ec & Es & _). apply fct1_tan in Et as [Hc ->].
  assert (Hd : 0 < sqrt (x * x + y * y)) by now apply sqrt_lt_R0.
  assert (Hx : x <> 0). { intros ->. apply Hc. rewrite Ec. unfold Rdiv. ring. }
  split; [assumption|]. unfold tan. rewrite Ec, Es. field. split; lra.
Qed.

(** The angle by the arc tangent. *)
Lemma atan_sin_cos y x : x <> 0 -> 
  cos (atan (y * / x)) = Rabs x / sqrt (x * x + y * y) /\ sin (atan (y * / x)) = (y * / x) * (Rabs x / sqrt (x * x + y * y)).
Proof.
  intros Hx. rewrite cos_atan', sin_atan'.
  assert (E : sqrt (1 + y * / x * (y * / x)) = sqrt (x * x + y * y) / Rabs x).
  { replace (1 + y * / x * (y * / x)) with ((x * x + y * y) / (x * x)) by (field; lra).
    rewrite sqrt_div by nra. f_equal. apply (sqrt_Rsqr_abs x). }
  rewrite E. assert (Hd : 0 < sqrt (x * x + y * y)) by (apply sqrt_lt_R0; nra).
  assert (Ha : Rabs x <> 0) by now apply Rabs_no_R0.
  split; [field; split; lra|]. rewrite Rinv_div. reflexivity.
Qed.
