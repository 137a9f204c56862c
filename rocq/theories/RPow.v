(** Real powers as a partial function: the mathematical meaning of base^exponent.
    - positive base: exp(e*ln b);
    - zero base: 0 for positive exponents, 1 for exponent zero, no value otherwise;
    - negative base: integer exponents only. *)
From Coq Require Export Reals.
From Coq Require Import Lra Lia ZArith.
Open Scope R_scope.

Definition isIntR (x : R) : {z : Z | x = IZR z} + {forall z, x <> IZR z}.
Proof.
  destruct (Req_EM_T x (IZR (Int_part x))) as [H|H].
  - left. exists (Int_part x). exact H.
  - right. intros z Hz. apply H. subst x. f_equal.
    unfold Int_part. rewrite <- (tech_up (IZR z) (z + 1)); try lia.
    + rewrite plus_IZR; lra.
    + rewrite plus_IZR; lra.
Defined.

Definition rpow (b e : R) : option R :=
  match total_order_T b 0 with
  | inleft (left _) => match isIntR e with inleft (exist _ z _) => Some (powerRZ b z) | inright _ => None end
  | inleft (right _) => match total_order_T e 0 with
                        | inleft (left _) => None
                        | inleft (right _) => Some 1
                        | inright _ => Some 0
                        end
  | inright _ => Some (Rpower b e)
  end.

Lemma rpow_pos b e : 0 < b -> rpow b e = Some (Rpower b e).
Proof. intros H. unfold rpow. destruct (total_order_T b 0) as [[?|?]|?]; try lra. reflexivity. Qed.

Lemma rpow_0_pos e : 0 < e -> rpow 0 e = Some 0.
Proof.
  intros H. unfold rpow. destruct (total_order_T 0 0) as [[?|?]|?]; try lra.
  destruct (total_order_T e 0) as [[?|?]|?]; try lra. reflexivity.
Qed.

Lemma rpow_0_0 : rpow 0 0 = Some 1.
Proof.
  unfold rpow. destruct (total_order_T 0 0) as [[?|?]|?]; try lra. reflexivity.
Qed.

Lemma rpow_0_neg e : e < 0 -> rpow 0 e = None.
Proof.
  intros H. unfold rpow. destruct (total_order_T 0 0) as [[?|?]|?]; try lra.
  destruct (total_order_T e 0) as [[?|?]|?]; try lra. reflexivity.
Qed.

Lemma rpow_0_inv e v : rpow 0 e = Some v -> (0 < e /\ v = 0) \/ (e = 0 /\ v = 1).
Proof.
  intros H. destruct (total_order_T e 0) as [[Hc|Hc]|Hc].
  - rewrite rpow_0_neg in H by assumption. discriminate.
  - subst. rewrite rpow_0_0 in H. injection H as H. right. lra.
  - rewrite rpow_0_pos in H by lra. injection H as H. left. lra.
Qed.

Lemma rpow_neg b z : b < 0 -> rpow b (IZR z) = Some (powerRZ b z).
Proof.
  intros H. unfold rpow. destruct (total_order_T b 0) as [[?|?]|?]; try lra.
  destruct (isIntR (IZR z)) as [[y Hy]|n].
  - apply eq_IZR in Hy. now subst.
  - exfalso. now apply (n z).
Qed.

Lemma rpow_neg_inv b e v : b < 0 -> rpow b e = Some v -> exists z, e = IZR z /\ v = powerRZ b z.
Proof.
  intros H. unfold rpow. destruct (total_order_T b 0) as [[?|?]|?]; try lra.
  destruct (isIntR e) as [[y Hy]|n]; intros E; [|discriminate].
  injection E as <-. now exists y.
Qed.

Lemma rpow_neg_none b e : b < 0 -> (forall z, e <> IZR z) -> rpow b e = None.
Proof.
  intros H Hn. destruct (rpow b e) eqn:E; [|reflexivity].
  apply rpow_neg_inv in E as (z & Hz & _); [|assumption]. now apply Hn in Hz.
Qed.

Lemma Rpower_IZR b z : 0 < b -> Rpower b (IZR z) = powerRZ b z.
Proof. intros H. symmetry. now apply powerRZ_Rpower. Qed.

(** Integer exponents: the algebraic power. *)
Lemma rpow_int b z : b <> 0 -> rpow b (IZR z) = Some (powerRZ b z).
Proof.
  intros H. destruct (total_order_T b 0) as [[Hc|Hc]|Hc]; try lra.
  - now apply rpow_neg.
  - rewrite rpow_pos by lra. now rewrite Rpower_IZR by lra.
Qed.

Lemma rpow_nat b n : rpow b (INR n) = Some (b ^ n).
Proof.
  destruct (Req_dec b 0) as [->|H].
  - destruct n.
    + simpl. exact rpow_0_0.
    + rewrite rpow_0_pos by (apply lt_0_INR; lia). f_equal. rewrite pow_i by lia. reflexivity.
  - rewrite INR_IZR_INZ. rewrite rpow_int by assumption. now rewrite <- pow_powerRZ.
Qed.

Lemma rpow_intnn b z : (0 <= z)%Z -> rpow b (IZR z) = Some (powerRZ b z).
Proof.
  intros H. rewrite <- (Z2Nat.id z) by assumption. rewrite <- INR_IZR_INZ, rpow_nat.
  now rewrite <- pow_powerRZ.
Qed.

Lemma rpow_r1 b : rpow b 1 = Some b.
Proof. change 1 with (INR 1). rewrite rpow_nat. f_equal. ring. Qed.
Lemma rpow_r0 b : rpow b 0 = Some 1.
Proof. change 0 with (INR 0). rewrite rpow_nat. reflexivity. Qed.
Lemma rpow_l1 e : rpow 1 e = Some 1.
Proof. rewrite rpow_pos by lra. f_equal. unfold Rpower. rewrite ln_1, Rmult_0_r. apply exp_0. Qed.
Lemma rpow_r2 b : rpow b 2 = Some (b * b).
Proof. replace 2 with (INR 2) by (simpl; lra). rewrite rpow_nat. f_equal. ring. Qed.

Lemma powerRZ_1 b : powerRZ b 1 = b.
Proof. simpl. ring. Qed.
Lemma rpow_rm1 b : b <> 0 -> rpow b (-1) = Some (/ b).
Proof. intros H. rewrite (rpow_int b (-1)) by assumption. f_equal. simpl. now rewrite Rmult_1_r. Qed.
Lemma rpow_rm1_inv b v : rpow b (-1) = Some v -> b <> 0 /\ v = / b.
Proof.
  intros H. destruct (Req_dec b 0) as [->|Hb].
  - apply rpow_0_inv in H. lra.
  - rewrite rpow_rm1 in H by assumption. injection H as <-. auto.
Qed.

Lemma powerRZ_neq0 b z : b <> 0 -> powerRZ b z <> 0.
Proof. intros. now apply powerRZ_NOR. Qed.

Lemma rpow_nz b e v : b <> 0 -> rpow b e = Some v -> v <> 0.
Proof.
  intros Hb H. destruct (total_order_T b 0) as [[Hc|Hc]|Hc]; try lra.
  - apply rpow_neg_inv in H as (z & -> & ->); [|assumption]. now apply powerRZ_neq0.
  - rewrite rpow_pos in H by lra. injection H as <-. unfold Rpower. pose proof (exp_pos (e * ln b)). lra.
Qed.

Lemma rpow_gt0 b e v : 0 < b -> rpow b e = Some v -> 0 < v.
Proof. intros Hb H. rewrite rpow_pos in H by lra. injection H as <-. apply exp_pos. Qed.

Lemma rpow_ge0 b e v : 0 <= b -> rpow b e = Some v -> 0 <= v.
Proof.
  intros Hb H. destruct (Req_dec b 0) as [->|Hn].
  - apply rpow_0_inv in H. lra.
  - apply rpow_gt0 in H; lra.
Qed.

(** Sum of exponents. *)
Lemma rpow_add b x y u v :
  rpow b x = Some u -> rpow b y = Some v -> rpow b (x + y) = Some (u * v).
Proof.
  intros Hu Hv. destruct (total_order_T b 0) as [[Hc|Hc]|Hc].
  - apply rpow_neg_inv in Hu as (zu & -> & ->); [|assumption].
    apply rpow_neg_inv in Hv as (zv & -> & ->); [|assumption].
    rewrite <- plus_IZR, rpow_neg by assumption. f_equal. now apply powerRZ_add; lra.
  - subst b. apply rpow_0_inv in Hu. apply rpow_0_inv in Hv.
    destruct Hu as [[? ->]|[-> ->]]; destruct Hv as [[? ->]|[-> ->]].
    + rewrite rpow_0_pos by lra. f_equal. lra.
    + rewrite Rplus_0_r, rpow_0_pos by lra. f_equal. lra.
    + rewrite Rplus_0_l, rpow_0_pos by lra. f_equal. lra.
    + rewrite Rplus_0_r, rpow_0_0. f_equal. lra.
  - rewrite rpow_pos in * by lra. injection Hu as <-. injection Hv as <-. f_equal. apply Rpower_plus.
Qed.

(** Negated exponent. *)
Lemma rpow_opp b x u : b <> 0 -> rpow b x = Some u -> rpow b (- x) = Some (/ u).
Proof.
  intros Hb Hu. destruct (total_order_T b 0) as [[Hc|Hc]|Hc]; try lra.
  - apply rpow_neg_inv in Hu as (zu & -> & ->); [|assumption].
    rewrite <- opp_IZR, rpow_neg by assumption. f_equal.
    apply Rmult_eq_reg_l with (powerRZ b zu); [|now apply powerRZ_neq0; lra].
    rewrite Rinv_r by (now apply powerRZ_neq0; lra).
    rewrite <- powerRZ_add by lra. rewrite Z.add_opp_diag_r. reflexivity.
  - rewrite rpow_pos in * by lra. injection Hu as <-. f_equal. apply Rpower_Ropp.
Qed.

(** Reciprocal base. *)
Lemma rpow_inv_base b x u : b <> 0 -> rpow b x = Some u -> rpow (/ b) x = Some (/ u).
Proof.
  intros Hb Hu. destruct (total_order_T b 0) as [[Hc|Hc]|Hc]; try lra.
  - pose proof (Rinv_lt_0_compat b Hc) as Hi.
    apply rpow_neg_inv in Hu as (zu & -> & ->); [|assumption].
    rewrite rpow_neg by assumption. f_equal. now apply powerRZ_inv'.
  - pose proof (Rinv_0_lt_compat b Hc) as Hi.
    rewrite rpow_pos in * by lra. injection Hu as <-. f_equal.
    unfold Rpower. rewrite ln_Rinv by lra. rewrite <- exp_Ropp. f_equal. ring.
Qed.

(** Product of bases. *)
Lemma rpow_mult_base a b x u v :
  rpow a x = Some u -> rpow b x = Some v -> 
  (0 <= a \/ 0 <= b \/ exists z, x = IZR z) -> rpow (a * b) x = Some (u * v).
Proof.
  intros Hu Hv Hs.
  destruct (Req_dec a 0) as [->|Ha].
  { rewrite Rmult_0_l. apply rpow_0_inv in Hu as [[Hx ->]|[-> ->]].
    - rewrite rpow_0_pos by lra. f_equal. lra.
    - rewrite rpow_r0 in Hv. injection Hv as <-. rewrite rpow_0_0. f_equal. lra. }
  destruct (Req_dec b 0) as [->|Hb].
  { rewrite Rmult_0_r. apply rpow_0_inv in Hv as [[Hx ->]|[-> ->]].
    - rewrite rpow_0_pos by lra. f_equal. lra.
    - rewrite rpow_r0 in Hu. injection Hu as <-. rewrite rpow_0_0. f_equal. lra. }
  destruct (isIntR x) as [[z ->]|Hni].
  { rewrite rpow_int in * by assumption. injection Hu as <-. injection Hv as <-.
    rewrite rpow_int by (now apply Rmult_integral_contrapositive).
    f_equal. apply powerRZ_mult. }
  assert (Hap : 0 < a).
  { destruct (Rlt_le_dec 0 a); [assumption|]. exfalso.
    rewrite rpow_neg_none in Hu; [discriminate|lra|assumption]. }
  assert (Hbp : 0 < b).
  { destruct (Rlt_le_dec 0 b); [assumption|]. exfalso.
    rewrite rpow_neg_none in Hv; [discriminate|lra|assumption]. }
  rewrite rpow_pos in * by (try assumption; now apply Rmult_lt_0_compat).
  injection Hu as <-. injection Hv as <-. f_equal. symmetry. now apply Rpower_mult_distr.
Qed.

(** Splitting the power of a product, the first base being positive. *)
Lemma rpow_split_pos a b x w :
  0 < a -> rpow (a * b) x = Some w ->
  exists u v, rpow a x = Some u /\ rpow b x = Some v /\ w = u * v.
Proof.
  intros Ha Hw. rewrite (rpow_pos a x Ha). exists (Rpower a x).
  destruct (total_order_T b 0) as [[Hc|Hc]|Hc].
  - assert (a * b < 0) by nra.
    apply rpow_neg_inv in Hw as (z & -> & ->); [|assumption].
    rewrite rpow_neg by assumption. eexists; repeat split.
    rewrite Rpower_IZR by assumption. apply powerRZ_mult.
  - subst b. rewrite Rmult_0_r in Hw. exists w. repeat split; [assumption|].
    apply rpow_0_inv in Hw as [[Hx ->]|[-> ->]]; [lra|].
    unfold Rpower. rewrite Rmult_0_l, exp_0. lra.
  - rewrite rpow_pos in Hw by nra. injection Hw as <-. rewrite rpow_pos by assumption.
    eexists; repeat split. symmetry. now apply Rpower_mult_distr.
Qed.

(** Splitting the power of a product, integer exponent. *)
Lemma rpow_split_int a b z w :
  rpow (a * b) (IZR z) = Some w -> a <> 0 \/ (0 <= z)%Z -> b <> 0 \/ (0 <= z)%Z ->
  exists u v, rpow a (IZR z) = Some u /\ rpow b (IZR z) = Some v /\ w = u * v.
Proof.
  intros Hw Ha Hb.
  assert (H : forall c, c <> 0 \/ (0 <= z)%Z -> rpow c (IZR z) = Some (powerRZ c z)).
  { intros c [Hc|Hz]; [now apply rpow_int|now apply rpow_intnn]. }
  rewrite (H a Ha), (H b Hb). exists (powerRZ a z), (powerRZ b z). repeat split.
  rewrite H in Hw.
  - injection Hw as <-. apply powerRZ_mult.
  - destruct Ha as [Ha|Ha]; [|now right]. destruct Hb as [Hb|Hb]; [|now right].
    left. now apply Rmult_integral_contrapositive.
Qed.

Lemma rpow_split_int' a b z w :
  rpow (a * b) (IZR z) = Some w ->
  exists u v, rpow a (IZR z) = Some u /\ rpow b (IZR z) = Some v /\ w = u * v.
Proof.
  intros Hw. destruct (Z_le_gt_dec 0 z) as [Hz|Hz].
  - apply rpow_split_int; auto.
  - assert (Hn : a * b <> 0).
    { intros E. rewrite E in Hw. apply rpow_0_inv in Hw.
      assert (IZR z < 0) by (apply IZR_lt; lia). lra. }
    assert (a <> 0) by (intros ->; lra). assert (b <> 0) by (intros ->; lra).
    apply rpow_split_int; auto.
Qed.

(** Nested powers. *)
Lemma powerRZ_powerRZ b y z : b <> 0 -> powerRZ (powerRZ b y) z = powerRZ b (y * z).
Proof.
  intros Hb.
  assert (Hn : forall (n : nat), powerRZ (powerRZ b y) (Z.of_nat n) = powerRZ b (y * Z.of_nat n)).
  { induction n as [|n IH].
    - now rewrite Z.mul_0_r.
    - rewrite Nat2Z.inj_succ, <- Z.add_1_r, powerRZ_add by now apply powerRZ_neq0.
      rewrite IH, powerRZ_1. replace (y * (Z.of_nat n + 1))%Z with (y * Z.of_nat n + y)%Z by ring.
      now rewrite powerRZ_add. }
  destruct (Z_le_gt_dec 0 z) as [Hz|Hz].
  - rewrite <- (Z2Nat.id z) by assumption. apply Hn.
  - replace z with (- Z.of_nat (Z.to_nat (- z)))%Z by lia.
    rewrite powerRZ_neg', Hn.
    rewrite <- powerRZ_neg'.
    f_equal. lia.
Qed.

(** base >= 0: nested powers contract. *)
Lemma rpow_pow_nonneg b x y u w :
  0 <= b -> rpow b x = Some u -> rpow u y = Some w -> rpow b (x * y) = Some w.
Proof.
  intros Hb Hu Hw. destruct (Req_dec b 0) as [->|Hn].
  - apply rpow_0_inv in Hu as [[Hx ->]|[-> ->]].
    + apply rpow_0_inv in Hw as [[Hy ->]|[-> ->]].
      * apply rpow_0_pos. nra.
      * rewrite Rmult_0_r. apply rpow_0_0.
    + rewrite rpow_l1 in Hw. injection Hw as <-. rewrite Rmult_0_l. apply rpow_0_0.
  - rewrite rpow_pos in Hu by lra. injection Hu as <-.
    rewrite rpow_pos in Hw by apply exp_pos. injection Hw as <-.
    rewrite rpow_pos by lra. f_equal. symmetry. apply Rpower_mult.
Qed.

(** Both exponents integers. *)
Lemma rpow_pow_int b x y u w :
  rpow b (IZR x) = Some u -> rpow u (IZR y) = Some w -> rpow b (IZR x * IZR y) = Some w.
Proof.
  intros Hu Hw. destruct (Rle_lt_dec 0 b) as [Hb|Hb].
  - now apply rpow_pow_nonneg with u.
  - assert (b <> 0) by lra. rewrite rpow_int in Hu by assumption. injection Hu as <-.
    rewrite rpow_int in Hw by now apply powerRZ_neq0. injection Hw as <-.
    rewrite <- mult_IZR, rpow_int by assumption. f_equal. symmetry. now apply powerRZ_powerRZ.
Qed.

Lemma powerRZ_opp_even b z : b <> 0 -> Z.even z = true -> powerRZ (- b) z = powerRZ b z.
Proof.
  intros Hb He. apply Z.even_spec in He as [k ->].
  rewrite <- !powerRZ_powerRZ by lra. f_equal. simpl. ring.
Qed.

(** An even inner exponent, negative base. *)
Lemma rpow_pow_even_neg b x y u w :
  b < 0 -> Z.even x = true -> rpow b (IZR x) = Some u -> rpow u y = Some w ->
  rpow (- b) (IZR x * y) = Some w.
Proof.
  intros Hb He Hu Hw. apply rpow_pow_nonneg with u; try assumption; [lra|].
  rewrite rpow_int in * by lra. rewrite <- Hu. f_equal. apply powerRZ_opp_even; [lra|assumption].
Qed.

(** An even inner exponent and an even product. *)
Lemma rpow_pow_even_even b x y z u w :
  Z.even x = true -> Z.even z = true -> IZR x * y = IZR z ->
  rpow b (IZR x) = Some u -> rpow u y = Some w -> rpow b (IZR x * y) = Some w.
Proof.
  intros Hx Hz Hxyz Hu Hw. destruct (Rle_lt_dec 0 b) as [Hb|Hb].
  - now apply rpow_pow_nonneg with u.
  - pose proof (rpow_pow_even_neg b x y u w Hb Hx Hu Hw) as H.
    rewrite Hxyz in *. rewrite rpow_int in * by lra. rewrite <- H. f_equal.
    symmetry. apply powerRZ_opp_even; [lra|assumption].
Qed.

Lemma powerRZ_odd_neg b z : b < 0 -> Z.even z = false -> powerRZ b z < 0.
Proof.
  intros Hb He. replace z with (2 * (z / 2) + 1)%Z.
  - rewrite powerRZ_add by lra. rewrite powerRZ_1. rewrite <- powerRZ_powerRZ by lra.
    assert (0 < powerRZ (powerRZ b 2) (z / 2)).
    { apply powerRZ_lt. simpl. nra. }
    nra.
  - rewrite <- Z.negb_odd in He. apply Bool.negb_false_iff in He. apply Z.odd_spec in He as [k ->].
    replace (2 * k + 1)%Z with (1 + k * 2)%Z by ring. rewrite Z.div_add by lia.
    change (1 / 2)%Z with 0%Z. lia.
Qed.

(** An odd inner exponent. *)
Lemma rpow_pow_odd b x y u w :
  Z.even x = false -> rpow b (IZR x) = Some u -> rpow u y = Some w -> rpow b (IZR x * y) = Some w.
Proof.
  intros Hx Hu Hw. destruct (Rle_lt_dec 0 b) as [Hb|Hb].
  - now apply rpow_pow_nonneg with u.
  - pose proof Hu as Hu'. rewrite rpow_int in Hu' by lra. injection Hu' as Hu'.
    pose proof (powerRZ_odd_neg b x Hb Hx) as Hn. rewrite Hu' in Hn.
    pose proof Hw as Hw'. apply rpow_neg_inv in Hw' as (z & -> & _); [|assumption].
    now apply rpow_pow_int with u.
Qed.

(** An inner exponent that isn't an integer needs a nonnegative base. *)
Lemma rpow_nonint_base b x u : (forall z, x <> IZR z) -> rpow b x = Some u -> 0 <= b.
Proof.
  intros Hx Hu. destruct (Rle_lt_dec 0 b) as [Hb|Hb]; [assumption|].
  rewrite rpow_neg_none in Hu by assumption. discriminate.
Qed.

Lemma rpow_even_nonneg b z u : Z.even z = true -> rpow b (IZR z) = Some u -> 0 <= u.
Proof.
  intros He Hu. destruct (Rle_lt_dec 0 b) as [Hb|Hb].
  - now apply rpow_ge0 with b (IZR z).
  - rewrite rpow_int in Hu by lra. injection Hu as <-.
    rewrite <- powerRZ_opp_even by (lra || assumption). apply powerRZ_le. lra.
Qed.
