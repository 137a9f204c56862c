(** The comparison of rationals by way of IEEE doubles (DoubleModel.v): when it is exact.  Uses the
    correctness of the operations of SpecFloat from Flocq. *)
From Verif Require Import DoubleModel LaurentSpec NumberProofs ExprSpec OrderModel ExprWitness.
Require Import Flocq.Core.Core Flocq.IEEE754.BinarySingleNaN Flocq.Prop.Relative.
From Coq Require Import Lia Lra Reals Qreals.
From Verif Require Import Run LaurentSpec.
Open Scope R_scope.

Definition prec : Z := 53%Z.
Definition emax : Z := 1024%Z.
Lemma Hprec : Prec_gt_0 prec. Proof. reflexivity. Qed.
Lemma Hmax : Prec_lt_emax prec emax. Proof. reflexivity. Qed.
#[local] Existing Instance Hprec.
#[local] Existing Instance Hmax.
Definition rnd (x : R) : R := round radix2 (SpecFloat.fexp prec emax) (round_mode mode_NE) x.

(** ** SpecFloat and Flocq *)
Lemma round_nearest_even_equiv s m l : round_nearest_even m l = choice_mode mode_NE s m l.
Proof. case l; [reflexivity|intro c]. case c; [|reflexivity..]. now simpl; unfold Round.cond_incr; case Z.even. Qed.
Lemma binary_round_aux_equiv sx mx ex lx :
  SpecFloat.binary_round_aux prec emax sx mx ex lx = binary_round_aux prec emax mode_NE sx mx ex lx.
Proof.
  unfold SpecFloat.binary_round_aux, binary_round_aux. set (mrse' := shr_fexp _ _ _).
  case mrse'; intros mrs' e'; simpl. now rewrite (round_nearest_even_equiv sx).
Qed.
Lemma binary_round_equiv s m e : SpecFloat.binary_round prec emax s m e = binary_round prec emax mode_NE s m e.
Proof.
  unfold SpecFloat.binary_round, binary_round, shl_align_fexp. set (mez := shl_align _ _ _); case mez as [mz ez].
  apply binary_round_aux_equiv.
Qed.
Definition bOfZ (z : Z) : binary_float prec emax := binary_normalize prec emax Hprec Hmax mode_NE z 0 false.
Lemma dOfZ_equiv z : dOfZ z = B2SF (bOfZ z).
Proof.
  unfold dOfZ, bOfZ. change 53%Z with prec. change 1024%Z with emax.
  case z as [|p|p]; [reflexivity|..]; simpl; rewrite B2SF_SF2B; apply binary_round_equiv.
Qed.
Lemma div_equiv x y : SFdiv prec emax (B2SF x) (B2SF y) = B2SF (Bdiv mode_NE x y).
Proof.
  case x as [sx|sx| |sx mx ex Bx]; case y as [sy|sy| |sy my ey By]; try reflexivity.
  simpl. rewrite B2SF_SF2B. set (melz := SFdiv_core_binary _ _ _ _ _ _). case melz as [[mz ez] lz]. apply binary_round_aux_equiv.
Qed.
Definition bRat (q : Q) : binary_float prec emax := Bdiv mode_NE (bOfZ (Qnum q)) (bOfZ (Zpos (Qden q))).
Lemma dRat_equiv q : dRat q = B2SF (bRat q).
Proof. unfold dRat, bRat. rewrite !dOfZ_equiv. apply div_equiv. Qed.

(** ** Values *)
Lemma fexp_FLT e : SpecFloat.fexp prec emax e = FLT_exp (-1074) prec e.
Proof. reflexivity. Qed.
Lemma format_int z : (Z.abs z <= 2 ^ 53)%Z -> generic_format radix2 (SpecFloat.fexp prec emax) (IZR z).
Proof.
  intros H. apply (generic_format_FLT radix2 (-1074) prec). destruct (Z.eq_dec (Z.abs z) (2 ^ 53)) as [E|E].
  - exists (Float radix2 (z / 2) 1); [|cbn [Fnum]|cbn; lia].
    + unfold F2R. cbn [Fnum Fexp]. change (bpow radix2 1) with 2. rewrite <- mult_IZR. f_equal.
      assert (z = 2 ^ 53 \/ z = - 2 ^ 53)%Z as [-> | ->] by lia; reflexivity.
    + assert (z = 2 ^ 53 \/ z = - 2 ^ 53)%Z as [-> | ->] by lia; reflexivity.
  - exists (Float radix2 z 0); [|cbn [Fnum]; change (radix2 ^ prec)%Z with (2 ^ 53)%Z; lia|cbn; lia].
    unfold F2R. cbn. ring.
Qed.
Lemma rnd_int z : (Z.abs z <= 2 ^ 53)%Z -> rnd (IZR z) = IZR z.
Proof. intros H. apply round_generic; [apply valid_rnd_round_mode | now apply format_int]. Qed.
Lemma rnd_le x y : x <= y -> rnd x <= rnd y.
Proof. apply round_le; [apply (fexp_correct _ _ Hprec) | apply valid_rnd_round_mode]. Qed.
Lemma rnd_bound x : Rabs x <= IZR (2 ^ 53) -> Rabs (rnd x) < bpow radix2 emax.
Proof.
  intros H. apply Rle_lt_trans with (IZR (2 ^ 53)).
  - apply Rabs_le_inv in H. apply Rabs_le.
    assert (E1 : rnd (IZR (2 ^ 53)) = IZR (2 ^ 53)) by (apply rnd_int; reflexivity || discriminate).
    assert (E2 : rnd (IZR (- 2 ^ 53)) = IZR (- 2 ^ 53)) by (apply rnd_int; reflexivity || discriminate).
    rewrite <- opp_IZR, <- E2. split; [|rewrite <- E1]; apply rnd_le; [rewrite opp_IZR|]; lra.
  - change (IZR (2 ^ 53)) with (bpow radix2 53). apply bpow_lt. reflexivity.
Qed.
Lemma bOfZ_value z : (Z.abs z <= 2 ^ 53)%Z -> B2R (bOfZ z) = IZR z /\ is_finite (bOfZ z) = true.
Proof.
  intros H. pose proof (binary_normalize_correct prec emax Hprec Hmax mode_NE z 0 false) as E. cbv zeta in E.
  replace (F2R (Float radix2 z 0)) with (IZR z) in E by (unfold F2R; cbn; ring).
  fold (rnd (IZR z)) in E. rewrite Rlt_bool_true in E.
  - destruct E as (E & F & _). rewrite rnd_int in E by exact H. now split.
  - apply rnd_bound. rewrite <- abs_IZR. now apply IZR_le.
Qed.
Definition small (q : Q) : Prop := (Z.abs (Qnum q) <= 2 ^ 53)%Z /\ (Zpos (Qden q) <= 2 ^ 53)%Z.
Lemma Q2R_abs q : Rabs (Q2R q) = IZR (Z.abs (Qnum q)) / IZR (Zpos (Qden q)).
Proof.
  unfold Q2R. fold (Rdiv (IZR (Qnum q)) (IZR (QDen q))). unfold Rdiv. rewrite Rabs_mult, abs_IZR. f_equal. apply Rabs_pos_eq.
  apply Rlt_le, Rinv_0_lt_compat. now apply IZR_lt.
Qed.
Lemma bRat_value q : small q -> B2R (bRat q) = rnd (Q2R q) /\ is_finite (bRat q) = true.
Proof.
  intros [Hn Hd]. destruct (bOfZ_value _ Hn) as [En Fn]. destruct (bOfZ_value (Zpos (Qden q))) as [Ed Fd]; [lia|].
  pose proof (Bdiv_correct prec emax Hprec Hmax mode_NE (bOfZ (Qnum q)) (bOfZ (Zpos (Qden q)))) as E.
  rewrite En, Ed in E. fold (Rdiv (IZR (Qnum q)) (IZR (Zpos (Qden q)))) in E.
  change (IZR (Qnum q) / IZR (Zpos (Qden q))) with (Q2R q) in E. fold (rnd (Q2R q)) in E.
  assert (P : 0 < IZR (Zpos (Qden q))) by now apply IZR_lt.
  rewrite Rlt_bool_true in E.
  - destruct E as (E & F & _); [lra|]. split; [exact E|]. unfold bRat. now rewrite F.
  - apply rnd_bound. rewrite Q2R_abs. apply Rle_trans with (IZR (Z.abs (Qnum q)) / 1).
    + apply Rmult_le_compat_l; [apply IZR_le; lia|]. apply Rinv_le; [lra|]. apply IZR_le. lia.
    + unfold Rdiv. rewrite Rinv_1, Rmult_1_r. now apply IZR_le.
Qed.

Lemma dLt_value p q : small p -> small q -> dLt p q = Rlt_bool (rnd (Q2R p)) (rnd (Q2R q)).
Proof.
  intros Hp Hq. unfold dLt. rewrite !dRat_equiv. destruct (bRat_value p Hp) as [<- Fp]. destruct (bRat_value q Hq) as [<- Fq].
  now apply Bltb_correct.
Qed.

(** What counts as smaller is smaller. *)
Theorem dLt_sound p q : small p -> small q -> dLt p q = true -> (p < q)%Q.
Proof.
  intros Hp Hq H. rewrite dLt_value in H by assumption. apply Rlt_Qlt. destruct (Rlt_bool_spec (rnd (Q2R p)) (rnd (Q2R q))) as [L|]; [|discriminate].
  destruct (Rlt_or_le (Q2R p) (Q2R q)) as [|G]; [assumption|]. apply rnd_le in G. lra.
Qed.

(** Exact for integers up to 2^53. *)
Theorem dLt_int : exactUpTo (2 ^ 53) dLt.
Proof.
  intros a b Ha Hb. rewrite dLt_value by (split; cbn [Qnum Qden ofZ inject_Z]; lia).
  assert (E : forall z, Q2R (ofZ z) = IZR z) by (intros z; unfold Q2R, ofZ; cbn; field).
  rewrite !E, !rnd_int by assumption. destruct (Z.ltb_spec a b) as [L|L].
  - apply Rlt_bool_true. now apply IZR_lt.
  - apply Rlt_bool_false. now apply IZR_le.
Qed.

(** The relative error. *)
Lemma rnd_error q : small q -> Rabs (rnd (Q2R q) - Q2R q) <= bpow radix2 (-53) * Rabs (Q2R q).
Proof.
  intros [Hn Hd]. destruct (Req_dec (Q2R q) 0) as [E|N].
  - rewrite E. unfold rnd. rewrite round_0 by apply valid_rnd_round_mode. unfold Rminus. rewrite Ropp_0, Rplus_0_l, Rabs_R0. lra.
  - replace (bpow radix2 (-53)) with (/ 2 * bpow radix2 (- prec + 1)).
    + unfold rnd. apply (relative_error_N_FLT radix2 (-1074) prec Hprec (fun x => negb (Z.even x))).
      apply Rle_trans with (bpow radix2 (-53)); [apply bpow_le; reflexivity || (unfold prec; lia)|].
      rewrite Q2R_abs. change (bpow radix2 (-53)) with (/ IZR (2 ^ 53)).
      assert (P : 0 < IZR (Zpos (Qden q))) by now apply IZR_lt.
      apply Rle_trans with (1 / IZR (Zpos (Qden q))).
      * unfold Rdiv. rewrite Rmult_1_l. apply Rinv_le; [exact P | now apply IZR_le].
      * apply Rmult_le_compat_r; [apply Rlt_le, Rinv_0_lt_compat, P|]. apply IZR_le.
        assert (Qnum q <> 0)%Z; [|lia]. intros E. apply N. unfold Q2R. rewrite E. ring.
    + change (- prec + 1)%Z with (-53 + 1)%Z. rewrite bpow_plus. change (bpow radix2 1) with 2. field.
Qed.

(** Exact for two rationals whose cross products are small. *)
Theorem dLt_exact p q : small p -> small q ->
  (Z.abs (Qnum p) * Zpos (Qden q) + Z.abs (Qnum q) * Zpos (Qden p) < 2 ^ 53)%Z -> dLt p q = qltb p q.
Proof.
  intros Hp Hq H. destruct (qltb p q) eqn:E.
  - apply qltb_lt in E. rewrite dLt_value by assumption. apply Rlt_bool_true.
    pose proof (rnd_error p Hp) as Ep. pose proof (rnd_error q Hq) as Eq. rewrite !Q2R_abs in *.
    assert (L : Q2R p <= Q2R q) by now apply Rlt_le, Qlt_Rlt.
    apply Rnot_le_lt. intros G. assert (G' : rnd (Q2R p) = rnd (Q2R q)) by (apply rnd_le in L; lra).
    assert (D : IZR (Zpos (Qden p)) * IZR (Zpos (Qden q)) * (Q2R q - Q2R p) >= 1).
    { unfold Q2R. unfold Qlt in E.
      replace (IZR (QDen p) * IZR (QDen q) * (IZR (Qnum q) * / IZR (QDen q) - IZR (Qnum p) * / IZR (QDen p)))
        with (IZR (Qnum q) * IZR (QDen p) - IZR (Qnum p) * IZR (QDen q)).
      - rewrite <- !mult_IZR, <- minus_IZR. apply Rle_ge, IZR_le. lia.
      - field. split; apply not_0_IZR; discriminate. }
    assert (U : Q2R q - Q2R p <= bpow radix2 (-53) * (IZR (Z.abs (Qnum p)) / IZR (QDen p) + IZR (Z.abs (Qnum q)) / IZR (QDen q))).
    { apply Rabs_le_inv in Ep. apply Rabs_le_inv in Eq. rewrite G' in Ep. lra. }
    assert (Pp : 0 < IZR (QDen p)) by now apply IZR_lt. assert (Pq : 0 < IZR (QDen q)) by now apply IZR_lt.
    apply (Rmult_le_compat_l (IZR (QDen p) * IZR (QDen q))) in U; [|apply Rlt_le; now apply Rmult_lt_0_compat].
    replace (IZR (QDen p) * IZR (QDen q) * (bpow radix2 (-53) * (IZR (Z.abs (Qnum p)) / IZR (QDen p) + IZR (Z.abs (Qnum q)) / IZR (QDen q))))
      with (bpow radix2 (-53) * (IZR (Z.abs (Qnum p)) * IZR (QDen q) + IZR (Z.abs (Qnum q)) * IZR (QDen p))) in U
      by (field; split; apply not_0_IZR; discriminate).
    rewrite <- !mult_IZR, <- plus_IZR in U. apply IZR_lt in H. change (bpow radix2 (-53)) with (/ IZR (2 ^ 53)) in U.
    assert (P53 : 0 < IZR (2 ^ 53)) by now apply IZR_lt.
    apply (Rmult_lt_compat_l (/ IZR (2 ^ 53))) in H; [|now apply Rinv_0_lt_compat]. rewrite Rinv_l in H by lra.
    rewrite <- mult_IZR in D. apply (Rlt_irrefl 1). eapply Rle_lt_trans; [apply Rge_le, D|]. eapply Rle_lt_trans; [exact U | exact H].
  - destruct (dLt p q) eqn:E'; [|reflexivity]. apply dLt_sound in E'; [|assumption..]. apply qltb_ge in E. exfalso. now apply Qlt_not_le in E'.
Qed.

Lemma double_exact p q : (Z.abs (Qnum p) <= 2 ^ 53)%Z -> (Zpos (Qden p) <= 2 ^ 53)%Z ->
  (Z.abs (Qnum q) <= 2 ^ 53)%Z -> (Zpos (Qden q) <= 2 ^ 53)%Z ->
  (Z.abs (Qnum p) * Zpos (Qden q) + Z.abs (Qnum q) * Zpos (Qden p) < 2 ^ 53)%Z -> dLt p q = true <-> (p < q)%Q.
Proof. intros. rewrite dLt_exact by (try split; assumption). apply qltb_lt. Qed.

Definition small26 (q : Q) : Prop := Qred q = q /\ (Z.abs (Qnum q) < 2 ^ 26)%Z /\ (Zpos (Qden q) <= 2 ^ 26)%Z.
Lemma small26_exact p q : small26 p -> small26 q -> dLt p q = qltb p q.
Proof.
  intros (_ & Np & Dp) (_ & Nq & Dq). apply dLt_exact; try (split; lia). 
  assert (Z.abs (Qnum p) * Zpos (Qden q) <= (2 ^ 26 - 1) * 2 ^ 26)%Z by (apply Z.mul_le_mono_nonneg; lia).
  assert (Z.abs (Qnum q) * Zpos (Qden p) <= (2 ^ 26 - 1) * 2 ^ 26)%Z by (apply Z.mul_le_mono_nonneg; lia). lia.
Qed.
Lemma small26_total : strictTotal small26 (fun p q => dLt p q = true).
Proof.
  destruct exact_numerics as [I T C]. constructor.
  - intros p Hp. rewrite small26_exact by assumption. apply I, Hp.
  - intros p q s Hp Hq Hs. rewrite !small26_exact by assumption. apply T; [apply Hp | apply Hq | apply Hs].
  - intros p q Hp Hq. rewrite !small26_exact by assumption. apply C; [apply Hp | apply Hq].
Qed.
Lemma double_order_total : strictTotal (orderable small26) (fun a b => a <> b /\ isCorrect dLt a b = true).
Proof. apply order_total; [repeat split; reflexivity || discriminate | exact small26_total]. Qed.
