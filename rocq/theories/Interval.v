(** Rational enclosures of the values of constant expressions. *)
From Verif Require Export Sem.
From Coq Require Import Lra Lia Qpower Machin List.
Import ListNotations.
Open Scope Z_scope.

Definition rat := (Q * Q)%type.
Definition qmn (a b : Q) : Q := if Qle_bool a b then a else b.
Definition qmx (a b : Q) : Q := if Qle_bool a b then b else a.
Definition iadd (x y : rat) : rat := (Qred (fst x + fst y), Qred (snd x + snd y)).
Definition iopp (x : rat) : rat := (Qopp (snd x), Qopp (fst x)).
Definition imul (x y : rat) : rat :=
  let a := (fst x * fst y)%Q in let b := (fst x * snd y)%Q in
  let c := (snd x * fst y)%Q in let d := (snd x * snd y)%Q in
  (Qred (qmn (qmn a b) (qmn c d)), Qred (qmx (qmx a b) (qmx c d))).

(** d-th root of a on a grid of step 2^-40, from below; the result is checked and not trusted. *)
Definition grid : positive := 1099511627776.
Fixpoint bisect (n : nat) (lo hi : Z) (below : Z -> bool) : Z :=
  match n with
  | O => lo
  | S m => let mid := (lo + hi) / 2 in if below mid then bisect m mid hi below else bisect m lo mid below
  end.
Definition rootGuess (a : Q) (d : positive) : Z :=
  bisect 80 0 (Zpos grid * (1 + Qnum a / Zpos (Qden a)) + 1)
    (fun m => Qnum ((m # grid) ^ Zpos d) * Zpos (Qden a) <=? Qnum a * Zpos (Qden ((m # grid) ^ Zpos d))).
(** x^(n/d) for x in a positive interval *)
Definition ipowPos (x : rat) (q : Q) : option rat :=
  let a := Qpower (fst x) (Qnum q) in
  let b := Qpower (snd x) (Qnum q) in
  let (lo, hi) := if 0 <=? Qnum q then (a, b) else (b, a) in
  if Pos.eqb (Qden q) 1 then Some (Qred lo, Qred hi)
  else
    let u := rootGuess lo (Qden q) # grid in
    let w := (rootGuess hi (Qden q) + 1) # grid in
    if (0 <=? Qnum u) && Qle_bool (Qpower u (Zpos (Qden q))) lo && (0 <? Qnum w) && Qle_bool hi (Qpower w (Zpos (Qden q)))
    then Some (Qred u, Qred w) else None.
Definition ipow (x : rat) (q : Q) : option rat :=
  if (Z.abs (Qnum q) <=? 64) && (Zpos (Qden q) <=? 16) then
    if 0 <? Qnum (fst x) then ipowPos x q
    else if (Qnum (snd x) <? 0) && Pos.eqb (Qden q) 1 then
      match ipowPos (iopp x) q with
      | Some y => Some (if Z.even (Qnum q) then y else iopp y)
      | None => None
      end
    else None
  else None.

Definition oiv2 (f : rat -> rat -> rat) (a b : option rat) : option rat :=
  match a, b with Some x, Some y => Some (f x y) | _, _ => None end.
Fixpoint encl (e : expr) : option rat :=
  match e with
  | Num q => Some (q, q)
  | Cst CPi => Some (31415926 # 10000000, 31415927 # 10000000)
  | Cst CE => Some (2 # 1, 3 # 1)
  | Sum l => fold_right (fun x a => oiv2 iadd (encl x) a) (Some (0%Q, 0%Q)) l
  | Prod l => fold_right (fun x a => oiv2 imul (encl x) a) (Some (1%Q, 1%Q)) l
  | Pow b (Num q) => match encl b with Some x => ipow x q | None => None end
  | _ => None
  end.

(** ** Soundness *)
Open Scope R_scope.
Definition within (x : rat) (v : R) : Prop := Q2R (fst x) <= v <= Q2R (snd x).

Lemma Q2R_0' : Q2R 0 = 0. Proof. unfold Q2R. cbn. lra. Qed.
Lemma Q2R_1' : Q2R 1 = 1. Proof. unfold Q2R. cbn. lra. Qed.
Lemma Q2R_red' q : Q2R (Qred q) = Q2R q.
Proof. apply Qeq_eqR, Qred_correct. Qed.
Lemma qmn_ok a b : Q2R (qmn a b) <= Q2R a /\ Q2R (qmn a b) <= Q2R b.
Proof.
  unfold qmn. destruct (Qle_bool a b) eqn:E.
  - apply Qle_bool_iff, Qle_Rle in E. lra.
  - assert (H : ~ (a <= b)%Q) by (intros H; apply Qle_bool_iff in H; congruence).
    apply Qnot_le_lt, Qlt_Rlt in H. lra.
Qed.
Lemma qmx_ok a b : Q2R a <= Q2R (qmx a b) /\ Q2R b <= Q2R (qmx a b).
Proof.
  unfold qmx. destruct (Qle_bool a b) eqn:E.
  - apply Qle_bool_iff, Qle_Rle in E. lra.
  - assert (H : ~ (a <= b)%Q) by (intros H; apply Qle_bool_iff in H; congruence).
    apply Qnot_le_lt, Qlt_Rlt in H. lra.
Qed.
Lemma iadd_ok x y v w : within x v -> within y w -> within (iadd x y) (v + w).
Proof. unfold within, iadd. cbn [fst snd]. rewrite !Q2R_red', !Q2R_plus. lra. Qed.
Lemma iopp_ok x v : within x v -> within (iopp x) (- v).
Proof. unfold within, iopp. cbn [fst snd]. rewrite !Q2R_opp. lra. Qed.
Lemma imul_ok x y v w : within x v -> within y w -> within (imul x y) (v * w).
Proof.
  unfold within, imul. destruct x as [a b], y as [c d]. cbn [fst snd]. rewrite !Q2R_red'. intros H1 H2.
  pose proof (qmn_ok (a * c) (a * d)) as M1. pose proof (qmn_ok (b * c) (b * d)) as M2.
  pose proof (qmn_ok (qmn (a * c) (a * d)) (qmn (b * c) (b * d))) as M3.
  pose proof (qmx_ok (a * c) (a * d)) as N1. pose proof (qmx_ok (b * c) (b * d)) as N2.
  pose proof (qmx_ok (qmx (a * c) (a * d)) (qmx (b * c) (b * d))) as N3.
  rewrite !Q2R_mult in *.
  set (m := Q2R (qmn (qmn (a * c) (a * d)) (qmn (b * c) (b * d)))) in *.
  set (n := Q2R (qmx (qmx (a * c) (a * d)) (qmx (b * c) (b * d)))) in *.
  set (A := Q2R a) in *. set (B := Q2R b) in *. set (C := Q2R c) in *. set (D := Q2R d) in *.
  assert (m <= A * C /\ m <= A * D /\ m <= B * C /\ m <= B * D) as (m1 & m2 & m3 & m4) by lra.
  assert (A * C <= n /\ A * D <= n /\ B * C <= n /\ B * D <= n) as (n1 & n2 & n3 & n4) by lra.
  clearbody m n A B C D. clear M1 M2 M3 N1 N2 N3.
  (* v*C and v*D lie between the corners, v*w between these *)
  assert (P : forall z, (z = C \/ z = D) -> m <= v * z <= n).
  { intros z Hz. assert (m <= A * z /\ m <= B * z /\ A * z <= n /\ B * z <= n) as (p1 & p2 & p3 & p4) by (destruct Hz; subst; lra).
    destruct (Rle_dec 0 z).
    - assert (A * z <= v * z <= B * z) by (split; apply Rmult_le_compat_r; lra). lra.
    - assert (B * z <= v * z <= A * z) by (split; apply Rmult_le_compat_neg_l with (r := z) in H1 as K || idtac; nra). lra. }
  pose proof (P C (or_introl eq_refl)) as PC. pose proof (P D (or_intror eq_refl)) as PD.
  destruct (Rle_dec 0 v).
  - assert (v * C <= v * w <= v * D) by (split; apply Rmult_le_compat_l; lra). lra.
  - assert (v * D <= v * w <= v * C) by (split; nra). lra.
Qed.

Lemma Q2R_Qpower q z : ~ (q == 0)%Q -> Q2R (Qpower q z) = powerRZ (Q2R q) z.
Proof.
  intros Hq. assert (Hp : forall p, Q2R (Qpower_positive q p) = powerRZ (Q2R q) (Zpos p)).
  { intros p. cbn [powerRZ]. induction p as [|p IH] using Pos.peano_ind.
    - change (Pos.to_nat 1) with 1%nat. cbn [pow Qpower_positive pow_pos]. lra.
    - rewrite Pos2Nat.inj_succ. cbn [pow]. rewrite <- IH. rewrite <- Q2R_mult. apply Qeq_eqR.
      rewrite <- Pos.add_1_l, Qpower_plus_positive. reflexivity. }
  destruct z as [|p|p]; cbn [Qpower].
  - cbn. unfold Q2R. cbn. lra.
  - apply Hp.
  - rewrite Q2R_inv; [|now apply Qpower_not_0_positive]. rewrite Hp. cbn. reflexivity.
Qed.
Lemma Q2R_Qpower_pos q p : Q2R (Qpower q (Zpos p)) = (Q2R q) ^ Pos.to_nat p.
Proof.
  cbn [Qpower]. induction p as [|p IH] using Pos.peano_ind.
  - change (Pos.to_nat 1) with 1%nat. cbn [pow Qpower_positive pow_pos]. lra.
  - rewrite Pos2Nat.inj_succ. cbn [pow]. rewrite <- IH. rewrite <- Q2R_mult. apply Qeq_eqR.
    rewrite <- Pos.add_1_l, Qpower_plus_positive. reflexivity.
Qed.
Lemma Qnum_pos q : (0 < Qnum q)%Z -> 0 < Q2R q.
Proof. intros H. rewrite <- Q2R_0'. apply Qlt_Rlt. unfold Qlt. cbn. lia. Qed.
Lemma Qnum_nonneg q : (0 <= Qnum q)%Z -> 0 <= Q2R q.
Proof. intros H. rewrite <- Q2R_0'. apply Qle_Rle. unfold Qle. cbn. lia. Qed.
Lemma Qnum_neg q : (Qnum q < 0)%Z -> Q2R q < 0.
Proof. intros H. rewrite <- Q2R_0'. apply Qlt_Rlt. unfold Qlt. cbn. lia. Qed.

Lemma powerRZ_up a b z : 0 < a -> a <= b -> (0 <= z)%Z -> powerRZ a z <= powerRZ b z.
Proof. intros Ha Hb Hz. destruct (Z_of_nat_complete z Hz) as [n ->]. rewrite <- !pow_powerRZ. apply pow_incr. lra. Qed.
Lemma powerRZ_down a b z : 0 < a -> a <= b -> (z < 0)%Z -> powerRZ b z <= powerRZ a z.
Proof.
  intros Ha Hb Hz. destruct z as [|p|p]; try lia. cbn [powerRZ]. apply Rinv_le_contravar; [now apply pow_lt|apply pow_incr; lra].
Qed.
Lemma pow_le_inv u v n : (0 < n)%nat -> 0 <= u -> 0 <= v -> u ^ n <= v ^ n -> u <= v.
Proof.
  intros Hn Hu Hv H. destruct (Rle_dec u v) as [|Hc]; [assumption|]. exfalso.
  assert (v < u) by lra. assert (v ^ n < u ^ n); [|lra].
  destruct n as [|n]; [lia|]. clear Hn H. induction n as [|n IH]; [cbn; lra|].
  change (v ^ S (S n)) with (v * v ^ S n). change (u ^ S (S n)) with (u * u ^ S n).
  apply Rle_lt_trans with (v * u ^ S n); [apply Rmult_le_compat_l; lra|].
  apply Rmult_lt_compat_r; [|assumption]. apply pow_lt. lra.
Qed.

Lemma some_eq {A} (a b : A) : Some a = Some b -> a = b.
Proof. congruence. Qed.
Lemma ipowPos_ok x q y v w : 0 < Q2R (fst x) -> within x v -> rpow v (Q2R q) = Some w -> ipowPos x q = Some y -> within y w.
Proof.
  intros Hx [H1 H2] Hw. unfold ipowPos. rewrite rpow_pos in Hw by lra. injection Hw as <-.
  assert (Hl : powerRZ (Q2R (fst x)) (Qnum q) = Q2R (Qpower (fst x) (Qnum q))).
  { rewrite Q2R_Qpower; [reflexivity|]. intros E. apply Qeq_eqR in E. rewrite Q2R_0' in E. lra. }
  assert (Hh : powerRZ (Q2R (snd x)) (Qnum q) = Q2R (Qpower (snd x) (Qnum q))).
  { rewrite Q2R_Qpower; [reflexivity|]. intros E. apply Qeq_eqR in E. rewrite Q2R_0' in E. lra. }
  set (a := Qpower (fst x) (Qnum q)) in *. set (b := Qpower (snd x) (Qnum q)) in *.
  destruct (if (0 <=? Qnum q)%Z then (a, b) else (b, a)) as [lo hi] eqn:E.
  assert (B : Q2R lo <= powerRZ v (Qnum q) <= Q2R hi).
  { destruct (Z.leb_spec 0 (Qnum q)); injection E as <- <-; rewrite <- Hl, <- Hh.
    - split; apply powerRZ_up; auto; lra.
    - split; apply powerRZ_down; auto; lra. }
  assert (D : (Rpower v (Q2R q)) ^ Pos.to_nat (Qden q) = powerRZ v (Qnum q)).
  { rewrite pow_powerRZ, positive_nat_Z, <- !Rpower_IZR; try lra; [|apply exp_pos]. rewrite Rpower_mult. f_equal.
    unfold Q2R. field. apply IZR_neq. lia. }
  pose proof (exp_pos (Q2R q * ln v)) as Pv. change (0 < Rpower v (Q2R q)) in Pv.
  destruct (Pos.eqb_spec (Qden q) 1) as [E1|_].
  - intros Hy. apply some_eq in Hy. subst y. unfold within. cbn [fst snd]. rewrite !Q2R_red'. rewrite E1 in D.
    change (Pos.to_nat 1) with 1%nat in D. rewrite pow_1 in D. rewrite D. exact B.
  - set (g := rootGuess lo (Qden q)). set (h := rootGuess hi (Qden q)). clearbody g h.
    destruct (_ && _)%bool eqn:C; [|discriminate]. rewrite !Bool.andb_true_iff in C. destruct C as [[[C1 C2] C3] C4].
    intros Hy. apply some_eq in Hy. subst y. unfold within. cbn [fst snd]. rewrite !Q2R_red'.
    apply Z.leb_le in C1. apply Z.ltb_lt in C3. apply Qle_bool_iff, Qle_Rle in C2, C4. rewrite Q2R_Qpower_pos in C2, C4.
    apply Qnum_nonneg in C1. apply Qnum_pos in C3.
    pose proof (Pos2Nat.is_pos (Qden q)) as Pd.
    split; apply (pow_le_inv _ _ (Pos.to_nat (Qden q))); try assumption; try lra.
Qed.

Lemma powerRZ_opp v z : v <> 0 -> powerRZ (- v) z = if Z.even z then powerRZ v z else - powerRZ v z.
Proof.
  intros Hv. destruct (Z.even z) eqn:E; [now apply powerRZ_opp_even|].
  destruct (Z.even (z - 1)) eqn:E1; [|rewrite Z.even_sub, E in E1; discriminate].
  replace z with ((z - 1) + 1)%Z by ring. rewrite !powerRZ_add by lra. rewrite powerRZ_opp_even by assumption.
  rewrite !powerRZ_1. ring.
Qed.
Lemma ipow_ok x q y v w : within x v -> rpow v (Q2R q) = Some w -> ipow x q = Some y -> within y w.
Proof.
  intros Hx Hw. unfold ipow. destruct (_ && _)%bool; [|discriminate].
  destruct (Z.ltb_spec 0 (Qnum (fst x))) as [H0|_].
  - apply Qnum_pos in H0. intros. eapply ipowPos_ok; eassumption.
  - destruct (_ && _)%bool eqn:C; [|discriminate]. rewrite Bool.andb_true_iff in C. destruct C as [C1 C2].
    apply Z.ltb_lt, Qnum_neg in C1. apply Pos.eqb_eq in C2.
    destruct (ipowPos (iopp x) q) as [y'|] eqn:E; [|discriminate]. intros [= <-].
    assert (Eq : Q2R q = IZR (Qnum q)) by (unfold Q2R; rewrite C2; lra).
    destruct Hx as [H1 H2]. rewrite Eq, rpow_int in Hw by lra. injection Hw as <-.
    assert (P : within y' (powerRZ (- v) (Qnum q))).
    { eapply ipowPos_ok; [| |rewrite Eq; apply rpow_int; lra|exact E].
      - unfold iopp. cbn [fst]. rewrite Q2R_opp. lra.
      - apply iopp_ok. split; assumption. }
    rewrite powerRZ_opp in P by lra. destruct (Z.even (Qnum q)); [assumption|].
    apply iopp_ok in P. now rewrite Ropp_involutive in P.
Qed.


Lemma PI_bounds : Q2R (31415926 # 10000000) <= PI <= Q2R (31415927 # 10000000).
Proof.
  pose proof (PI_2_3_7_ineq 3) as [H1 H2].
  change (S (2 * 3)) with 7%nat in H1. change (2 * 3)%nat with 6%nat in H2.
  unfold tg_alt, PI_2_3_7_tg, Ratan_seq in H1, H2. cbn in H1, H2.
  unfold Q2R. cbn [Qnum Qden]. lra.
Qed.

Lemma encl_ok r e : forall x v, encl e = Some x -> eval r e = Some v -> within x v.
Proof.
  revert e. fix IH 1. intros [q|n p|[|]| |f l|l|l|b y]; cbn [encl eval]; intros x v Hx Hv; try discriminate.
  - injection Hx as <-. injection Hv as <-. split; cbn; lra.
  - injection Hx as <-. injection Hv as <-. exact PI_bounds.
  - injection Hx as <-. injection Hv as <-. unfold within. cbn [fst snd]. pose proof exp_le_3 as H3.
    pose proof (exp_ineq1 1 ltac:(lra)) as H2. unfold Q2R. cbn [Qnum Qden]. lra.
  - revert x v Hx Hv. induction l as [|a l IHl]; cbn [fold_right]; intros x v Hx Hv.
    + injection Hx as <-. injection Hv as <-. unfold within. cbn [fst snd]. rewrite Q2R_0'. lra.
    + destruct (encl a) as [xa|] eqn:Ea; [|discriminate]. match type of Hx with oiv2 _ _ ?t = _ => destruct t as [xl|]; [|discriminate] end.
      destruct (eval r a) as [va|] eqn:Eva; [|discriminate]. match type of Hv with oplus _ ?t = _ => destruct t as [vl|]; [|discriminate] end.
      cbn [oiv2] in Hx. cbn [oplus] in Hv. apply some_eq in Hx. subst x. injection Hv as <-.
      apply iadd_ok; [exact (IH a xa va Ea Eva)|now apply IHl].
  - revert x v Hx Hv. induction l as [|a l IHl]; cbn [fold_right]; intros x v Hx Hv.
    + injection Hx as <-. injection Hv as <-. unfold within. cbn [fst snd]. rewrite Q2R_1'. lra.
    + destruct (encl a) as [xa|] eqn:Ea; [|discriminate]. match type of Hx with oiv2 _ _ ?t = _ => destruct t as [xl|]; [|discriminate] end.
      destruct (eval r a) as [va|] eqn:Eva; [|discriminate]. match type of Hv with omult _ ?t = _ => destruct t as [vl|]; [|discriminate] end.
      cbn [oiv2] in Hx. cbn [omult] in Hv. apply some_eq in Hx. subst x. injection Hv as <-.
      apply imul_ok; [exact (IH a xa va Ea Eva)|now apply IHl].
  - destruct y as [q| | | | | | |]; try discriminate. destruct (encl b) as [xb|] eqn:Eb; [|discriminate].
    cbn [eval] in Hv. destruct (eval r b) as [vb|] eqn:Evb; [|discriminate].
    eapply ipow_ok; [exact (IH b xb vb Eb Evb)|exact Hv|exact Hx].
Qed.
