(** Facts that can be checked by exact arithmetic: they hold for every assignment and need not be assumed. *)
From Verif Require Export RunSpec RunFacts RPow NumberProofs Interval.
From Coq Require Import Lra Lia Qpower Qreals.
From Verif Require Import Run.
Open Scope Z_scope.

Definition canonb1 (q : Q) : bool := Z.gcd (Qnum q) (Zpos (Qden q)) =? 1.
Definition small (z : Z) : bool := Z.abs z <=? 4096.
(** pre * b^x = pre' * b'^x': both sides to the power of the common denominator d of x and x'. *)
Definition powCert (p p' : payload) : bool :=
  let (b, x, c) := p in
  let (b', x', c') := p' in
  let d := Z.lcm (Zpos (Qden x)) (Zpos (Qden x')) in
  let n := Qnum x * (d / Zpos (Qden x)) in
  let n' := Qnum x' * (d / Zpos (Qden x')) in
  canonb1 b' && canonb1 x' && canonb1 c' &&
  (qeqb b b' && qeqb x x' && qeqb c c'
   || (d <=? 64) && small n && small n' && qltb 0 b && qltb 0 b'
      && (qltb 0 c && qltb 0 c' || qltb c 0 && qltb c' 0)
      && Qeq_bool (Qpower c d * Qpower b n) (Qpower c' d * Qpower b' n')
   || (d =? 1) && small n && small n' && negb (qeqb b 0) && negb (Qnum b' =? 0)
      && negb (Qnum b =? 0) && Qeq_bool (c * Qpower b n) (c' * Qpower b' n')).

(** Rational multiples of pi *)
Definition piTimes (e : expr) : option Q :=
  match e with
  | Num q => if Qnum q =? 0 then Some 0%Q else None
  | Cst CPi => Some 1%Q
  | Prod [Num q; Cst CPi] => Some q
  | _ => None
  end.

(** Comparisons by enclosures of constant expressions *)
Definition before (a b : expr) : bool :=
  match encl a, encl b with Some x, Some y => qltb (snd x) (fst y) | _, _ => false end.
Definition notZero (e : expr) : bool :=
  match encl e with Some x => (0 <? Qnum (fst x)) || (Qnum (snd x) <? 0) | None => false end.
Definition notInteger (e : expr) : bool :=
  match encl e with
  | Some x =>
      let z := Qnum (fst x) / Zpos (Qden (fst x)) in
      qltb (z # 1) (fst x) && qltb (snd x) (z + 1 # 1)
  | None => false
  end.

Fixpoint certain (c : cond) : bool :=
  match c with
  | CNumPow p p' => powCert p p'
  | CLt a b => match piTimes a, piTimes b with Some x, Some y => qltb x y | _, _ => false end || before a b
  | CLe a b => match piTimes a, piTimes b with Some x, Some y => negb (qltb y x) | _, _ => false end || before a b
  | CNonZero a | CEven a | CSign a => notZero a
  | CNotInt a => notInteger a
  | CIn _ c => certain c
  | _ => false
  end.

(** What remains to be assumed. *)
Definition doubtful (facts : list cond) : list cond := filter (fun c => negb (certain c)) facts.

(** ** Soundness *)
Open Scope R_scope.

Lemma canonb1_ok q : canonb1 q = true -> canon q.
Proof. unfold canonb1, canon. now rewrite Z.eqb_eq. Qed.
Lemma Q2R_power q z : ~ (q == 0)%Q -> Q2R (Qpower q z) = powerRZ (Q2R q) z.
Proof.
  intros Hq. assert (Hp : forall p, Q2R (Qpower_positive q p) = powerRZ (Q2R q) (Zpos p)).
  { intros p. cbn [powerRZ]. induction p as [|p IH] using Pos.peano_ind.
    - change (Pos.to_nat 1) with 1%nat. cbn [pow Qpower_positive pow_pos]. lra.
    - rewrite Pos2Nat.inj_succ. cbn [pow]. rewrite <- IH. rewrite <- Q2R_mult. apply Qeq_eqR.
      rewrite <- Pos.add_1_l, Qpower_plus_positive. reflexivity. }
  destruct z as [|p|p]; cbn [Qpower].
  - cbn. unfold Q2R. cbn. lra.
  - apply Hp.
  - rewrite Q2R_inv; [|now apply Qpower_not_0_positive]. rewrite Hp. cbn. reflexivity.
Qed.
Lemma Q2R_pos q : qltb 0 q = true -> 0 < Q2R q.
Proof. unfold qltb. intros H. apply Z.ltb_lt in H. replace 0 with (Q2R 0) by (unfold Q2R; cbn; lra). apply Qlt_Rlt. exact H. Qed.
Lemma Q2R_neg q : qltb q 0 = true -> Q2R q < 0.
Proof. unfold qltb. intros H. apply Z.ltb_lt in H. replace 0 with (Q2R 0) by (unfold Q2R; cbn; lra). apply Qlt_Rlt. exact H. Qed.
Lemma Q2R_nz' q : Qnum q <> 0%Z -> Q2R q <> 0.
Proof.
  intros H E. replace 0 with (Q2R 0) in E by (unfold Q2R; cbn; lra). apply eqR_Qeq in E. unfold Qeq in E. cbn in E. lia.
Qed.

Lemma root_of x d n : (0 < d)%Z -> n = (Qnum x * (d / Zpos (Qden x)))%Z -> (Zpos (Qden x) | d)%Z -> Q2R x * IZR d = IZR n.
Proof.
  intros Hd -> [k ->]. rewrite Z.div_mul by lia. unfold Q2R. rewrite !mult_IZR. field.
  apply IZR_neq. lia.
Qed.
Lemma Rpower_pow_d b x d n : 0 < b -> (0 < d)%Z -> n = (Qnum x * (d / Zpos (Qden x)))%Z -> (Zpos (Qden x) | d)%Z ->
  powerRZ (Rpower b (Q2R x)) d = powerRZ b n.
Proof.
  intros Hb Hd Hn Hdv. rewrite <- !Rpower_IZR; try assumption; [|apply exp_pos]. rewrite Rpower_mult.
  now rewrite (root_of x d n).
Qed.
Lemma powerRZ_inj_pos u v d : (0 < d)%Z -> 0 < u -> 0 < v -> powerRZ u d = powerRZ v d -> u = v.
Proof.
  intros Hd Hu Hv E. rewrite <- !Rpower_IZR in E by assumption. unfold Rpower in E. apply exp_inv in E.
  apply ln_inv; [assumption|assumption|]. apply Rmult_eq_reg_l with (r := IZR d); [assumption|]. apply IZR_neq. lia.
Qed.
Lemma powerRZ_mult' u v d : (0 <= d)%Z -> powerRZ (u * v) d = powerRZ u d * powerRZ v d.
Proof. intros H. destruct (Z_of_nat_complete d H) as [n ->]. rewrite <- !pow_powerRZ. apply Rpow_mult_distr. Qed.

Lemma powCert_ok p p' : powCert p p' = true -> ole (payVal p) (payVal p') /\ payCanon p'.
Proof.
  destruct p as [b x c], p' as [b' x' c']. unfold powCert. cbv zeta.
  set (d := Z.lcm (Zpos (Qden x)) (Zpos (Qden x'))).
  assert (Hd1 : (Zpos (Qden x) | d)%Z) by apply Z.divide_lcm_l.
  assert (Hd2 : (Zpos (Qden x') | d)%Z) by apply Z.divide_lcm_r.
  assert (Hd : (0 < d)%Z).
  { pose proof (Z.lcm_nonneg (Zpos (Qden x)) (Zpos (Qden x'))) as H0. fold d in H0.
    destruct (Z.eq_dec d 0) as [E|]; [|lia]. apply Z.lcm_eq_0 in E. lia. }
  remember (Qnum x * (d / Zpos (Qden x)))%Z as n eqn:En. remember (Qnum x' * (d / Zpos (Qden x')))%Z as n' eqn:En'.
  pose proof (root_of x d n Hd En Hd1) as Rn. pose proof (root_of x' d n' Hd En' Hd2) as Rn'.
  rewrite !Bool.andb_true_iff. intros [[[C1 C2] C3] Hor].
  split; [|repeat split; cbn [pBase pExp pPre]; now apply canonb1_ok].
  unfold payVal. cbn [pBase pExp pPre].
  rewrite !Bool.orb_true_iff, !Bool.andb_true_iff in Hor. destruct Hor as [[Hor|Hor]|Hor].
  - destruct Hor as [[H1 H2] H3]. 
    assert (qt : forall a b, qeqb a b = true -> a = b).
    { clear. intros [a1 a2] [b1 b2]. unfold qeqb. cbn. rewrite Bool.andb_true_iff, Z.eqb_eq, Pos.eqb_eq. now intros [-> ->]. }
    apply qt in H1, H2, H3. subst. destruct (rpow _ _); cbn; reflexivity.
  - destruct Hor as [[[[[[_ _] _] Hb] Hb'] Hs] He]. apply Qeq_bool_eq in He. apply Q2R_pos in Hb, Hb'.
    rewrite !rpow_pos by assumption. cbn [ole]. f_equal.
    apply Qeq_eqR in He. rewrite !Q2R_mult in He.
    assert (N0 : forall q, 0 < Q2R q \/ Q2R q < 0 -> ~ (q == 0)%Q).
    { intros q Hq E. apply Qeq_eqR in E. replace (Q2R 0) with 0 in E by (unfold Q2R; cbn; lra). lra. }
    assert (Hcs : 0 < Q2R c /\ 0 < Q2R c' \/ Q2R c < 0 /\ Q2R c' < 0).
    { apply Bool.orb_true_iff in Hs as [Hs|Hs]; apply Bool.andb_true_iff in Hs as [S1 S2]; [left|right]; auto using Q2R_pos, Q2R_neg. }
    rewrite !Q2R_power in He by (apply N0; tauto).
    rewrite <- (Rpower_pow_d _ x d n Hb Hd En Hd1), <- (Rpower_pow_d _ x' d n' Hb' Hd En' Hd2) in He.
    pose proof (exp_pos (Q2R x * ln (Q2R b))) as P1. pose proof (exp_pos (Q2R x' * ln (Q2R b'))) as P2.
    change (0 < Rpower (Q2R b) (Q2R x)) in P1. change (0 < Rpower (Q2R b') (Q2R x')) in P2.
    set (u := Rpower (Q2R b) (Q2R x)) in *. set (v := Rpower (Q2R b') (Q2R x')) in *.
    rewrite <- !powerRZ_mult' in He by lia.
    destruct Hcs as [[S1 S2]|[S1 S2]].
    + symmetry. apply (powerRZ_inj_pos _ _ d); auto; apply Rmult_lt_0_compat; assumption.
    + assert (E : - Q2R c * u = - Q2R c' * v); [|lra].
      apply (powerRZ_inj_pos _ _ d); auto; try (apply Rmult_lt_0_compat; lra).
      replace (- Q2R c * u) with (-1 * (Q2R c * u)) by ring. replace (- Q2R c' * v) with (-1 * (Q2R c' * v)) by ring.
      rewrite (powerRZ_mult' (-1)), (powerRZ_mult' (-1) (Q2R c' * v)) by lia. now rewrite He.
  - destruct Hor as [[[[[[Hd0 _] _] _] Nb'] Nb] He]. apply Z.eqb_eq in Hd0. apply Bool.negb_true_iff, Z.eqb_neq in Nb, Nb'.
    apply Qeq_bool_eq, Qeq_eqR in He. rewrite Hd0, Rmult_1_r in Rn, Rn'. rewrite Rn, Rn'.
    rewrite !rpow_int by now apply Q2R_nz'. cbn [ole]. f_equal. rewrite !Q2R_mult in He.
    rewrite !Q2R_power in He by (intros E; unfold Qeq in E; cbn in E; lia). symmetry. exact He.
Qed.

Lemma piTimes_ok r e q : piTimes e = Some q -> eval r e = Some (Q2R q * PI).
Proof.
  destruct e as [x|n p|[|]| |f l|l|l|b y]; cbn [piTimes]; try discriminate.
  - destruct (Z.eqb_spec (Qnum x) 0) as [E|]; [|discriminate]. intros [= <-]. cbn. f_equal. unfold Q2R. rewrite E. cbn. lra.
  - intros [= <-]. cbn. f_equal. unfold Q2R. cbn. lra.
  - destruct l as [|[x| | | | | | |] [|[| |[|]| | | | |] [|? ?]]]; try discriminate. intros [= <-]. cbn. f_equal. ring.
Qed.

Lemma before_ok r a b v w : before a b = true -> eval r a = Some v -> eval r b = Some w -> v < w.
Proof.
  unfold before. destruct (encl a) as [x|] eqn:Ea; [|discriminate]. destruct (encl b) as [y|] eqn:Eb; [|discriminate].
  intros H Hv Hw. pose proof (encl_ok r a x v Ea Hv) as [_ A]. pose proof (encl_ok r b y w Eb Hw) as [B _].
  unfold qltb in H. apply Z.ltb_lt in H. assert (C : (snd x < fst y)%Q) by exact H. apply Qlt_Rlt in C. lra.
Qed.
Lemma notZero_ok r a : notZero a = true -> eval r a <> Some 0.
Proof.
  unfold notZero. destruct (encl a) as [x|] eqn:Ea; [|discriminate]. intros H Hv.
  pose proof (encl_ok r a x 0 Ea Hv) as [A B]. apply Bool.orb_true_iff in H as [H|H]; apply Z.ltb_lt in H.
  - apply Qnum_pos in H. lra.
  - apply Qnum_neg in H. lra.
Qed.
Lemma notInteger_ok r a v z : notInteger a = true -> eval r a = Some v -> v <> IZR z.
Proof.
  unfold notInteger. destruct (encl a) as [x|] eqn:Ea; [|discriminate]. cbv zeta.
  set (n := (Qnum (fst x) / Zpos (Qden (fst x)))%Z). clearbody n.
  rewrite Bool.andb_true_iff. intros [H1 H2] Hv ->. pose proof (encl_ok r a x _ Ea Hv) as [A B].
  unfold qltb in H1, H2. apply Z.ltb_lt in H1, H2.
  assert (C1 : (n # 1 < fst x)%Q) by exact H1. assert (C2 : (snd x < n + 1 # 1)%Q) by exact H2.
  apply Qlt_Rlt in C1, C2.
  assert (E1 : Q2R (n # 1) = IZR n) by (unfold Q2R; cbn; lra). assert (E2 : Q2R (n + 1 # 1) = IZR (n + 1)) by (unfold Q2R; cbn [Qnum Qden]; lra).
  assert (K1 : IZR n < IZR z) by lra. assert (K2 : IZR z < IZR (n + 1)) by lra. apply lt_IZR in K1, K2. lia.
Qed.

Lemma certain_ok c : certain c = true -> forall st r, holds st r c.
Proof.
  induction c as [p p'|e q|e|e|a b|a b|a b|e|e|s|s|m c IH]; cbn [certain]; intros H st r; try discriminate; cbn [holds].
  - now apply powCert_ok.
  - intros. now apply (notInteger_ok r e).
  - now apply notZero_ok.
  - intros v w Hv Hw. apply Bool.orb_true_iff in H as [H|H]; [|now apply (before_ok r a b)]. revert v w Hv Hw.
    destruct (piTimes a) as [x|] eqn:Ea; [|discriminate]. destruct (piTimes b) as [y|] eqn:Eb; [|discriminate].
    rewrite (piTimes_ok r a x Ea), (piTimes_ok r b y Eb). intros v w [= <-] [= <-]. apply Rmult_lt_compat_r; [apply PI_RGT_0|].
    apply Qlt_Rlt. unfold qltb in H. now apply Z.ltb_lt.
  - intros v w Hv Hw. apply Bool.orb_true_iff in H as [H|H]; [|left; now apply (before_ok r a b)]. revert v w Hv Hw.
    destruct (piTimes a) as [x|] eqn:Ea; [|discriminate]. destruct (piTimes b) as [y|] eqn:Eb; [|discriminate].
    rewrite (piTimes_ok r a x Ea), (piTimes_ok r b y Eb). intros v w [= <-] [= <-]. apply Rmult_le_compat_r; [left; apply PI_RGT_0|].
    apply Qle_Rle. unfold qltb in H. apply Bool.negb_true_iff, Z.ltb_ge in H. exact H.
  - intros _. now apply notZero_ok.
  - intros _. now apply notZero_ok.
  - now apply IH.
Qed.

Lemma doubtful_ok st r facts : Forall (holds st r) (doubtful facts) -> Forall (holds st r) facts.
Proof.
  unfold doubtful. rewrite !Forall_forall. intros H c Hc. destruct (certain c) eqn:E; [now apply certain_ok|].
  apply H. apply filter_In. split; [assumption|]. now rewrite E.
Qed.
