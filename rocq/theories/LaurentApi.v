(** What expansion of polynomials means for users: from [expand_laurent] to statements about executions. *)
From Verif Require Import LaurentSpec LaurentOrder LaurentProd LaurentIdent LaurentSum LaurentExpand LaurentMain FuelMono FuelApi SimplApi ExprProofs NumberProofs OrderProofs World RPow.
From Coq Require Import Lia Lra Bool Permutation.
From Verif Require Import Run LaurentSpec.
Open Scope R_scope.

(** ** The value of a normal form *)
Lemma facE_value r f : allPos r -> eval r (facE f) = Some (facV r f).
Proof.
  intros Hr. destruct f as [[n p] z]. unfold facE, facV, symE; cbn [fst snd]. specialize (Hr n p).
  destruct (Z.eqb_spec z 1) as [->|_]; cbn [eval]; [now rewrite powerRZ_1|].
  rewrite Q2R_ofZ. apply rpow_int. lra.
Qed.
Lemma factorsE_value r m : allPos r -> prodVal r (factorsE m) = Some (monoV r m).
Proof.
  intros Hr. destruct m as [c k]. unfold factorsE, monoV; cbn [fst snd].
  assert (E : prodVal r (map facE k) = Some (keyV r k)).
  { induction k as [|f k IH]; [reflexivity|]. cbn [map prodVal keyV fold_right]. rewrite facE_value by exact Hr.
    unfold prodVal, keyV in IH. now rewrite IH. }
  destruct (qeqb c 1) eqn:Ec; cbn [app].
  - apply qeqb_eq in Ec as ->. rewrite E, Q2R_1. f_equal. ring.
  - unfold prodVal in *. cbn [fold_right eval]. now rewrite E.
Qed.
Lemma monoE_value r m : allPos r -> eval r (monoE m) = Some (monoV r m).
Proof.
  intros Hr. pose proof (factorsE_value r m Hr) as E. unfold monoE. destruct (factorsE m) as [|x [|y l]].
  - cbn in E |- *. unfold one. cbn [eval]. now rewrite Q2R_1.
  - unfold prodVal in E. cbn [fold_right] in E. destruct (eval r x) as [v|]; [|discriminate]. cbn in E. rewrite Rmult_1_r in E. exact E.
  - exact E.
Qed.
Lemma polyE_value r p : allPos r -> eval r (polyE p) = Some (polyV r p).
Proof.
  intros Hr.
  assert (E : sumVal r (map monoE p) = Some (polyV r p)).
  { induction p as [|m p IH]; [reflexivity|]. rewrite polyV_cons. unfold sumVal in *. cbn [map fold_right]. now rewrite monoE_value, IH by exact Hr. }
  unfold polyE. destruct (map monoE p) as [|x [|y l]].
  - cbn in E |- *. unfold zero. cbn [eval]. now rewrite Q2R_0.
  - unfold sumVal in E. cbn [fold_right] in E. destruct (eval r x) as [v|]; [|discriminate]. cbn in E. rewrite Rplus_0_r in E. exact E.
  - exact E.
Qed.

Lemma laurent_wf e : laurent e -> wf anySym e.
Proof.
  induction 1 as [q C|n p|l N H IH|l N H IH|n p z|l z Hz H IH].
  - exact C.
  - exact I.
  - clear N H. cbn. induction l as [|x l IHl]; [exact I|]. split; [apply IH; now left | apply IHl; intros; apply IH; now right].
  - clear N H. cbn. induction l as [|x l IHl]; [exact I|]. split; [apply IH; now left | apply IHl; intros; apply IH; now right].
  - split; [exact I | apply canon_ofZ].
  - split; [exact IH | apply canon_ofZ].
Qed.

(** ** Results of the functions, whatever the bounds of the model *)
Definition expandsTo (Y : sys) (e x : expr) : Prop := exists F k facts, w_expand (world Y F k) e = Ok x facts.
Definition sumsTo (Y : sys) (l : list expr) (x : expr) : Prop := exists F k facts, w_sum (world Y F k) l = Ok x facts.
Definition multipliesTo (Y : sys) (l : list expr) (x : expr) : Prop := exists F k facts, w_prod (world Y F k) l = Ok x facts.

Lemma expand_rle W W' e : ople W W' -> rle (w_expand W e) (w_expand W' e).
Proof. intros H. apply (o_expand _ _ H). Qed.
Lemma sum_rle W W' e : ople W W' -> rle (w_sum W e) (w_sum W' e).
Proof. intros H. apply (o_sum _ _ H). Qed.
Lemma prod_rle W W' e : ople W W' -> rle (w_prod W e) (w_prod W' e).
Proof. intros H. apply (o_prod _ _ H). Qed.

Lemma same_result {A} (f : oper -> res A) Y F F' k k' x x' a a' : (forall W W', ople W W' -> rle (f W) (f W')) ->
  f (world Y F k) = Ok x a -> f (world Y F' k') = Ok x' a' -> x = x'.
Proof.
  intros Hf E E'. pose proof (oper_unique f Y F F' k k' Hf) as H. rewrite E, E' in H. apply H; discriminate.
Qed.
Lemma expandsTo_unique Y e x x' : expandsTo Y e x -> expandsTo Y e x' -> x = x'.
Proof. intros (F & k & a & E) (F' & k' & a' & E'). eapply (same_result (fun W => w_expand W e)); eauto. intros; now apply expand_rle. Qed.
Lemma sumsTo_unique Y e x x' : sumsTo Y e x -> sumsTo Y e x' -> x = x'.
Proof. intros (F & k & a & E) (F' & k' & a' & E'). eapply (same_result (fun W => w_sum W e)); eauto. intros; now apply sum_rle. Qed.
Lemma multipliesTo_unique Y e x x' : multipliesTo Y e x -> multipliesTo Y e x' -> x = x'.
Proof. intros (F & k & a & E) (F' & k' & a' & E'). eapply (same_result (fun W => w_prod W e)); eauto. intros; now apply prod_rle. Qed.

(** An execution that ends returns x if one of them returns x. *)
Lemma only_result {A} (f : oper -> res A) Y F k F0 k0 x a : (forall W W', ople W W' -> rle (f W) (f W')) ->
  f (world Y F0 k0) = Ok x a -> f (world Y F k) = Fuel \/ exists facts, f (world Y F k) = Ok x facts.
Proof.
  intros Hf E. pose proof (oper_unique f Y F F0 k k0 Hf) as H. rewrite E in H.
  destruct (f (world Y F k)) as [y b| | |s]; [right|now left|..].
  - exists b. f_equal. apply H; discriminate.
  - exfalso. apply H; discriminate.
  - exfalso. apply H; discriminate.
Qed.

Section Api.
  Variables (Y : sys) (B : Z).
  Hypothesis Hlt : exactUpTo B (s_nlt Y).

  (** The normal form of e. *)
  Definition isNormalFormOf (e : expr) (p : poly) : Prop :=
    polyOK p /\ pdeg B p /\ (forall r, allPos r -> eval r e = Some (polyV r p)) /\
    ev (fun F k => w_expand (world Y F k) e = Ok (polyE p) []).
  Lemma normalForm e : laurent e -> (degreeBound e <= B)%Z -> exists p, isNormalFormOf e p.
  Proof.
    intros L D. destruct (expand_laurent Y B Hlt e L D) as (p & O & V & Dp & E). exists p. repeat split; try apply O; auto.
    eapply pdeg_le; [|apply polyDeg_pdeg]. lia.
  Qed.
  Lemma normal_expandsTo e p : isNormalFormOf e p -> expandsTo Y e (polyE p).
  Proof. intros (_ & _ & _ & E). destruct (ev_ex _ E) as (F & k & E'). now exists F, k, []. Qed.
  Lemma normal_result e p x : isNormalFormOf e p -> expandsTo Y e x -> x = polyE p.
  Proof. intros H E. eapply expandsTo_unique; [exact E | now apply normal_expandsTo]. Qed.

  Lemma polyE_noUndef p : noUndef (polyE p) = true.
  Proof.
    unfold polyE. assert (H : forallb noUndef (map monoE p) = true).
    { induction p as [|m p IH]; [reflexivity|]. cbn [map forallb]. now rewrite monoE_noUndef. }
    destruct (map monoE p) as [|x [|y l]]; [reflexivity | cbn in H; now rewrite andb_true_r in H | exact H].
  Qed.
  Lemma polyE_inj p q : polyOK p -> polyOK q -> polyE p = polyE q -> p = q.
  Proof.
    intros Op Oq E. apply poly_unique; auto. intros r Hr. pose proof (polyE_value r p Hr) as V. rewrite E, polyE_value in V by exact Hr. congruence.
  Qed.

  Theorem expand_ends e : laurent e -> (degreeBound e <= B)%Z -> exists x, expandsTo Y e x /\
    forall F k, w_expand (world Y F k) e = Fuel \/ exists facts, w_expand (world Y F k) e = Ok x facts.
  Proof.
    intros L D. destruct (normalForm e L D) as [p Hp]. exists (polyE p). pose proof (normal_expandsTo e p Hp) as E. split; [exact E|].
    intros F k. destruct E as (F0 & k0 & a & E). eapply (only_result (fun W => w_expand W e)); [|exact E]. intros; now apply expand_rle.
  Qed.
  Theorem expand_normal_form e x : laurent e -> (degreeBound e <= B)%Z -> expandsTo Y e x ->
    exists p, x = polyE p /\ polyOK p /\ forall r, allPos r -> eval r x = eval r e /\ eval r e = Some (polyV r p).
  Proof.
    intros L D E. destruct (normalForm e L D) as [p Hp]. exists p. rewrite (normal_result e p x Hp E). destruct Hp as (O & _ & V & _).
    repeat split; try apply O; rewrite V by assumption; [apply polyE_value|]; auto.
  Qed.
  Theorem expand_decides e1 e2 x1 x2 : laurent e1 -> laurent e2 -> (degreeBound e1 <= B)%Z -> (degreeBound e2 <= B)%Z ->
    expandsTo Y e1 x1 -> expandsTo Y e2 x2 -> (isEqual x1 x2 = true <-> forall r, allPos r -> eval r e1 = eval r e2).
  Proof.
    intros L1 L2 D1 D2 E1 E2. destruct (normalForm e1 L1 D1) as [p Hp]. destruct (normalForm e2 L2 D2) as [q Hq].
    rewrite (normal_result _ _ _ Hp E1), (normal_result _ _ _ Hq E2). destruct Hp as (Op & _ & Vp & _). destruct Hq as (Oq & _ & Vq & _).
    split.
    - intros H r Hr. apply isEqual_eq in H. apply polyE_inj in H as ->; auto. now rewrite Vp, Vq.
    - intros H. assert (p = q) as ->; [|apply isEqual_refl, polyE_noUndef]. apply poly_unique; auto. intros r Hr. specialize (H r Hr).
      rewrite Vp, Vq in H by exact Hr. congruence.
  Qed.
  Theorem expand_zero e x : laurent e -> (degreeBound e <= B)%Z -> expandsTo Y e x ->
    (x = zero <-> forall r, allPos r -> eval r e = Some 0).
  Proof.
    intros L D E. destruct (normalForm e L D) as [p Hp]. rewrite (normal_result _ _ _ Hp E). destruct Hp as (O & _ & V & _). split.
    - intros H r Hr. rewrite V by exact Hr. rewrite <- polyE_value by exact Hr. rewrite H. unfold zero. cbn [eval]. now rewrite Q2R_0.
    - intros H. assert (p = []) as ->; [|reflexivity]. apply poly_unique; [exact O | apply polyOK_nil|]. intros r Hr. specialize (H r Hr).
      rewrite V in H by exact Hr. change (polyV r []) with 0. congruence.
  Qed.
  Theorem expand_idempotent e x : laurent e -> (degreeBound e <= B)%Z -> expandsTo Y e x -> expandsTo Y x x.
  Proof.
    intros L D E. destruct (normalForm e L D) as [p Hp]. rewrite (normal_result _ _ _ Hp E). destruct Hp as (O & Dp & _ & _).
    destruct (ev_ex _ (expandPoly Y B Hlt p O Dp)) as (F & k & E'). now exists F, k, [].
  Qed.
  Theorem expand_all_values e x r v : laurent e -> (degreeBound e <= B)%Z -> expandsTo Y e x -> posEnv r ->
    eval r e = Some v -> eval r x = Some v.
  Proof.
    intros L D E Hr V. destruct (normalForm e L D) as [p Hp]. rewrite (normal_result _ _ _ Hp E). destruct Hp as (_ & _ & _ & E').
    destruct (ev_ex _ E') as (F & k & E2). eapply (expand_value Y F k r Hr e _ []); eauto; [now apply laurent_wf|]. exists true. constructor.
  Qed.

  (** Sums of expanded polynomials. *)
  Definition expanded (x : expr) : Prop := exists e, laurent e /\ (degreeBound e <= B)%Z /\ expandsTo Y e x.
  Lemma expanded_poly x : expanded x -> exists p, polyOK p /\ pdeg B p /\ x = polyE p.
  Proof.
    intros (e & L & D & E). destruct (normalForm e L D) as [p Hp]. exists p. pose proof (normal_result _ _ _ Hp E). destruct Hp as (O & Dp & _). auto.
  Qed.
  Lemma expanded_polys l : Forall expanded l -> exists ps, Forall polyOK ps /\ Forall (pdeg B) ps /\ l = map polyE ps.
  Proof.
    induction 1 as [|x l Hx _ (ps & O & D & ->)]; [exists []; auto|]. destruct (expanded_poly x Hx) as (p & Op & Dp & ->). exists (p :: ps). auto.
  Qed.
  Lemma polyE_expanded_ev p : polyOK p -> pdeg B p -> expandsTo Y (polyE p) (polyE p).
  Proof. intros O D. destruct (ev_ex _ (expandPoly Y B Hlt p O D)) as (F & k & E'). now exists F, k, []. Qed.
  Lemma sumVal_polys r ps : allPos r -> sumVal r (map polyE ps) = Some (polysV r ps).
  Proof.
    intros Hr. induction ps as [|p ps IH]; [reflexivity|]. unfold sumVal in *. cbn [map fold_right]. rewrite IH, polyE_value by exact Hr. reflexivity.
  Qed.
  Lemma sum_of_polys ps : ps <> [] -> Forall polyOK ps -> Forall (pdeg B) ps -> exists s, polyOK s /\ pdeg B s /\
    (forall r, allPos r -> sumVal r (map polyE ps) = Some (polyV r s)) /\ sumsTo Y (map polyE ps) (polyE s).
  Proof.
    intros N O D. destruct (sum_ev Y B Hlt ps N O D) as (s & (Os & Vs & Is & _) & E). exists s. split; [exact Os|]. split; [|split].
    - apply Forall_forall. intros m Hm. apply (in_map snd) in Hm. apply Is in Hm. apply in_map_iff in Hm as (m' & <- & Hm').
      apply in_concat in Hm' as (p & Hp & Hm'). rewrite Forall_forall in D. specialize (D p Hp). unfold pdeg in D. rewrite Forall_forall in D. now apply D.
    - intros r Hr. rewrite sumVal_polys by exact Hr. now rewrite Vs.
    - destruct (ev_ex _ E) as (F & k & E'). now exists F, k, [].
  Qed.
  Theorem sum_any_order l l' : l <> [] -> Forall expanded l -> Permutation l l' ->
    exists x, sumsTo Y l x /\ sumsTo Y l' x /\ expandsTo Y x x /\ forall r, allPos r -> eval r x = sumVal r l.
  Proof.
    intros N H P. assert (H' : Forall expanded l') by (now rewrite <- P). assert (N' : l' <> []) by (intros ->; now apply Permutation_sym, Permutation_nil in P).
    destruct (expanded_polys l H) as (ps & O & D & ->). destruct (expanded_polys l' H') as (ps' & O' & D' & ->).
    destruct (sum_of_polys ps) as (s & Os & Ds & Vs & Es); [now destruct ps | assumption..|].
    destruct (sum_of_polys ps') as (s' & Os' & Ds' & Vs' & Es'); [now destruct ps' | assumption..|].
    assert (s' = s) as ->.
    { apply poly_unique; auto. intros r Hr. specialize (Vs r Hr). specialize (Vs' r Hr). rewrite (sumVal_perm r _ _ P) in Vs. congruence. }
    exists (polyE s). split; [exact Es|]. split; [exact Es'|]. split; [now apply polyE_expanded_ev|]. intros r Hr. now rewrite polyE_value, Vs.
  Qed.

  (** Products of monomials: expanded polynomials that aren't sums. *)
  Lemma expanded_mono x : expanded x -> isSum x = false -> x = zero \/ exists m, monoOK m /\ (kdeg (snd m) <= B)%Z /\ x = monoE m.
  Proof.
    intros Hx Hs. destruct (expanded_poly x Hx) as (p & O & D & ->). destruct p as [|m [|n p]]; [now left|right|discriminate Hs].
    exists m. destruct O as [O _]. inversion O; subst. inversion D; subst. auto.
  Qed.
  Lemma expanded_monos l : Forall expanded l -> Forall (fun x => isSum x = false) l -> ~ In zero l ->
    exists ms, Forall monoOK ms /\ Forall (fun m => kdeg (snd m) <= B)%Z ms /\ l = map monoE ms.
  Proof.
    induction 1 as [|x l Hx _ IH]; intros Hs Nz; [exists []; auto|]. inversion Hs; subst.
    destruct IH as (ms & O & D & ->); [assumption | intros H; apply Nz; now right|].
    destruct (expanded_mono x Hx) as [->|(m & Om & Dm & ->)]; [assumption | exfalso; apply Nz; now left|]. exists (m :: ms). auto.
  Qed.
  Lemma prodVal_monos r ms : allPos r -> prodVal r (map monoE ms) = Some (monosV r ms).
  Proof.
    intros Hr. induction ms as [|m ms IH]; [reflexivity|]. unfold prodVal in *. cbn [map fold_right]. rewrite IH, monoE_value by exact Hr. reflexivity.
  Qed.
  Theorem prod_any_order l l' : l <> [] -> Forall expanded l -> Forall (fun x => isSum x = false) l -> ~ In zero l -> Permutation l l' ->
    exists x, multipliesTo Y l x /\ multipliesTo Y l' x /\ isSum x = false /\ forall r, allPos r -> eval r x = prodVal r l.
  Proof.
    intros N H S Nz P. assert (H' : Forall expanded l') by (now rewrite <- P). assert (S' : Forall (fun x => isSum x = false) l') by (now rewrite <- P).
    assert (Nz' : ~ In zero l') by (intros X; apply Nz; eapply Permutation_in; [apply Permutation_sym, P | exact X]).
    assert (N' : l' <> []) by (intros ->; now apply Permutation_sym, Permutation_nil in P).
    destruct (expanded_monos l H S Nz) as (ms & O & D & ->). destruct (expanded_monos l' H' S' Nz') as (ms' & O' & D' & ->).
    destruct (prod_ev Y ms) as (m & Om & Vm & _ & Em); [now destruct ms | assumption|].
    destruct (prod_ev Y ms') as (m' & Om' & Vm' & _ & Em'); [now destruct ms' | assumption|].
    assert (m' = m) as ->.
    { apply mono_unique; auto. intros r Hr. rewrite Vm, Vm' by exact Hr. pose proof (prodVal_monos r ms Hr) as A. pose proof (prodVal_monos r ms' Hr) as A'.
      rewrite (prodVal_perm r _ _ P) in A. congruence. }
    exists (monoE m). split; [destruct (ev_ex _ Em) as (F & k & E'); now exists F, k, []|].
    split; [destruct (ev_ex _ Em') as (F & k & E'); now exists F, k, []|]. split.
    - unfold monoE, factorsE. destruct m as [c k]; cbn [fst snd]. destruct (qeqb c 1); cbn [app]; destruct k as [|[s z] [|g k]]; try reflexivity; cbn; unfold facE; cbn; now destruct (z =? 1)%Z.
    - intros r Hr. now rewrite monoE_value, prodVal_monos, Vm by exact Hr.
  Qed.
End Api.
