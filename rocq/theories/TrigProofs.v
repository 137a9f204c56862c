(** Value preservation of trigonometric functions and logarithms. *)
From Verif Require Export TrigFacts SignProofs TrigModel.
From Coq Require Import Lra Lia.
Open Scope R_scope.

Section TrigP.
  Variables (Y : sys) (W : oper).
  Hypothesis HW : soundOps W.
  Variables (st : bool) (r : env) (P : name -> bool -> Prop).
  Hypothesis Hg : wgood st r.
  Notation sp := (spec (holds st r)).
  Notation nev := (numericEval Y).
  Notation valOK o := (fun e => wf P e /\ ole o (eval r e)).
  Definition valIs (e : expr) (v : R) : Prop := wf P e /\ eval r e = Some v.

  Lemma valIs_num q v : canon q -> Q2R q = v -> valIs (Num q) v.
  Proof. intros Hc <-. now split. Qed.

  Lemma prodVal_ex l vs : Forall2 valIs l vs -> prodVal r l = Some (fold_right Rmult 1 vs).
  Proof. induction 1 as [|x w l vs [Hx Ex] _ IH]; [reflexivity|]. rewrite prodVal_cons, Ex, IH. reflexivity. Qed.
  Lemma sumVal_ex l vs : Forall2 valIs l vs -> sumVal r l = Some (fold_right Rplus 0 vs).
  Proof. induction 1 as [|x w l vs [Hx Ex] _ IH]; [reflexivity|]. rewrite sumVal_cons, Ex, IH. reflexivity. Qed.
  Lemma valIs_wf l vs : Forall2 valIs l vs -> Forall (wf P) l.
  Proof. induction 1 as [|x w l vs [Hx Ex] _ IH]; auto. Qed.

  Lemma prod_ex l vs v : Forall2 valIs l vs -> fold_right Rmult 1 vs = v -> sp (w_prod W l) (fun e => valIs e v).
  Proof.
    intros Hl Ev. eapply spec_weaken; [apply prod_call with (P := P); try assumption; eapply valIs_wf; eassumption|].
    intros e (We & Ve). rewrite (prodVal_ex l vs Hl), Ev in Ve. now split.
  Qed.
  Lemma sum_ex l vs v : Forall2 valIs l vs -> fold_right Rplus 0 vs = v -> sp (w_sum W l) (fun e => valIs e v).
  Proof.
    intros Hl Ev. eapply spec_weaken; [apply sum_call with (P := P); try assumption; eapply valIs_wf; eassumption|].
    intros e (We & Ve). rewrite (sumVal_ex l vs Hl), Ev in Ve. now split.
  Qed.
  Lemma minus_ex l vs v : Forall2 valIs l vs -> - fold_right Rmult 1 vs = v -> sp (minus W l) (fun e => valIs e v).
  Proof.
    intros Hl Ev. eapply spec_weaken; [apply minus_call with (P := P); try assumption; eapply valIs_wf; eassumption|].
    intros e (We & Ve). rewrite (prodVal_ex l vs Hl) in Ve. cbn in Ve. split; [assumption|]. rewrite Ve. f_equal. lra.
  Qed.
  Lemma sqrt_ex a v w : valIs a v -> 0 <= v -> sqrt v = w -> sp (sqrtE W a) (fun e => valIs e w).
  Proof.
    intros [Ha Ea] Hv <-. unfold sqrtE. eapply spec_weaken; [apply pow_call with (P := P); auto with sp|].
    intros e (We & Ve). rewrite Ea, eval_half in Ve. cbn [opow] in Ve. rewrite rpow_half in Ve by assumption. now split.
  Qed.
  Lemma over_ex a v w : valIs a v -> v <> 0 -> / v = w -> sp (oneOver W a) (fun e => valIs e w).
  Proof.
    intros [Ha Ea] Hv <-. unfold oneOver. eapply spec_weaken; [apply pow_call with (P := P); auto with sp|].
    intros e (We & Ve). rewrite Ea, eval_mOne in Ve. cbn [opow] in Ve. rewrite rpow_rm1 in Ve by assumption. now split.
  Qed.
  Lemma timesPi_ex q v : canon q -> Q2R q * PI = v -> sp (timesPi W q) (fun e => valIs e v).
  Proof.
    intros Hc Hv. unfold timesPi. apply prod_ex with (vs := [Q2R q; PI]).
    - repeat constructor. exact Hc.
    - cbn. rewrite <- Hv. ring.
  Qed.
  Lemma valIs_zero : valIs zero 0. Proof. split; [auto with sp|apply eval_zero]. Qed.
  Lemma valIs_one : valIs one 1. Proof. split; [auto with sp|apply eval_one]. Qed.
  Lemma valIs_two : valIs two 2. Proof. split; [auto with sp|apply eval_two]. Qed.
  Lemma valIs_half : valIs half (/ 2). Proof. split; [auto with sp|apply eval_half]. Qed.
  Lemma valIs_mOne : valIs mOne (-1). Proof. split; [auto with sp|apply eval_mOne]. Qed.
  Lemma valIs_numZ z : valIs (numZ z) (IZR z). Proof. split; [apply wf_num|apply eval_num_z]. Qed.
  Lemma valIs_fourth : valIs (Num (1 # 4)) (1 / 4).
  Proof. apply valIs_num; [reflexivity|]. unfold Q2R. cbn. lra. Qed.

  Hint Resolve valIs_zero valIs_one valIs_two valIs_half valIs_mOne valIs_numZ valIs_fourth : vi.

  Lemma Q2R_lit n d : Q2R (n # d) = IZR n / IZR (Zpos d).
  Proof. reflexivity. Qed.

  Ltac piStep x := eapply spec_bind; [apply timesPi_ex with (v := x); [reflexivity|rewrite ?Q2R_lit; try lra; field]|].
  Ltac prStep xs x L := eapply spec_bind; [apply prod_ex with (vs := xs) (v := x); [auto 6 with vi|rewrite ?L; cbn; try ring; field]|].
  Ltac suStep xs x L := eapply spec_bind; [apply sum_ex with (vs := xs) (v := x); [auto 6 with vi|rewrite ?L; cbn; try ring; field]|].

  Definition sineEntry (kv : expr * expr) : Prop :=
    exists t, valIs (fst kv) t /\ 0 <= t <= PI / 2 /\ valIs (snd kv) (sin t).

  Lemma sineTable_sp : sp (sineTable W) (Forall sineEntry).
  Proof.
    pose proof PI_RGT_0 as Hpi. pose proof s2_pos as H2. pose proof s3_pos as H3. pose proof s2_lt2 as H4. unfold sineTable.
    eapply spec_bind; [apply sqrt_ex with (v := 2) (w := sqrt 2); auto with vi; lra|]. intros s2 V2.
    eapply spec_bind; [apply sqrt_ex with (v := 6) (w := sqrt 6); auto with vi; lra|]. intros s6 V6.
    eapply spec_bind; [apply sqrt_ex with (v := 3) (w := sqrt 3); auto with vi; lra|]. intros s3 V3.
    eapply spec_bind; [apply minus_ex with (vs := [sqrt 2]) (v := - sqrt 2); auto; cbn; ring|]. intros m2 Vm2.
    piStep (PI / 12). intros k1 Vk1.
    suStep [sqrt 6; - sqrt 2] (sqrt 6 - sqrt 2) sin_0. intros d1 Vd1.
    prStep [1 / 4; sqrt 6 - sqrt 2] (sin (PI / 12)) sin_PI12. intros v1 Vv1.
    piStep (PI / 8). intros k2 Vk2.
    suStep [2; - sqrt 2] (2 - sqrt 2) sin_0. intros d2 Vd2.
    eapply spec_bind; [apply sqrt_ex with (v := 2 - sqrt 2) (w := sqrt (2 - sqrt 2)); auto with vi; lra|]. intros q2 Vq2.
    prStep [/ 2; sqrt (2 - sqrt 2)] (sin (PI / 8)) sin_PI8. intros v2 Vv2.
    piStep (PI / 6). intros k3 Vk3.
    piStep (PI / 4). intros k4 Vk4.
    eapply spec_bind; [apply over_ex with (v := sqrt 2) (w := sin (PI / 4)); [assumption|lra|rewrite sin_PI4', inv_s2; lra]|]. intros v4 Vv4.
    piStep (PI / 3). intros k5 Vk5.
    prStep [/ 2; sqrt 3] (sin (PI / 3)) sin_PI3. intros v5 Vv5.
    piStep (3 * (PI / 8)). intros k6 Vk6.
    suStep [2; sqrt 2] (2 + sqrt 2) sin_0. intros d6 Vd6.
    eapply spec_bind; [apply sqrt_ex with (v := 2 + sqrt 2) (w := sqrt (2 + sqrt 2)); auto with vi; lra|]. intros q6 Vq6.
    prStep [/ 2; sqrt (2 + sqrt 2)] (sin (3 * (PI / 8))) sin_3PI8. intros v6 Vv6.
    piStep (5 * (PI / 12)). intros k7 Vk7.
    suStep [sqrt 6; sqrt 2] (sqrt 6 + sqrt 2) sin_0. intros d7 Vd7.
    prStep [1 / 4; sqrt 6 + sqrt 2] (sin (5 * (PI / 12))) sin_5PI12. intros v7 Vv7.
    piStep (PI / 2). intros k8 Vk8.
    apply spec_ret. repeat apply Forall_cons; try apply Forall_nil.
    - exists 0. split; [auto with vi|split; [lra|]]. rewrite sin_0. auto with vi.
    - exists (PI / 12). auto using Vk1 with vi || (split; [exact Vk1|split; [lra|exact Vv1]]).
    - exists (PI / 8). split; [exact Vk2|split; [lra|exact Vv2]].
    - exists (PI / 6). split; [exact Vk3|split; [lra|]]. rewrite sin_PI6. replace (1 / 2) with (/ 2) by lra. auto with vi.
    - exists (PI / 4). split; [exact Vk4|split; [lra|exact Vv4]].
    - exists (PI / 3). split; [exact Vk5|split; [lra|exact Vv5]].
    - exists (3 * (PI / 8)). split; [exact Vk6|split; [lra|exact Vv6]].
    - exists (5 * (PI / 12)). split; [exact Vk7|split; [lra|exact Vv7]].
    - exists (PI / 2). split; [exact Vk8|split; [lra|]]. rewrite sin_PI2. auto with vi.
  Qed.

  Definition tanEntry (kv : expr * expr) : Prop :=
    exists t, valIs (fst kv) t /\ ((0 <= t < PI / 2 /\ valIs (snd kv) (tan t)) \/ (t = PI / 2 /\ snd kv = Undef)).

  Lemma tanTable_sp : sp (tanTable W) (Forall tanEntry).
  Proof.
    pose proof PI_RGT_0 as Hpi. pose proof s2_pos as H2. pose proof s3_pos as H3. pose proof s2_lt2 as H4. unfold tanTable.
    eapply spec_bind; [apply sqrt_ex with (v := 2) (w := sqrt 2); auto with vi; lra|]. intros s2 V2.
    eapply spec_bind; [apply sqrt_ex with (v := 3) (w := sqrt 3); auto with vi; lra|]. intros s3 V3.
    piStep (PI / 12). intros k1 Vk1.
    eapply spec_bind; [apply minus_ex with (vs := [sqrt 3]) (v := - sqrt 3); auto; cbn; ring|]. intros m3 Vm3.
    suStep [2; - sqrt 3] (tan (PI / 12)) tan_PI12. intros v1 Vv1.
    piStep (PI / 8). intros k2 Vk2.
    eapply spec_bind; [apply minus_ex with (vs := [1]) (v := -1); auto with vi; cbn; ring|]. intros m1 Vm1.
    suStep [sqrt 2; -1] (tan (PI / 8)) tan_PI8. intros v2 Vv2.
    piStep (PI / 6). intros k3 Vk3.
    eapply spec_bind; [apply over_ex with (v := sqrt 3) (w := tan (PI / 6)); [assumption|lra|rewrite tan_PI6'; reflexivity]|]. intros v3 Vv3.
    piStep (PI / 4). intros k4 Vk4.
    piStep (PI / 3). intros k5 Vk5.
    piStep (3 * (PI / 8)). intros k6 Vk6.
    suStep [sqrt 2; 1] (tan (3 * (PI / 8))) tan_3PI8. intros v6 Vv6.
    piStep (5 * (PI / 12)). intros k7 Vk7.
    suStep [2; sqrt 3] (tan (5 * (PI / 12))) tan_5PI12. intros v7 Vv7.
    piStep (PI / 2). intros k8 Vk8.
    apply spec_ret. repeat apply Forall_cons; try apply Forall_nil.
    - exists 0. split; [auto with vi|left; split; [lra|]]. rewrite tan_0. auto with vi.
    - exists (PI / 12). split; [exact Vk1|left; split; [lra|exact Vv1]].
    - exists (PI / 8). split; [exact Vk2|left; split; [lra|exact Vv2]].
    - exists (PI / 6). split; [exact Vk3|left; split; [lra|exact Vv3]].
    - exists (PI / 4). split; [exact Vk4|left; split; [lra|]]. rewrite tan_PI4. auto with vi.
    - exists (PI / 3). split; [exact Vk5|left; split; [lra|]]. rewrite tan_PI3. auto with vi.
    - exists (3 * (PI / 8)). split; [exact Vk6|left; split; [lra|exact Vv6]].
    - exists (5 * (PI / 12)). split; [exact Vk7|left; split; [lra|exact Vv7]].
    - exists (PI / 2). split; [exact Vk8|right; split; reflexivity].
  Qed.

  (** ** Lookup *)

  Lemma getValue_sp arg t (E : expr * expr -> Prop) : Forall E t ->
    sp (getValue Y arg t) (fun o => match o with None => True | Some v => exists k, E (k, v) /\ ole (eval r arg) (eval r k) end).
  Proof.
    intros Ht. unfold getValue. destruct (find _ t) as [[k v]|] eqn:F.
    { apply find_some in F as [Hin Eq]. cbn [fst snd] in *. apply spec_ret. exists k.
      rewrite Forall_forall in Ht. split; [now apply Ht|]. apply ole_eq. now apply isEqual_val. }
    destruct (nev arg) as [a|]; [|exact I].
    destruct (find (fun kv => oEq Y (Some a) _) t) as [[k v]|] eqn:F2; [|now apply spec_ret].
    apply find_some in F2 as [Hin _]. cbn [fst snd] in *. eapply spec_bind; [apply spec_rely'|]. intros ? Hh. cbn [holds] in Hh.
    apply spec_ret. exists k. rewrite Forall_forall in Ht. split; [now apply Ht|assumption].
  Qed.

  Lemma getKey_sp arg t (E : expr * expr -> Prop) : Forall E t ->
    sp (getKey Y arg t) (fun o => match o with None => True
      | Some k => exists v, E (k, v) /\ isUndefined v = false /\ ole (eval r arg) (eval r v) end).
  Proof.
    intros Ht. induction Ht as [|[k v] t Hk Ht IH]; cbn [getKey]; [now apply spec_ret|].
    destruct (isUndefined v) eqn:Eu; [exact IH|].
    destruct (isEqual arg v) eqn:Ee.
    { apply spec_ret. exists v. repeat split; try assumption. apply ole_eq. now apply isEqual_val. }
    destruct (oEq Y (nev arg) (nev v)); [|exact IH].
    eapply spec_bind; [apply spec_rely'|]. intros ? Hh. cbn [holds] in Hh. apply spec_ret. exists v. auto.
  Qed.

  (** ** Shifting by full turns *)

  Definition turned (o : option R) (e : expr) : Prop :=
    wf P e /\ forall v, o = Some v -> exists w, eval r e = Some w /\ sameAngle v w.

  Lemma turned_refl e : wf P e -> turned (eval r e) e.
  Proof. intros Hw. split; [assumption|]. intros v Ev. exists v. split; [assumption|apply sameAngle_refl]. Qed.

  Lemma turn_step o a s c : turned o a -> wf P s -> eval r s = Some c -> (forall x y, sameAngle x y -> sameAngle x (y + c)) ->
    sp (w_sum W [a; s]) (turned o).
  Proof.
    intros [Ha Va] Hs Es Hc. eapply spec_weaken; [apply sum_call with (P := P); auto|]. intros e (We & Ve).
    split; [assumption|]. intros v Ev. destruct (Va v Ev) as (w & Ew & Hw). exists (w + c).
    rewrite sum2, Ew, Es in Ve. split; [exact Ve|auto].
  Qed.

  Lemma addUp_sp n o a t : turned o a -> valIs t (2 * PI) -> sp (addUp W n a t) (turned o).
  Proof.
    intros Ha [Ht Et]. revert a Ha. induction n as [|n IH]; intros a Ha; [exact I|]. cbn [addUp].
    eapply spec_bind; [destruct (w_neg W a); try exact I; intros _; exact I|]. intros g _.
    destruct g; [|now apply spec_ret].
    eapply spec_bind; [apply turn_step with (c := 2 * PI); try eassumption; apply sameAngle_up|]. intros a' Ha'. now apply IH.
  Qed.
  Lemma takeDown_sp n o a u s : turned o a -> valIs s (- (2 * PI)) -> sp (takeDown Y W n a u s) (turned o).
  Proof.
    intros Ha [Ht Et]. revert a Ha. induction n as [|n IH]; intros a Ha; [exact I|]. cbn [takeDown].
    destruct (oGe Y (nev a) (nev u)); [|now apply spec_ret].
    eapply spec_bind; [apply turn_step with (c := - (2 * PI)); try eassumption; apply sameAngle_down|]. intros a' Ha'. now apply IH.
  Qed.
  Lemma bringUp_sp n o a u s : turned o a -> valIs s (2 * PI) -> sp (bringUp Y W n a u s) (turned o).
  Proof.
    intros Ha [Ht Et]. revert a Ha. induction n as [|n IH]; intros a Ha; [exact I|]. cbn [bringUp].
    destruct (oLt Y (nev a) (nev u)); [|now apply spec_ret].
    eapply spec_bind; [apply turn_step with (c := 2 * PI); try eassumption; apply sameAngle_up|]. intros a' Ha'. now apply IH.
  Qed.

  Lemma twoPi_sp : sp (timesPi W 2) (fun e => valIs e (2 * PI)).
  Proof. apply timesPi_ex; [reflexivity|]. f_equal. apply (Q2R_IZR 2). Qed.

  Lemma adjustArgRange_sp n o a : turned o a -> sp (adjustArgRange Y W n a) (turned o).
  Proof.
    intros Ha. unfold adjustArgRange. eapply spec_bind; [apply twoPi_sp|]. intros t Ht.
    eapply spec_bind; [apply addUp_sp; eassumption|]. intros b Hb.
    destruct (oGe Y (nev b) (nev t)); [|now apply spec_ret].
    eapply spec_bind; [apply minus_ex with (vs := [2 * PI]) (v := - (2 * PI)); auto; cbn; ring|]. intros m Hm.
    now apply takeDown_sp.
  Qed.

  (** ** Sine and cosine *)

  Lemma getQuadrant_sp a : sp (getQuadrant Y W a) (fun q => q = 1 \/ q = 2 \/ q = 3 \/ q = 4)%nat.
  Proof.
    unfold getQuadrant. destruct (oneOver W pi) as [i ?| | |]; try exact I. destruct (w_prod W [a; i]) as [m ?| | |]; try exact I.
    destruct (nev m) as [f|]; [|exact I]. apply spec_ret.
    destruct (nlt Y f _); [auto|]. destruct (nlt Y f _); [auto|]. destruct (nlt Y f _); auto.
  Qed.

  Definition sinSign (q : nat) : Z := if Nat.ltb 2 q then (-1)%Z else 1%Z.

  Lemma shift_sp q a : (q = 1 \/ q = 2 \/ q = 3 \/ q = 4)%nat -> wf P a ->
    sp (shiftToFirstQuadrant W q a) (fun b => wf P b /\ forall v, eval r a = Some v ->
       exists w, eval r b = Some w /\ sin v = IZR (sinSign q) * sin w).
  Proof.
    intros Hq Ha. unfold shiftToFirstQuadrant.
    eapply spec_bind; [apply timesPi_ex with (v := PI / 2); [reflexivity|rewrite Q2R_lit; lra]|]. intros h Vh.
    eapply spec_bind; [apply minus_ex with (vs := [PI / 2]) (v := - (PI / 2)); auto; cbn; ring|]. intros m Vm.
    assert (Hsub : forall k b c, wf P b -> (forall v, eval r a = Some v -> eval r b = Some (v - c)) ->
       sp (subtractTimes W k b m) (fun e => wf P e /\ forall v, eval r a = Some v -> eval r e = Some (v - c - INR k * (PI / 2)))).
    { induction k as [|k IH]; intros b c Hb Vb.
      - apply spec_ret. split; [assumption|]. intros v Ev. rewrite (Vb v Ev). f_equal. cbn. ring.
      - cbn [subtractTimes]. destruct Vm as [Hm Em].
        eapply spec_bind; [apply sum_call with (P := P); auto|]. intros b' (Hb' & Vb').
        eapply spec_weaken; [apply IH with (c := c + PI / 2); [assumption|]|].
        + intros v Ev. rewrite sum2, (Vb v Ev), Em in Vb'. cbn in Vb'. rewrite Vb'. f_equal. ring.
        + intros e (He & Ve). split; [assumption|]. intros v Ev. rewrite (Ve v Ev). f_equal. rewrite S_INR. ring. }
    eapply spec_bind; [apply Hsub with (c := 0); [assumption|intros v Ev; rewrite Ev; f_equal; ring]|].
    intros b (Hb & Vb). destruct Vh as [Hh Eh].
    assert (Hflip : sp (m' <- minus W [b] ;; w_sum W [h; m']) (fun e => wf P e /\ forall v, eval r a = Some v ->
        eval r e = Some (PI / 2 - (v - 0 - INR (q - 1) * (PI / 2))))).
    { eapply spec_bind; [apply minus_call with (P := P); auto|]. intros m' (Hm' & Vm').
      eapply spec_weaken; [apply sum_call with (P := P); auto|]. intros e (He & Ve). split; [assumption|].
      intros v Ev. specialize (Vb v Ev). rewrite prodVal_1, Vb in Vm'. cbn in Vm'. rewrite sum2, Eh, Vm' in Ve. cbn in Ve.
      rewrite Ve. f_equal. ring. }
    destruct Hq as [->|[->|[->| ->]]]; cbn [Nat.eqb orb sinSign Nat.ltb Nat.leb].
    - apply spec_ret. split; [assumption|]. intros v Ev. exists v. rewrite (Vb v Ev). split; [f_equal; cbn; ring|ring].
    - eapply spec_weaken; [exact Hflip|]. intros e (He & Ve). split; [assumption|]. intros v Ev. eexists. split; [exact (Ve v Ev)|].
      replace (PI / 2 - (v - 0 - INR (2 - 1) * (PI / 2))) with (PI - v) by (cbn; field).
      rewrite sin_minus, sin_PI, cos_PI. ring.
    - apply spec_ret. split; [assumption|]. intros v Ev. eexists. split; [exact (Vb v Ev)|].
      replace (v - 0 - INR (3 - 1) * (PI / 2)) with (v - PI) by (cbn; field). rewrite sin_minus, sin_PI, cos_PI. ring.
    - eapply spec_weaken; [exact Hflip|]. intros e (He & Ve). split; [assumption|]. intros v Ev. eexists. split; [exact (Ve v Ev)|].
      replace (PI / 2 - (v - 0 - INR (4 - 1) * (PI / 2))) with (2 * PI - v) by (cbn; field).
      rewrite sin_minus, sin_2PI, cos_2PI. ring.
  Qed.

  Notation optOK o := (fun m => match m with None => True | Some e => wf P e /\ ole o (eval r e) end).

  Lemma resultTimesSign_sp s m o o' : optOK o m -> ole o' (omult (Some (IZR s)) o) ->
    sp (resultTimesSign W s m) (optOK o').
  Proof.
    intros Hm Ho. destruct m as [e|]; [|now apply spec_ret]. destruct Hm as [He Ve]. cbn [resultTimesSign].
    eapply spec_bind; [apply prod_call with (P := P); auto; repeat constructor; auto; apply wf_num|]. intros p (Hp & Vp).
    apply spec_ret. split; [assumption|]. eapply ole_trans; [exact Ho|]. eapply ole_trans; [|exact Vp].
    rewrite prod2, eval_num_z. apply ole_omult; [apply ole_refl|assumption].
  Qed.

  Definition osin (o : option R) := match o with Some v => Some (sin v) | None => None end.
  Definition ocos (o : option R) := match o with Some v => Some (cos v) | None => None end.

  Lemma numSin_sp a : wf P a -> sp (numSin Y W a) (optOK (osin (eval r a))).
  Proof.
    intros Ha. unfold numSin. eapply spec_bind; [apply getQuadrant_sp|]. intros q Hq.
    eapply spec_bind; [now apply shift_sp|]. intros b (Hb & Vb).
    eapply spec_bind; [apply sineTable_sp|]. intros t Ht.
    eapply spec_bind; [apply getValue_sp; exact Ht|]. intros m Hm.
    apply resultTimesSign_sp with (o := osin (eval r b)).
    - destruct m as [v|]; [|exact I]. destruct Hm as (k & (x & [_ Ek] & _ & [Hv Ev]) & Vk). cbn [fst snd] in *.
      split; [assumption|]. destruct (eval r b) as [w|]; [|exact I]. cbn in Vk. rewrite Vk in Ek. injection Ek as <-. exact Ev.
    - destruct (eval r a) as [v|] eqn:E; [|exact I]. destruct (Vb v eq_refl) as (w & -> & Es). cbn. unfold sinSign in Es. now rewrite Es.
  Qed.

  Lemma turned_osin o a m : turned o a -> optOK (osin (eval r a)) m -> optOK (osin o) m.
  Proof.
    intros [_ Va] Hm. destruct m as [e|]; [|exact I]. destruct Hm as [He Ve]. split; [assumption|].
    destruct o as [v|]; [|exact I]. destruct (Va v eq_refl) as (w & Ew & Hs & _). rewrite Ew in Ve. cbn in *. now rewrite Hs.
  Qed.

  Lemma numCos_sp n a : wf P a -> sp (numCos Y W n a) (optOK (ocos (eval r a))).
  Proof.
    intros Ha. unfold numCos.
    eapply spec_bind; [apply timesPi_ex with (v := PI / 2); [reflexivity|rewrite Q2R_lit; lra]|]. intros h [Hh Eh].
    eapply spec_bind; [apply sum_call with (P := P); auto|]. intros b (Hb & Vb).
    eapply spec_bind; [apply adjustArgRange_sp; apply turned_refl; assumption|]. intros c Hc.
    eapply spec_weaken; [apply numSin_sp; exact (proj1 Hc)|]. intros m Hm.
    apply (turned_osin _ _ _ Hc) in Hm. destruct m as [e|]; [|exact I]. destruct Hm as [He Ve]. split; [assumption|].
    rewrite sum2, Eh in Vb. destruct (eval r a) as [v|]; [|exact I]. cbn in Vb. rewrite Vb in Ve. cbn in *.
    rewrite Ve. f_equal. rewrite sin_plus, sin_PI2, cos_PI2. ring.
  Qed.

  Lemma simplSinCos_sp n c a : wf P a ->
    sp (simplSinCos Y W n c a) (optOK (if c then ocos (eval r a) else osin (eval r a))).
  Proof.
    intros Ha. unfold simplSinCos. destruct (negb (isZero a) && isNumeric a) eqn:E; [now apply spec_ret|].
    eapply spec_bind with (Q1 := fun b => turned (eval r a) b).
    { destruct (isNumeric a) eqn:En; [|apply spec_ret; now apply turned_refl].
      destruct (isZero a) eqn:Ez; [|discriminate E]. apply (isZero_eq P) in Ez; [|assumption]. subst a.
      eapply spec_weaken; [apply prod_ex with (vs := [0; PI]) (v := 0)|].
      - repeat constructor; auto with vi. apply valIs_zero.
      - cbn. ring.
      - intros e [He Ee]. split; [assumption|]. intros v Ev. rewrite eval_zero in Ev. injection Ev as <-.
        exists 0. split; [assumption|apply sameAngle_refl]. }
    intros b Hb. eapply spec_bind; [apply adjustArgRange_sp; exact Hb|]. intros d Hd.
    destruct c.
    - eapply spec_weaken; [apply numCos_sp; exact (proj1 Hd)|]. intros m Hm.
      destruct m as [e|]; [|exact I]. destruct Hm as [He Ve]. split; [assumption|]. destruct Hd as [_ Vd].
      destruct (eval r a) as [v|]; [|exact I]. destruct (Vd v eq_refl) as (w & Ew & _ & Hc). rewrite Ew in Ve. cbn in *. now rewrite Hc.
    - eapply spec_weaken; [apply numSin_sp; exact (proj1 Hd)|]. intros m Hm. exact (turned_osin _ _ _ Hd Hm).
  Qed.

  Definition ofct (f : fct) (o : option R) := match o with Some v => fct1 f v | None => None end.

  Lemma simplTan_sp n a : wf P a -> sp (simplTan Y W n a) (optOK (ofct FTan (eval r a))).
  Proof.
    intros Ha. unfold simplTan. destruct (negb (isZero a) && isNumeric a) eqn:E; [now apply spec_ret|].
    eapply spec_bind with (Q1 := fun b => turned (eval r a) b).
    { destruct (isNumeric a) eqn:En; [|apply spec_ret; now apply turned_refl].
      destruct (isZero a) eqn:Ez; [|discriminate E]. apply (isZero_eq P) in Ez; [|assumption]. subst a.
      eapply spec_weaken; [apply prod_ex with (vs := [0; PI]) (v := 0)|].
      - repeat constructor; auto with vi. apply valIs_zero.
      - cbn. ring.
      - intros e [He Ee]. split; [assumption|]. intros v Ev. rewrite eval_zero in Ev. injection Ev as <-.
        exists 0. split; [assumption|apply sameAngle_refl]. }
    intros b Hb. eapply spec_bind; [apply adjustArgRange_sp; exact Hb|]. intros d Hd.
    eapply spec_bind; [apply getQuadrant_sp|]. intros q _.
    eapply spec_bind; [apply tanTable_sp|]. intros t Ht.
    eapply spec_bind; [apply getValue_sp; exact Ht|]. intros [x|] Hm.
    - cbn zeta. eapply spec_bind; [apply spec_relyIf'|]. intros ? Hbug. cbn [holds] in Hbug.
      destruct Hm as (k & (y & [_ Ek] & Hv) & Vk). cbn [fst snd] in *.
      assert (Hx : wf P x /\ ole (ofct FTan (eval r a)) (eval r x)).
      { destruct Hd as [_ Vd]. destruct Hv as [[Hy [Hx Ex]]|[Hy ->]].
        - split; [assumption|]. destruct (eval r a) as [v|]; [|exact I]. destruct (Vd v eq_refl) as (w & Ew & Hs).
          rewrite Ew in Vk. cbn in Vk. rewrite Vk in Ek. injection Ek as <-. unfold ofct. rewrite (sameAngle_tan _ _ Hs).
          rewrite Ex. rewrite tan_some; [reflexivity|]. apply Rgt_not_eq. now apply cos_first_pos.
        - split; [exact I|]. destruct (eval r a) as [v|]; [|exact I]. destruct (Vd v eq_refl) as (w & Ew & Hs).
          rewrite Ew in Vk. cbn in Vk. rewrite Vk in Ek. injection Ek as <-. unfold ofct. rewrite (sameAngle_tan _ _ Hs).
          subst w. cbn. rewrite cos_PI2. destruct (Req_EM_T 0 0); [exact I|contradiction]. }
      destruct (Nat.eqb q 1 || Nat.eqb q 3).
      + apply resultTimesSign_sp with (o := ofct FTan (eval r a)); [exact Hx|]. rewrite omult_1_l. apply ole_refl.
      + cbn [negb andb] in Hbug. destruct (isUndefined x) eqn:Eu; [|now destruct (Hbug eq_refl)].
        apply isUndefined_eq in Eu. subst x. destruct Hx as [_ Hx]. 
        destruct (ofct FTan (eval r a)) as [v|]; [discriminate Hx|]. 
        apply resultTimesSign_sp with (o := None); [split; exact I|exact I].
    - eapply spec_bind; [apply simplSinCos_sp; assumption|]. intros s Hs.
      eapply spec_bind; [apply simplSinCos_sp; assumption|]. intros c Hc. cbv iota in *.
      destruct c as [y|]; [|now apply spec_ret]. destruct Hc as [Hy Vy].
      destruct (isZero y) eqn:Ez.
      { apply spec_ret. split; [exact I|]. apply (isZero_eq P) in Ez; [|assumption]. subst y. rewrite eval_zero in Vy.
        destruct (eval r a) as [v|]; [|exact I]. cbn in Vy. injection Vy as Vy. cbn. destruct (Req_EM_T _ _); [exact I|congruence]. }
      destruct s as [x|]; [|now apply spec_ret]. destruct Hs as [Hx Vx].
      unfold oneOver. eapply spec_bind; [apply pow_call with (P := P); auto with sp|]. intros i (Hi & Vi).
      eapply spec_bind; [apply prod_call with (P := P); auto|]. intros p (Hp & Vp).
      apply resultTimesSign_sp with (o := ofct FTan (eval r a)); [|rewrite omult_1_l; apply ole_refl].
      split; [assumption|]. destruct (eval r a) as [v|]; [|exact I]. cbn in Vx, Vy. cbn [ofct].
      apply ole_intro. intros w Ew. apply fct1_tan in Ew as [Hc ->]. rewrite Vy, eval_mOne in Vi. cbn [opow] in Vi.
      rewrite rpow_rm1 in Vi by assumption. cbn in Vi. rewrite prod2, Vx, Vi in Vp. exact Vp.
  Qed.

  (** ** Inverse functions with a numeric argument *)

  Lemma relyLt_sp a b : sp (relyLt a b) (fun _ => forall v w, eval r a = Some v -> eval r b = Some w -> v < w).
  Proof.
    unfold relyLt.
    assert (Hr : sp (rely (CLt a b)) (fun _ => forall v w, eval r a = Some v -> eval r b = Some w -> v < w)).
    { eapply spec_weaken; [apply spec_rely'|]. intros ? Hh. exact Hh. }
    destruct a as [p| | | | | | |]; try exact Hr. destruct b as [q| | | | | | |]; try exact Hr.
    destruct (qltb p q) eqn:E; [|exact Hr]. apply spec_ret. intros v w Ev Ew. cbn in Ev, Ew. injection Ev as <-. injection Ew as <-.
    apply qltb_lt in E. now apply Qlt_Rlt.
  Qed.
  Lemma relyLe_sp a b : sp (relyLe a b) (fun _ => forall v w, eval r a = Some v -> eval r b = Some w -> v <= w).
  Proof.
    unfold relyLe.
    assert (Hr : sp (rely (CLe a b)) (fun _ => forall v w, eval r a = Some v -> eval r b = Some w -> v <= w)).
    { eapply spec_weaken; [apply spec_rely'|]. intros ? Hh. exact Hh. }
    destruct a as [p| | | | | | |]; try exact Hr. destruct b as [q| | | | | | |]; try exact Hr.
    destruct (qltb q p) eqn:E; [exact Hr|]. apply spec_ret. intros v w Ev Ew. cbn in Ev, Ew. injection Ev as <-. injection Ew as <-.
    apply qltb_ge in E. now apply Qle_Rle.
  Qed.
  Lemma relyZero_sp a : wf P a -> sp (relyZero a) (fun _ => forall v, eval r a = Some v -> v = 0).
  Proof.
    intros Ha. unfold relyZero.
    assert (Hr : sp (rely (CEq a 0)) (fun _ => forall v, eval r a = Some v -> v = 0)).
    { eapply spec_weaken; [apply spec_rely'|]. intros ? [_ Hh] v Ev. rewrite (Hh v Ev). apply (Q2R_IZR 0). }
    destruct a as [p| | | | | | |]; try exact Hr. destruct (qeqb p 0) eqn:E; [|exact Hr].
    apply spec_ret. intros v Ev. cbn in Ev. injection Ev as <-. apply qeqb_leib in E as ->. apply (Q2R_IZR 0).
  Qed.

  Definition isInv (f : fct) : Prop := f = FAsin \/ f = FAcos \/ f = FAtan.

  Lemma simplInverse_sp f a : isInv f -> wf P a -> sp (simplInverse Y W f a) (optOK (ofct f (eval r a))).
  Proof.
    pose proof PI_RGT_0 as Hpi.
    intros Hf Ha. unfold simplInverse. destruct (nev a) as [x|] eqn:Ex; [|exact I]. cbn zeta.
    destruct (match f with FAtan => false | _ => nlt Y x (NQ (-1 # 1)) end) eqn:Eb.
    { eapply spec_bind; [apply relyLt_sp|]. intros ? Hlt. apply spec_ret. split; [exact I|]. destruct (eval r a) as [v|]; [|exact I].
      specialize (Hlt v (-1) eq_refl (eval_mOne r)). destruct Hf as [->|[->| ->]]; [..|discriminate Eb]; cbn;
        destruct (Rle_dec _ _); try exact I; lra. }
    destruct (match f with FAtan => false | _ => nlt Y (NQ 1%Q) x end) eqn:Ea.
    { eapply spec_bind; [apply relyLt_sp|]. intros ? Hlt. apply spec_ret. split; [exact I|]. destruct (eval r a) as [v|]; [|exact I].
      specialize (Hlt 1 v (eval_one r) eq_refl). destruct Hf as [->|[->| ->]]; [..|discriminate Ea]; cbn;
        destruct (Rle_dec _ _); try exact I; destruct (Rle_dec _ _); try exact I; lra. }
    set (flip := nlt Y x (NQ 0%Q)).
    eapply spec_bind with (Q1 := fun b => wf P b /\ ole (omult (Some (IZR (if flip then -1 else 1))) (eval r a)) (eval r b)).
    { destruct flip.
      - eapply spec_weaken; [apply minus_call with (P := P); auto|]. intros e (He & Ve). rewrite prodVal_1 in Ve. auto.
      - apply spec_ret. split; [assumption|]. rewrite omult_1_l. apply ole_refl. }
    intros b (Hb & Vb).
    assert (Hfin : forall g k, (g = FAsin \/ g = FAtan) ->
       match k with None => True | Some e => wf P e /\ ole (ofct g (eval r b)) (eval r e) end ->
       sp (resultTimesSign W (if flip then -1 else 1) k) (optOK (ofct g (eval r a)))).
    { intros g k Hgk Hk. apply resultTimesSign_sp with (o := ofct g (eval r b)); [exact Hk|].
      destruct (eval r a) as [v|]; [|exact I]. cbn [omult ole] in Vb. rewrite Vb. cbn [ofct].
      apply ole_intro. intros w Ew. destruct flip.
      - replace (-1 * v) with (- v) by ring. destruct Hgk as [->| ->].
        + rewrite (asin_neg v w Ew). cbn. f_equal. ring.
        + cbn in *. injection Ew as <-. rewrite atan_opp. cbn. f_equal. ring.
      - replace (1 * v) with v by ring. rewrite Ew. cbn. f_equal. ring. }
    destruct Hf as [->|[->| ->]].
    - eapply spec_bind; [apply sineTable_sp|]. intros t Ht. eapply spec_bind; [apply getKey_sp; exact Ht|]. intros k Hk.
      eapply spec_bind; [apply (Hfin FAsin); [auto|]|intros m Hm; apply spec_ret; exact Hm].
      destruct k as [e|]; [|exact I]. destruct Hk as (v & (y & [He Ee] & Hy & [Hv Ev]) & _ & Vv). cbn [fst snd] in *.
      split; [assumption|]. destruct (eval r b) as [w|]; [|exact I]. cbn in Vv. rewrite Vv in Ev. injection Ev as ->.
      cbn [ofct]. rewrite (asin_of y (sin y)); [now rewrite Ee|lra|reflexivity].
    - eapply spec_bind; [apply sineTable_sp|]. intros t Ht. eapply spec_bind; [apply getKey_sp; exact Ht|]. intros k Hk.
      eapply spec_bind; [apply (Hfin FAsin); [auto|]|].
      { destruct k as [e|]; [|exact I]. destruct Hk as (v & (y & [He Ee] & Hy & [Hv Ev]) & _ & Vv). cbn [fst snd] in *.
        split; [assumption|]. destruct (eval r b) as [w|]; [|exact I]. cbn in Vv. rewrite Vv in Ev. injection Ev as ->.
        cbn [ofct]. rewrite (asin_of y (sin y)); [now rewrite Ee|lra|reflexivity]. }
      intros m Hm. destruct m as [y|]; [|now apply spec_ret]. destruct Hm as [Hy Vy].
      eapply spec_bind; [apply timesPi_ex with (v := PI / 2); [reflexivity|rewrite Q2R_lit; lra]|]. intros h [Hh Eh].
      eapply spec_bind; [apply minus_call with (P := P); auto|]. intros m (Hm & Vm).
      eapply spec_bind; [apply sum_call with (P := P); auto|]. intros s (Hs & Vs). apply spec_ret. split; [assumption|].
      apply ole_intro. intros w Ew. destruct (eval r a) as [v|]; [|discriminate Ew]. cbn [ofct] in *.
      destruct (fct1 FAsin v) as [u|] eqn:Eu.
      + pose proof (acos_from_asin v u Eu) as Ec. rewrite Ec in Ew. injection Ew as <-. cbn in Vy. rewrite prodVal_1, Vy in Vm.
        cbn in Vm. rewrite sum2, Eh, Vm in Vs. cbn in Vs. rewrite Vs. f_equal. ring.
      + apply fct1_acos in Ew as [Hv _]. cbn in Eu. destruct (Rle_dec _ _); [|lra]. destruct (Rle_dec _ _); [discriminate|lra].
    - eapply spec_bind; [apply tanTable_sp|]. intros t Ht. eapply spec_bind; [apply getKey_sp; exact Ht|]. intros k Hk.
      eapply spec_bind; [apply (Hfin FAtan); [auto|]|intros m Hm; apply spec_ret; exact Hm].
      destruct k as [e|]; [|exact I]. destruct Hk as (v & (y & [He Ee] & Hy) & Hu & Vv). cbn [fst snd] in *.
      destruct Hy as [[Hy [Hv Ev]]|[_ ->]]; [|discriminate Hu].
      split; [assumption|]. destruct (eval r b) as [w|]; [|exact I]. cbn in Vv. rewrite Vv in Ev. injection Ev as ->.
      cbn [ofct fct1]. rewrite atan_tan by lra. now rewrite Ee.
  Qed.
End TrigP.
