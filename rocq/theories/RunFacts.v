(** Rules for [spec] and for values of lists. *)
From Verif Require Export RunSpec NumberProofs ExprProofs.
From Coq Require Import Lra Lia.
Open Scope R_scope.

Lemma spec_ret {A} H (a : A) (Q : A -> Prop) : Q a -> spec H (ret a) Q.
Proof. intros HQ _. exact HQ. Qed.
Lemma spec_bind {A B} H (m : res A) (f : A -> res B) (Q1 : A -> Prop) (Q : B -> Prop) :
  spec H m Q1 -> (forall a, Q1 a -> spec H (f a) Q) -> spec H (bind m f) Q.
Proof.
  destruct m as [a l| | |]; cbn; try (intros; exact I).
  intros Hm Hf. destruct (f a) as [b l'| | |] eqn:E; cbn; try exact I.
  intros HF. apply Forall_app in HF as [H1 H2]. specialize (Hf a (Hm H1)). rewrite E in Hf. exact (Hf H2).
Qed.
Lemma spec_weaken {A} H (m : res A) (Q1 Q : A -> Prop) :
  spec H m Q1 -> (forall a, Q1 a -> Q a) -> spec H m Q.
Proof. destruct m; cbn; auto. Qed.
Lemma spec_rely (H : cond -> Prop) c (Q : unit -> Prop) : (H c -> Q tt) -> spec H (rely c) Q.
Proof. intros HQ HF. apply HQ. inversion HF. assumption. Qed.
Lemma spec_relyIf (H : cond -> Prop) b c (Q : unit -> Prop) : ((b = true -> H c) -> Q tt) -> spec H (relyIf b c) Q.
Proof.
  intros HQ. destruct b; cbn.
  - intros HF. apply HQ. intros _. inversion HF. assumption.
  - intros _. apply HQ. discriminate.
Qed.
Lemma spec_rely' (H : cond -> Prop) c : spec H (rely c) (fun _ => H c).
Proof. apply spec_rely. auto. Qed.
Lemma spec_relyIf' (H : cond -> Prop) b c : spec H (relyIf b c) (fun _ => b = true -> H c).
Proof. apply spec_relyIf. auto. Qed.
Lemma spec_true {A} H (m : res A) : spec H m (fun _ => True).
Proof. destruct m; cbn; auto. Qed.
Lemma spec_fuel {A} H (Q : A -> Prop) : spec H Fuel Q. Proof. exact I. Qed.
Lemma spec_throw {A} H (Q : A -> Prop) : spec H Throw Q. Proof. exact I. Qed.
Lemma spec_ub {A} H s (Q : A -> Prop) : spec H (UB s) Q. Proof. exact I. Qed.
Lemma spec_inEnv {A} st r m (c : res A) Q :
  spec (holds st (ext r m)) c Q -> spec (holds st r) (inEnv m c) Q.
Proof.
  destruct c as [a l| | |]; cbn; auto. intros H HF. apply H.
  rewrite Forall_map in HF. exact HF.
Qed.
Lemma spec_mapM {A B} H (f : A -> res B) (Q : A -> B -> Prop) l :
  (forall x, In x l -> spec H (f x) (Q x)) -> spec H (mapM f l) (Forall2 Q l).
Proof.
  induction l as [|x l IH]; intros Hf; cbn [mapM].
  - apply spec_ret. constructor.
  - eapply spec_bind; [apply Hf; left; reflexivity|]. intros y Hy.
    eapply spec_bind; [apply IH; intros z Hz; apply Hf; right; exact Hz|]. intros s Hs.
    apply spec_ret. constructor; assumption.
Qed.
Lemma spec_ok {A} H (a : A) l Q : spec H (Ok a l) Q -> Forall H l -> Q a.
Proof. auto. Qed.

Create HintDb sp.
Global Hint Resolve spec_fuel spec_throw spec_ub : sp.

(** ** Well-formedness *)

Lemma wf_ops P f l : wf P (Fct f l) <-> length l = (match f with FAtan2 => 2 | _ => 1 end)%nat /\ Forall (wf P) l.
Proof.
  cbn [wf]. apply and_iff_compat_l. induction l as [|x l IH]; [split; auto|].
  rewrite Forall_cons_iff, <- IH. reflexivity.
Qed.
Lemma wf_sum P l : wf P (Sum l) <-> Forall (wf P) l.
Proof. cbn [wf]. induction l as [|x l IH]; [split; auto|]. rewrite Forall_cons_iff, <- IH. reflexivity. Qed.
Lemma wf_prod P l : wf P (Prod l) <-> Forall (wf P) l.
Proof. cbn [wf]. induction l as [|x l IH]; [split; auto|]. rewrite Forall_cons_iff, <- IH. reflexivity. Qed.
Lemma wf_pow P b x : wf P (Pow b x) <-> wf P b /\ wf P x.
Proof. reflexivity. Qed.

Lemma wf_mono (P P' : name -> bool -> Prop) e : (forall n p, P n p -> P' n p) -> wf P e -> wf P' e.
Proof.
  intros HP. induction e using expr_ind2; cbn [wf]; auto.
  - intros [Hl Hw]. split; [assumption|].
    change (wf P' (Sum l)). apply wf_sum. change (wf P (Sum l)) in Hw. apply wf_sum in Hw.
    rewrite Forall_forall in *. auto.
  - intros Hw. change (wf P' (Sum l)). change (wf P (Sum l)) in Hw. rewrite wf_sum, Forall_forall in *. auto.
  - intros Hw. change (wf P' (Prod l)). change (wf P (Prod l)) in Hw. rewrite wf_prod, Forall_forall in *. auto.
  - tauto.
Qed.

Lemma eval_agree P r r' e : wf P e -> (forall n p, P n p -> r n p = r' n p) -> eval r e = eval r' e.
Proof.
  intros Hw HP. revert Hw. induction e using expr_ind2; cbn [wf]; intros Hw; cbn [eval]; auto.
  - now rewrite HP.
  - assert (Hx : forall x, In x l -> eval r x = eval r' x).
    { destruct Hw as [_ Hw]. change (wf P (Sum l)) in Hw. rewrite wf_sum, Forall_forall in *. auto. }
    destruct l as [|x [|y [|z l]]]; destruct f; try reflexivity;
      rewrite !Hx by (cbn; auto); reflexivity.
  - assert (Hx : forall x, In x l -> eval r x = eval r' x).
    { change (wf P (Sum l)) in Hw. rewrite wf_sum, Forall_forall in *. auto. }
    clear Hw H. induction l as [|x l IH]; cbn [fold_right]; [reflexivity|].
    rewrite Hx, IH by (intros; try apply Hx; cbn; auto). reflexivity.
  - assert (Hx : forall x, In x l -> eval r x = eval r' x).
    { change (wf P (Prod l)) in Hw. rewrite wf_prod, Forall_forall in *. auto. }
    clear Hw H. induction l as [|x l IH]; cbn [fold_right]; [reflexivity|].
    rewrite Hx, IH by (intros; try apply Hx; cbn; auto). reflexivity.
  - destruct Hw as [H1 H2]. now rewrite IHe1, IHe2.
Qed.

(** ** Values of lists *)

Lemma eval_sum r l : eval r (Sum l) = sumVal r l. Proof. reflexivity. Qed.
Lemma eval_prod r l : eval r (Prod l) = prodVal r l. Proof. reflexivity. Qed.
Lemma eval_pow r b x : eval r (Pow b x) = opow (eval r b) (eval r x). Proof. reflexivity. Qed.
Lemma eval_num r q : eval r (Num q) = Some (Q2R q). Proof. reflexivity. Qed.

Lemma oplus_comm a b : oplus a b = oplus b a.
Proof. destruct a, b; cbn; try reflexivity. f_equal. ring. Qed.
Lemma oplus_assoc a b c : oplus (oplus a b) c = oplus a (oplus b c).
Proof. destruct a, b, c; cbn; try reflexivity. f_equal. ring. Qed.
Lemma oplus_0_l a : oplus (Some 0) a = a.
Proof. destruct a; cbn; try reflexivity. f_equal. ring. Qed.
Lemma oplus_0_r a : oplus a (Some 0) = a.
Proof. destruct a; cbn; try reflexivity. f_equal. ring. Qed.
Lemma omult_comm a b : omult a b = omult b a.
Proof. destruct a, b; cbn; try reflexivity. f_equal. ring. Qed.
Lemma omult_assoc a b c : omult (omult a b) c = omult a (omult b c).
Proof. destruct a, b, c; cbn; try reflexivity. f_equal. ring. Qed.
Lemma omult_1_l a : omult (Some 1) a = a.
Proof. destruct a; cbn; try reflexivity. f_equal. ring. Qed.
Lemma omult_1_r a : omult a (Some 1) = a.
Proof. destruct a; cbn; try reflexivity. f_equal. ring. Qed.

Lemma sumVal_nil r : sumVal r [] = Some 0. Proof. reflexivity. Qed.
Lemma sumVal_cons r x l : sumVal r (x :: l) = oplus (eval r x) (sumVal r l). Proof. reflexivity. Qed.
Lemma sumVal_app r l k : sumVal r (l ++ k) = oplus (sumVal r l) (sumVal r k).
Proof.
  induction l as [|x l IH]; cbn [app]; [now rewrite sumVal_nil, oplus_0_l|].
  now rewrite !sumVal_cons, IH, oplus_assoc.
Qed.
Lemma sumVal_1 r x : sumVal r [x] = eval r x.
Proof. now rewrite sumVal_cons, sumVal_nil, oplus_0_r. Qed.
Lemma prodVal_nil r : prodVal r [] = Some 1. Proof. reflexivity. Qed.
Lemma prodVal_cons r x l : prodVal r (x :: l) = omult (eval r x) (prodVal r l). Proof. reflexivity. Qed.
Lemma prodVal_app r l k : prodVal r (l ++ k) = omult (prodVal r l) (prodVal r k).
Proof.
  induction l as [|x l IH]; cbn [app]; [now rewrite prodVal_nil, omult_1_l|].
  now rewrite !prodVal_cons, IH, omult_assoc.
Qed.
Lemma prodVal_1 r x : prodVal r [x] = eval r x.
Proof. now rewrite prodVal_cons, prodVal_nil, omult_1_r. Qed.

Lemma ole_refl a : ole a a. Proof. destruct a; cbn; auto. Qed.
Lemma ole_trans a b c : ole a b -> ole b c -> ole a c.
Proof. destruct a; cbn; auto. intros ->. auto. Qed.
Lemma ole_none a : ole None a. Proof. exact I. Qed.
Lemma ole_oplus a b a' b' : ole a a' -> ole b b' -> ole (oplus a b) (oplus a' b').
Proof. destruct a, b; cbn; auto. intros -> ->. reflexivity. Qed.
Lemma ole_omult a b a' b' : ole a a' -> ole b b' -> ole (omult a b) (omult a' b').
Proof. destruct a, b; cbn; auto. intros -> ->. reflexivity. Qed.
Lemma ole_opow a b a' b' : ole a a' -> ole b b' -> ole (opow a b) (opow a' b').
Proof. destruct a, b; cbn [ole opow]; try exact (fun _ _ => I). intros -> ->. apply ole_refl. Qed.
Lemma ole_some a v b : ole a b -> a = Some v -> b = Some v.
Proof. intros H ->. exact H. Qed.
Lemma ole_eq a b : a = b -> ole a b. Proof. intros ->. apply ole_refl. Qed.
Lemma ole_intro a b : (forall v, a = Some v -> b = Some v) -> ole a b.
Proof. destruct a; cbn; auto. Qed.
Global Hint Resolve ole_refl ole_none ole_oplus ole_omult ole_opow : sp.

Lemma omult_some a b v : omult a b = Some v -> exists x y, a = Some x /\ b = Some y /\ v = x * y.
Proof. destruct a as [x|], b as [y|]; cbn; try discriminate. intros E. injection E as <-. eauto. Qed.
Lemma oplus_some a b v : oplus a b = Some v -> exists x y, a = Some x /\ b = Some y /\ v = x + y.
Proof. destruct a as [x|], b as [y|]; cbn; try discriminate. intros E. injection E as <-. eauto. Qed.
Lemma opow_some a b v : opow a b = Some v -> exists x y, a = Some x /\ b = Some y /\ rpow x y = Some v.
Proof. destruct a as [x|], b as [y|]; cbn [opow]; try discriminate. eauto. Qed.

Lemma sumVal_ole r l k : Forall2 (fun x y => ole (eval r x) (eval r y)) l k -> ole (sumVal r l) (sumVal r k).
Proof. induction 1; [apply ole_refl|]. rewrite !sumVal_cons. now apply ole_oplus. Qed.
Lemma prodVal_ole r l k : Forall2 (fun x y => ole (eval r x) (eval r y)) l k -> ole (prodVal r l) (prodVal r k).
Proof. induction 1; [apply ole_refl|]. rewrite !prodVal_cons. now apply ole_omult. Qed.
Lemma sumVal_ole' r r' l k : Forall2 (fun x y => ole (eval r x) (eval r' y)) l k -> ole (sumVal r l) (sumVal r' k).
Proof. induction 1; [apply ole_refl|]. rewrite !sumVal_cons. now apply ole_oplus. Qed.
Lemma prodVal_ole' r r' l k : Forall2 (fun x y => ole (eval r x) (eval r' y)) l k -> ole (prodVal r l) (prodVal r' k).
Proof. induction 1; [apply ole_refl|]. rewrite !prodVal_cons. now apply ole_omult. Qed.

(** Values of an operand exist if the whole has one. *)
Lemma sumVal_in r l v x : sumVal r l = Some v -> In x l -> exists w, eval r x = Some w.
Proof.
  revert v. induction l as [|y l IH]; intros v; [intros _ []|]. rewrite sumVal_cons.
  intros E Hx. apply oplus_some in E as (a & b & Ea & Eb & _). destruct Hx as [->|Hx]; eauto.
Qed.
Lemma prodVal_in r l v x : prodVal r l = Some v -> In x l -> exists w, eval r x = Some w.
Proof.
  revert v. induction l as [|y l IH]; intros v; [intros _ []|]. rewrite prodVal_cons.
  intros E Hx. apply omult_some in E as (a & b & Ea & Eb & _). destruct Hx as [->|Hx]; eauto.
Qed.

(** Constants. *)
Lemma canonZ z : canon (z # 1).
Proof. unfold canon. cbn. apply Z.gcd_1_r. Qed.
Lemma Q2R_IZR z : Q2R (z # 1) = IZR z.
Proof. unfold Q2R. cbn. field. Qed.
Lemma eval_zero r : eval r zero = Some 0. Proof. cbn. f_equal. apply (Q2R_IZR 0). Qed.
Lemma eval_one r : eval r one = Some 1. Proof. cbn. f_equal. apply (Q2R_IZR 1). Qed.
Lemma eval_two r : eval r two = Some 2. Proof. cbn. f_equal. apply (Q2R_IZR 2). Qed.
Lemma eval_mOne r : eval r mOne = Some (-1). Proof. cbn. f_equal. apply (Q2R_IZR (-1)). Qed.
Lemma eval_half r : eval r half = Some (/ 2). Proof. cbn. f_equal. unfold Q2R. cbn. field. Qed.
Lemma wf_zero P : wf P zero. Proof. reflexivity. Qed.
Lemma wf_one P : wf P one. Proof. reflexivity. Qed.
Lemma wf_two P : wf P two. Proof. reflexivity. Qed.
Lemma wf_mOne P : wf P mOne. Proof. reflexivity. Qed.
Lemma wf_half P : wf P half. Proof. reflexivity. Qed.
Lemma wf_undef P : wf P Undef. Proof. exact I. Qed.
Lemma wf_num P z : wf P (numZ z). Proof. apply canonZ. Qed.
Lemma eval_num_z r z : eval r (numZ z) = Some (IZR z). Proof. cbn. f_equal. apply Q2R_IZR. Qed.
Global Hint Resolve wf_zero wf_one wf_two wf_mOne wf_half wf_undef wf_num : sp.

Lemma isZero_eq P e : wf P e -> isZero e = true -> e = zero.
Proof. destruct e; try discriminate. cbn. intros _ H. apply qeqb_leib in H. now subst. Qed.
Lemma isOne_eq P e : wf P e -> isOne e = true -> e = one.
Proof. destruct e; try discriminate. cbn. intros _ H. apply qeqb_leib in H. now subst. Qed.
Lemma isUndefined_eq e : isUndefined e = true -> e = Undef.
Proof. destruct e; try discriminate. reflexivity. Qed.

Lemma Q2R_nz q : canon q -> qeqb q 0 = false -> Q2R q <> 0.
Proof.
  intros Hc Hq H0. apply Q2R_inj with (b := 0%Q) in Hc; [|reflexivity|now rewrite Q2R_0].
  subst. discriminate.
Qed.

(** Temporary environments. *)
Lemma upd_same r n p v : upd r n p v n p = v.
Proof.
  unfold upd. rewrite nameEq_refl.
  now rewrite Bool.eqb_reflx.
Qed.
