(** Theorems for C38 (caches) and C39 (option for the resolution of primes); C09 across a change of the option. *)
From Verif Require Import CacheProofs TrigApi SimplWitness RPow ApiSpec ExprProofs.
From Coq Require Import ZArith List Lia Lra Reals.
Import ListNotations.
From Verif Require Import Run CacheModel.
Open Scope Z_scope.

(** ** C38: caches can't be observed *)

(** Whatever the code of the functions is, and whatever has been asked and cleared before: each answer is
    the one of the computation without memory (CacheSpec.v). *)
Theorem C38_cache_unobservable : forall body n o l s vs, sameOption l ->
  history body n (fresh o) l = Some (s, vs) -> answers body o l vs.
Proof. intros body n o l s vs Hl. apply (history_same body n l (fresh o) s vs Hl). intros e []. Qed.
Print Assumptions C38_cache_unobservable.

(** No answer gets lost, and there is only one. *)
Theorem C38_cache_complete : forall body o l vs, sameOption l -> answers body o l vs ->
  exists n s, history body n (fresh o) l = Some (s, vs).
Proof. intros body o l vs Hl. apply (history_ends body l (fresh o) vs Hl). intros e []. Qed.
Print Assumptions C38_cache_complete.
Theorem C38_answer_unique : forall body o p v w, computes body o p v -> computes body o p w -> v = w.
Proof. intros body o p v w H. exact (computes_unique body o p v H w). Qed.
Print Assumptions C38_answer_unique.

(** Euclid's algorithm as a function that calls itself through its cache; the third question is answered by
    the cache, the fourth one again by computation. *)
Definition euclid (o : Z) (f : fid) (args : list expr) : prog :=
  match f, args with
  | FGcd, [Num a; Num b] => if Qnum b =? 0 then Ret [Num a] else Call FGcd [Num b; Num (Qnum a mod Qnum b # 1)] Ret
  | _, _ => Raise
  end.
Example C38_case :
  let ask := Ask FGcd [Num 84; Num 36] in
  match history euclid 20 (fresh 1000) [ask; Ask FGcd [Num 36; Num 12]; ask; Clear; ask; Ask FSum []] with
  | Some (s, vs) => vs = [Some [Num 12]; Some [Num 12]; Some [Num 12]; Some [Num 12]; None] /\ length (pCache s) = 3%nat
  | None => False
  end.
Proof. cbv. split; reflexivity. Qed.

(** ** C39: changing the option *)

(** The library with the option set to o. *)
Definition withLimit (o : Z) : oper :=
  world (mkSys (sD refSys) (s_fl refSys) o (s_nlt refSys) (s_cst refSys) (s_add refSys) (s_mul refSys) (s_pow refSys)
    (s_fct refSys) (s_atan2 refSys) (s_lt refSys) (s_eq refSys)) 40 40.
Definition sumCode (o : Z) (f : fid) (args : list expr) : prog :=
  match f with
  | FSum => match w_sum (withLimit o) args with Ok e _ => Ret [e] | _ => Raise end
  | _ => Raise
  end.
(** 50^(1/2) + 2*50^(1/2) *)
Definition root50 : expr := Pow (Num 50) (Num (1 # 2)).
Definition sum50 : list expr := [root50; Prod [Num 2; root50]].
Lemma sum50_small : w_sum (withLimit 1) sum50 = Ok (Prod [Num 3; root50])
  match w_sum (withLimit 1) sum50 with Ok _ f => f | _ => [] end.
Proof. lazy. reflexivity. Qed.
Lemma sum50_large : w_sum (withLimit 1000) sum50 = Ok (Prod [Num 15; Pow (Num 2) (Num (1 # 2))])
  match w_sum (withLimit 1000) sum50 with Ok _ f => f | _ => [] end.
Proof. lazy. reflexivity. Qed.

(** Full statement: each answer is the one of a process that has had the current option all the time.  It
    fails: the cache of sums ignores the option. *)
Theorem C39_option_refuted : ~ forall body n o l s vs, history body n (fresh o) l = Some (s, vs) -> answers body o l vs.
Proof.
  intros H.
  assert (E : history sumCode 3 (fresh 1) [Ask FSum sum50; SetOption 1000; Ask FSum sum50] =
    Some (mkProcess 1000 [mkEntry FSum None sum50 [Prod [Num 3; root50]]],
      [Some [Prod [Num 3; root50]]; Some [Prod [Num 3; root50]]])).
  { cbn [history step CacheModel.run pOpt pCache fresh sumCode lookup find]. rewrite sum50_small.
    cbn [CacheModel.run keyOpt keyed]. reflexivity. }
  apply H in E. cbn [answers] in E. destruct E as (_ & E & _). cbn [sumCode] in E. rewrite sum50_large in E.
  inversion E.
Qed.
Print Assumptions C39_option_refuted.

(** It holds if the caches are cleared after each change and the tables of trigonometric values, which are
    never cleared, don't depend on the option. *)
Theorem C39_option_partial : forall body n o l s vs,
  (forall f args o o' v, permanent f = true -> computes body o (body o f args) v -> computes body o' (body o' f args) v) ->
  clearing l -> history body n (fresh o) l = Some (s, vs) -> answers body o l vs.
Proof.
  intros body n o l s vs HT Hc. apply (history_clearing body n HT (length l) l (fresh o) s vs); [lia|exact Hc|]. intros e [].
Qed.
Print Assumptions C39_option_partial.
Example C39_case :
  let l := [Ask FSum sum50; SetOption 1000; Clear; Ask FSum sum50] in
  clearing l /\
  (forall f args o o' v, permanent f = true -> computes sumCode o (sumCode o f args) v -> computes sumCode o' (sumCode o' f args) v) /\
  match history sumCode 3 (fresh 1) l with
  | Some (_, vs) => vs = [Some [Prod [Num 3; root50]]; Some [Prod [Num 15; Pow (Num 2) (Num (1 # 2))]]]
  | None => False
  end.
Proof.
  split; [exact I|]. split.
  - intros [] args o o' v; cbn [permanent]; try discriminate; intros _ H; cbn [sumCode] in *; inversion H; constructor.
  - cbn [history step CacheModel.run pOpt pCache fresh sumCode lookup find]. rewrite sum50_small.
    cbn [CacheModel.run keyOpt keyed clear filter permanent eFct find]. rewrite sum50_large. reflexivity.
Qed.

(** The cache of products has the option in its key.  So if nothing but products depends on the option, no history
    needs clearing. *)
Theorem C39_products_partial : forall body n o l s vs,
  (forall f args o o' v, f <> FProd -> computes body o (body o f args) v -> computes body o' (body o' f args) v) ->
  history body n (fresh o) l = Some (s, vs) -> answers body o l vs.
Proof. intros body n o l s vs HP. apply (history_products body n HP l (fresh o) s vs). intros o' e []. Qed.
Print Assumptions C39_products_partial.
(** 50^(1/2) * 3: the second answer isn't taken from the cache. *)
Definition prodCode (o : Z) (f : fid) (args : list expr) : prog :=
  match f with
  | FProd => match w_prod (withLimit o) args with Ok e _ => Ret [e] | _ => Raise end
  | _ => Raise
  end.
Lemma prod50_small : w_prod (withLimit 1) [Num 3; root50] = Ok (Prod [Num 3; root50])
  match w_prod (withLimit 1) [Num 3; root50] with Ok _ f => f | _ => [] end.
Proof. lazy. reflexivity. Qed.
Lemma prod50_large : w_prod (withLimit 1000) [Num 3; root50] = Ok (Prod [Num 15; Pow (Num 2) (Num (1 # 2))])
  match w_prod (withLimit 1000) [Num 3; root50] with Ok _ f => f | _ => [] end.
Proof. lazy. reflexivity. Qed.
Example C39_products_case :
  (forall f args o o' v, f <> FProd -> computes prodCode o (prodCode o f args) v -> computes prodCode o' (prodCode o' f args) v) /\
  match history prodCode 3 (fresh 1) [Ask FProd [Num 3; root50]; SetOption 1000; Ask FProd [Num 3; root50]] with
  | Some (_, vs) => vs = [Some [Prod [Num 3; root50]]; Some [Prod [Num 15; Pow (Num 2) (Num (1 # 2))]]]
  | None => False
  end.
Proof.
  split.
  - intros [] args o o' v N H; try (now elim N); cbn [prodCode] in *; inversion H; constructor.
  - cbn [history step CacheModel.run pOpt pCache fresh prodCode lookup find]. rewrite prod50_small.
    cbn [CacheModel.run keyOpt keyed find matches fid_eqb optEqb eFct eOpt Z.eqb Pos.eqb andb]. rewrite prod50_large. reflexivity.
Qed.

(** ** C09: sums of what was made before a change of the option *)

(** 324^(1/5) as it is with a resolution of primes up to 100. *)
Definition fifth : expr := Pow (Num 324) (Num (1 # 5)).
Definition fifths : list expr := [Prod [Num 3; fifth]; Prod [Num 4; fifth]].
Lemma fifth_made : exists facts, w_pow (withLimit 100) (Num 324) (Num (1 # 5)) = Ok fifth facts.
Proof. eexists. lazy. reflexivity. Qed.
Lemma fifths_run : exists facts, w_sum W0 fifths = Ok (Prod [Num 7; Pow (Num 6) (Num (2 # 5))]) facts.
Proof. eexists. lazy. reflexivity. Qed.
Lemma fifths_value r : exists v w, sumVal r fifths = Some v /\ eval r (Prod [Num 7; Pow (Num 6) (Num (2 # 5))]) = Some w /\ v <> w.
Proof.
  assert (E : forall q, Q2R (q # 1) = IZR q) by (intros; unfold Q2R; cbn; lra).
  exists (7 * Rpower 324 (Q2R (1 # 5)))%R, (7 * Rpower 6 (Q2R (2 # 5)))%R.
  cbn. rewrite !E, !rpow_pos by lra. cbn. split; [f_equal; lra|]. split; [f_equal; lra|]. intros H.
  assert (H2 : Rpower 324 (Q2R (1 # 5)) = Rpower 6 (Q2R (2 # 5))) by lra. unfold Rpower in H2. apply exp_inv in H2.
  assert (L : ln 324 = (2 * ln 6)%R) by (unfold Q2R in H2; cbn in H2; lra).
  replace (2 * ln 6)%R with (ln 6 + ln 6)%R in L by ring. rewrite <- ln_mult in L by lra. apply ln_inv in L; lra.
Qed.
(** Full statement of C09, without the facts: 3*324^(1/5) + 4*324^(1/5) becomes 7*6^(2/5). *)
Theorem C09_sum_value_refuted : ~ forall Y F k r l e facts v, posEnv r -> Forall (wf anySym) l ->
  w_sum (world Y F k) l = Ok e facts -> sumVal r l = Some v -> eval r e = Some v.
Proof.
  intros H. destruct fifths_run as [facts E]. destruct (fifths_value (allv 1)) as (v & w & V1 & V2 & N).
  specialize (H refSys 40%nat 40%nat (allv 1) fifths (Prod [Num 7; Pow (Num 6) (Num (2 # 5))]) facts v (allv_pos 1 Rlt_0_1)).
  rewrite V2 in H. enough (X : Some w = Some v) by (injection X as X; auto). apply H; [|exact E|exact V1].
  constructor; [|constructor; [|constructor]]; cbn; repeat split.
Qed.
Print Assumptions C09_sum_value_refuted.
