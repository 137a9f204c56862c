(** The caches and the uncached computation. *)
From Verif Require Export CacheSpec ExprProofs.
From Coq Require Import Lia.
Open Scope nat_scope.

Section Proofs.
  Variable body : Z -> fid -> list expr -> prog.
  Notation computes := (computes body).
  Notation run := (run body).

  Lemma computes_unique o p v : computes o p v -> forall w, computes o p w -> v = w.
  Proof.
    induction 1 as [v| |f args next v w H1 IH1 H2 IH2|f args next H1 IH1]; intros u Hu; inversion Hu; subst; try reflexivity.
    - match goal with H : CacheSpec.computes _ _ (body o f args) _ |- _ => apply IH1 in H; injection H as -> end. now apply IH2.
    - match goal with H : CacheSpec.computes _ _ (body o f args) None |- _ => apply IH1 in H; discriminate end.
    - match goal with H : CacheSpec.computes _ _ (body o f args) (Some _) |- _ => apply IH1 in H; discriminate end.
  Qed.

  (** What is stored for the option o is right. *)
  Definition right (o : Z) (c : cache) : Prop :=
    forall e, In e c -> eOpt e = keyOpt o (eFct e) -> computes o (body o (eFct e) (eArgs e)) (Some (eVal e)).

  Lemma fid_eqb_eq a b : fid_eqb a b = true -> a = b.
  Proof. destruct a, b; cbn; congruence. Qed.
  Lemma optEqb_eq a b : optEqb a b = true -> a = b.
  Proof. destruct a, b; cbn; try congruence. intros H. apply Z.eqb_eq in H. congruence. Qed.
  Lemma lookup_right o f args c v : right o c -> lookup o f args c = Some v -> computes o (body o f args) (Some v).
  Proof.
    unfold lookup. intros Hc. destruct (find _ c) as [e|] eqn:E; [|discriminate]. intros [= <-].
    apply find_some in E as [Hin Hm]. unfold matches in Hm. rewrite !Bool.andb_true_iff in Hm. destruct Hm as [[H1 H2] H3].
    apply fid_eqb_eq in H1. apply optEqb_eq in H2. apply areEqual_eq in H3; [|intros; now apply isEqual_eq].
    subst f args. now apply Hc.
  Qed.
  Lemma right_add o f args v c : right o c -> computes o (body o f args) (Some v) -> right o (mkEntry f (keyOpt o f) args v :: c).
  Proof. intros Hc Hv e [<-|He] Ho; [exact Hv|now apply Hc]. Qed.

  Lemma run_right n : forall o p c v c', right o c -> run n o p c = Some (v, c') -> computes o p v /\ right o c'.
  Proof.
    induction n as [|m IH]; [discriminate|]. intros o [v0| |f args next] c v c' Hc; cbn [CacheModel.run].
    - intros [= <- <-]. split; [constructor|assumption].
    - intros [= <- <-]. split; [constructor|assumption].
    - destruct (lookup o f args c) as [u|] eqn:El.
      + intros H. apply IH in H as [H1 H2]; [|assumption]. split; [|assumption].
        eapply c_call; [exact (lookup_right o f args c u Hc El)|exact H1].
      + destruct (run m o (body o f args) c) as [[[u|] c1]|] eqn:Er; [| |discriminate].
        * apply IH in Er as [E1 E2]; [|assumption]. intros H. apply IH in H as [H1 H2]; [|now apply right_add].
          split; [|assumption]. eapply c_call; eassumption.
        * intros [= <- <-]. apply IH in Er as [E1 E2]; [|assumption]. split; [now apply c_fail|assumption].
  Qed.

  Lemma run_more n : forall o p c x m, run n o p c = Some x -> n <= m -> run m o p c = Some x.
  Proof.
    induction n as [|n IH]; [discriminate|]. intros o p c x [|m] H Hm; [lia|].
    destruct p as [v0| |f args next]; cbn [CacheModel.run] in *; try assumption.
    destruct (lookup o f args c) as [u|]; [apply IH; [assumption|lia]|].
    destruct (run n o (body o f args) c) as [[[u|] c1]|] eqn:Er; [| |discriminate].
    - rewrite (IH _ _ _ _ m Er) by lia. apply IH; [assumption|lia].
    - rewrite (IH _ _ _ _ m Er) by lia. assumption.
  Qed.
  Lemma run_ends o p v : computes o p v -> forall c, right o c -> exists n c', run n o p c = Some (v, c').
  Proof.
    induction 1 as [v| |f args next v w H1 IH1 H2 IH2|f args next H1 IH1]; intros c Hc.
    - now exists 1, c.
    - now exists 1, c.
    - destruct (lookup o f args c) as [u|] eqn:El.
      + pose proof (lookup_right o f args c u Hc El) as Hu. pose proof (computes_unique o _ _ H1 _ Hu) as [= <-].
        destruct (IH2 c Hc) as (n & c' & Hn). exists (S n), c'. cbn [CacheModel.run]. now rewrite El.
      + destruct (IH1 c Hc) as (n & c1 & Hn). destruct (run_right n o _ c _ c1 Hc Hn) as [_ Hc1].
        destruct (IH2 (mkEntry f (keyOpt o f) args v :: c1)) as (n' & c' & Hn'); [now apply right_add|].
        exists (S (max n n')), c'. cbn [CacheModel.run]. rewrite El. rewrite (run_more n _ _ _ _ (max n n') Hn) by lia.
        now rewrite (run_more n' _ _ _ _ (max n n') Hn') by lia.
    - destruct (lookup o f args c) as [u|] eqn:El.
      + pose proof (lookup_right o f args c u Hc El) as Hu. pose proof (computes_unique o _ _ H1 _ Hu). discriminate.
      + destruct (IH1 c Hc) as (n & c1 & Hn). exists (S n), c1. cbn [CacheModel.run]. now rewrite El, Hn.
  Qed.

  Lemma call_ret o f args v : computes o (Call f args Ret) v <-> computes o (body o f args) v.
  Proof.
    split.
    - inversion 1; subst; [|assumption]. match goal with H : computes o (Ret _) _ |- _ => inversion H; subst end. assumption.
    - intros H. destruct v as [v|]; [eapply c_call; [exact H|constructor]|now apply c_fail].
  Qed.
  Lemma right_clear o c : right o c -> right o (clear c).
  Proof. intros H e He. apply filter_In in He as [He _]. now apply H. Qed.

  (** Permanent tables that don't depend on the option. *)
  Definition tablesFixed : Prop :=
    forall f args o o' v, permanent f = true -> computes o (body o f args) v -> computes o' (body o' f args) v.
  Lemma right_switch o o' c : tablesFixed -> right o c -> right o' (clear c).
  Proof.
    intros HT H e He Ho. apply filter_In in He as [He Hp]. apply (HT _ _ o); [exact Hp|]. apply H; [exact He|].
    destruct (eFct e); try discriminate; exact Ho.
  Qed.

  Lemma history_same n : forall l s s' vs, sameOption l -> right (pOpt s) (pCache s) -> history body n s l = Some (s', vs) ->
    answers body (pOpt s) l vs.
  Proof.
    induction l as [|e l IH]; intros s s' vs Hs Hr; cbn [history answers].
    - intros [= <- <-]. exact I.
    - assert (Hl : sameOption l) by (intros o Hi; apply (Hs o); now right).
      destruct e as [f args| |o]; cbn [step].
      + destruct (run n (pOpt s) (Call f args Ret) (pCache s)) as [[v c]|] eqn:E; [|discriminate].
        apply run_right in E as [E1 E2]; [|assumption]. cbn [pOpt pCache].
        destruct (history body n (mkProcess (pOpt s) c) l) as [[s1 as1]|] eqn:Eh; [|discriminate]. intros [= <- <-].
        split; [now apply call_ret|]. now apply (IH (mkProcess (pOpt s) c) s1).
      + destruct (history body n (mkProcess (pOpt s) (clear (pCache s))) l) as [[s1 as1]|] eqn:Eh; [|discriminate]. intros [= <- <-].
        apply (IH (mkProcess (pOpt s) (clear (pCache s))) s1); [assumption|now apply right_clear|assumption].
      + exfalso. apply (Hs o). now left.
  Qed.
  Lemma history_clearing n : tablesFixed -> forall k l s s' vs, length l <= k -> clearing l -> right (pOpt s) (pCache s) ->
    history body n s l = Some (s', vs) -> answers body (pOpt s) l vs.
  Proof.
    intros HT. induction k as [|k IH]; intros [|e l] s s' vs Hk Hs Hr; try (cbn in Hk; lia); try (intros [= <- <-]; exact I).
    cbn in Hk. destruct e as [f args| |o].
    - cbn [history step answers clearing] in *.
      destruct (run n (pOpt s) (Call f args Ret) (pCache s)) as [[v c]|] eqn:E; [|discriminate].
      apply run_right in E as [E1 E2]; [|assumption].
      destruct (history body n (mkProcess (pOpt s) c) l) as [[s1 as1]|] eqn:Eh; [|discriminate]. intros [= <- <-].
      split; [now apply call_ret|]. apply (IH l (mkProcess (pOpt s) c) s1); try assumption. lia.
    - cbn [history step answers clearing] in *.
      destruct (history body n (mkProcess (pOpt s) (clear (pCache s))) l) as [[s1 as1]|] eqn:Eh; [|discriminate]. intros [= <- <-].
      apply (IH l (mkProcess (pOpt s) (clear (pCache s))) s1); try assumption; [lia|now apply right_clear].
    - destruct l as [|[f args| |o'] l]; try contradiction. cbn [history step answers clearing pOpt pCache] in *. cbn in Hk.
      destruct (history body n (mkProcess o (clear (pCache s))) l) as [[s1 as1]|] eqn:Eh; [|discriminate]. intros [= <- <-].
      apply (IH l (mkProcess o (clear (pCache s))) s1); try assumption; [lia|]. cbn. eapply right_switch; eassumption.
  Qed.

  (** Only products depend on the option, which is in the key of their cache. *)
  Definition onlyProducts : Prop :=
    forall f args o o' v, f <> FProd -> computes o (body o f args) v -> computes o' (body o' f args) v.
  Definition rightAlways (c : cache) : Prop := forall o, right o c.
  Lemma always_add o f args v c : onlyProducts -> rightAlways c -> computes o (body o f args) (Some v) -> rightAlways (mkEntry f (keyOpt o f) args v :: c).
  Proof.
    intros HP Hc Hv o' e [<-|He] Ho; [|now apply Hc]. cbn [eOpt eFct eArgs eVal] in *.
    destruct f; try (apply (HP _ _ o); [discriminate|exact Hv]). injection Ho as ->. exact Hv.
  Qed.
  Lemma run_always n : onlyProducts -> forall o p c v c', rightAlways c -> run n o p c = Some (v, c') -> rightAlways c'.
  Proof.
    intros HP. induction n as [|m IH]; [discriminate|]. intros o [v0| |f args next] c v c' Hc; cbn [CacheModel.run].
    - now intros [= <- <-].
    - now intros [= <- <-].
    - destruct (lookup o f args c) as [u|] eqn:El; [intros H; exact (IH _ _ _ _ _ Hc H)|].
      destruct (run m o (body o f args) c) as [[[u|] c1]|] eqn:Er; [| |discriminate].
      + pose proof (IH _ _ _ _ _ Hc Er) as Hc1. apply run_right in Er as [E1 _]; [|apply Hc]. intros H. exact (IH _ _ _ _ _ (always_add o f args u c1 HP Hc1 E1) H).
      + intros [= <- <-]. exact (IH _ _ _ _ _ Hc Er).
  Qed.
  Lemma history_products n : onlyProducts -> forall l s s' vs, rightAlways (pCache s) -> history body n s l = Some (s', vs) -> answers body (pOpt s) l vs.
  Proof.
    intros HP. induction l as [|e l IH]; intros s s' vs Hr; cbn [history answers]; [intros [= <- <-]; exact I|].
    destruct e as [f args| |o]; cbn [step].
    - destruct (run n (pOpt s) (Call f args Ret) (pCache s)) as [[v c]|] eqn:E; [|discriminate].
      pose proof (run_always n HP _ _ _ _ _ Hr E) as Hc. apply run_right in E as [E1 _]; [|apply Hr].
      destruct (history body n (mkProcess (pOpt s) c) l) as [[s1 as1]|] eqn:Eh; [|discriminate]. intros [= <- <-].
      split; [now apply call_ret|]. now apply (IH (mkProcess (pOpt s) c) s1).
    - destruct (history body n (mkProcess (pOpt s) (clear (pCache s))) l) as [[s1 as1]|] eqn:Eh; [|discriminate]. intros [= <- <-].
      apply (IH (mkProcess (pOpt s) (clear (pCache s))) s1); [|assumption]. intros o. apply right_clear, Hr.
    - destruct (history body n (mkProcess o (pCache s)) l) as [[s1 as1]|] eqn:Eh; [|discriminate]. intros [= <- <-].
      apply (IH (mkProcess o (pCache s)) s1); assumption.
  Qed.

  Lemma history_more n m : forall l s x, n <= m -> history body n s l = Some x -> history body m s l = Some x.
  Proof.
    intros l. induction l as [|e l IH]; intros s x Hm; cbn [history]; [auto|].
    assert (Hstep : forall y, step body n s e = Some y -> step body m s e = Some y).
    { destruct e as [f args| |o]; cbn [step]; auto. intros y.
      destruct (run n (pOpt s) (Call f args Ret) (pCache s)) as [[v c]|] eqn:E; [|discriminate].
      now rewrite (run_more n _ _ _ _ m E). }
    destruct (step body n s e) as [[s1 a]|]; [|discriminate]. rewrite (Hstep _ eq_refl).
    destruct (history body n s1 l) as [[s2 as2]|] eqn:E; [|discriminate]. now rewrite (IH _ _ Hm E).
  Qed.
  Lemma history_ends : forall l s vs, sameOption l -> right (pOpt s) (pCache s) -> answers body (pOpt s) l vs ->
    exists n s', history body n s l = Some (s', vs).
  Proof.
    induction l as [|e l IH]; intros s vs Hs Hr; cbn [answers].
    - destruct vs; [|contradiction]. intros _. now exists 0, s.
    - assert (Hl : sameOption l) by (intros o Hi; apply (Hs o); now right). destruct e as [f args| |o].
      + destruct vs as [|v vs]; [contradiction|]. intros [Hv Ha]. apply call_ret in Hv.
        destruct (run_ends _ _ _ Hv _ Hr) as (n1 & c1 & E1). destruct (run_right _ _ _ _ _ _ Hr E1) as [_ Hr1].
        destruct (IH (mkProcess (pOpt s) c1) vs Hl Hr1 Ha) as (n2 & s2 & E2). exists (max n1 n2), s2.
        cbn [history step]. rewrite (run_more n1 _ _ _ _ (max n1 n2) E1) by lia. now rewrite (history_more n2 (max n1 n2) _ _ _ ltac:(lia) E2).
      + intros Ha. destruct (IH (mkProcess (pOpt s) (clear (pCache s))) vs Hl (right_clear _ _ Hr)) as (n2 & s2 & E2); [destruct vs; exact Ha|].
        exists n2, s2. cbn [history step]. now rewrite E2.
      + exfalso. apply (Hs o). now left.
  Qed.
End Proofs.
