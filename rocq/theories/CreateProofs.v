(** Value preservation of whole products, of expansion and of substitution. *)
From Verif Require Export ProductProofs2.
From Coq Require Import Lra Lia.
Open Scope R_scope.

Lemma omult_oplus_l a b g : omult (oplus a b) g = oplus (omult a g) (omult b g).
Proof. destruct a, b, g; cbn; try reflexivity. f_equal. ring. Qed.

Section Create.
  Variables (Y : sys) (W : oper).
  Hypothesis HW : soundOps W.
  Variables (st : bool) (r : env) (P : name -> bool -> Prop).
  Hypothesis Hg : wgood st r.
  Notation sp := (spec (holds st r)).
  Notation factOK o := (fun l => Forall (wf P) l /\ ole o (prodVal r l)).
  Notation valOK o := (fun e => wf P e /\ ole o (eval r e)).

  Lemma simplifyProduct_sp n u : Forall (wf P) u -> sp (simplifyProduct Y W n u) (factOK (prodVal r u)).
  Proof.
    revert u. induction n as [|n IH]; intros u Hu; [exact I|].
    change (simplifyProduct Y W (S n) u) with
      (f <- prepare Y W (S n) u ;;
        match f with
        | [a; b] => simplTwoFactors Y W (S n) a b
        | _ =>
            g <- prepareConst Y W (S n) f ;;
            match g with
            | [] => UB "front of empty list of factors"%string
            | [x] => ret g
            | [a; b] => simplTwoFactors Y W (S n) a b
            | u1 :: q => s <- simplifyProduct Y W n q ;; merge (S n) isOne (simplTwoFactors Y W (S n)) [u1] s
            end
        end).
    eapply spec_bind with (Q1 := factOK (prodVal r u)).
    { unfold prepare. destruct (extractProducts_ok r P u Hu) as [H1 E1]. rewrite <- E1.
      apply contract_sp; [|assumption]. intros. now apply contractTrigFctPowers_sp. }
    intros f (Hf & Hv).
    assert (Htwo : forall a b, Forall (wf P) [a; b] -> ole (prodVal r u) (prodVal r [a; b]) ->
              sp (simplTwoFactors Y W (S n) a b) (factOK (prodVal r u))).
    { intros a b Hab Vab. eapply spec_weaken; [apply simplTwoFactors_sp with (P := P); try assumption|].
      - now inversion Hab.
      - inversion_clear Hab as [|? ? ? Hb]. now inversion Hb.
      - intros l (Hl & Vl). split; [assumption|]. eapply ole_trans; eassumption. }
    assert (Hgen : sp (g <- prepareConst Y W (S n) f ;;
            match g with
            | [] => UB "front of empty list of factors"%string
            | [x] => ret g
            | [a; b] => simplTwoFactors Y W (S n) a b
            | u1 :: q => s <- simplifyProduct Y W n q ;; merge (S n) isOne (simplTwoFactors Y W (S n)) [u1] s
            end) (factOK (prodVal r u))).
    { eapply spec_bind; [apply prepareConst_sp with (P := P); assumption|]. intros g (Hgw & Hgv).
      assert (Vg : ole (prodVal r u) (prodVal r g)) by (eapply ole_trans; eassumption).
      destruct g as [|x [|y [|z g]]].
      - exact I.
      - apply spec_ret. auto.
      - now apply Htwo.
      - inversion_clear Hgw as [|? ? Hx Hq].
        eapply spec_bind; [apply IH; exact Hq|]. intros s (Hs & Vs).
        eapply spec_weaken; [apply merge_prod with (P := P); [|constructor; [exact Hx|constructor]|exact Hs]|].
        + intros. now apply simplTwoFactors_sp.
        + intros l (Hl & Vl). split; [assumption|]. eapply ole_trans; [exact Vg|]. eapply ole_trans; [|exact Vl].
          rewrite prodVal_cons, prodVal_1. apply ole_omult; [apply ole_refl|assumption]. }
    destruct f as [|a [|b [|c f]]]; try exact Hgen. now apply Htwo.
  Qed.

  (** ** Expansion *)

  Lemma mapM_expand (f : expr -> res expr) (g : expr -> option R) l :
    (forall x, In x l -> sp (f x) (fun e => wf P e /\ ole (g x) (eval r e))) ->
    sp (mapM f l) (fun k => Forall (wf P) k /\ Forall2 (fun x e => ole (g x) (eval r e)) l k).
  Proof.
    intros Hf. eapply spec_weaken; [apply spec_mapM with (Q := fun x e => wf P e /\ ole (g x) (eval r e)); exact Hf|].
    intros k Hk. split; induction Hk as [|x e l' k' [H1 H2] _ IH]; constructor; auto.
    - apply IH. intros. apply Hf. now right.
    - apply IH. intros. apply Hf. now right.
  Qed.

  Lemma sum_scaled l k o : Forall2 (fun x e => ole (omult (eval r x) o) (eval r e)) l k ->
    ole (omult (sumVal r l) o) (sumVal r k).
  Proof.
    induction 1 as [|x e l k H _ IH].
    - cbn [sumVal fold_right]. destruct o; cbn; [|exact I]. f_equal. ring.
    - rewrite !sumVal_cons, omult_oplus_l. now apply ole_oplus.
  Qed.

  Lemma expandProductOf_sp n sums : Forall (wf P) sums -> sp (expandProductOf W n sums) (valOK (prodVal r sums)).
  Proof.
    revert sums. induction n as [|n IH]; intros sums Hs; [exact I|]. cbn [expandProductOf].
    destruct sums as [|f [|g rest]].
    - exact I.
    - apply spec_ret. split; [now inversion Hs|]. rewrite prodVal_1. apply ole_refl.
    - inversion_clear Hs as [|? ? Hf Hs']. inversion_clear Hs' as [|? ? Hg' Hr].
      eapply spec_bind; [apply spec_relyIf'|]. intros ? Hbug. cbn [holds] in Hbug.
      destruct f as [| | | | |fl| |]; try (now destruct Hbug). clear Hbug. cbn [ops]. apply wf_sum in Hf.
      eapply spec_bind.
      { apply mapM_expand with (g := fun x => omult (eval r x) (eval r g)). intros x Hx.
        rewrite Forall_forall in Hf.
        eapply spec_bind; [apply prod_call with (P := P); auto|]. intros p (Hp & Vp).
        eapply spec_weaken; [apply expand_call with (P := P); auto|]. intros e (He & Ve). split; [assumption|].
        eapply ole_trans; [|exact Ve]. now rewrite <- prod2. }
      intros l (Hl & Vl).
      eapply spec_bind; [apply sum_call with (P := P); auto|]. intros s (Hs & Vs).
      eapply spec_weaken; [apply IH; constructor; assumption|]. intros e (He & Ve). split; [assumption|].
      eapply ole_trans; [|exact Ve]. rewrite !prodVal_cons, <- omult_assoc. apply ole_omult; [|apply ole_refl].
      eapply ole_trans; [|exact Vs]. rewrite eval_sum. now apply sum_scaled.
  Qed.

  Lemma expandScalarProduct_sp s l : wf P s -> Forall (wf P) l ->
    sp (expandScalarProduct W s l) (valOK (omult (eval r s) (sumVal r l))).
  Proof.
    intros Hs Hl. unfold expandScalarProduct.
    eapply spec_bind.
    { apply mapM_expand with (g := fun x => omult (eval r x) (eval r s)). intros x Hx.
      rewrite Forall_forall in Hl.
      eapply spec_bind; [apply prod_call with (P := P); auto|]. intros p (Hp & Vp).
      eapply spec_weaken; [apply expand_call with (P := P); auto|]. intros e (He & Ve). split; [assumption|].
      eapply ole_trans; [|exact Ve]. rewrite prod2 in Vp. now rewrite omult_comm. }
    intros k (Hk & Vk). eapply spec_weaken; [apply sum_call with (P := P); auto|]. intros e (He & Ve).
    split; [assumption|]. eapply ole_trans; [|exact Ve]. rewrite omult_comm. now apply sum_scaled.
  Qed.

  Lemma expandAsProduct_sp n l : Forall (wf P) l -> sp (expandAsProduct W n l) (valOK (prodVal r l)).
  Proof.
    intros Hl. unfold expandAsProduct.
    eapply spec_bind.
    { apply mapM_expand with (g := eval r). intros x Hx. rewrite Forall_forall in Hl. apply expand_call with (P := P); auto. }
    intros x (Hx & Vx). apply prodVal_ole in Vx.
    pose proof (Forall_filter (wf P) isSum x Hx) as Hsums.
    pose proof (Forall_filter (wf P) (fun e => negb (isSum e)) x Hx) as Hsc.
    pose proof (filter_split r isSum x) as Esp.
    eapply spec_bind with (Q1 := valOK (prodVal r (filter (fun e => negb (isSum e)) x))).
    { destruct (filter (fun e => negb (isSum e)) x) eqn:E.
      - apply spec_ret. split; [auto with sp|]. rewrite eval_one. apply ole_refl.
      - rewrite <- E in *. apply prod_call with (P := P); auto. }
    intros s (Hs & Vs).
    destruct (filter isSum x) as [|f sums] eqn:E.
    { apply spec_ret. split; [assumption|]. eapply ole_trans; [exact Vx|]. rewrite Esp, prodVal_nil, omult_1_l. exact Vs. }
    rewrite <- E in *.
    eapply spec_bind; [apply expandProductOf_sp; exact Hsums|]. intros t (Ht & Vt).
    assert (Vfin : ole (prodVal r l) (omult (eval r s) (eval r t))).
    { eapply ole_trans; [exact Vx|]. rewrite Esp, omult_comm. now apply ole_omult. }
    destruct t as [| | | | |tl| |].
    6:{ apply wf_sum in Ht. eapply spec_weaken; [apply expandScalarProduct_sp; assumption|].
        intros e (He & Ve). split; [assumption|]. eapply ole_trans; [exact Vfin|]. exact Ve. }
    all: eapply spec_weaken; [apply prod_call with (P := P); auto|]; intros e (He & Ve); (split; [assumption|]);
      eapply ole_trans; [exact Vfin|]; rewrite prod2 in Ve; exact Ve.
  Qed.

  Lemma undef_prod l : existsb isUndefined l = true -> prodVal r l = None.
  Proof.
    induction l as [|x l IH]; [discriminate|]. cbn [existsb]. intros E. rewrite prodVal_cons.
    apply Bool.orb_prop in E as [E|E].
    - apply isUndefined_eq in E. now subst.
    - rewrite IH by assumption. now destruct (eval r x).
  Qed.
  Lemma zero_prod l : Forall (wf P) l -> existsb isZero l = true -> ole (prodVal r l) (Some 0).
  Proof.
    intros Hl. induction Hl as [|x l Hx Hl IH]; [discriminate|]. cbn [existsb]. intros E. rewrite prodVal_cons.
    apply Bool.orb_prop in E as [E|E].
    - apply (isZero_eq P) in E; [|assumption]. subst. rewrite eval_zero. destruct (prodVal r l); cbn; [|exact I]. f_equal. ring.
    - specialize (IH E). destruct (eval r x), (prodVal r l); cbn in *; auto. injection IH as <-. f_equal. ring.
  Qed.

  Lemma prodCreate_sp n l : Forall (wf P) l -> sp (prodCreate Y W n l) (valOK (prodVal r l)).
  Proof.
    intros Hl. unfold prodCreate. destruct (existsb isUndefined l) eqn:E.
    { apply spec_ret. split; [exact I|]. rewrite undef_prod by assumption. exact I. }
    destruct (existsb isZero l) eqn:E0.
    { apply spec_ret. split; [auto with sp|]. rewrite eval_zero. now apply zero_prod. }
    assert (Hgen : sp (k <- simplifyProduct Y W n l ;;
        match k with
        | [] => ret one
        | [x] => ret x
        | _ => if needsExpansion k then expandAsProduct W n k else ret (Prod k)
        end) (valOK (prodVal r l))).
    { eapply spec_bind; [apply simplifyProduct_sp; assumption|]. intros k (Hk & Hv).
      destruct k as [|x [|y k]].
      - apply spec_ret. split; [auto with sp|]. rewrite eval_one. exact Hv.
      - apply spec_ret. split; [now inversion Hk|]. now rewrite prodVal_1 in Hv.
      - destruct (needsExpansion (x :: y :: k)).
        + eapply spec_weaken; [apply expandAsProduct_sp; assumption|]. intros e (He & Ve). split; [assumption|].
          eapply ole_trans; eassumption.
        + apply spec_ret. split; [now apply wf_prod|]. exact Hv. }
    destruct l as [|x [|y l]]; try exact Hgen.
    apply spec_ret. split; [now inversion Hl|]. rewrite prodVal_1. apply ole_refl.
  Qed.

  (** ** Substitution *)

  Lemma upd_sym_other n p v m q : isEqual (Sym m q) (Sym n p) = false -> upd r n p v m q = r m q.
  Proof.
    cbn [isEqual]. unfold upd. intros E.
    destruct (nameEq n m) eqn:En; [|reflexivity]. apply nameEq_eq in En. subst m. rewrite nameEq_refl in E.
    cbn [andb]. destruct p, q; cbn in *; congruence.
  Qed.

  Lemma substExpr_sp n p t e : wf (plus1 P n p) e -> wf P t ->
    sp (substExpr W e (Sym n p) t)
      (fun e' => wf P e' /\ forall v, eval r t = Some v -> ole (eval (upd r n p v) e) (eval r e')).
  Proof.
    intros He Ht. unfold substExpr.
    assert (Hcall : forall a, wf (plus1 P n p) a -> sp (w_subst W a (Sym n p) t)
       (fun e' => wf P e' /\ forall v, eval r t = Some v -> ole (eval (upd r n p v) a) (eval r e'))).
    { intros a Ha. now apply (so_subst W HW). }
    assert (Hmap : forall l, Forall (wf (plus1 P n p)) l -> sp (mapM (fun a => w_subst W a (Sym n p) t) l)
       (fun k => Forall (wf P) k /\ forall v, eval r t = Some v ->
          Forall2 (fun x y => ole (eval (upd r n p v) x) (eval r y)) l k)).
    { intros l Hl. rewrite Forall_forall in Hl.
      eapply spec_weaken; [apply spec_mapM; intros x Hx; apply Hcall; auto|].
      intros k Hk. clear Hl. induction Hk as [|x y l k [H1 H2] _ [IH1 IH2]]; split; auto. }
    destruct (isEqual e (Sym n p)) eqn:E.
    { apply isEqual_eq in E. subst e. apply spec_ret. split; [assumption|]. intros v Hv. cbn [eval]. rewrite upd_same.
      rewrite Hv. reflexivity. }
    destruct e as [q|m q|c| |f l|l|l|b x].
    - apply spec_ret. split; [exact He|]. intros v _. apply ole_refl.
    - apply spec_ret. destruct He as [He|[-> ->]].
      + split; [exact He|]. intros v _. cbn [eval]. rewrite upd_sym_other by assumption. reflexivity.
      + cbn [isEqual] in E. rewrite nameEq_refl, Bool.eqb_reflx in E. discriminate.
    - apply spec_ret. split; [exact I|]. intros v _. apply ole_refl.
    - apply spec_ret. split; [exact I|]. intros v _. exact I.
    - apply wf_ops in He as [Hlen Hl].
      assert (Hone : forall a, l = [a] -> f <> FAtan2 -> wf (plus1 P n p) a).
      { intros a -> _. now inversion Hl. }
      destruct f.
      8:{ destruct l as [|a [|z l]]; try discriminate Hlen.
          eapply spec_bind; [apply Hcall; apply Hone; [reflexivity|discriminate]|]. intros a' (Ha' & Va).
          eapply spec_weaken; [apply (so_log W HW) with (P := P); assumption|]. intros e (We & Ve).
          split; [assumption|]. intros v Hv. eapply ole_trans; [|exact Ve]. specialize (Va v Hv).
          cbn [eval]. destruct (eval _ a) as [va|]; [|exact I]. cbn in Va. rewrite Va. apply ole_refl. }
      7:{ destruct l as [|y [|x [|z l]]]; try discriminate Hlen.
          inversion_clear Hl as [|? ? Hy Hl']. inversion_clear Hl' as [|? ? Hx _].
          eapply spec_bind; [apply Hcall; assumption|]. intros y' (Hy' & Vy).
          eapply spec_bind; [apply Hcall; assumption|]. intros x' (Hx' & Vx).
          eapply spec_weaken; [apply (so_atan2 W HW) with (P := P); assumption|]. intros e (We & Ve).
          split; [assumption|]. intros v Hv. eapply ole_trans; [|exact Ve]. specialize (Vy v Hv). specialize (Vx v Hv).
          cbn [eval]. destruct (eval _ y) as [vy|]; [|exact I]. cbn in Vy. rewrite Vy.
          destruct (eval _ x) as [vx|]; [|exact I]. cbn in Vx. rewrite Vx. apply ole_refl. }
      all: destruct l as [|a [|z l]]; try discriminate Hlen;
          (eapply spec_bind; [apply Hcall; apply Hone; [reflexivity|discriminate]|]); intros a' (Ha' & Va);
          (eapply spec_weaken; [apply (so_trig W HW) with (P := P); [assumption|assumption|reflexivity]|]); intros e (We & Ve);
          (split; [assumption|]); intros v Hv; (eapply ole_trans; [|exact Ve]); specialize (Va v Hv);
          cbn [eval]; (destruct (eval _ a) as [va|]; [|exact I]); cbn in Va; rewrite Va; apply ole_refl.
    - apply wf_sum in He. eapply spec_bind; [apply Hmap; assumption|]. intros k (Hk & Vk).
      eapply spec_weaken; [apply sum_call with (P := P); assumption|]. intros e (We & Ve). split; [assumption|].
      intros v Hv. eapply ole_trans; [|exact Ve]. rewrite eval_sum. apply sumVal_ole'. now apply Vk.
    - apply wf_prod in He. eapply spec_bind; [apply Hmap; assumption|]. intros k (Hk & Vk).
      eapply spec_weaken; [apply prod_call with (P := P); assumption|]. intros e (We & Ve). split; [assumption|].
      intros v Hv. eapply ole_trans; [|exact Ve]. rewrite eval_prod. apply prodVal_ole'. now apply Vk.
    - destruct He as [Hb Hx].
      eapply spec_bind; [apply Hcall; assumption|]. intros b' (Hb' & Vb).
      eapply spec_bind; [apply Hcall; assumption|]. intros x' (Hx' & Vx).
      eapply spec_weaken; [apply pow_call with (P := P); assumption|]. intros e (We & Ve). split; [assumption|].
      intros v Hv. eapply ole_trans; [|exact Ve]. rewrite eval_pow. apply ole_opow; auto.
  Qed.
End Create.
