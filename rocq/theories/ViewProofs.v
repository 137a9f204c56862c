(** Expressions that look alike are the same. *)
From Coq Require Import ZArith String Ascii List Bool Lia.
From Verif Require Import ExprProofs NumberProofs ViewSpec NameTextProofs.
Import ListNotations.
Open Scope Z_scope.

Lemma digit_digitChar z : 0 <= z < 10 -> digit (digitChar z) = z /\ digitChar z <> "-"%char /\ digitChar z <> "/"%char.
Proof.
  intros H. assert (z = 0 \/ z = 1 \/ z = 2 \/ z = 3 \/ z = 4 \/ z = 5 \/ z = 6 \/ z = 7 \/ z = 8 \/ z = 9) as K by lia.
  repeat destruct K as [-> | K]; try subst z; (split; [vm_compute; reflexivity|split; vm_compute; discriminate]).
Qed.
Definition digitLike (c : ascii) : Prop := c <> "-"%char /\ c <> "/"%char.
Lemma digits_value n : forall z, 0 <= z -> z < 2 ^ Z.of_nat n -> n <> O -> number 10 (digits n z) = z /\ Forall digitLike (digits n z) /\ digits n z <> [].
Proof.
  induction n as [|n IH]; intros z H L N; [easy|]. cbn [digits]. destruct (Z.ltb_spec z 10) as [K|K].
  - destruct (digit_digitChar z ltac:(lia)) as (E & D). split; [cbn; lia|]. split; [repeat constructor; apply D|discriminate].
  - rewrite Nat2Z.inj_succ, Z.pow_succ_r in L by lia.
    assert (Hd : 0 < z / 10) by (apply Z.div_str_pos; lia). assert (Hl : z / 10 < 2 ^ Z.of_nat n) by (apply Z.div_lt_upper_bound; lia).
    destruct n as [|n]; [cbn in Hl; lia|]. destruct (IH (z / 10) ltac:(lia) Hl ltac:(easy)) as (A & B & _).
    destruct (digit_digitChar (z mod 10) ltac:(apply Z.mod_pos_bound; lia)) as (E & D).
    split; [|split; [apply Forall_app; split; [exact B|repeat constructor; apply D]|intros X; now destruct (app_cons_not_nil (digits (S n) (z / 10)) [] (digitChar (z mod 10)))]].
    unfold number in *. rewrite fold_left_app, A. cbn [fold_left]. rewrite E. pose proof (Z.div_mod z 10). lia.
Qed.
Lemma natText_value z : 0 <= z -> number 10 (natText z) = z /\ Forall digitLike (natText z) /\ natText z <> [].
Proof.
  intros H. apply digits_value; [exact H| |discriminate]. rewrite Nat2Z.inj_succ, Z2Nat.id by apply Z.log2_nonneg.
  destruct (Z.eq_dec z 0) as [->|]; [reflexivity|]. apply Z.log2_spec. lia.
Qed.
Lemma intText_inj a b : intText a = intText b -> a = b.
Proof.
  unfold intText. intros E. destruct (Z.ltb_spec a 0) as [A|A], (Z.ltb_spec b 0) as [B|B].
  - injection E as E. destruct (natText_value (- a) ltac:(lia)) as [X _], (natText_value (- b) ltac:(lia)) as [Y _]. rewrite E in X. lia.
  - exfalso. destruct (natText_value b B) as (_ & F & _). rewrite <- E in F. inversion F as [|? ? [C _] _]. now apply C.
  - exfalso. destruct (natText_value a A) as (_ & F & _). rewrite E in F. inversion F as [|? ? [C _] _]. now apply C.
  - destruct (natText_value a A) as [X _], (natText_value b B) as [Y _]. rewrite E in X. lia.
Qed.
Definition notSlash (c : ascii) : Prop := c <> "/"%char.
Lemma intText_noSlash a : Forall notSlash (intText a).
Proof.
  assert (W : forall z, 0 <= z -> Forall notSlash (natText z)).
  { intros z H. destruct (natText_value z H) as (_ & F & _). eapply Forall_impl; [|exact F]. intros c [_ C]. exact C. }
  unfold intText. destruct (Z.ltb_spec a 0); [constructor; [discriminate|]|]; apply W; lia.
Qed.
Lemma numberText_inj p q : canon p -> canon q -> numberText p = numberText q -> p = q.
Proof.
  intros Cp Cq E. unfold numberText in E.
  assert (S : forall t, stops notSlash ("/"%char :: t)) by (intros t H; now apply H).
  assert (K : qnum p = qnum q /\ qden p = qden q).
  { unfold qIsInt in E. destruct (Z.eqb_spec (qden p) 1) as [P|P], (Z.eqb_spec (qden q) 1) as [Q|Q].
    - apply intText_inj in E. split; [exact E|congruence].
    - exfalso. rewrite <- (app_nil_r (intText (qnum p))) in E. apply (prefix_inj notSlash) in E; [destruct E as [_ E]; discriminate E|apply intText_noSlash|apply intText_noSlash|exact I|apply S].
    - exfalso. rewrite <- (app_nil_r (intText (qnum q))) in E. apply (prefix_inj notSlash) in E; [destruct E as [_ E]; discriminate E|apply intText_noSlash|apply intText_noSlash|apply S|exact I].
    - apply (prefix_inj notSlash) in E; [|apply intText_noSlash|apply intText_noSlash|apply S|apply S]. destruct E as [E1 E2]. injection E2 as E2. apply intText_inj in E1, E2. now split. }
  destruct K as [K1 K2]. destruct p as [pn pd], q as [qn qd]. unfold qnum, qden in *. cbn [Qnum Qden] in *. injection K2 as ->. now subst.
Qed.

Lemma wf_list P l : (fix all l := match l with [] => True | x :: r => wf P x /\ all r end) l -> Forall (wf P) l.
Proof. induction l as [|x l IH]; [constructor|]. intros [H1 H2]. constructor; auto. Qed.
Lemma alike_list l m : (forall a, In a l -> plainExpr a -> forall b, plainExpr b -> alike a b -> a = b) -> Forall plainExpr l -> Forall plainExpr m ->
  Forall2 alike l m -> l = m.
Proof.
  intros IH Hl Hm F. induction F as [|a b l m A F IHF]; [reflexivity|]. inversion Hl; inversion Hm; subst. f_equal; [apply IH; auto; now left|]. apply IHF; auto. intros z I. apply IH. now right.
Qed.
Theorem alike_same a : plainExpr a -> forall b, plainExpr b -> alike a b -> a = b.
Proof.
  assert (T : forall x, varType x = match x with Num q => Some (if qIsInt q then TyInt else TyFraction) | Sym _ _ => Some TySymbol | Cst _ => Some TyConstant
    | Undef => Some TyUndefined | Fct _ _ => Some TyFunction | Sum _ => Some TySum | Prod _ => Some TyProduct | Pow _ _ => Some TyPower end).
  { intros []; try reflexivity. cbn [varType]. unfold numericType, qIsFraction, qIsInt. now destruct (qden q =? 1). }
  induction a as [q|n p|c| |f l IH|l IH|l IH|x y IHx IHy] using expr_ind2; intros Ha b Hb [A1 A2 A3 A4 A5]; rewrite !T in A1;
    destruct b as [q'|n' p'|c'| |f' l'|l'|l'|x' y']; try discriminate A1; try (exfalso; destruct (qIsInt q); discriminate A1);
    try (exfalso; destruct (qIsInt q'); discriminate A1); clear A1; unfold plainExpr in Ha, Hb; cbn [wf] in Ha, Hb; cbn [ops] in A3.
  - f_equal. apply numberText_inj; auto.
  - f_equal; [apply concat_inj; assumption|exact (A5 _ _ _ _ eq_refl eq_refl)].
  - clear -A2. destruct c, c'; reflexivity || (vm_compute in A2; discriminate A2).
  - reflexivity.
  - assert (f = f') as <- by (clear -A2; destruct f, f'; reflexivity || (vm_compute in A2; discriminate A2)).
    f_equal. apply alike_list; [exact IH|apply wf_list, Ha|apply wf_list, Hb|exact A3].
  - f_equal. apply alike_list; [exact IH|apply wf_list, Ha|apply wf_list, Hb|exact A3].
  - f_equal. apply alike_list; [exact IH|apply wf_list, Ha|apply wf_list, Hb|exact A3].
  - inversion A3 as [|? ? ? ? B1 B]; subst. inversion B as [|? ? ? ? B2 _]; subst. f_equal; [apply IHx|apply IHy]; tauto.
Qed.
Theorem alike_refl a : alike a a.
Proof.
  assert (W : forall l, (forall x, In x l -> alike x x) -> Forall2 alike l l).
  { induction l as [|z l IHl]; intros IH; [apply Forall2_nil|]. apply Forall2_cons; [apply IH; now left|]. apply IHl. intros w I. apply IH. now right. }
  induction a as [q|n p|c| |f l IH|l IH|l IH|x y IHx IHy] using expr_ind2; apply Alike; try reflexivity; try congruence; apply W; cbn [ops]; try exact IH;
    try (intros z []; fail). intros z [<-|[<-|[]]]; assumption.
Qed.
Theorem type_listed a : exists t s, varType a = Some t /\ typeName t = Some s.
Proof.
  destruct a; try (eexists; eexists; split; reflexivity). cbn [varType]. unfold numericType, qIsFraction, qIsInt.
  destruct (qden q =? 1); eexists; eexists; split; reflexivity.
Qed.
Theorem type_kind a :
  (varType a = Some TyInt <-> exists q, a = Num q /\ Zpos (Qden q) = 1%Z) /\
  (varType a = Some TyFraction <-> exists q, a = Num q /\ Zpos (Qden q) <> 1%Z) /\
  (varType a = Some TySymbol <-> exists n p, a = Sym n p) /\ (varType a = Some TyConstant <-> exists c, a = Cst c) /\
  (varType a = Some TyFunction <-> exists f l, a = Fct f l) /\ (varType a = Some TySum <-> exists l, a = Sum l) /\
  (varType a = Some TyProduct <-> exists l, a = Prod l) /\ (varType a = Some TyPower <-> exists b x, a = Pow b x) /\
  (varType a = Some TyUndefined <-> a = Undef) /\ varType a <> Some TyDouble.
Proof.
  destruct a as [q|n p|c| |f l|l|l|b x].
  1: cbn [varType]; unfold numericType, qIsFraction, qIsInt, qden; destruct (Z.eqb_spec (Zpos (Qden q)) 1) as [E|E]; cbn [negb].
  all: repeat (first [split | intros ?]); try discriminate; try reflexivity; try (repeat eexists; eassumption || reflexivity).
  all: repeat match goal with H : exists _, _ |- _ => destruct H as [? H] | H : _ /\ _ |- _ => destruct H as [? H] end; try congruence.
Qed.
