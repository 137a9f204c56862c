(** The printed text denotes the value of the expression. *)
From Verif Require Import ParserSound ParserText TextSpec WorldProofs SimplApi PrinterModel GrammarSpec.
From Coq Require Import Reals ZArith List Ascii String Lia Lra.
Import ListNotations.
From Verif Require Import Run RunFacts SoundOps RPow.
Open Scope R_scope.
Open Scope list_scope.

(** ** Leading blanks *)
Section Lead.
  Variables (read : text -> Z -> Prop) (word : text -> Prop).
  Lemma lead_all :
    (forall s t, gOperand read word s t -> forall w, blanks w -> gOperand read word (w ++ s) t) /\
    (forall s t, gFactor read word s t -> forall w, blanks w -> gFactor read word (w ++ s) t) /\
    (forall s t, gSigned read word s t -> forall w, blanks w -> gSigned read word (w ++ s) t) /\
    (forall s t, gProduct read word s t -> forall w, blanks w -> gProduct read word (w ++ s) t) /\
    (forall s t, gSum read word s t -> forall w, blanks w -> gSum read word (w ++ s) t) /\
    (forall s t, gExpr read word s t -> forall w, blanks w -> gExpr read word (w ++ s) t).
  Proof.
    assert (J : forall a b, blanks a -> blanks b -> blanks (a ++ b)) by (intros; now apply Forall_app).
    apply grammar_ind; intros; rewrite ?app_assoc; try rewrite <- !app_assoc;
      try (rewrite app_assoc; econstructor; eauto; fail); try (econstructor; eauto; fail).
  Qed.
  Lemma lead_product s t : gProduct read word s t -> gProduct read word (" "%char :: s) t.
  Proof. intros H. apply (proj1 (proj2 (proj2 (proj2 lead_all))) s t H [" "%char]). repeat constructor. Qed.
  Lemma lead_expr s t : gExpr read word s t -> gExpr read word (" "%char :: s) t.
  Proof. intros H. apply (proj2 (proj2 (proj2 (proj2 (proj2 lead_all)))) s t H [" "%char]). repeat constructor. Qed.
End Lead.

(** ** Texts with a value *)
Section Texts.
  Variable r : env.
  Notation R0 := asRead. Notation N0 := noPrefix.
  Definition denotes (G : text -> ptree -> Prop) (s : text) (v : R) : Prop := exists t, G s t /\ pval r t = Some v.
  Definition atLevel (k : nat) : text -> R -> Prop :=
    match k with
    | 0 | 1 => denotes (gSum R0 N0) | 2 => denotes (gProduct R0 N0) | 3 => denotes (gSigned R0 N0)
    | 4 => denotes (gFactor R0 N0) | _ => denotes (gOperand R0 N0)
    end%nat.
  Lemma down5 s v : atLevel 5 s v -> atLevel 4 s v. Proof. intros [t [H E]]. exists t. split; [now constructor|exact E]. Qed.
  Lemma down4 s v : atLevel 4 s v -> atLevel 3 s v. Proof. intros [t [H E]]. exists t. split; [now constructor|exact E]. Qed.
  Lemma down3 s v : atLevel 3 s v -> atLevel 2 s v. Proof. intros [t [H E]]. exists t. split; [now constructor|exact E]. Qed.
  Lemma down2 s v : atLevel 2 s v -> atLevel 1 s v. Proof. intros [t [H E]]. exists t. split; [now constructor|exact E]. Qed.
  Lemma down j k s v : (j <= k <= 5)%nat -> atLevel k s v -> atLevel j s v.
  Proof.
    assert (D : forall i s v, (i <= 4)%nat -> atLevel (S i) s v -> atLevel i s v).
    { clear. intros i s v L. do 5 (destruct i as [|i]; [auto using down5, down4, down3, down2|]). lia. }
    intros [L L'] H. induction L as [|k L IH]; [exact H|]. apply IH; [lia|]. apply D; [lia|exact H].
  Qed.

  Lemma d_parens s v : atLevel 1 s v -> atLevel 5 (parens s) v.
  Proof.
    intros [t [H E]]. exists t. split; [|exact E]. apply (g_parens R0 N0 [] s [] t); [constructor|now constructor|constructor].
  Qed.
  Lemma d_neg s v : atLevel 4 s v -> atLevel 3 ("-"%char :: s) (- v).
  Proof. intros [t [H E]]. exists (PNeg t). split; [apply (g_minus R0 N0 [] s t); [constructor|exact H]|cbn; now rewrite E]. Qed.
  Lemma d_pow s1 s2 v1 v2 v : atLevel 5 s1 v1 -> atLevel 4 s2 v2 -> rpow v1 v2 = Some v -> atLevel 4 (s1 ++ "^"%char :: s2) v.
  Proof.
    intros [t1 [H1 E1]] [t2 [H2 E2]] E. exists (PPow t1 t2). split; [apply (g_power R0 N0 s1 [] s2); auto; constructor|].
    cbn. now rewrite E1, E2.
  Qed.
  Lemma d_div s1 s2 v1 v2 : atLevel 2 s1 v1 -> atLevel 3 s2 v2 -> v2 <> 0 -> atLevel 2 (s1 ++ "/"%char :: s2) (v1 / v2).
  Proof.
    intros [t1 [H1 E1]] [t2 [H2 E2]] E. exists (PDiv t1 t2). split; [apply (g_divided R0 N0 s1 [] s2); auto; constructor|].
    cbn. rewrite E1, E2. cbn. now destruct (Req_EM_T v2 0).
  Qed.
  Lemma d_times s1 s2 v1 v2 : atLevel 2 s1 v1 -> atLevel 2 s2 v2 -> atLevel 2 (s1 ++ "*"%char :: s2) (v1 * v2).
  Proof.
    intros [t1 [H1 E1]] [t2 [H2 E2]].
    assert (X : forall s t, gProduct R0 N0 s t -> forall v, pval r t = Some v -> atLevel 2 (s1 ++ "*"%char :: s) (v1 * v)).
    { clear s2 v2 t2 H2 E2. intros s t H. induction H as [s t H|s w s' a b H IH B H'|s w s' a b H IH B H']; intros v E.
      - exists (PMul t1 t). split; [apply (g_times R0 N0 s1 [] s); auto; constructor|]. cbn. now rewrite E1, E.
      - cbn in E. destruct (pval r a) as [va|]; [|discriminate]. destruct (pval r b) as [vb|] eqn:Eb; [|discriminate].
        injection E as <-. destruct (IH _ eq_refl) as [t [Ht Et]]. exists (PMul t b). split.
        + change (s1 ++ "*"%char :: s ++ w ++ "*"%char :: s') with (s1 ++ ("*"%char :: s) ++ w ++ "*"%char :: s').
          rewrite app_assoc. now apply g_times.
        + cbn. rewrite Et, Eb. cbn. f_equal. ring.
      - cbn in E. destruct (pval r a) as [va|]; [|discriminate]. destruct (pval r b) as [vb|] eqn:Eb; [|discriminate].
        cbn in E. destruct (Req_EM_T vb 0) as [|Hb]; [discriminate|].
        injection E as <-. destruct (IH _ eq_refl) as [t [Ht Et]]. exists (PDiv t b). split.
        + change (s1 ++ "*"%char :: s ++ w ++ "/"%char :: s') with (s1 ++ ("*"%char :: s) ++ w ++ "/"%char :: s').
          rewrite app_assoc. now apply g_divided.
        + cbn. rewrite Et, Eb. cbn. destruct (Req_EM_T vb 0); [contradiction|]. f_equal. now field. }
    exact (X s2 t2 H2 v2 E2).
  Qed.
  Lemma d_plus s1 s2 v1 v2 : atLevel 1 s1 v1 -> atLevel 2 s2 v2 -> atLevel 1 (s1 ++ txt " + " ++ s2) (v1 + v2).
  Proof.
    intros [t1 [H1 E1]] [t2 [H2 E2]]. exists (PAdd t1 t2). split.
    - apply (g_plus R0 N0 s1 [" "%char] (" "%char :: s2)); auto; [repeat constructor|now apply lead_product].
    - cbn. now rewrite E1, E2.
  Qed.
  Lemma d_minus s1 s2 v1 v2 : atLevel 1 s1 v1 -> atLevel 2 s2 v2 -> atLevel 1 (s1 ++ txt " - " ++ s2) (v1 - v2).
  Proof.
    intros [t1 [H1 E1]] [t2 [H2 E2]]. exists (PSub t1 t2). split.
    - apply (g_difference R0 N0 s1 [" "%char] (" "%char :: s2)); auto; [repeat constructor|now apply lead_product].
    - cbn. now rewrite E1, E2.
  Qed.
  Lemma self_word w : isWord w (chars w).
  Proof. unfold isWord. induction (chars w); constructor; auto. Qed.
  Lemma d_fct f s v w : atLevel 1 s v ->
    (forall t, pval r t = Some v -> pval r (PFct f t) = Some w) -> atLevel 5 (txt (GrammarSpec.fctName f) ++ parens s) w.
  Proof.
    intros [t [H E]] K. exists (PFct f t). split; [|auto].
    apply (g_function R0 N0 [] f (chars (GrammarSpec.fctName f)) [] s []); try constructor; auto using self_word.
  Qed.
  Lemma d_atan2 s1 s2 y x v : atLevel 1 s1 y -> atLevel 1 s2 x -> angle y x = Some v ->
    atLevel 5 (txt "atan2" ++ parens (s1 ++ txt ", " ++ s2)) v.
  Proof.
    intros [t1 [H1 E1]] [t2 [H2 E2]] E. exists (PAtan2 t1 t2). split; [|cbn; now rewrite E1, E2].
    unfold parens. change (txt ", ") with [","%char; " "%char].
    replace ((s1 ++ [","%char; " "%char] ++ s2) ++ [")"%char]) with (s1 ++ [] ++ ","%char :: (" "%char :: s2) ++ [] ++ [")"%char])
      by (cbn [app]; rewrite <- app_assoc; reflexivity).
    apply (g_atan2 R0 N0 [] (chars "atan2") [] s1 [] (" "%char :: s2) []); try apply self_word; try (now constructor).
    apply lead_expr. now constructor.
  Qed.

  (** *** Numbers *)
  Lemma digitChar_ok z : (0 <= z < 10)%Z -> aDigit (digitChar z) /\ digitValue (digitChar z) = z.
  Proof.
    intros H. assert (z = 0 \/ z = 1 \/ z = 2 \/ z = 3 \/ z = 4 \/ z = 5 \/ z = 6 \/ z = 7 \/ z = 8 \/ z = 9)%Z as K by lia.
    repeat destruct K as [-> | K]; try subst z; (split; [vm_compute; tauto|vm_compute; reflexivity]).
  Qed.
  Lemma digits_num n : forall z, (0 <= z)%Z -> (z < 2 ^ Z.of_nat n)%Z -> n <> O ->
    numeral 10 (digits n z) z /\ (z <> 0%Z -> forall s, digits n z <> "0"%char :: s) /\ (z = 0%Z -> digits n z = ["0"%char]).
  Proof.
    induction n as [|n IH]; intros z H L N; [easy|]. clear N. cbn [digits]. destruct (Z.ltb_spec z 10) as [K|K].
    - destruct (digitChar_ok z ltac:(lia)) as [D E]. repeat split.
      + rewrite <- E at 2. constructor; [exact D|lia].
      + intros Hz s [= X _]. rewrite X in E. vm_compute in E. lia.
      + now intros ->.
    - rewrite Nat2Z.inj_succ, Z.pow_succ_r in L by lia.
      assert (Hd : (0 < z / 10)%Z) by (apply Z.div_str_pos; lia).
      assert (Hl : (z / 10 < 2 ^ Z.of_nat n)%Z) by (apply Z.div_lt_upper_bound; lia).
      destruct n as [|n]; [cbn in Hl; lia|]. destruct (IH (z / 10)%Z ltac:(lia) Hl ltac:(easy)) as [A [B _]].
      destruct (digitChar_ok (z mod 10) ltac:(apply Z.mod_pos_bound; lia)) as [D E].
      repeat split.
      + pose proof (num_next 10 _ _ _ A D ltac:(rewrite E; apply Z.mod_pos_bound; lia)) as X. rewrite E in X.
        now rewrite <- Z.div_mod in X by lia.
      + intros _ s X. destruct (digits (S n) (z / 10)) as [|c l] eqn:G; [inversion A as [| l0 ? ? ? ? ? HX]; destruct l0; discriminate|].
        injection X as -> _. now apply (B ltac:(lia) l).
      + lia.
  Qed.
  Lemma natText_read z : (0 <= z)%Z -> asRead (natText z) z.
  Proof.
    intros H. unfold natText. destruct (digits_num (S (Z.to_nat (Z.log2 z))) z H) as [A [B C]]; [|easy|].
    - rewrite Nat2Z.inj_succ, Z2Nat.id by apply Z.log2_nonneg. destruct (Z.eq_dec z 0) as [->|]; [reflexivity|].
      apply Z.log2_spec. lia.
    - unfold asRead. destruct (digits _ z) as [|c l] eqn:G; [inversion A as [| l0 ? ? ? ? ? HX]; destruct l0; discriminate|].
      destruct (ascii_dec c "0") as [->|]; [|exact A]. destruct (Z.eq_dec z 0) as [->|K]; [|now destruct (B K l)].
      injection (C eq_refl) as ->. apply (num_first 8 "0"%char); vm_compute; auto.
  Qed.
  Lemma d_nat z : (0 <= z)%Z -> atLevel 5 (natText z) (IZR z).
  Proof.
    intros H. exists (PInt z). split; [|reflexivity]. apply (g_token R0 N0 []); [constructor|]. now apply g_integer, natText_read.
  Qed.
  Lemma d_int z : atLevel 3 (intText z) (IZR z).
  Proof.
    unfold intText. destruct (Z.ltb_spec z 0) as [K|K].
    - replace (IZR z) with (- IZR (- z)) by (rewrite opp_IZR; ring). apply d_neg, (down 4 5); [lia|]. apply d_nat. lia.
    - apply (down 3 5); [lia|]. now apply d_nat.
  Qed.
  Lemma d_num fr q : atLevel (textLevel fr (Num q)) (numberText q) (Q2R q).
  Proof.
    cbn [textLevel]. unfold numberText. rewrite Q2R_frac. destruct (qIsInt q) eqn:E.
    - apply Z.eqb_eq in E. rewrite E. replace (IZR (qnum q) / 1) with (IZR (qnum q)) by field.
      destruct (qltb q 0) eqn:L; [apply d_int|]. apply qltb_ge in L. unfold Qle in L. cbn in L.
      unfold intText, qnum. destruct (Z.ltb_spec (Qnum q) 0); [lia|]. now apply d_nat.
    - apply d_div; [apply (down 2 3); [lia|apply d_int]|apply d_int|]. intros H. apply (eq_IZR _ 0) in H. discriminate H.
  Qed.
End Texts.
