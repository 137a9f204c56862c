(** The conversions to int and double. *)
From Verif Require Import DoubleModel DoubleExact MixedModel MixedSpec DoubleOps FractionProofs MixedProofs MixedBounds MixedPow NumberProofs NumberSpec MixedAmple ExprProofs RunFacts EvalConst EvalSpec EvalPow EvalProofs.
Require Import Flocq.Core.Core Flocq.IEEE754.BinarySingleNaN.
From Coq Require Import List Lia Lra Reals Qreals.
Import ListNotations.
Open Scope R_scope.

Lemma fold_none {A B} (f : option A -> B -> option A) l : (forall x, f None x = None) -> fold_left f l None = None.
Proof. intros H. induction l as [|x l IH]; [reflexivity|]. cbn. now rewrite H. Qed.
Lemma symbol_no_value Y e : hasSymbol e -> numericEval Y e = None.
Proof.
  induction e as [q|n p|c| |f l IH|l IH|l IH|b x IHb IHx] using expr_ind2; intros H; try contradiction; try reflexivity.
  - cbn [hasSymbol] in H. destruct l as [|x [|y [|z l]]]; cbn [fold_right] in H; [contradiction| | |destruct f; reflexivity].
    + destruct H as [H|[]]. pose proof (IH x ltac:(now left) H) as E. destruct f; cbn [numericEval]; now rewrite ?E.
    + destruct f; cbn [numericEval]; try reflexivity. destruct H as [H|[H|[]]].
      * now rewrite (IH x ltac:(now left) H).
      * rewrite (IH y ltac:(right; now left) H). now destruct (numericEval Y x).
  - cbn [hasSymbol] in H. cbn [numericEval]. generalize (Some (@NQ (sD Y) 0%Q)). revert IH H. induction l as [|x l IHl]; intros IH H; [contradiction|]. cbn [fold_right fold_left] in *.
    intros o. destruct H as [H|H].
    + rewrite (IH x ltac:(now left) H). replace (match o with Some _ => None | None => None end) with (@None (FloatEval.num (sD Y))) by (now destruct o). apply fold_none. reflexivity.
    + apply IHl; [|exact H]. intros z I. apply IH. now right.
  - cbn [hasSymbol] in H. cbn [numericEval]. generalize (Some (@NQ (sD Y) 1%Q)). revert IH H. induction l as [|x l IHl]; intros IH H; [contradiction|]. cbn [fold_right fold_left] in *.
    intros o. destruct H as [H|H].
    + rewrite (IH x ltac:(now left) H). replace (match o with Some _ => None | None => None end) with (@None (FloatEval.num (sD Y))) by (now destruct o). apply fold_none. reflexivity.
    + apply IHl; [|exact H]. intros z I. apply IH. now right.
  - cbn [hasSymbol numericEval] in *. destruct H as [H|H]; [now rewrite IHb|]. rewrite IHx by exact H. now destruct (numericEval Y b).
Qed.
Lemma symbol_throws lib limit e : hasSymbol e ->
  varToDouble lib limit e = DomainError /\ varToInt (doubleSys lib limit) e = DomainError.
Proof. intros H. unfold varToDouble, varToInt. now rewrite symbol_no_value. Qed.

(** Rational arithmetic is exact. *)
Definition same (Y : sys) (r : env) (e : expr) : Prop :=
  match numericEval Y e with
  | Some (NQ q) => canon q /\ eval r e = Some (Q2R q)
  | Some (ND _) => False
  | None => eval r e = None
  end.
Lemma int_power fl b z : canon b -> z <> 0%Z ->
  match toThe fl b (z # 1) with
  | PRat q => canon q /\ rpow (Q2R b) (IZR z) = Some (Q2R q)
  | PDbl => False
  | PThrow => rpow (Q2R b) (IZR z) = None
  end.
Proof.
  intros Cb Hz. set (fl0 := mkFloats (fun _ _ => None) (fun _ _ => None)). assert (Cz : canon (z # 1)) by (unfold canon; cbn; apply Z.gcd_1_r).
  assert (Rn : rootsNonneg fl0) by (intros n d x H; discriminate H). assert (Ex : exactDoubles fl0) by (intros n d x H; discriminate H).
  assert (QZ : Q2R (z # 1) = IZR z) by (unfold Q2R; cbn [Qnum Qden]; field).
  assert (I : qIsInt (z # 1) = true) by reflexivity.
  assert (SP : forall c, toThePos fl c (z # 1) = toThePos fl0 c (z # 1)).
  { intros c. unfold toThePos, computeRationalPower, computeDenomPower. change (qden (z # 1) =? 1)%Z with true. reflexivity. }
  assert (S : toThe fl b (z # 1) = toThe fl0 b (z # 1)).
  { unfold toThe. now rewrite !SP. }
  rewrite S. destruct (toThe fl0 b (z # 1)) as [q| |] eqn:E.
  - rewrite <- QZ. apply (toThe_R fl0 b (z # 1) q Rn Ex Cb Cz); [|exact E]. intros [_ X]. injection X as X. contradiction.
  - revert E. unfold toThe. destruct (qltb b 0).
    + destruct (qeqb (z # 1) 1); [discriminate|]. destruct (qeqb (z # 1) 0); [discriminate|]. rewrite I. cbn [negb]. destruct (qeqb b (-1 # 1)); [discriminate|].
      pose proof (toThePos_int (fun x _ => x) (fun _ _ => None) (qabs b) (z # 1) I) as T. unfold toThePos, computeRationalPower, computeDenomPower in *.
      change (qden (z # 1) =? 1)%Z with true in *. cbv iota in *. destruct (_ && _)%bool; [discriminate|]. destruct (_ || _)%bool; [discriminate|].
      destruct (qeqb (z # 1) 0); [discriminate|]. now destruct (computeNumPower _ _).
    + unfold toThePos, computeRationalPower, computeDenomPower. change (qden (z # 1) =? 1)%Z with true. cbv iota. destruct (_ && _)%bool; [discriminate|]. destruct (_ || _)%bool; [discriminate|].
      destruct (qeqb (z # 1) 0); [discriminate|]. now destruct (computeNumPower _ _).
  - rewrite <- QZ. now apply (toThe_throw fl0 b (z # 1) Rn Cb Cz).
Qed.
Lemma ratExpr_app l x : fold_right (fun x P => ratExpr x /\ P) True (l ++ [x]) -> fold_right (fun x P => ratExpr x /\ P) True l /\ ratExpr x.
Proof. induction l as [|y l IH]; cbn; [tauto|]. intros [H1 H2]. apply IH in H2. tauto. Qed.
Lemma rational_same Y r e : ratExpr e -> same Y r e.
Proof.
  induction e as [q|n p|c| |f l IH|l IH|l IH|b x IHb IHx] using expr_ind2; intros H; try contradiction.
  - now split.
  - induction l as [|x l IHl] using rev_ind.
    + unfold same. cbn. split; [reflexivity|]. f_equal. unfold Q2R. cbn. ring.
    + apply ratExpr_app in H as [H1 H2]. specialize (IHl ltac:(intros z I; apply IH, in_or_app; now left) H1).
      pose proof (IH x ltac:(apply in_or_app; right; now left) H2) as X. unfold same in *.
      assert (R : numericEval Y (Sum (l ++ [x])) = match numericEval Y (Sum l), numericEval Y x with Some s, Some v => Some (nadd Y s v) | _, _ => None end)
        by (cbn [numericEval]; rewrite fold_left_app; reflexivity).
      rewrite R. change (eval r (Sum (l ++ [x]))) with (sumVal r (l ++ [x])). rewrite sumVal_app, sumVal_cons, sumVal_nil. change (sumVal r l) with (eval r (Sum l)).
      destruct (numericEval Y (Sum l)) as [[s|]|], (numericEval Y x) as [[v|]|]; try contradiction; cbn [nadd].
      * destruct IHl as [C1 ->], X as [C2 ->]. destruct (qadd_spec s v) as [C E]. split; [exact C|]. cbn [oplus omult]. f_equal. rewrite (Qeq_eqR _ _ E), Q2R_plus. ring.
      * destruct IHl as [C1 ->]. now rewrite X.
      * now rewrite IHl.
      * now rewrite IHl.
  - induction l as [|x l IHl] using rev_ind.
    + unfold same. cbn. split; [reflexivity|]. f_equal. unfold Q2R. cbn. lra.
    + apply ratExpr_app in H as [H1 H2]. specialize (IHl ltac:(intros z I; apply IH, in_or_app; now left) H1).
      pose proof (IH x ltac:(apply in_or_app; right; now left) H2) as X. unfold same in *.
      assert (R : numericEval Y (Prod (l ++ [x])) = match numericEval Y (Prod l), numericEval Y x with Some s, Some v => Some (nmul Y s v) | _, _ => None end)
        by (cbn [numericEval]; rewrite fold_left_app; reflexivity).
      rewrite R. change (eval r (Prod (l ++ [x]))) with (prodVal r (l ++ [x])). rewrite prodVal_app, prodVal_cons, prodVal_nil. change (prodVal r l) with (eval r (Prod l)).
      destruct (numericEval Y (Prod l)) as [[s|]|], (numericEval Y x) as [[v|]|]; try contradiction; cbn [nmul].
      * destruct IHl as [C1 ->], X as [C2 ->]. destruct (qmul_spec s v) as [C E]. split; [exact C|]. cbn [oplus omult]. f_equal. rewrite (Qeq_eqR _ _ E), Q2R_mult. ring.
      * destruct IHl as [C1 ->]. now rewrite X.
      * now rewrite IHl.
      * now rewrite IHl.
  - destruct x as [q| | | | | | |]; try contradiction. destruct H as (Hb & Cq & D & N). specialize (IHb Hb). unfold same in *. cbn [numericEval eval].
    destruct (numericEval Y b) as [[s|]|]; [|contradiction|now rewrite IHb]. destruct IHb as [Cs ->]. cbn [npow].
    destruct q as [z d]. cbn [Qden Qnum] in D, N. subst d. pose proof (int_power (s_fl Y) s z Cs N) as P.
    replace (Q2R (z # 1)) with (IZR z) by (unfold Q2R; cbn [Qnum Qden]; field).
    destruct (toThe (s_fl Y) s (z # 1)) as [q| |]; [exact P|contradiction|exact P].
Qed.
Lemma int32_test n : ((-2147483648 <=? n) && (n <=? 2147483647))%Z%bool = true <-> isInt32 n.
Proof. unfold isInt32. rewrite andb_true_iff, !Z.leb_le. change (2 ^ 31)%Z with 2147483648%Z. lia. Qed.
Lemma int_value q n : canon q -> Q2R q = IZR n -> q = (n # 1).
Proof. intros C E. apply Q2R_inj; [exact C|unfold canon; cbn; apply Z.gcd_1_r|]. rewrite E. unfold Q2R. cbn [Qnum Qden]. field. Qed.
Lemma toInt_rational Y r e : ratExpr e ->
  match varToInt Y e with
  | Gives n => eval r e = Some (IZR n) /\ isInt32 n
  | OverflowError => exists n, eval r e = Some (IZR n) /\ ~ isInt32 n
  | DomainError => forall n, eval r e <> Some (IZR n)
  end.
Proof.
  intros H. pose proof (rational_same Y r e H) as S. unfold same, varToInt in *. destruct (numericEval Y e) as [[q|]|]; [|contradiction|now rewrite S].
  destruct S as [C V]. cbn [nIsInt]. unfold qIsInt. destruct (Z.eqb_spec (qden q) 1) as [E|E].
  - unfold qden in E. injection E as E. assert (W : Q2R q = IZR (qnum q)) by (unfold Q2R, qnum; rewrite E; field).
    destruct ((-2147483648 <=? qnum q) && (qnum q <=? 2147483647))%Z%bool eqn:B.
    + rewrite V, W. split; [reflexivity|]. now apply int32_test.
    + exists (qnum q). rewrite V, W. split; [reflexivity|]. intros X. apply int32_test in X. congruence.
  - intros n X. rewrite V in X. injection X as X. apply E. now rewrite (int_value q n C X).
Qed.
(** With doubles the value is near the integer. *)
Lemma toInt_close lib limit r e n : accurate lib -> constExpr e -> ampleRun lib limit e -> (Z.of_nat (steps e) < 2 ^ 47)%Z ->
  varToInt (doubleSys lib limit) e = Gives n ->
  isInt32 n /\ exists v, eval r e = Some v /\ Rabs (IZR n - v) <= size e * INR (S (steps e)) * bpow radix2 (-47).
Proof.
  intros HL C A St H. destruct (all_good lib limit r HL e C A) as (m & v & R & V & P & M & G & E). unfold varToInt in H. rewrite R in H.
  destruct m as [q|x]; cbn [nIsInt] in H; [|discriminate]. unfold qIsInt in H. destruct (Z.eqb_spec (qden q) 1) as [D|]; [|discriminate].
  destruct ((-2147483648 <=? qnum q) && (qnum q <=? 2147483647))%Z%bool eqn:B; [|discriminate]. injection H as <-. split; [now apply int32_test|]. exists v. split; [exact V|].
  unfold qden in D. injection D as D. assert (W : Q2R q = IZR (qnum q)) by (unfold Q2R, qnum; rewrite D; field). rewrite <- W. cbn [toNumber numberValue] in E.
  eapply Rle_trans; [exact E|]. rewrite Rmult_assoc. apply Rmult_le_compat_l; [lra|]. pose proof (linear_bound (steps e) St) as LI. change (qq ^ S (steps e)) with (qq * qq ^ steps e) in LI.
  pose proof (qq_grow (steps e)). lra.
Qed.
