(** Expressions as entries of a linear system: executions of the solver on expressions are executions of the
    solver on entries with exact arithmetic, as long as the facts they rely on are right. *)
From Verif Require Export SolveExpr.
From Verif Require Import SolveFacts.
From Verif Require Import ApiSpec SoundOps DiffProofs ApiProofs NumberProofs NormalProofs2 ExprProofs RPow.
From Coq Require Import Lia Lra Reals ClassicalEpsilon FunctionalExtensionality.
From Verif Require Import Run.
Open Scope Z_scope.
Local Notation upd := SolveModel.upd.

Lemma bind_ok {A B} (m : res A) (f : A -> res B) b l : bind m f = Ok b l -> exists a l1 l2, m = Ok a l1 /\ f a = Ok b l2 /\ l = l1 ++ l2.
Proof. destruct m as [a l1| | |]; try discriminate. cbn [bind]. destruct (f a) as [b' l2| | |] eqn:E; try discriminate. intros [= <- <-]. eauto 6. Qed.

(** The operations of Var. *)
Section Ops.
  Variables (W : oper) (HW : soundOps W) (n : nat) (st : bool) (r : env) (Hg : wgood st r).
  Notation val e x := (wf anySym e /\ eval r e = Some x).
  Lemma varAdd_val a b x y : val a x -> val b y -> spec (holds st r) (varAdd W a b) (fun e => val e (x + y)%R).
  Proof.
    intros [W1 E1] [W2 E2]. unfold varAdd. eapply spec_weaken; [apply (so_sum W HW st r anySym); [exact Hg|repeat constructor; assumption]|].
    cbn. intros e [Q1 Q2]. rewrite E1, E2 in Q2. cbn in Q2. split; [exact Q1|]. rewrite Q2. f_equal. lra.
  Qed.
  Lemma varMul_val a b x y : val a x -> val b y -> spec (holds st r) (varMul W a b) (fun e => val e (x * y)%R).
  Proof.
    intros [W1 E1] [W2 E2]. unfold varMul. eapply spec_weaken; [apply (so_prod W HW st r anySym); [exact Hg|repeat constructor; assumption]|].
    cbn. intros e [Q1 Q2]. rewrite E1, E2 in Q2. cbn in Q2. split; [exact Q1|]. rewrite Q2. f_equal. lra.
  Qed.
  Lemma varSub_val a b x y : val a x -> val b y -> spec (holds st r) (varSub W a b) (fun e => val e (x - y)%R).
  Proof.
    intros [W1 E1] [W2 E2]. unfold varSub. eapply spec_bind with (Q1 := fun m => val m (- y)%R).
    - unfold minus. eapply spec_weaken; [apply (so_prod W HW st r anySym); [exact Hg|constructor; [apply wf_mOne|constructor; [exact W2|constructor]]]|].
      cbn. intros e [Q1 Q2]. rewrite E2 in Q2. cbn in Q2. split; [exact Q1|]. rewrite Q2. f_equal. unfold Q2R. cbn. lra.
    - intros m [M1 M2]. eapply spec_weaken; [apply (so_sum W HW st r anySym); [exact Hg|repeat constructor; assumption]|].
      cbn. intros e [Q1 Q2]. rewrite E1, M2 in Q2. cbn in Q2. split; [exact Q1|]. rewrite Q2. f_equal. lra.
  Qed.
  Lemma varDiv_val a b x y : val a x -> val b y -> (y <> 0)%R -> spec (holds st r) (varDiv W a b) (fun e => val e (x / y)%R).
  Proof.
    intros [W1 E1] [W2 E2] Hy. unfold varDiv, oneOver.
    eapply spec_bind; [apply (so_pow W HW st r anySym); [exact Hg|exact W2|apply wf_mOne]|]. intros i [I1 I2].
    rewrite E2 in I2. cbn [mOne eval opow] in I2. replace (Q2R (-1 # 1)) with (-1)%R in I2 by (unfold Q2R; cbn; lra).
    rewrite rpow_rm1 in I2 by exact Hy. cbn in I2.
    eapply spec_weaken; [apply (so_prod W HW st r anySym); [exact Hg|repeat constructor; assumption]|].
    cbn. intros e [Q1 Q2]. rewrite E1, I2 in Q2. cbn in Q2. split; [exact Q1|]. rewrite Q2. f_equal. unfold Rdiv. ring.
  Qed.
End Ops.

Section Entries.
  Variables (W : oper) (HW : soundOps W) (n : nat) (maxU : Z) (st : bool) (r : env) (Hg : wgood st r).
  Notation right l := (Forall (holds st r) l).

  (** An expression, or a number where the facts of an execution aren't right. *)
  Notation entry := (expr + option R)%type.
  Definition value (t : entry) : option R :=
    match t with inl e => if excluded_middle_informative (wf anySym e) then eval r e else None | inr g => g end.
  Definition two (op : expr -> expr -> res expr) (f : R -> R -> option R) (a b : entry) : entry :=
    let exact := inr (omap2 f (value a) (value b)) in
    match a, b with
    | inl x, inl y => match op x y with Ok e l => if excluded_middle_informative (right l) then inl e else exact | _ => exact end
    | _, _ => exact
    end.
  Definition single (op : expr -> res expr) (a : entry) : entry :=
    match a with
    | inl x => match op x with Ok e l => if excluded_middle_informative (right l) then inl e else inr (value a) | _ => inr (value a) end
    | inr g => inr g
    end.
  Definition comp (t : entry) : nat := match t with inl e => Nat.min (Z.to_nat (complexity e)) (Z.to_nat maxU) | inr _ => O end.
  Definition quotient (x y : R) : option R := if Req_EM_T y 0 then None else Some (x / y)%R.
  Definition entries : entryOps entry := mkEntry entry (inl zero) (inl one) (inl mOne)
    (two (varAdd W) (fun x y => Some (x + y)%R)) (two (varSub W) (fun x y => Some (x - y)%R)) (two (varMul W) (fun x y => Some (x * y)%R))
    (two (varDiv W) quotient) (single (simplifyVar W n)) (fun t => if excluded_middle_informative (value t = Some 0%R) then true else false) comp.
  Notation o := entries.
  Definition limitN : nat := S (Z.to_nat maxU).

  Lemma value_inl e x : value (inl e) = Some x <-> wf anySym e /\ eval r e = Some x.
  Proof. cbn [value]. destruct (excluded_middle_informative _) as [H|H]; [tauto|]. split; [discriminate | intros [A _]; contradiction]. Qed.
  Lemma value_wf e : wf anySym e -> value (inl e) = eval r e.
  Proof. intros H. cbn [value]. now destruct (excluded_middle_informative _). Qed.
  Lemma isZero_iff t : e_isZero o t = true <-> value t = Some 0%R.
  Proof. cbn [e_isZero entries]. destruct (excluded_middle_informative _); split; auto; discriminate. Qed.
  Lemma isZero_false t : value t <> Some 0%R -> e_isZero o t = false.
  Proof. intros H. destruct (e_isZero o t) eqn:E; [|reflexivity]. apply isZero_iff in E. contradiction. Qed.
  Lemma equal_zero e : isEqual e zero = true -> value (inl e) = Some 0%R.
  Proof. intros E. apply isEqual_eq in E. subst e. apply value_inl. split; [reflexivity|]. cbn. f_equal. unfold Q2R. cbn. lra. Qed.
  Lemma value_nonzero e : eval r e <> Some 0%R -> value (inl e) <> Some 0%R.
  Proof. intros H E. apply value_inl in E. tauto. Qed.

  Lemma two_sound op f a b x y z : (forall e e', wf anySym e /\ eval r e = Some x -> wf anySym e' /\ eval r e' = Some y -> spec (holds st r) (op e e') (fun c => wf anySym c /\ eval r c = Some z)) ->
    f x y = Some z -> value a = Some x -> value b = Some y -> value (two op f a b) = Some z.
  Proof.
    intros H Hf Ha Hb. assert (E : omap2 f (value a) (value b) = Some z) by (rewrite Ha, Hb; exact Hf). unfold two.
    destruct a as [a|], b as [b|]; try exact E. apply value_inl in Ha, Hb. specialize (H a b Ha Hb). destruct (op a b) as [e l| | |]; try exact E.
    destruct (excluded_middle_informative (right l)) as [R0|]; [|exact E]. apply value_inl. now apply H.
  Qed.
  Lemma add_sound a b x y : value a = Some x -> value b = Some y -> value (e_add o a b) = Some (x + y)%R.
  Proof. apply two_sound; [|reflexivity]. intros. now apply varAdd_val. Qed.
  Lemma sub_sound a b x y : value a = Some x -> value b = Some y -> value (e_sub o a b) = Some (x - y)%R.
  Proof. apply two_sound; [|reflexivity]. intros. now apply varSub_val. Qed.
  Lemma mul_sound a b x y : value a = Some x -> value b = Some y -> value (e_mul o a b) = Some (x * y)%R.
  Proof. apply two_sound; [|reflexivity]. intros. now apply varMul_val. Qed.
  Lemma div_sound a b x y : value a = Some x -> value b = Some y -> (y <> 0)%R -> value (e_div o a b) = Some (x / y)%R.
  Proof. intros Ha Hb Hy. eapply two_sound; [| |exact Ha|exact Hb]. - intros. now apply varDiv_val. - unfold quotient. now destruct (Req_EM_T y 0). Qed.
  Lemma simp_sound a x : value a = Some x -> value (e_simp o a) = Some x.
  Proof.
    intros Ha. cbn [e_simp entries]. unfold single. destruct a as [a|]; [|exact Ha]. pose proof Ha as Hv. apply value_inl in Hv as [Wa Ea].
    pose proof (simplifyVar_sp W HW n st r Hg a Wa x Ea) as H. destruct (simplifyVar W n a) as [e l| | |]; try exact Ha.
    destruct (excluded_middle_informative (right l)) as [R0|]; [|exact Ha]. apply value_inl. now apply H.
  Qed.
  Lemma comp_below t : (comp t < limitN)%nat.
  Proof. destruct t; cbn [comp]; unfold limitN; lia. Qed.

  (** ** Steps of the solver *)
  Lemma two_run op f a b e l : op a b = Ok e l -> right l -> two op f (inl a) (inl b) = inl e.
  Proof. intros E H. unfold two. rewrite E. destruct (excluded_middle_informative _); [reflexivity | contradiction]. Qed.
  Lemma single_run op a e l : op a = Ok e l -> right l -> single op (inl a) = inl e.
  Proof. intros E H. unfold single. rewrite E. destruct (excluded_middle_informative _); [reflexivity | contradiction]. Qed.

  Definition embM (m : nat -> nat -> expr) : nat -> nat -> entry := fun i j => inl (m i j).
  Definition embV (v : nat -> expr) : nat -> entry := fun i => inl (v i).
  Lemma emb_upd m i j e : embM (upd m i j e) = upd (embM m) i j (inl e).
  Proof. apply functional_extensionality. intros a. apply functional_extensionality. intros b. unfold embM, upd. now destruct (_ && _)%bool. Qed.
  Lemma emb_updV v i e : embV (updV v i e) = updV (embV v) i (inl e).
  Proof. apply functional_extensionality. intros a. unfold embV, updV. now destruct (_ =? _)%nat. Qed.
  Lemma emb_swap m i j : embM (swapRows m i j) = swapRows (embM m) i j.
  Proof. apply functional_extensionality. intros a. apply functional_extensionality. intros b. unfold embM, swapRows. destruct (a =? i)%nat; [|destruct (a =? j)%nat]; reflexivity. Qed.
  Lemma emb_swapV v i j : embV (swapScalar v i j) = swapScalar (embV v) i j.
  Proof. apply functional_extensionality. intros a. unfold embV, swapScalar. destruct (a =? i)%nat; [|destruct (a =? j)%nat]; reflexivity. Qed.

  Lemma fold_run {S A U} (emb : S -> U) (f : S -> A -> res S) (g : U -> A -> U) l :
    (forall s a s' k, f s a = Ok s' k -> right k -> g (emb s) a = emb s') ->
    forall s s' k, foldM f l s = Ok s' k -> right k -> fold_left g l (emb s) = emb s'.
  Proof.
    intros H. induction l as [|a l IH]; intros s s' k E R0; cbn [foldM] in E.
    - injection E as <- _. reflexivity.
    - apply bind_ok in E as (s1 & l1 & l2 & E1 & E2 & ->). apply Forall_app in R0 as [R1 R2]. cbn [fold_left]. rewrite (H s a s1 l1 E1 R1). eapply IH; eauto.
  Qed.

  Ltac step E := apply bind_ok in E; let x := fresh "x" in let a := fresh "l" in let b := fresh "l" in let E1 := fresh "E" in let R1 := fresh "R" in let R2 := fresh "R" in
    destruct E as (x & a & b & E1 & E & ->).

  Lemma elimRow_run dim j m i m' k : elimRowE W n dim j m i = Ok m' k -> right k -> elimRow o dim j (embM m) i = embM m'.
  Proof.
    intros E R0. unfold elimRowE in E. step E. step E. rewrite !Forall_app in R0. destruct R0 as (R1 & R2 & R3).
    unfold elimRow. change (embM m i j) with (@inl expr (option R) (m i j)). change (embM m j j) with (@inl expr (option R) (m j j)).
    assert (Q : e_div o (inl (m i j)) (inl (m j j)) = inl x) by (eapply two_run; eauto). rewrite Q.
    assert (Q' : e_simp o (inl x) = inl x0) by (eapply single_run; eauto). rewrite Q', <- emb_upd.
    eapply fold_run; [|exact E|exact R3]. clear. intros s a s' l E R0. step E. step E. step E. injection E as <- <-. rewrite !Forall_app in R0. destruct R0 as (R1 & R2 & R3 & _).
    rewrite emb_upd. f_equal. change (embM s i a) with (@inl expr (option R) (s i a)).
    assert (Q1 : e_mul o (embM s i j) (embM s j a) = inl x) by (eapply two_run; eauto). rewrite Q1.
    assert (Q2 : e_sub o (inl (s i a)) (inl x) = inl x0) by (eapply two_run; eauto). rewrite Q2. eapply single_run; eauto.
  Qed.
  Lemma elimCol_run dim j m m' k : foldM (elimRowE W n dim j) (range (Datatypes.S j) dim) m = Ok m' k -> right k -> elimCol o dim j (embM m) = embM m'.
  Proof. intros E R0. unfold elimCol. eapply fold_run; [|exact E|exact R0]. intros. eapply elimRow_run; eauto. Qed.

  (** *** Pivots *)
  Lemma find_agree {A} (f g : A -> bool) l p : find f l = Some p -> (forall a, f a = false -> g a = false) -> g p = true -> find g l = Some p.
  Proof.
    intros E H Hp. induction l as [|a l IH]; [discriminate|]. cbn [find] in *. destruct (f a) eqn:Fa.
    - injection E as ->. now rewrite Hp.
    - rewrite (H a Fa). auto.
  Qed.
  (** The first minimum. *)
  Section Least.
    Variables (nz : nat -> bool) (key : nat -> Z) (M : Z) (row : nat).
    Definition pickL (s : Z * nat) (i : nat) : Z * nat := if nz i && (key i <? fst s) then (key i, i) else s.
    Definition least (l : list nat) (c : Z) (p : nat) : Prop :=
      c = M /\ p = row /\ (forall i, In i l -> nz i = true -> M <= key i) \/
      nz p = true /\ c = key p /\ c < M /\ exists a b, l = a ++ p :: b /\ (forall i, In i a -> nz i = true -> key p < key i) /\ (forall i, In i b -> nz i = true -> key p <= key i).
    Lemma least_run l : forall c p, fold_left pickL l (M, row) = (c, p) -> least l c p.
    Proof.
      induction l as [|x l IH] using rev_ind; intros c p E.
      - injection E as <- <-. left. split; [reflexivity|]. split; [reflexivity|]. intros i [].
      - rewrite fold_left_app in E. destruct (fold_left pickL l (M, row)) as [c0 p0] eqn:E0. specialize (IH c0 p0 eq_refl). cbn [fold_left] in E. unfold pickL in E. cbn [fst] in E.
        destruct (nz x && (key x <? c0))%bool eqn:B.
        + apply andb_true_iff in B as [Nx B]. apply Z.ltb_lt in B. injection E as <- <-. right. split; [exact Nx|]. split; [reflexivity|].
          destruct IH as [(-> & -> & H)|(N0 & -> & L0 & a & b & -> & Ha & Hb)].
          * split; [exact B|]. exists l, []. split; [reflexivity|]. split; [|intros i []]. intros i Hi Ni. specialize (H i Hi Ni). lia.
          * split; [lia|]. exists (a ++ p0 :: b), []. split; [reflexivity|]. split; [|intros i []]. intros i Hi Ni. apply in_app_or in Hi as [Hi|[<-|Hi]]; [specialize (Ha i Hi Ni) | | specialize (Hb i Hi Ni)]; lia.
        + injection E as <- <-. assert (K : nz x = true -> c0 <= key x) by (intros Nx; rewrite Nx in B; cbn in B; apply Z.ltb_ge in B; exact B).
          destruct IH as [(-> & -> & H)|(N0 & -> & L0 & a & b & -> & Ha & Hb)].
          * left. split; [reflexivity|]. split; [reflexivity|]. intros i Hi Ni. apply in_app_or in Hi as [Hi|[<-|[]]]; auto.
          * right. split; [exact N0|]. split; [reflexivity|]. split; [exact L0|]. exists a, (b ++ [x]). split; [now rewrite <- app_assoc|]. split; [exact Ha|].
            intros i Hi Ni. apply in_app_or in Hi as [Hi|[<-|[]]]; auto.
    Qed.
  End Least.

  Lemma least_unique (nz : nat -> bool) (key : nat -> nat) (M row p : nat) a b : nz p = true -> (key p < M)%nat ->
    (forall i, In i a -> nz i = true -> key p < key i)%nat -> (forall i, In i b -> nz i = true -> key p <= key i)%nat ->
    snd (fold_left (fun st i => if (nz i && (key i <? fst st)%nat)%bool then (key i, i) else st) (a ++ p :: b) (M, row)) = p.
  Proof.
    intros Np L Ha Hb. rewrite fold_left_app.
    assert (Q : exists c q, fold_left (fun st i => if (nz i && (key i <? fst st)%nat)%bool then (key i, i) else st) a (M, row) = (c, q) /\ (key p < c)%nat).
    { clear Hb. revert M row L. induction a as [|x a IH]; intros M row L; cbn [fold_left]; [eauto|]. cbn [fst].
      destruct (nz x && (key x <? M)%nat)%bool eqn:B.
      - apply IH; [intros i Hi; apply Ha; now right|]. apply andb_true_iff in B as [Nx _]. apply Ha; [now left | exact Nx].
      - apply IH; [intros i Hi; apply Ha; now right | exact L]. }
    destruct Q as (c & q & -> & Lc). cbn [fold_left fst]. rewrite Np. apply Nat.ltb_lt in Lc. rewrite Lc. cbn [andb]. clear - Hb.
    induction b as [|x b IH]; [reflexivity|]. cbn [fold_left fst]. destruct (nz x) eqn:Nx; cbn [andb].
    - assert (K : (key x <? key p)%nat = false) by (apply Nat.ltb_ge; apply Hb; [now left | exact Nx]). rewrite K. apply IH. intros i Hi. apply Hb. now right.
    - apply IH. intros i Hi. apply Hb. now right.
  Qed.
  Lemma complexity_nonneg : forall e, 0 <= complexity e.
  Proof.
    fix IH 1. intros e. assert (L : forall l, 0 <= fold_right (fun x a => complexity x + a) 0 l).
    { induction l as [|x l IHl]; cbn [fold_right]; [lia|]. pose proof (IH x). lia. }
    destruct e; cbn [complexity]; try lia.
    all: try (match goal with |- context [fold_right _ _ ?l] => pose proof (L l) end; lia).
    - destruct (qIsInt _); lia.
    - pose proof (IH e1). pose proof (IH e2). lia.
  Qed.
  Lemma select_run a dim m row p l : (row < dim)%nat -> selectE maxU a dim m row = Ok p l -> value (inl (m p row)) <> Some 0%R ->
    selectPivot o limitN a dim (embM m) row = Some p.
  Proof.
    intros Hr E Np. assert (NZ : forall i, negb (isEqual (m i row) zero) = false -> negb (e_isZero o (embM m i row)) = false).
    { intros i H. apply negb_false_iff in H. apply negb_false_iff. apply isZero_iff. now apply equal_zero. }
    assert (Np' : negb (e_isZero o (embM m p row)) = true) by (now rewrite isZero_false).
    destruct a; cbn [selectE selectPivot] in *.
    - unfold firstPivotE, firstNonZeroPivot in *. destruct (find _ _) as [q|] eqn:Ef; [|discriminate]. injection E as <- _.
      eapply find_agree; [exact Ef|exact NZ|exact Np'].
    - injection E as E _. f_equal. unfold leastPivotE, leastComplexityPivot in *.
      set (nz := fun i => negb (isEqual (m i row) zero)) in *. set (key := fun i => complexity (m i row)).
      change (snd (fold_left (pickL nz key) (range row dim) (maxU, row)) = p) in E. destruct (fold_left (pickL nz key) (range row dim) (maxU, row)) as [c q] eqn:Ef. cbn [snd] in E. subst q.
      set (nz' := fun i => negb (e_isZero o (embM m i row))) in *. set (key' := fun i => comp (embM m i row)).
      change (snd (fold_left (fun st0 i => if (nz' i && (key' i <? fst st0)%nat)%bool then (key' i, i) else st0) (range row dim) (limitN, row)) = p).
      assert (K : forall i, key' i = Nat.min (Z.to_nat (key i)) (Z.to_nat maxU)) by reflexivity.
      assert (NN : forall i, nz' i = true -> nz i = true).
      { intros i Hi. destruct (nz i) eqn:Ei; [reflexivity|]. unfold nz' in Hi. now rewrite (NZ i Ei) in Hi. }
      assert (Kp : forall i, 0 <= key i) by (intros; apply complexity_nonneg).
      apply least_run in Ef as [(-> & -> & H)|(N0 & -> & L0 & a & b & Hl & Ha & Hb)].
      + assert (Hl : range row dim = [] ++ row :: range (Datatypes.S row) dim).
        { unfold range. replace (dim - row)%nat with (Datatypes.S (dim - Datatypes.S row)) by lia. reflexivity. }
        rewrite Hl. rewrite Hl in H. apply least_unique; [exact Np'| | |].
        * rewrite K. unfold limitN. lia.
        * intros i [].
        * intros i Hi Ni. rewrite !K. specialize (H i (or_intror Hi) (NN i Ni)). pose proof (Kp i). lia.
      + rewrite Hl. apply least_unique; [exact Np'| | |].
        * rewrite K. unfold limitN. lia.
        * intros i Hi Ni. rewrite !K. specialize (Ha i Hi (NN i Ni)). pose proof (Kp i). pose proof (Kp p). lia.
        * intros i Hi Ni. rewrite !K. specialize (Hb i Hi (NN i Ni)). lia.
  Qed.

  Definition embS (s : stateE) : gstate :=
    mkG (embM (x_m s)) (match x_rhs s with Some v => Some (embV v) | None => None end) (x_swaps s).
  Lemma gaussStep_run a dim s j s' l : (j < dim)%nat -> gaussStepE W n maxU a dim s j = Ok s' l -> right l ->
    gaussStep o (selectPivot o limitN a) dim (embS s) j = Some (embS s') /\ value (inl (x_m s' j j)) <> Some 0%R.
  Proof.
    intros Hj E R0. unfold gaussStepE in E. step E. rewrite Forall_app in R0. destruct R0 as (R1 & R0). cbv zeta in E.
    set (s1 := if (x =? j)%nat then s else mkE (swapRows (x_m s) j x) (match x_rhs s with Some v => Some (swapScalar v j x) | None => None end) (Datatypes.S (x_swaps s))) in *.
    step E. step E. injection E as <- <-. rewrite !Forall_app in R0. destruct R0 as (R2 & R3 & _).
    unfold rely in E1. injection E1 as _ <-. inversion R2 as [|? ? Hnz _]; subst. cbn [holds] in Hnz.
    assert (Hp : x_m s1 j j = x_m s x j).
    { unfold s1. destruct (Nat.eqb_spec x j) as [->|N]; [reflexivity|]. cbn [x_m]. unfold swapRows. now rewrite Nat.eqb_refl. }
    assert (Hc : elimCol o dim j (embM (x_m s1)) = embM x1) by (eapply elimCol_run; eassumption). split.
    2:{ pose proof (f_equal (fun f => f j j) Hc) as Hj'. cbv beta in Hj'. rewrite elimCol_spec, Nat.ltb_irrefl in Hj'. cbn [andb] in Hj'. change (@inl expr (option R) (x_m s1 j j) = inl (x1 j j)) in Hj'.
        cbn [x_m]. rewrite <- Hj'. now apply value_nonzero. }
    rewrite Hp in Hnz. apply value_nonzero in Hnz. unfold gaussStep. change (g_m (embS s)) with (embM (x_m s)).
    rewrite (select_run a dim (x_m s) j x _ Hj E0 Hnz). cbv zeta.
    assert (Hs : (if (x =? j)%nat then embS s else mkG (swapRows (embM (x_m s)) j x) (match g_rhs (embS s) with Some v => Some (swapScalar v j x) | None => None end) (Datatypes.S (g_swaps (embS s)))) = embS s1).
    { unfold s1. destruct (x =? j)%nat; [reflexivity|]. unfold embS. cbn [g_rhs g_swaps x_m x_rhs x_swaps]. rewrite emb_swap. destruct (x_rhs s) as [v|]; [rewrite emb_swapV|]; reflexivity. }
    rewrite Hs. cbn [embS g_m g_rhs g_swaps x_m x_rhs x_swaps]. rewrite Hc. reflexivity.
  Qed.
  Lemma gaussLoop_run a dim js : Forall (fun j => (j < dim)%nat) js -> forall s s' l, foldM (gaussStepE W n maxU a dim) js s = Ok s' l -> right l ->
    gaussLoop o (selectPivot o limitN a) dim js (embS s) = Some (embS s').
  Proof.
    induction 1 as [|j js Hj _ IH]; intros s s' l E R0; cbn [foldM gaussLoop] in *; [injection E as <- _; reflexivity|].
    step E. apply Forall_app in R0 as [R1 R2]. rewrite (proj1 (gaussStep_run a dim s j x l0 Hj E0 R1)). eapply IH; eauto.
  Qed.
  Lemma eliminate_run a dim m rhs s l : eliminateE W n maxU a dim m rhs = Ok s l -> right l ->
    eliminateGauss o (selectPivot o limitN a) dim (embM m) (match rhs with Some v => Some (embV v) | None => None end) = Some (embS s).
  Proof.
    unfold eliminateE, eliminateGauss. intros E R0. change (mkG (embM m) (match rhs with Some v => Some (embV v) | None => None end) 0) with (embS (mkE m rhs 0)).
    eapply gaussLoop_run; [|exact E|exact R0]. apply Forall_forall. intros j Hj. unfold range in Hj. apply in_seq in Hj. lia.
  Qed.

  (** *** The substitutions *)
  Lemma subst_run m i l v v' k : foldM (fun v j => t <- varMul W (m i j) (v j) ;; d <- varSub W (v i) t ;; ret (updV v i d)) l v = Ok v' k -> right k ->
    fold_left (fun w j => updV w i (e_sub o (w i) (e_mul o (embM m i j) (w j)))) l (embV v) = embV v'.
  Proof.
    intros E R0. eapply fold_run; [|exact E|exact R0]. clear. intros s a s' k E R0. step E. step E. injection E as <- <-. rewrite !Forall_app in R0. destruct R0 as (R1 & R2 & _).
    rewrite emb_updV. f_equal. change (embV s i) with (@inl expr (option R) (s i)).
    assert (Q1 : e_mul o (embM m i a) (embV s a) = inl x) by (eapply two_run; eauto). rewrite Q1. eapply two_run; eauto.
  Qed.
  Lemma forward_run dim m v v' k : forwardE W dim m v = Ok v' k -> right k -> forward o dim (embM m) (embV v) = embV v'.
  Proof. intros E R0. unfold forward. eapply fold_run; [|exact E|exact R0]. intros s a s' l E1 R1. unfold forwardRow. eapply subst_run; eauto. Qed.
  Lemma backRow_run dim rhs m x i m' x' k : backRowE W n dim rhs (m, x) i = Ok (m', x') k -> right k ->
    backRow o dim (embV rhs) (embM m, embV x) i = Some (embM m', embV x').
  Proof.
    intros E R0. unfold backRowE in E. step E. step E. cbv zeta in E. destruct (isEqual _ _) eqn:Ez; [discriminate|].
    step E. step E. step E. step E. injection E as <- <- <-. rewrite !Forall_app in R0. destruct R0 as (R1 & R2 & R3 & R4 & R5 & R6 & _).
    unfold rely in E2. injection E2 as _ <-. inversion R3 as [|? ? Hnz _]; subst. cbn [holds] in Hnz.
    unfold backRow. rewrite (subst_run m i _ x x0 l E0 R1). change (embM m i i) with (@inl expr (option R) (m i i)).
    assert (Q : e_simp o (inl (m i i)) = inl x1) by (eapply single_run; eauto). rewrite Q, <- emb_upd. cbv zeta.
    change (embM (upd m i i x1) i i) with (@inl expr (option R) (upd m i i x1 i i)). rewrite (isZero_false _ (value_nonzero _ Hnz)).
    do 2 f_equal. rewrite emb_updV. f_equal.
    assert (Q1 : e_add o (embV rhs i) (embV x0 i) = inl x3) by (eapply two_run; eauto). rewrite Q1.
    assert (Q2 : e_div o (inl x3) (inl (upd m i i x1 i i)) = inl x4) by (eapply two_run; eauto). rewrite Q2. eapply single_run; eauto.
  Qed.
  Lemma compute_run dim m rhs x k : computeE W n dim m rhs = Ok x k -> right k -> computeSolution o dim (embM m) (embV rhs) = Some (embV x).
  Proof.
    intros E R0. unfold computeE in E. step E. step E. destruct x1 as [m1 x1]. injection E as <- <-. rewrite !Forall_app in R0. destruct R0 as (R1 & R2 & _).
    unfold computeSolution. rewrite (forward_run dim m rhs x0 l E0 R1).
    assert (Q : backLoop o dim (embV x0) (rev (range 0 dim)) (embM m, embV (fun _ => zero)) = Some (embM m1, embV x1)); [|exact (f_equal (fun z => match z with None => None | Some (_, x) => Some x end) Q)].
    clear E0 R1 rhs. revert E1 R2. generalize (rev (range 0 dim)) as js. generalize (fun _ : nat => zero) as y. revert m l1. intros m k y js. revert m k y.
    induction js as [|j js IH]; intros m k y E R0; cbn [foldM backLoop] in *; [injection E as <- <- _; reflexivity|].
    step E. destruct x as [m2 x2]. apply Forall_app in R0 as [R1 R2]. rewrite (backRow_run _ _ _ _ _ _ _ _ E0 R1). eapply IH; eauto.
  Qed.

  (** *** The functions of the interface *)
  Lemma flat_emb A d : ofFlat o (map inl A) d = embM (ofFlatE A d).
  Proof. apply functional_extensionality. intros i. apply functional_extensionality. intros j. unfold ofFlat, embM, ofFlatE. apply (map_nth (@inl expr (option R))). Qed.
  Lemma vector_emb b : ofVector o (map inl b) = embV (ofVectorE b).
  Proof. apply functional_extensionality. intros i. unfold ofVector, embV, ofVectorE. apply (map_nth (@inl expr (option R))). Qed.
  Lemma toVector_emb dim v : toVector dim (embV v) = map inl (toVector dim v).
  Proof. unfold toVector. now rewrite map_map. Qed.
  Lemma stdVec_emb v skip dim : toStdVec (embV v) skip dim = map inl (toStdVec v skip dim).
  Proof. unfold toStdVec. induction (range 0 dim) as [|i l IH]; [reflexivity|]. cbn [flat_map]. rewrite map_app, IH. destruct (skip i); reflexivity. Qed.
  Lemma rows_emb (f : nat -> list entry) (g : nat -> list expr) (skip : nat -> bool) l : (forall i, f i = map inl (g i)) ->
    flat_map (fun i => if skip i then [] else f i) l = map inl (flat_map (fun i => if skip i then [] else g i) l).
  Proof. intros Q. induction l as [|i l IH]; [reflexivity|]. cbn [flat_map]. rewrite map_app, <- IH. destruct (skip i); [reflexivity|]. now rewrite Q. Qed.
  Lemma stdMat_emb m skip dim : toStdMat (embM m) skip dim = map inl (toStdMat m skip dim).
  Proof.
    unfold toStdMat. assert (Q : forall i, flat_map (fun j => if skip j then [] else [embM m i j]) (range 0 dim) = map inl (flat_map (fun j => if skip j then [] else [m i j]) (range 0 dim))).
    { intros i. induction (range 0 dim) as [|j l IH]; [reflexivity|]. cbn [flat_map]. rewrite map_app, IH. destruct (skip j); reflexivity. }
    revert Q. apply rows_emb.
  Qed.
  Lemma fromVec_emb idx skip : forall src dest dest', fromStdVec idx skip src dest = Some dest' -> fromStdVec idx skip (map inl src) (embV dest) = Some (embV dest').
  Proof.
    induction idx as [|i idx IH]; intros src dest dest' E; cbn [fromStdVec] in *; [injection E as <-; reflexivity|]. destruct (skip i); [now apply IH|].
    destruct src as [|x src]; [discriminate|]. cbn [map]. rewrite <- emb_updV. now apply IH.
  Qed.
  Lemma fromRow_emb i idx skip : forall src dest src' dest', fromStdRow i idx skip src dest = Some (src', dest') ->
    fromStdRow i idx skip (map inl src) (embM dest) = Some (map inl src', embM dest').
  Proof.
    induction idx as [|j idx IH]; intros src dest src' dest' E; cbn [fromStdRow] in *; [injection E as <- <-; reflexivity|]. destruct (skip j); [now apply IH|].
    destruct src as [|x src]; [discriminate|]. cbn [map]. rewrite <- emb_upd. now apply IH.
  Qed.
  Lemma fromMat_emb dim idx skip : forall src dest dest', fromStdMat dim idx skip src dest = Some dest' -> fromStdMat dim idx skip (map inl src) (embM dest) = Some (embM dest').
  Proof.
    induction idx as [|i idx IH]; intros src dest dest' E; cbn [fromStdMat] in *; [injection E as <-; reflexivity|]. destruct (skip i); [now apply IH|].
    destruct (fromStdRow i (range 0 dim) skip src dest) as [[src1 dest1]|] eqn:E1; [|discriminate]. rewrite (fromRow_emb _ _ _ _ _ _ _ E1). now apply IH.
  Qed.

  Lemma solveDetail_run a A b dim x l : solveDetailE W n maxU a A b dim = Ok x l -> right l -> solveDetail o limitN a (map inl A) (map inl b) dim = Some (map inl x).
  Proof.
    unfold solveDetailE, solveDetail. intros E R0. step E. apply Forall_app in R0 as [R1 R2]. rewrite flat_emb, vector_emb.
    pose proof (eliminate_run a dim _ (Some (ofVectorE b)) x0 l0 E0 R1) as Q.
    match goal with |- context [eliminateGauss ?p ?q ?d ?m ?v] => replace (eliminateGauss p q d m v) with (Some (embS x0)) by (symmetry; exact Q) end.
    cbn [embS g_rhs g_m]. destruct (x_rhs x0) as [v|]; [|discriminate]. step E. injection E as <- <-. rewrite Forall_app in R2. destruct R2 as [R2 _].
    rewrite (compute_run _ _ _ _ _ E1 R2). now rewrite toVector_emb.
  Qed.
  Theorem solve_run a A b x skip dim x' l : solveE W n maxU a A b x skip dim = Ok x' l -> right l ->
    solve o limitN a (embM A) (embV b) (embV x) skip dim = Returns (embV x').
  Proof.
    unfold solveE, solve. intros E R0. step E. apply Forall_app in R0 as [R1 _]. cbv zeta. rewrite stdMat_emb, stdVec_emb, map_length, (solveDetail_run _ _ _ _ _ _ E0 R1).
    destruct (fromStdVec (range 0 dim) skip x0 x) as [y|] eqn:Ef; [|discriminate]. injection E as <- _. now rewrite (fromVec_emb _ _ _ _ _ Ef).
  Qed.
  Theorem determinant_run a A skip dim e l : determinantE W n maxU a A skip dim = Ok e l -> right l ->
    determinant o limitN a (embM A) skip dim = Returns (inl e).
  Proof.
    unfold determinantE, determinantDetailE, determinant, determinantDetail. intros E R0. step E. apply Forall_app in R0 as [R1 R2]. cbv zeta.
    rewrite stdMat_emb, flat_emb. pose proof (eliminate_run _ _ _ None x l0 E0 R1) as Q0.
    match goal with |- context [eliminateGauss ?p ?q ?d ?m ?v] => replace (eliminateGauss p q d m v) with (Some (embS x)) by (symmetry; exact Q0) end. do 2 f_equal. unfold detFromPluE in E. step E. apply Forall_app in R2 as [R2 R3].
    unfold detFromPlu. cbn [embS g_m g_swaps].
    assert (Q : fold_left (fun d i => e_mul o d (embM (x_m x) i i)) (range 0 (length (filter (fun i => negb (skip i)) (range 0 dim)))) (@inl expr (option R) (if Nat.even (x_swaps x) then one else mOne)) = inl x0).
    { eapply (fold_run (fun e => (inl e : entry))); [|exact E1|exact R2]. intros s i s' k Es Rs. eapply two_run; eauto. }
    replace (if Nat.even (x_swaps x) then e_one o else e_mone o) with (@inl expr (option R) (if Nat.even (x_swaps x) then one else mOne)) by (now destruct (Nat.even (x_swaps x))).
    rewrite Q. eapply single_run; eauto.
  Qed.
  Lemma columns_run a A dim is : forall cols l, columnsE W n maxU a A dim is = Ok cols l -> right l ->
    sequence (map (invertColumn o limitN a (map inl A) dim) is) = Some (map (map inl) cols).
  Proof.
    induction is as [|i is IH]; intros cols l E R0; cbn [columnsE map sequence] in *; [injection E as <- _; reflexivity|].
    step E. step E. injection E as <- <-. rewrite !Forall_app in R0. destruct R0 as (R1 & R2 & _).
    assert (Q : invertColumn o limitN a (map inl A) dim i = Some (map inl x)).
    { unfold invertColumn, invertColumnE in *. rewrite <- (solveDetail_run _ _ _ _ _ _ E0 R1). f_equal. rewrite map_map. apply map_ext. intros j. now destruct (i =? j)%nat. }
    rewrite Q, (IH _ _ E1 R2). reflexivity.
  Qed.
  Theorem invert_run a A skip dim A' l : invertE W n maxU a A skip dim = Ok A' l -> right l ->
    invert o limitN a (embM A) skip dim = Returns (embM A').
  Proof.
    unfold invertE, invertDetailE, invert, invertDetail. intros E R0. step E. apply Forall_app in R0 as [R1 _]. step E0. injection E0 as <- <-. apply Forall_app in R1 as [R1 _].
    cbv zeta. rewrite stdMat_emb, (columns_run _ _ _ _ _ _ E1 R1). set (d := length _) in *.
    set (f := flat_map _ _) in E. set (g := flat_map _ _).
    assert (Q : g = map inl f).
    { subst f g. generalize (range 0 d) at 2 4 as rs. induction rs as [|q rs IH]; [reflexivity|]. cbn [flat_map]. rewrite map_app, IH. f_equal. rewrite map_map. apply map_ext. intros i.
      rewrite <- (map_nth (@inl expr (option R))). cbn [e_zero entries]. f_equal. apply (map_nth (map (@inl expr (option R))) _ []). }
    rewrite Q. destruct (fromStdMat dim (range 0 dim) skip f A) as [y|] eqn:Ef; [|discriminate]. injection E as <- _. now rewrite (fromMat_emb _ _ _ _ _ _ Ef).
  Qed.

End Entries.
