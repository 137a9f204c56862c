(** Sine and cosine of multiples of pi: executions of the model, for every sys. *)
From Verif Require Import TrigApi FuelMono FuelApi Run World Certain PiArith.
From Coq Require Import Lia List Lqa.
Import ListNotations.
Open Scope Z_scope.

(** q plus j full turns. *)
Definition up (q : Q) (j : nat) : Q := Qred (q + inject_Z (2 * Z.of_nat j)).
Lemma up_canon q j : canon (up q j). Proof. apply canon_Qred. Qed.
Lemma up_val q j : (up q j == q + inject_Z (2 * Z.of_nat j))%Q. Proof. apply Qred_correct. Qed.
Lemma up_0 q : canon q -> up q 0 = q.
Proof. intros H. unfold up. rewrite <- (canon_red q H) at 2. apply Qred_complete. cbn. ring. Qed.
Lemma up_S q j : qadd (up q (S j)) (-2 # 1) = up q j.
Proof.
  unfold qadd, up. apply Qred_complete. rewrite Qred_correct. rewrite Nat2Z.inj_succ. unfold Z.succ. rewrite Z.mul_add_distr_l, inject_Z_plus.
  change (-2 # 1)%Q with (- (2 # 1))%Q. change (inject_Z (2 * 1)) with (2 # 1)%Q. ring.
Qed.
Lemma qltb_spec a b : qltb a b = true <-> (a < b)%Q.
Proof. unfold qltb, Qlt. apply Z.ltb_lt. Qed.

Section Run.
  Variables (Y : sys) (F k : nat).
  Hypotheses (HF : (10 <= F)%nat) (Hk : (2 <= k)%nat).
  Notation W := (world Y F k).
  Notation nev := (numericEval Y).

  Lemma shape1 : exists F' k', F = (10 + F')%nat /\ k = (1 + k')%nat.
  Proof. exists (F - 10)%nat, (k - 1)%nat. lia. Qed.
  Lemma shape2 : exists F' k', F = (10 + F')%nat /\ k = (2 + k')%nat.
  Proof. exists (F - 10)%nat, (k - 2)%nat. lia. Qed.
  Lemma r_prod q : w_prod W [Num q; pi] = Ok (piE q) [].
  Proof. destruct shape1 as (F' & k' & -> & ->). apply prod_pi. Qed.
  Lemma r_sum p q : canon p -> canon q -> w_sum W [piE p; piE q] = Ok (piE (qadd p q)) [].
  Proof. destruct shape2 as (F' & k' & -> & ->). apply sum_pi. Qed.
  Lemma r_minus q : canon q -> minus W [piE q] = Ok (piE (qmul (-1 # 1) q)) [].
  Proof. destruct shape1 as (F' & k' & -> & ->). apply neg_pi. Qed.
  Lemma r_neg q : (0 <= q)%Q -> w_neg W (piE q) = Ok false [].
  Proof.
    intros Hq. destruct shape2 as (F' & k' & -> & ->). rewrite neg_sign. destruct (qeqb q 0); [reflexivity|]. destruct (qeqb q 1); [reflexivity|].
    destruct (qltb q 0) eqn:E; [|reflexivity]. apply qltb_spec in E. lra.
  Qed.
  Lemma r_symmetry q : canon q -> doesSymmetryApply W (piE q) = Ok (qltb q 0) [].
  Proof.
    intros Hq. destruct shape2 as (F' & k' & -> & ->). rewrite (symmetry_pi _ _ _ q Hq). f_equal.
    destruct (qeqb q 0) eqn:E0; [apply qeqb_eq in E0; now subst|]. destruct (qeqb q 1) eqn:E1; [apply qeqb_eq in E1; now subst|]. reflexivity.
  Qed.
  (** The comparison with 2*pi. *)
  Definition ge2 (q : Q) : bool := oGe Y (nev (piE q)) (nev (piE 2)).
  Lemma r_takeDown q j n : canon q -> ge2 q = false -> (forall i, (1 <= i <= j)%nat -> ge2 (up q i) = true) ->
    takeDown Y W (S j + n) (piE (up q j)) (piE 2) (piE (-2 # 1)) = Ok (piE q) [].
  Proof.
    assert (X : forall m a u s, takeDown Y W (S m) a u s = if oGe Y (nev a) (nev u) then a <- w_sum W [a; s] ;; takeDown Y W m a u s else ret a) by reflexivity.
    intros Hq H0. induction j as [|j IH]; intros H.
    - change (S 0 + n)%nat with (S n). rewrite X. fold (ge2 (up q 0)). rewrite (up_0 q Hq), H0. reflexivity.
    - change (S (S j) + n)%nat with (S (S j + n)). rewrite X. fold (ge2 (up q (S j))). rewrite H by lia. rewrite r_sum by (apply up_canon || reflexivity). cbn [bind].
      rewrite up_S. rewrite IH by (intros; apply H; lia). reflexivity.
  Qed.
  Lemma r_adjust q j n : canon q -> (0 <= q)%Q -> ge2 q = false -> (forall i, (1 <= i <= j)%nat -> ge2 (up q i) = true) ->
    adjustArgRange Y W (S j + n) (piE (up q j)) = Ok (piE q) [].
  Proof.
    intros Hq Hp H0 H. unfold adjustArgRange, timesPi. rewrite r_prod. cbn [bind].
    assert (A : addUp W (S j + n) (piE (up q j)) (piE 2) = Ok (piE (up q j)) []).
    { cbn [Nat.add addUp]. rewrite r_neg; [reflexivity|]. rewrite up_val. assert (0 <= inject_Z (2 * Z.of_nat j))%Q by (change 0%Q with (inject_Z 0); rewrite <- Zle_Qle; lia). lra. }
    rewrite A. cbn [bind]. fold (ge2 (up q j)). destruct j as [|j].
    - rewrite (up_0 q Hq), H0. reflexivity.
    - rewrite H by lia. rewrite r_minus by reflexivity. cbn [bind]. change (qmul (-1 # 1) 2) with (-2 # 1). rewrite r_takeDown by assumption. reflexivity.
  Qed.
  Lemma r_simpl q j n cosine : canon q -> (0 <= q)%Q -> ge2 q = false -> (forall i, (1 <= i <= j)%nat -> ge2 (up q i) = true) ->
    simplSinCos Y W (S j + n) cosine (piE (up q j)) = if cosine then numCos Y W (S j + n) (piE q) else numSin Y W (piE q).
  Proof.
    intros Hq Hp H0 H. unfold simplSinCos.
    assert (X : forall A (x y : res A), (if negb (isZero (piE (up q j))) && isNumeric (piE (up q j)) then x else y) = y).
    { intros A x y. unfold piE. destruct (qeqb (up q j) 0); [reflexivity|]. destruct (qeqb (up q j) 1); reflexivity. }
    rewrite X.
    assert (ZZ : (if isNumeric (piE (up q j)) then w_prod W [Run.zero; pi] else ret (piE (up q j))) = Ok (piE (up q j)) []).
    { unfold piE. destruct (qeqb (up q j) 0) eqn:E; [apply (r_prod 0)|]. destruct (qeqb (up q j) 1); reflexivity. }
    rewrite ZZ. cbn [bind]. rewrite r_adjust by assumption. cbn [bind]. destruct cosine; [destruct (numCos _ _ _ _)|destruct (numSin _ _ _)]; reflexivity.
  Qed.
  (** The cosine is the sine of another multiple. *)
  Lemma r_cos q j n : canon q -> (0 <= q)%Q -> ge2 q = false -> (forall i, (1 <= i <= j)%nat -> ge2 (up q i) = true) -> forall p, canon p ->
    qadd p (1 # 2) = up q j -> numCos Y W (S j + n) (piE p) = numSin Y W (piE q).
  Proof.
    intros Hq Hp H0 H p Cp E. unfold numCos, timesPi. rewrite r_prod. cbn [bind]. rewrite r_sum by (assumption || reflexivity). cbn [bind].
    rewrite E, r_adjust by assumption. cbn [bind]. destruct (numSin _ _ _); reflexivity.
  Qed.
  (** What is left of the sine. *)
  Definition restSin (T : list (expr * expr)) (arg : expr) : res (option expr) :=
    q <- getQuadrant Y W arg ;; a <- shiftToFirstQuadrant W q arg ;;
    v <- getValue Y a T ;; resultTimesSign W (if Nat.ltb 2 q then -1 else 1) v.
  Lemma r_sin T l arg e l' : sineTable W = Ok T l -> restSin T arg = Ok e l' -> exists l'', numSin Y W arg = Ok e l'' /\
    forall c, In c l'' -> In c l \/ In c l'.
  Proof.
    intros HT. unfold restSin, numSin. destruct (getQuadrant Y W arg) as [q lq| | |]; cbn [bind]; try discriminate.
    destruct (shiftToFirstQuadrant W q arg) as [a la| | |]; cbn [bind]; try discriminate. rewrite HT. cbn [bind].
    destruct (getValue Y a T) as [v lv| | |]; cbn [bind]; try discriminate.
    destruct (resultTimesSign W (if Nat.ltb 2 q then -1 else 1) v) as [e0 le| | |]; cbn [bind]; try discriminate.
    intros E. injection E as <- <-. eexists. split; [reflexivity|]. intros c. rewrite !in_app_iff. tauto.
  Qed.
End Run.
