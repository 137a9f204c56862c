(** Factorisation into triangular matrices and substitution, over the reals. *)
From Coq Require Import Reals List Arith Lia Lra.
From Verif Require Export LuSpec.
Import ListNotations.
Open Scope R_scope.

Lemma rowSum_ext l f g x y : (forall k, In k l -> f k * x k = g k * y k) -> rowSum l f x = rowSum l g y.
Proof. unfold rowSum. induction l as [|k l IH]; intros H; [reflexivity|]. cbn. rewrite H by now left. rewrite IH; [reflexivity|]. intros q Hq. apply H. now right. Qed.
Lemma rowSum_app l l' f x : rowSum (l ++ l') f x = rowSum l f x + rowSum l' f x.
Proof. unfold rowSum. induction l as [|k l IH]; cbn; [lra|]. rewrite IH. lra. Qed.
Lemma rowSum_zero l f x : (forall k, In k l -> f k * x k = 0) -> rowSum l f x = 0.
Proof. unfold rowSum. induction l as [|k l IH]; intros H; [reflexivity|]. cbn. rewrite H by now left. rewrite IH; [lra|]. intros q Hq. apply H. now right. Qed.
Lemma rowSum_S a m f x : rowSum (seq a (S m)) f x = rowSum (seq a m) f x + f (a + m)%nat * x (a + m)%nat.
Proof. rewrite seq_S, rowSum_app. cbn. lra. Qed.
Lemma rowSum_split dim i f x : (i < dim)%nat ->
  rowSum (seq 0 dim) f x = rowSum (seq 0 i) f x + f i * x i + rowSum (seq (S i) (dim - S i)) f x.
Proof.
  intros H. replace dim with (i + S (dim - S i))%nat at 1 by lia. rewrite seq_app, rowSum_app. cbn [seq plus]. unfold rowSum at 2. cbn [fold_right].
  fold (rowSum (seq (S i) (dim - S i)) f x). lra.
Qed.
Lemma rowSum_minus l f x y : rowSum l f x - rowSum l f y = rowSum l f (fun k => x k - y k).
Proof. unfold rowSum. induction l as [|k l IH]; cbn; [lra|]. rewrite <- IH. ring. Qed.
(** The order of summation. *)
Lemma rowSum_swap l l' (f : nat -> R) (g : nat -> nat -> R) (x : nat -> R) :
  rowSum l (fun k => rowSum l' f (fun p => g p k)) x = rowSum l' f (fun p => rowSum l (g p) x).
Proof.
  assert (D : forall c h, rowSum l' f h * c = rowSum l' f (fun p => h p * c)).
  { intros c h. unfold rowSum. induction l' as [|p q IH]; cbn; [lra|]. rewrite <- IH. ring. }
  assert (P : forall h h', rowSum l' f h + rowSum l' f h' = rowSum l' f (fun p => h p + h' p)).
  { intros h h'. unfold rowSum. clear. induction l' as [|p q IH]; cbn; [lra|]. rewrite <- IH. ring. }
  induction l as [|k l IH]; [symmetry; apply rowSum_zero; intros; unfold rowSum; cbn; lra|].
  change (rowSum l' f (fun p => g p k) * x k + rowSum l (fun k => rowSum l' f (fun p => g p k)) x = rowSum l' f (fun p => g p k * x k + rowSum l (g p) x)).
  rewrite IH, D, P. reflexivity.
Qed.

Section Lu.
  Variables (dim : nat) (a : nat -> nat -> R).

  (** The state before column j is treated. *)
  Definition partLu (j : nat) (m : nat -> nat -> R) : Prop := forall i k, (i < dim)%nat -> (k < dim)%nat ->
    a i k = rowSum (seq 0 j) (lowerOf m i) (fun p => upperOf m p k) + (if ((j <=? i) && (j <=? k))%nat%bool then m i k else 0).
  (** What the treatment of column j does. *)
  Definition luColumn (j : nat) (m m' : nat -> nat -> R) : Prop := m j j <> 0 /\ forall i k, (i < dim)%nat -> (k < dim)%nat ->
    m' i k = if (j <? i)%nat then if (k =? j)%nat then m i j / m j j else if (j <? k)%nat then m i k - m i j / m j j * m j k else m i k else m i k.
  Lemma partLu_first m : (forall i k, (i < dim)%nat -> (k < dim)%nat -> a i k = m i k) -> partLu 0 m.
  Proof. intros H i k Hi Hk. cbn. rewrite H by assumption. lra. Qed.
  Ltac cmp := repeat match goal with
    | |- context [Nat.ltb ?x ?y] => destruct (Nat.ltb_spec x y); try lia
    | |- context [Nat.leb ?x ?y] => destruct (Nat.leb_spec x y); try lia
    | |- context [Nat.eqb ?x ?y] => destruct (Nat.eqb_spec x y); try lia end; cbn [andb].
  Lemma partLu_step j m m' : (j < dim)%nat -> partLu j m -> luColumn j m m' -> partLu (S j) m'.
  Proof.
    intros Hj H [Hn C] i k Hi Hk. rewrite (H i k Hi Hk), rowSum_S. cbn [plus].
    rewrite (rowSum_ext _ (lowerOf m i) (lowerOf m' i) _ (fun p => upperOf m' p k)).
    - enough (E : (if ((j <=? i) && (j <=? k))%nat%bool then m i k else 0) = lowerOf m' i j * upperOf m' j k + (if ((S j <=? i) && (S j <=? k))%nat%bool then m' i k else 0)) by lra.
      unfold lowerOf, upperOf. rewrite !C by assumption.
      cmp; subst; try lra; now field.
    - intros p Hp. apply in_seq in Hp. assert (p < dim)%nat by lia. unfold lowerOf, upperOf. rewrite !C by assumption. cmp; lra.
  Qed.
  (** The last column needs no treatment. *)
  Lemma partLu_last m : partLu (dim - 1) m -> luOf dim a m.
  Proof.
    intros H i k Hi Hk. rewrite (H i k Hi Hk). replace dim with (S (dim - 1)) at 1 by lia. rewrite rowSum_S. cbn [plus].
    enough (E : lowerOf m i (dim - 1) * upperOf m (dim - 1) k = if ((dim - 1 <=? i) && (dim - 1 <=? k))%nat%bool then m i k else 0) by lra.
    unfold lowerOf, upperOf. cmp; subst; lra.
  Qed.

  Variables (m : nat -> nat -> R) (b y x : nat -> R).
  Hypothesis (Hlu : luOf dim a m).
  (** Forward and backward substitution. *)
  Definition forwardV : Prop := forall i, (i < dim)%nat -> y i = b i - rowSum (seq 0 i) (m i) y.
  Definition backwardV : Prop := forall i, (i < dim)%nat -> m i i <> 0 /\ x i = (y i - rowSum (seq (S i) (dim - S i)) (m i) x) / m i i.

  Lemma lower_sum i z : (i < dim)%nat -> rowSum (seq 0 dim) (lowerOf m i) z = rowSum (seq 0 i) (m i) z + z i.
  Proof.
    intros Hi. rewrite (rowSum_split dim i) by exact Hi. rewrite (rowSum_ext (seq 0 i) _ (m i) z z), (rowSum_zero (seq (S i) _)).
    - unfold lowerOf. rewrite Nat.ltb_irrefl, Nat.eqb_refl. lra.
    - intros k Hk. apply in_seq in Hk. unfold lowerOf. cmp; lra.
    - intros k Hk. apply in_seq in Hk. unfold lowerOf. cmp; lra.
  Qed.
  Lemma upper_sum i z : (i < dim)%nat -> rowSum (seq 0 dim) (upperOf m i) z = m i i * z i + rowSum (seq (S i) (dim - S i)) (m i) z.
  Proof.
    intros Hi. rewrite (rowSum_split dim i) by exact Hi. rewrite (rowSum_ext (seq (S i) _) _ (m i) z z), (rowSum_zero (seq 0 i)).
    - unfold upperOf. rewrite Nat.leb_refl. lra.
    - intros k Hk. apply in_seq in Hk. unfold upperOf. cmp; lra.
    - intros k Hk. apply in_seq in Hk. unfold upperOf. cmp; lra.
  Qed.
  Lemma product_sum i z : (i < dim)%nat -> rowSum (seq 0 dim) (a i) z = rowSum (seq 0 dim) (lowerOf m i) (fun p => rowSum (seq 0 dim) (upperOf m p) z).
  Proof.
    intros Hi. rewrite <- rowSum_swap. apply rowSum_ext. intros k Hk. apply in_seq in Hk. rewrite Hlu by lia. reflexivity.
  Qed.
  Hypotheses (HF : forwardV) (HB : backwardV).
  Lemma back_row i : (i < dim)%nat -> rowSum (seq 0 dim) (upperOf m i) x = y i.
  Proof. intros Hi. rewrite upper_sum by exact Hi. destruct (HB i Hi) as [N E]. rewrite E at 1. field. exact N. Qed.
  Lemma lu_solution : solution (seq 0 dim) a b x.
  Proof.
    intros i Hi. apply in_seq in Hi. rewrite product_sum by lia. rewrite (rowSum_ext _ (lowerOf m i) (lowerOf m i) _ y).
    - rewrite lower_sum by lia. rewrite (HF i) by lia. lra.
    - intros k Hk. apply in_seq in Hk. rewrite back_row by lia. reflexivity.
  Qed.
  Lemma lu_unique z : solution (seq 0 dim) a b z -> forall i, In i (seq 0 dim) -> z i = x i.
  Proof.
    intros Hz. set (w := fun p => rowSum (seq 0 dim) (upperOf m p) z).
    assert (Ew : forall i, (i < dim)%nat -> w i = y i).
    { intros i. induction i as [i IH] using (well_founded_induction lt_wf). intros Hi.
      pose proof (Hz i) as E. rewrite product_sum in E by lia. fold w in E. rewrite lower_sum in E by lia.
      rewrite (HF i) by exact Hi. rewrite <- (rowSum_ext _ (m i) (m i) w y); [rewrite <- E; [lra|apply in_seq; lia]|].
      intros k Hk. apply in_seq in Hk. rewrite IH by lia. reflexivity. }
    assert (G : forall q i, (i < dim)%nat -> (dim - i <= q)%nat -> z i = x i).
    { induction q as [|q IH]; intros i Hi Hq; [lia|]. pose proof (Ew i Hi) as E. unfold w in E. rewrite upper_sum in E by exact Hi.
      destruct (HB i Hi) as [N Ex]. rewrite Ex. rewrite (rowSum_ext _ (m i) (m i) x z); [rewrite <- E; field; exact N|].
      intros k Hk. apply in_seq in Hk. rewrite IH by lia. reflexivity. }
    intros i Hi. apply in_seq in Hi. apply (G dim); lia.
  Qed.
End Lu.
