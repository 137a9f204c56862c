(** The bounds of the model don't influence what programs compute. *)
From Verif Require Import World ExprProofs FuelMono ApiModel.
From Coq Require Import Lia.
From Verif Require Import Run.
Open Scope Z_scope.

Section Mono.
  Variables (Y : sys) (W W' : oper).
  Hypothesis HW : ople W W'.
  Hint Resolve HW : rle.
  Hint Resolve m_minus m_oneOver m_sqrtE m_square m_a2ae m_coeff m_lcoeff m_divide m_polyDivide m_pseudoDivide m_content m_gcdCompute m_replaceBack : rle.

  Lemma m_innerDiff f l : rle (innerDiff W f l) (innerDiff W' f l).
  Proof. unfold innerDiff. mono. Qed.
  Lemma m_productRule d d' p l : (forall a, rle (d a) (d' a)) -> rle (productRule W d p l) (productRule W' d' p l).
  Proof. intros H. revert p. induction l as [|x l IH]; intros p; cbn [productRule]; mono. Qed.
  Hint Resolve m_innerDiff m_productRule : rle.
  Lemma m_diffE n n' x e : (n <= n')%nat -> rle (diffE W n x e) (diffE W' n' x e).
  Proof.
    revert n' e. induction n as [|n IH]; intros n' e Hn; [exact I|]. destruct n' as [|n']; [lia|].
    assert (IH' : forall e, rle (diffE W n x e) (diffE W' n' x e)) by (intros; apply IH; lia).
    cbn [diffE]. mono.
  Qed.
  Hint Resolve m_diffE : rle.
  Lemma m_diffTop n n' e x : (n <= n')%nat -> rle (diffTop W n e x) (diffTop W' n' e x).
  Proof. intros Hn. unfold diffTop. mono. Qed.
  Lemma m_normalLoop n n' a b : (n <= n')%nat -> rle (normalLoop W n a b) (normalLoop W' n' a b).
  Proof.
    revert n' a b. induction n as [|n IH]; intros n' a b Hn; destruct n' as [|n']; try lia; cbn [normalLoop]; mono.
    apply IH. lia.
  Qed.
  Hint Resolve m_normalLoop : rle.
  Lemma m_simplifyVar n n' e : (n <= n')%nat -> rle (simplifyVar W n e) (simplifyVar W' n' e).
  Proof. intros Hn. unfold simplifyVar. mono. Qed.
  Hint Resolve m_simplifyVar : rle.
  Lemma m_toFraction n n' e : (n <= n')%nat -> rle (toFraction W n e) (toFraction W' n' e).
  Proof. intros Hn. unfold toFraction. mono. Qed.
  Lemma m_build n n' t : (n <= n')%nat -> rle (build W n t) (build W' n' t).
  Proof.
    intros Hn. induction t; cbn [build]; unfold varAdd, varSub, varMul, varDiv, varNeg; mono.
  Qed.
  Lemma m_unit n n' e x : (n <= n')%nat -> rle (unit Y W n e x) (unit Y W' n' e x).
  Proof.
    revert n' e x. induction n as [|n IH]; intros n' e x Hn; [exact I|]. destruct n' as [|n']; [lia|].
    assert (IH' : forall e x, rle (unit Y W n e x) (unit Y W' n' e x)) by (intros; apply IH; lia).
    cbn [unit]. mono.
  Qed.
End Mono.

Lemma world_max Y F F' k k' : ople (world Y F k) (world Y (Nat.max F F') (Nat.max k k')) /\ ople (world Y F' k') (world Y (Nat.max F F') (Nat.max k k')).
Proof. split; apply world_mono; lia. Qed.

Theorem build_unique Y F F' k k' n n' t : build (world Y F k) n t <> Fuel -> build (world Y F' k') n' t <> Fuel ->
  sameEnd (build (world Y F k) n t) (build (world Y F' k') n' t).
Proof.
  destruct (world_max Y F F' k k') as [H H'].
  apply (rle_sameEnd _ _ (build (world Y (Nat.max F F') (Nat.max k k')) (Nat.max n n') t)); apply m_build; auto; lia.
Qed.
Theorem diff_unique Y F F' k k' n n' e x : diffTop (world Y F k) n e x <> Fuel -> diffTop (world Y F' k') n' e x <> Fuel ->
  sameEnd (diffTop (world Y F k) n e x) (diffTop (world Y F' k') n' e x).
Proof.
  destruct (world_max Y F F' k k') as [H H'].
  apply (rle_sameEnd _ _ (diffTop (world Y (Nat.max F F') (Nat.max k k')) (Nat.max n n') e x)); apply m_diffTop; auto; lia.
Qed.
Lemma oper_unique {A} (f : oper -> res A) Y F F' k k' : (forall W W', ople W W' -> rle (f W) (f W')) ->
  f (world Y F k) <> Fuel -> f (world Y F' k') <> Fuel -> sameEnd (f (world Y F k)) (f (world Y F' k')).
Proof.
  intros Hf. destruct (world_max Y F F' k k') as [H H']. apply (rle_sameEnd _ _ (f (world Y (Nat.max F F') (Nat.max k k')))); now apply Hf.
Qed.
Theorem build_larger Y F F' k k' n n' t e facts : (F <= F')%nat -> (k <= k')%nat -> (n <= n')%nat ->
  build (world Y F k) n t = Ok e facts -> exists facts', build (world Y F' k') n' t = Ok e facts'.
Proof.
  intros HF Hk Hn E. pose proof (m_build _ _ (world_mono Y F F' k k' HF Hk) n n' t Hn) as H. rewrite E in H. exact H.
Qed.
