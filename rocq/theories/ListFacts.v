(** Lists: positions. *)
From Coq Require Import List Arith Lia.
Import ListNotations.

Section L.
  Context {A : Type}.
  Implicit Types (l u : list A).

  Lemma firstn_len l u : firstn (length l) (l ++ u) = l.
  Proof. rewrite firstn_app, Nat.sub_diag, firstn_all, firstn_O. apply app_nil_r. Qed.
  Lemma skipn_len l u : skipn (length l) (l ++ u) = u.
  Proof. rewrite skipn_app, Nat.sub_diag, skipn_all. reflexivity. Qed.
  Lemma skipn_len1 l a u : skipn (S (length l)) (l ++ a :: u) = u.
  Proof.
    rewrite skipn_app. replace (S (length l) - length l) with 1 by lia.
    rewrite skipn_all2 by lia. reflexivity.
  Qed.

  Lemma nth2 u i j a b : i < j -> nth_error u i = Some a -> nth_error u j = Some b ->
    exists l1 l2 l3, u = l1 ++ a :: l2 ++ b :: l3 /\ i = length l1 /\ j = length l1 + S (length l2).
  Proof.
    intros Hij Ha Hb. apply nth_error_split in Ha as (l1 & m & -> & Hl).
    rewrite nth_error_app2 in Hb by lia. replace (j - length l1) with (S (j - S i)) in Hb by lia.
    cbn in Hb. apply nth_error_split in Hb as (l2 & l3 & -> & Hl2).
    exists l1, l2, l3. repeat split; lia.
  Qed.
End L.
