(** The sign of the leading coefficient. *)
From Coq Require Import ZArith QArith Lia.
From Verif Require Import NumberProofs PolyModel.
From Verif Require Import Run.
Open Scope Z_scope.

Lemma qsign_num q : qsign q = Z.sgn (Qnum q).
Proof. destruct q as [[|z|z] d]; cbn; reflexivity. Qed.
Lemma unit_sign Y W : forall n e x s facts, unit Y W n e x = Ok s facts ->
  -1 <= s <= 1 /\
  forall p f q g, w_expand W e = Ok p f -> leadingCoeff Y W p x = Ok (Num q) g -> ~ (q == 0)%Q -> (0 < inject_Z s * q)%Q.
Proof.
  induction n as [|n IH]; intros e x s facts H; [discriminate H|]. cbn [unit] in H.
  destruct (w_expand W e) as [p0 f0| | |] eqn:E; cbn [bind] in H; try discriminate H.
  destruct (leadingCoeff Y W p0 x) as [c g0| | |] eqn:L; cbn [bind] in H; try discriminate H.
  assert (N : forall q, c = Num q -> -1 <= s <= 1 /\ (~ (q == 0)%Q -> (0 < inject_Z s * q)%Q)).
  { intros q ->. cbn in H. injection H as <- _. destruct (qeqb q 0) eqn:Q.
    - split; [lia|]. intros X. exfalso. apply X. apply qeqb_eq in Q. now subst q.
    - rewrite qsign_num. destruct q as [[|z|z] d]; cbn [Z.sgn Qnum]; (split; [lia|]); intros X; [exfalso; apply X; reflexivity|reflexivity|reflexivity]. }
  split.
  - destruct c as [q| | | | | | |]; [now apply (N q)|..]; clear N L;
      match type of H with context [getFirstSymbol ?c] => destruct (getFirstSymbol c) end; cbn in H;
      try (injection H as <- _; lia);
      match type of H with context [unit Y W n ?c ?y] => destruct (unit Y W n c y) as [s' f'| | |] eqn:U end; cbn in H; try discriminate H;
      injection H as <- _; exact (proj1 (IH _ _ _ _ U)).
  - intros p f q g E' L' Hq. injection E' as <- _. rewrite L in L'. injection L' as -> _. now apply (N q).
Qed.
