(** C61: the texts of names.  plainName (ASCII, none of the characters _ ^ { } \) and greekNames are in NameTextSpec.v. *)
From Coq Require Import String Ascii List Lia.
From Verif Require Import NameTextSpec NameTextProofs.
Import ListNotations.
Open Scope string_scope.

(** Full statement: the texts of different names are different, for concat (plain text), tex and unicode. *)
Theorem C61_concat_partial : forall n m, plainName n -> plainName m -> concat n = concat m -> n = m.
Proof. exact concat_inj. Qed.
Print Assumptions C61_concat_partial.

Theorem C61_tex_partial : forall n m, plainName n -> plainName m -> tex n = tex m -> n = m.
Proof. exact tex_inj. Qed.
Print Assumptions C61_tex_partial.

(** The Greek letters without indices, all other names with any. *)
Theorem C61_unicode_partial : forall n m, plainName n -> plainName m ->
  (In (nvalue n) greekNames -> nsub n = "" /\ nsuper n = "") -> (In (nvalue m) greekNames -> nsub m = "" /\ nsuper m = "") ->
  unicode n = unicode m -> n = m.
Proof. exact unicode_inj. Qed.
Print Assumptions C61_unicode_partial.

(** Exactly the 48 names of Greek letters are shown in a special way. *)
Theorem C61_greek : forall n, (In (nvalue n) greekNames -> unicode n <> concat n /\ exists w, tex n = "\"%char :: w) /\
  (~ In (nvalue n) greekNames -> unicode n = concat n /\ tex n = concat n).
Proof.
  intros n. split.
  - intros H. destruct (names_greek _ H) as [u G]. split; [|unfold tex; rewrite G; eexists; reflexivity].
    unfold unicode. rewrite G. intros E. apply greek_all in G. pose proof all48_bytes as Q. rewrite forallb_forall in Q. specialize (Q _ G). cbn [snd] in Q.
    destruct u as [|c v]; [discriminate|]. unfold concat in E. assert (F : exists d l, txt (nvalue n) = d :: l /\ Nat.leb 128 (nat_of_ascii d) = false).
    { clear - H. repeat (destruct H as [<-|H]; [eexists _, _; split; [reflexivity|vm_compute; reflexivity]|]). destruct H. }
    destruct F as (d & l & F & L). rewrite F in E. injection E as <- _. rewrite L in Q. discriminate Q.
  - intros H. unfold unicode, tex, concat. destruct (greek (txt (nvalue n))) eqn:G; [apply greek_names in G; contradiction|now split].
Qed.
Print Assumptions C61_greek.

(** a_b without an index and a with the index b; alpha with two indices. *)
Theorem C61_refuted : (exists n m, n <> m /\ concat n = concat m /\ tex n = tex m /\ unicode n = unicode m) /\
  exists n m, plainName n /\ plainName m /\ n <> m /\ unicode n = unicode m.
Proof.
  split.
  - exists (mkName "a_b" "" ""), (mkName "a" "b" ""). split; [discriminate|]. repeat split.
  - exists (mkName "alpha" "1" ""), (mkName "alpha" "2" ""). split; [|split]; [| |split; [discriminate|reflexivity]];
      (repeat split; repeat constructor; cbn; try lia; intros H; repeat (destruct H as [H|H]; [discriminate H|]); destruct H).
Qed.
Print Assumptions C61_refuted.

Definition someNames := [mkName "phi" "12" "a"; mkName "varphi" "12" "a"; mkName "Phi" "" ""; mkName "a" "b" ""; mkName "a" "" "b"].
Example C61_case : Forall plainName someNames /\ map tex someNames = map txt ["\varphi_{12}^a"; "varphi_{12}^a"; "\varPhi"; "a_b"; "a^b"].
Proof.
  split; [|reflexivity]. repeat constructor; cbn; try lia; intros H; repeat (destruct H as [H|H]; [discriminate H|]); destruct H.
Qed.
