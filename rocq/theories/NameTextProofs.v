(** The texts of names are different for different names. *)
From Coq Require Import String Ascii List Bool Arith Lia.
From Verif Require Import NameTextSpec.
Import ListNotations.
Open Scope nat_scope.

Lemma txt_inj a b : txt a = txt b -> a = b.
Proof. intros H. rewrite <- (string_of_list_ascii_of_string a), <- (string_of_list_ascii_of_string b). unfold txt in H. now rewrite H. Qed.
Lemma sameText_eq a b : sameText a b = true <-> a = b.
Proof. unfold sameText. destruct (list_eq_dec ascii_dec a b); split; intros; congruence. Qed.

(** Texts that begin with characters of one kind and go on with another one. *)
Definition stops (P : ascii -> Prop) (u : text) : Prop := match u with [] => True | c :: _ => ~ P c end.
Lemma prefix_inj P a a' u u' : Forall P a -> Forall P a' -> stops P u -> stops P u' -> a ++ u = a' ++ u' -> a = a' /\ u = u'.
Proof.
  intros Ha. revert a'. induction Ha as [|c a Hc Ha IH]; intros a' Ha' Su Su' E.
  - destruct Ha' as [|c' a' Hc' Ha']; [now split|]. cbn in E. subst u. now destruct Su.
  - destruct Ha' as [|c' a' Hc' Ha']; [cbn in E; subst u'; now destruct Su'|]. cbn in E. injection E as -> E. destruct (IH a' Ha' Su Su' E) as [-> ->]. now split.
Qed.
Definition notSep (c : ascii) : Prop := ~ In c (list_ascii_of_string "_^{}").
Lemma plain_notSep c : plainChar c -> notSep c.
Proof. intros [_ H] I. apply H. cbn in *. tauto. Qed.
Lemma plain_txt s : plainText s -> Forall notSep (txt s).
Proof. intros H. eapply Forall_impl; [|exact H]. exact plain_notSep. Qed.
Lemma delim_inj c s s' u u' : Forall notSep (txt s) -> Forall notSep (txt s') -> c <> "{"%char -> stops (fun d => d = c) u -> stops (fun d => d = c) u' ->
  delim c s ++ u = delim c s' ++ u' -> s = s' /\ u = u'.
Proof.
  intros H H' Hc Su Su' E. unfold delim in E.
  assert (B : ~ notSep "{") by (unfold notSep; cbn; tauto). assert (B' : ~ notSep "}") by (unfold notSep; cbn; tauto).
  assert (K : txt s = txt s' /\ u = u'); [|destruct K as [K1 K2]; split; [now apply txt_inj|exact K2]].
  destruct (txt s) as [|x [|y l]]; destruct (txt s') as [|x' [|y' l']]; cbn in E.
  - now split.
  - subst u. now destruct Su.
  - subst u. now destruct Su.
  - subst u'. now destruct Su'.
  - injection E as -> ->. now split.
  - injection E as -> E. inversion H; subst. contradiction.
  - subst u'. now destruct Su'.
  - injection E as <- E. inversion H'; subst. contradiction.
  - injection E as -> -> E. inversion H as [|? ? ? Hr]; subst. inversion H' as [|? ? ? Hr']; subst. inversion Hr; subst. inversion Hr'; subst.
    rewrite <- !app_assoc in E. apply (prefix_inj notSep) in E; try assumption. destruct E as [-> E]. injection E as ->. now split.
Qed.
Lemma stops_rest s t : stops notSep (delim "_" s ++ delim "^" t).
Proof.
  unfold delim. destruct (txt s) as [|x [|y l]]; cbn; [|unfold notSep; cbn; tauto|unfold notSep; cbn; tauto].
  destruct (txt t) as [|x [|y l]]; cbn; unfold notSep; cbn; tauto.
Qed.
Lemma rest_inj s t s' t' : plainText s -> plainText t -> plainText s' -> plainText t' ->
  delim "_" s ++ delim "^" t = delim "_" s' ++ delim "^" t' -> s = s' /\ t = t'.
Proof.
  intros H1 H2 H3 H4 E.
  assert (S : forall t, stops (fun d => d = "_"%char) (delim "^" t)) by (intros w; unfold delim; destruct (txt w) as [|x [|y l]]; cbn; [exact I|discriminate|discriminate]).
  apply delim_inj in E; [|now apply plain_txt|now apply plain_txt|discriminate|apply S|apply S]. destruct E as [-> E]. split; [reflexivity|].
  rewrite <- (app_nil_r (delim "^" t)), <- (app_nil_r (delim "^" t')) in E. apply delim_inj in E; [apply E|now apply plain_txt|now apply plain_txt|discriminate|exact I|exact I].
Qed.
Theorem concat_inj n m : plainName n -> plainName m -> concat n = concat m -> n = m.
Proof.
  intros (A1 & A2 & A3) (B1 & B2 & B3) E. unfold concat in E. apply (prefix_inj notSep) in E; [|now apply plain_txt|now apply plain_txt|apply stops_rest|apply stops_rest].
  destruct E as [E1 E2]. apply rest_inj in E2; try assumption. destruct n, m; cbn in *. apply txt_inj in E1. destruct E2 as [-> ->]. now subst.
Qed.

(** Greek letters. *)
Lemma greekTex_inj s s' u u' : greek s = Some u -> greek s' = Some u' -> greekTex s = greekTex s' -> s = s'.
Proof.
  intros G G' E. unfold greekTex in E. apply app_inv_head in E.
  destruct (sameText s (txt "phi") || sameText s (txt "Phi")) eqn:P; destruct (sameText s' (txt "phi") || sameText s' (txt "Phi")) eqn:P'.
  - now apply app_inv_head in E.
  - exfalso. apply orb_true_iff in P as [P|P]; apply sameText_eq in P; subst s; cbn [app] in E; subst s'; vm_compute in G'; discriminate G'.
  - exfalso. apply orb_true_iff in P' as [P'|P']; apply sameText_eq in P'; subst s'; cbn [app] in E; subst s; vm_compute in G; discriminate G.
  - exact E.
Qed.
Theorem tex_inj n m : plainName n -> plainName m -> tex n = tex m -> n = m.
Proof.
  intros (A1 & A2 & A3) (B1 & B2 & B3) E. unfold tex in E.
  assert (NS : forall s, plainText s -> Forall notSep (match greek (txt s) with Some _ => greekTex (txt s) | None => txt s end)).
  { intros s H. apply plain_txt in H. destruct (greek (txt s)); [|exact H]. unfold greekTex. apply Forall_app. split.
    - repeat constructor. unfold notSep. cbn. intuition discriminate.
    - apply Forall_app. split; [|exact H]. destruct (_ || _); [|constructor]. repeat constructor; unfold notSep; cbn; intuition discriminate. }
  apply (prefix_inj notSep) in E; [|now apply NS|now apply NS|apply stops_rest|apply stops_rest].
  destruct E as [E1 E2]. apply rest_inj in E2; try assumption.
  assert (V : txt (nvalue n) = txt (nvalue m)).
  { assert (back : forall s w, plainText s -> txt s = "\"%char :: w -> False).
    { intros s w H Hw. unfold plainText in H. change (list_ascii_of_string s) with (txt s) in H. rewrite Hw in H. inversion H as [|? ? [_ C] _]; subst. apply C. cbn. tauto. }
    destruct (greek (txt (nvalue n))) eqn:G; destruct (greek (txt (nvalue m))) eqn:G'.
    - eapply greekTex_inj; eassumption.
    - exfalso. symmetry in E1. exact (back _ _ B1 E1).
    - exfalso. exact (back _ _ A1 E1).
    - exact E1. }
  destruct n, m; cbn in *. apply txt_inj in V. destruct E2 as [-> ->]. now subst.
Qed.

Lemma lookup_in codes letters s u : lookup codes letters s = Some u -> exists a x y, In (a, (x, y)) (combine letters codes) /\ isGreek a s = true /\ u = [ascii_of_nat x; ascii_of_nat y].
Proof.
  revert codes. induction letters as [|a l IH]; intros [|[x y] codes]; cbn; try discriminate.
  destruct (isGreek a s) eqn:G; intros H.
  - injection H as <-. exists a, x, y. auto.
  - destruct (IH _ H) as (b & p & q & I & R). exists b, p, q. split; [now right|exact R].
Qed.
Lemma upper_back c : isUpper c = true -> c = ascii_of_nat (nat_of_ascii (lower c) - 32).
Proof. destruct c as [[] [] [] [] [] [] [] []]; vm_compute; intros H; try discriminate H; reflexivity. Qed.
Lemma small c : isUpper c = false -> lower c = c.
Proof. unfold lower. now intros ->. Qed.
Definition all48 : list (text * text) :=
  map (fun p => (txt (fst p), [ascii_of_nat (fst (snd p)); ascii_of_nat (snd (snd p))]))
    (combine greekNames (smallCodes ++ capitalCodes)).
Lemma greek_all s u : greek s = Some u -> In (s, u) all48.
Proof.
  unfold greek. destruct s as [|c [|d r]]; try discriminate.
  destruct (isUpper c) eqn:U; intros H; apply lookup_in in H as (a & x & y & I & G & ->); unfold isGreek in G.
  - assert (Q : forall p, In p (combine greekAlphabet capitalCodes) -> exists h t, txt (fst p) = h :: t /\ isUpper h = false /\
      In (ascii_of_nat (nat_of_ascii h - 32) :: t, [ascii_of_nat (fst (snd p)); ascii_of_nat (snd (snd p))]) all48).
    { intros p Hp. repeat (destruct Hp as [<-|Hp]; [eexists _, _; split; [reflexivity|split; [reflexivity|vm_compute; tauto]]|]). destruct Hp. }
    destruct (Q _ I) as (h & t & Ht & Hu & J). cbn [fst snd] in *. rewrite Ht in G. apply andb_prop in G as [G1 G2]. apply sameText_eq in G2. subst t.
    apply orb_true_iff in G1 as [G1|G1]; apply Ascii.eqb_eq in G1; [congruence|]. rewrite (upper_back c U), <- G1. exact J.
  - assert (Q : forall p, In p (combine greekAlphabet smallCodes) -> In (txt (fst p), [ascii_of_nat (fst (snd p)); ascii_of_nat (snd (snd p))]) all48).
    { intros p Hp. repeat (destruct Hp as [<-|Hp]; [vm_compute; tauto|]). destruct Hp. }
    pose proof (Q _ I) as J. cbn [fst snd] in *. destruct (txt a) as [|h t]; [discriminate|]. apply andb_prop in G as [G1 G2]. apply sameText_eq in G2. subst t.
    rewrite (small c U), orb_diag in G1. apply Ascii.eqb_eq in G1. subst h. exact J.
Qed.
Lemma all48_inj : forallb (fun p => forallb (fun q => negb (sameText (snd p) (snd q)) || sameText (fst p) (fst q)) all48) all48 = true.
Proof. vm_compute. reflexivity. Qed.
Lemma all48_bytes : forallb (fun p => match snd p with c :: _ => 128 <=? nat_of_ascii c | [] => false end) all48 = true.
Proof. vm_compute. reflexivity. Qed.
Lemma greek_inj s s' u : greek s = Some u -> greek s' = Some u -> s = s'.
Proof.
  intros H H'. apply greek_all in H, H'. pose proof all48_inj as A. rewrite forallb_forall in A. specialize (A _ H). rewrite forallb_forall in A. specialize (A _ H').
  cbn [fst snd] in A. apply orb_true_iff in A as [A|A]; [|now apply sameText_eq]. apply negb_true_iff in A. assert (sameText u u = true) by now apply sameText_eq. congruence.
Qed.
Lemma greek_names s u : greek (txt s) = Some u -> In s greekNames.
Proof.
  intros H. apply greek_all in H. unfold all48 in H. apply in_map_iff in H as ([a p] & E & I). injection E as E _. apply txt_inj in E. subst a. now apply in_combine_l in I.
Qed.
Lemma names_greek s : In s greekNames -> exists u, greek (txt s) = Some u.
Proof. intros H. repeat (destruct H as [<-|H]; [eexists; vm_compute; reflexivity|]). destruct H. Qed.
Lemma plain_first n u c v : plainName n -> concat n = u -> u = c :: v -> nat_of_ascii c < 128.
Proof.
  intros (A1 & _ & _) E ->. unfold concat in E. destruct (txt (nvalue n)) as [|d l] eqn:T.
  - cbn [app] in E. unfold delim in E. destruct (txt (nsub n)) as [|x [|y z]]; cbn [app] in E; [destruct (txt (nsuper n)) as [|x [|y z]]| |]; try discriminate E; injection E as <- _; vm_compute; lia.
  - cbn [app] in E. injection E as <- _. unfold plainText in A1. change (list_ascii_of_string (nvalue n)) with (txt (nvalue n)) in A1. rewrite T in A1. inversion A1 as [|? ? [C _] _]; subst. exact C.
Qed.
Theorem unicode_inj n m : plainName n -> plainName m ->
  (In (nvalue n) greekNames -> nsub n = ""%string /\ nsuper n = ""%string) -> (In (nvalue m) greekNames -> nsub m = ""%string /\ nsuper m = ""%string) ->
  unicode n = unicode m -> n = m.
Proof.
  intros A B GA GB E. unfold unicode in E.
  assert (X : forall k l u, plainName l -> greek (txt (nvalue k)) = Some u -> u = concat l -> False).
  { intros k l u Pl G Eu. apply greek_all in G. pose proof all48_bytes as Q. rewrite forallb_forall in Q. specialize (Q _ G). cbn [snd] in Q. destruct u as [|c v]; [discriminate|].
    apply Nat.leb_le in Q. symmetry in Eu. pose proof (plain_first l _ c v Pl Eu eq_refl). lia. }
  destruct (greek (txt (nvalue n))) as [u|] eqn:G; destruct (greek (txt (nvalue m))) as [u'|] eqn:G'.
  - subst u'. pose proof (greek_inj _ _ _ G G') as V. destruct (GA (greek_names _ _ G)) as [S1 S2]. destruct (GB (greek_names _ _ G')) as [S3 S4].
    destruct n, m; cbn in *. apply txt_inj in V. now subst.
  - exfalso. exact (X _ _ _ B G E).
  - exfalso. symmetry in E. exact (X _ _ _ A G' E).
  - now apply concat_inj.
Qed.
