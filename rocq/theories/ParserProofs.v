(** The parser: it never looks below its part of the stack, more fuel doesn't change an answer, and the fuel
    that [parseFrom] gives is always sufficient. *)
From Verif Require Import ParserModel.
From Coq Require Import Ascii String ZArith List Lia.
Import ListNotations.
Open Scope nat_scope.

(** ** Characters and spans *)
Lemma span_eq p s : s = fst (span p s) ++ snd (span p s).
Proof. induction s as [|c s IH]; [reflexivity|]. cbn [span]. destruct (p c); [|reflexivity]. destruct (span p s). cbn in *. now rewrite IH at 1. Qed.
Lemma span_all p s : forallb p (fst (span p s)) = true.
Proof. induction s as [|c s IH]; [reflexivity|]. cbn [span]. destruct (p c) eqn:H; [|reflexivity]. destruct (span p s). cbn in *. now rewrite H. Qed.
Lemma span_head p s : match snd (span p s) with c :: _ => p c = false | [] => True end.
Proof. induction s as [|c s IH]; [exact I|]. cbn [span]. destruct (p c) eqn:H; [|exact H]. destruct (span p s). exact IH. Qed.
Lemma span_app p a b : forallb p a = true -> match b with c :: _ => p c = false | [] => True end -> span p (a ++ b) = (a, b).
Proof.
  induction a as [|c a IH]; cbn; intros Ha Hb.
  - destruct b as [|d b]; [reflexivity|]. cbn. now rewrite Hb.
  - apply andb_prop in Ha as [Hc Ha]. rewrite Hc, IH; auto.
Qed.
Lemma skip_app w s : forallb isSpace w = true -> skip (w ++ s) = skip s.
Proof.
  unfold skip. induction w as [|c w IH]; [reflexivity|]. cbn. intros H. apply andb_prop in H as [Hc H]. rewrite Hc.
  rewrite <- IH by assumption. now destruct (span isSpace (w ++ s)).
Qed.
Lemma skip_spec s : exists w, forallb isSpace w = true /\ s = w ++ skip s.
Proof. exists (fst (span isSpace s)). split; [apply span_all | apply span_eq]. Qed.
Lemma skip_head s c r : skip s = c :: r -> isSpace c = false.
Proof. intros H. pose proof (span_head isSpace s) as K. unfold skip in H. now rewrite H in K. Qed.
Lemma skip_length s : length (skip s) <= length s.
Proof. destruct (skip_spec s) as [w [_ H]]. rewrite H at 2. rewrite app_length. lia. Qed.
Lemma skip_skip s : skip (skip s) = skip s.
Proof. destruct (skip_spec s) as [w [Hw H]]. rewrite H at 2. now rewrite skip_app. Qed.

Lemma lit_some c s r : lit c s = Some r <-> skip s = c :: r.
Proof.
  unfold lit. destruct (skip s) as [|d t]; [split; discriminate|]. destruct (Ascii.eqb_spec c d) as [->|H].
  - split; intros [= ->]; reflexivity.
  - split; [discriminate|]. intros [= <- _]. now destruct H.
Qed.
Lemma lit_other c d s r : lit c s = Some r -> c <> d -> lit d s = None.
Proof.
  intros H K. apply lit_some in H. unfold lit. rewrite H. destruct (Ascii.eqb_spec d c) as [->|]; [now destruct K | reflexivity].
Qed.
Lemma lit_length c s r : lit c s = Some r -> length r < length s.
Proof. intros H. apply lit_some in H. pose proof (skip_length s). rewrite H in H0. cbn in H0. lia. Qed.

Lemma noCase_length w s r : noCase w s = Some r -> length s = length w + length r.
Proof.
  revert s. induction w as [|c w IH]; intros s H; [cbn in H; now inversion H|]. destruct s as [|d s]; [discriminate|].
  cbn in H. destruct (Ascii.eqb c (lower d)); [|discriminate]. apply IH in H. cbn. lia.
Qed.
Lemma matchFct_spec l s f r : matchFct l s = Some (f, r) -> noCase (pfctName f) s = Some r.
Proof.
  induction l as [|g l IH]; [discriminate|]. cbn [matchFct]. destruct (noCase (pfctName g) s) as [r0|] eqn:H; [|exact IH].
  intros [= <- <-]. exact H.
Qed.
Lemma pfctName_length f : 3 <= length (pfctName f).
Proof. destruct f; cbn; lia. Qed.
Lemma matchFct_length l s f r : matchFct l s = Some (f, r) -> length r < length s.
Proof. intros H. apply matchFct_spec, noCase_length in H. pose proof (pfctName_length f). lia. Qed.

Lemma span_length p s : length s = length (fst (span p s)) + length (snd (span p s)).
Proof. rewrite (span_eq p s) at 1. apply app_length. Qed.
Ltac spans := repeat match goal with
  | |- context [span ?p ?s] => let H := fresh "Hspan" in pose proof (span_length p s) as H; destruct (span p s); cbn [fst snd] in H
  | K : context [span ?p ?s] |- _ => let H := fresh "Hspan" in pose proof (span_length p s) as H; destruct (span p s); cbn [fst snd] in H
  end.

Lemma subscript_length s x r : subscript s = Some (x, r) -> length r < length s.
Proof.
  unfold subscript. destruct s as [|c s]; [discriminate|]. cbn [length].
  assert (K : (if isAlnum c then Some ([c], s) else None) = Some (x, r) -> length r < S (length s)).
  { destruct (isAlnum c); [|discriminate]. intros [= <- <-]. lia. }
  destruct (Ascii.eqb c "{"); [|exact K]. spans.
  destruct t as [|y t]; [exact K|]. destruct t0 as [|d t0]; [exact K|]. destruct (Ascii.eqb d "}"); [|exact K].
  intros [= <- <-]. cbn in *. lia.
Qed.
Lemma symbol_length s n x r : symbol s = Some (n, x, r) -> length r < length s.
Proof.
  unfold symbol. destruct s as [|c s]; [discriminate|]. destruct (isAlpha c); [|discriminate]. spans. cbn [length].
  destruct t0 as [|u t0]; [intros [= <- <- <-]; cbn in *; lia|].
  destruct (Ascii.eqb u "_"); [|intros [= <- <- <-]; cbn in *; lia].
  destruct (subscript t0) as [[y q]|] eqn:H; [|intros [= <- <- <-]; cbn in *; lia].
  intros [= <- <- <-]. apply subscript_length in H. cbn in *. lia.
Qed.
Lemma exponent_length s x r : exponent s = Some (x, r) -> length r <= length s.
Proof.
  unfold exponent. destruct s as [|e s]; [discriminate|]. destruct (Ascii.eqb (lower e) "e"); [|discriminate].
  assert (K : forall sign r1, length r1 <= length s ->
    match span isDigit r1 with ([], _) => Some ([], e :: s) | (ds, r2) => Some (e :: sign ++ ds, r2) end = Some (x, r) ->
    length r <= length (e :: s)).
  { intros sign r1 H. spans. destruct t; intros [= <- <-]; cbn in *; lia. }
  destruct s as [|c s'].
  - apply K. cbn. lia.
  - destruct (Ascii.eqb c "+" || Ascii.eqb c "-")%bool; apply K; cbn; lia.
Qed.
Lemma floatingPoint_length s x r : floatingPoint s = Some (x, r) -> length r < length s.
Proof.
  unfold floatingPoint. spans. destruct t0 as [|d t0]; [discriminate|]. destruct (Ascii.eqb d ".").
  - spans. assert (K : match exponent t2 with Some (x, s4) => Some (t ++ d :: t1 ++ x, s4) | None => Some (t ++ d :: t1, t2) end = Some (x, r) -> length r < length s).
    { destruct (exponent t2) as [[y q]|] eqn:H.
      - intros [= <- <-]. apply exponent_length in H. cbn in *. lia.
      - intros [= <- <-]. cbn in *. lia. }
    destruct t; [destruct t1; [discriminate|]|]; exact K.
  - destruct t; [discriminate|]. destruct (exponent (d :: t0)) as [[y q]|] eqn:H; [|discriminate].
    intros [= <- <-]. apply exponent_length in H. cbn in *. lia.
Qed.

(** ** [scalar] pushes one tree, or leaves the stack as it is *)
Lemma scalar_shape s :
  (exists s' t, length s' < length s /\ forall st, scalar s st = Yes s' (t :: st))
  \/ (forall st, scalar s st = No st) \/ (forall st, scalar s st = Exception).
Proof.
  unfold scalar. pose proof (skip_length s) as L. set (u := skip s) in *. clearbody u.
  destruct (noCase (txt "pi") u) as [r|] eqn:H1; [left; exists r, PPi; apply noCase_length in H1; cbn in H1; split; [lia | reflexivity]|].
  destruct (noCase (txt "euler") u) as [r|] eqn:H2; [left; exists r, PEuler; apply noCase_length in H2; cbn in H2; split; [lia | reflexivity]|].
  destruct (symbol u) as [[[n x] r]|] eqn:H3; [left; exists r, (PSym n x); apply symbol_length in H3; split; [lia | reflexivity]|].
  destruct (floatingPoint u) as [[x r]|] eqn:H4; [left; exists r, (PFloat x); apply floatingPoint_length in H4; split; [lia | reflexivity]|].
  pose proof (span_length isDigit u) as H5. destruct (span isDigit u) as [ds r]. cbn in H5.
  destruct ds as [|d ds]; [auto|]. destruct (intOf (d :: ds)) as [z|]; [|auto].
  left. exists r, (PInt z). cbn in H5. split; [lia | reflexivity].
Qed.

(** ** The parser only works on its part of the stack *)
Definition isTail (k : rule) : bool := match k with RSum | RProduct | RPower => true | _ => false end.
Definition plain (s : text) (p : list ptree -> out) : Prop :=
  (exists s' t g, length s' < length s /\ forall st, p st = Yes s' (t :: g ++ st))
  \/ (exists g, forall st, p st = No (g ++ st)) \/ (forall st, p st = NoFuel) \/ (forall st, p st = Exception).
Definition tail (s : text) (p : list ptree -> out) : Prop :=
  (exists s' F, length s' <= length s /\ forall a st, p (a :: st) = Yes s' (fst (F a) :: snd (F a) ++ st))
  \/ (forall a st, p (a :: st) = NoFuel) \/ (forall a st, p (a :: st) = Exception).
Definition local (s : text) (k : rule) (p : list ptree -> out) : Prop := if isTail k then tail s p else plain s p.

(** What is on top of the garbage after an attempt that has failed, and below it. *)
Definition topOf (g : list ptree) (a : ptree) : ptree * list ptree :=
  match g with [] => (a, []) | x :: g' => (x, g' ++ [a]) end.
Lemma topOf_eq g a st : g ++ a :: st = fst (topOf g a) :: snd (topOf g a) ++ st.
Proof. destruct g as [|x g]; [reflexivity|]. cbn. now rewrite <- app_assoc. Qed.
Definition under2 (f : ptree -> ptree -> ptree) (g : list ptree) (a t : ptree) : ptree * list ptree :=
  (f (fst (topOf g a)) t, snd (topOf g a)).
Lemma pop2_topOf f s t g a st : pop2 f s (t :: g ++ a :: st) = Yes s (fst (under2 f g a t) :: snd (under2 f g a t) ++ st).
Proof. rewrite topOf_eq. reflexivity. Qed.


Lemma local_sum m (IH : forall k s, local s k (parse m k s)) (k1 k2 : rule) (f : ptree -> ptree -> ptree) (s r : text) :
  isTail k1 = false -> isTail k2 = true -> length r < length s ->
  (exists s' F, length s' <= length s /\ forall a st, andThen (andThen (parse m k1 r (a :: st)) (pop2 f)) (parse m k2) = Yes s' (fst (F a) :: snd (F a) ++ st))
  \/ (exists g, forall a st, andThen (andThen (parse m k1 r (a :: st)) (pop2 f)) (parse m k2) = No (g ++ a :: st))
  \/ (forall a st, andThen (andThen (parse m k1 r (a :: st)) (pop2 f)) (parse m k2) = NoFuel)
  \/ (forall a st, andThen (andThen (parse m k1 r (a :: st)) (pop2 f)) (parse m k2) = Exception).
Proof.
  intros H1 H2 L. pose proof (IH k1 r) as P. unfold local in P. rewrite H1 in P.
  destruct P as [[s1 [t [g [L1 P]]]]|[[g P]|[P|P]]].
  - pose proof (IH k2 s1) as Q. unfold local in Q. rewrite H2 in Q. destruct Q as [[s2 [F [L2 Q]]]|[Q|Q]].
    + left. exists s2, (fun a => let u := under2 f g a t in (fst (F (fst u)), snd (F (fst u)) ++ snd u)). split; [lia|].
      intros a st. rewrite P. cbn [andThen]. rewrite pop2_topOf. cbn [andThen]. rewrite Q. cbn [fst snd]. now rewrite <- app_assoc.
    + right; right; left. intros a st. rewrite P. cbn [andThen]. rewrite pop2_topOf. cbn [andThen]. apply Q.
    + right; right; right. intros a st. rewrite P. cbn [andThen]. rewrite pop2_topOf. cbn [andThen]. apply Q.
  - right; left. exists g. intros a st. now rewrite P.
  - right; right; left. intros a st. now rewrite P.
  - right; right; right. intros a st. now rewrite P.
Qed.

Lemma local_then m (IH : forall k s, local s k (parse m k s)) (k1 k2 : rule) (s r : text) :
  isTail k1 = false -> isTail k2 = true -> length r <= length s -> plain s (fun st => andThen (parse m k1 r st) (parse m k2)).
Proof.
  intros H1 H2 L. pose proof (IH k1 r) as P. unfold local in P. rewrite H1 in P.
  destruct P as [[s1 [t [g [L1 P]]]]|[[g P]|[P|P]]].
  - pose proof (IH k2 s1) as Q. unfold local in Q. rewrite H2 in Q. destruct Q as [[s2 [F [L2 Q]]]|[Q|Q]].
    + left. exists s2, (fst (F t)), (snd (F t) ++ g). split; [lia|]. intros st. rewrite P. cbn [andThen]. rewrite Q. now rewrite <- app_assoc.
    + right; right; left. intros st. rewrite P. cbn [andThen]. apply Q.
    + right; right; right. intros st. rewrite P. cbn [andThen]. apply Q.
  - right; left. exists g. intros st. now rewrite P.
  - right; right; left. intros st. now rewrite P.
  - right; right; right. intros st. now rewrite P.
Qed.

Lemma local_two m (IH : forall k s, local s k (parse m k s)) (k1 k2 : rule) c1 c2 f1 f2 s :
  isTail k1 = false -> isTail k2 = true -> c1 <> c2 ->
  tail s (fun st => orElse (orElse
    (need c1 s st (fun r => andThen (andThen (parse m k1 r st) (pop2 f1)) (parse m k2)))
    (fun st1 => need c2 s st1 (fun r => andThen (andThen (parse m k1 r st1) (pop2 f2)) (parse m k2))))
    (Yes s)).
Proof.
  intros H1 H2 Hc. unfold need. destruct (lit c1 s) as [r|] eqn:E1.
  - rewrite (lit_other c1 c2 s r E1 Hc). apply lit_length in E1.
    destruct (local_sum m IH k1 k2 f1 s r H1 H2 E1) as [[s' [F [L P]]]|[[g P]|[P|P]]].
    + left. exists s', F. split; [exact L|]. intros a st. now rewrite P.
    + left. exists s, (topOf g). split; [lia|]. intros a st. rewrite P. cbn [orElse]. now rewrite topOf_eq.
    + right; left. intros a st. now rewrite P.
    + right; right. intros a st. now rewrite P.
  - cbn [orElse]. destruct (lit c2 s) as [r|] eqn:E2.
    + apply lit_length in E2. destruct (local_sum m IH k1 k2 f2 s r H1 H2 E2) as [[s' [F [L P]]]|[[g P]|[P|P]]].
      * left. exists s', F. split; [exact L|]. intros a st. now rewrite P.
      * left. exists s, (topOf g). split; [lia|]. intros a st. rewrite P. cbn [orElse]. now rewrite topOf_eq.
      * right; left. intros a st. now rewrite P.
      * right; right. intros a st. now rewrite P.
    + left. exists s, (fun a => (a, [])). split; [lia|]. reflexivity.
Qed.

(** Alternatives. *)
Lemma plain_or s (p q : list ptree -> out) : plain s p -> plain s q -> plain s (fun st => orElse (p st) q).
Proof.
  intros [[s' [t [g [L P]]]]|[[g P]|[P|P]]] Q.
  - left. exists s', t, g. split; [exact L|]. intros st. now rewrite P.
  - destruct Q as [[s' [t [g' [L Q]]]]|[[g' Q]|[Q|Q]]].
    + left. exists s', t, (g' ++ g). split; [exact L|]. intros st. rewrite P. cbn [orElse]. rewrite Q. now rewrite <- app_assoc.
    + right; left. exists (g' ++ g). intros st. rewrite P. cbn [orElse]. rewrite Q. now rewrite <- app_assoc.
    + right; right; left. intros st. rewrite P. apply Q.
    + right; right; right. intros st. rewrite P. apply Q.
  - right; right; left. intros st. now rewrite P.
  - right; right; right. intros st. now rewrite P.
Qed.
Lemma plain_no s : plain s (fun st => No st).
Proof. right; left. now exists []. Qed.
Lemma plain_need s u c p : length u <= length s -> (forall r, length r < length u -> plain s (fun st => p st r)) -> plain s (fun st => need c u st (p st)).
Proof.
  intros L H. unfold need. destruct (lit c u) as [r|] eqn:E; [|apply plain_no]. apply lit_length in E. now apply H.
Qed.
(** A parser followed by something that only needs the tree on top. *)
Lemma plain_and s u (p : list ptree -> out) (q : text -> list ptree -> out) : plain u p -> length u <= length s ->
  (forall s', length s' < length u ->
    (exists s2 F, length s2 < length s /\ forall a st, q s' (a :: st) = Yes s2 (fst (F a) :: snd (F a) ++ st))
    \/ (exists F, forall a st, q s' (a :: st) = No (F a ++ st))
    \/ (forall a st, q s' (a :: st) = NoFuel) \/ (forall a st, q s' (a :: st) = Exception)) ->
  plain s (fun st => andThen (p st) q).
Proof.
  intros [[s' [t [g [L P]]]]|[[g P]|[P|P]]] Lu Q.
  - destruct (Q s' L) as [[s2 [F [L2 K]]]|[[F K]|[K|K]]].
    + left. exists s2, (fst (F t)), (snd (F t) ++ g). split; [exact L2|]. intros st. rewrite P. cbn [andThen]. rewrite K. now rewrite <- app_assoc.
    + right; left. exists (F t ++ g). intros st. rewrite P. cbn [andThen]. rewrite K. now rewrite <- app_assoc.
    + right; right; left. intros st. rewrite P. cbn [andThen]. apply K.
    + right; right; right. intros st. rewrite P. cbn [andThen]. apply K.
  - right; left. exists g. intros st. now rewrite P.
  - right; right; left. intros st. now rewrite P.
  - right; right; right. intros st. now rewrite P.
Qed.

Lemma local_parse n : forall k s, local s k (parse n k s).
Proof.
  induction n as [|m IH]; intros k s.
  { unfold local. destruct (isTail k); [right; left | right; right; left]; reflexivity. }
  assert (IHe : forall s, plain s (parse m RExpression s)) by (intros; apply (IH RExpression)).
  assert (IHf : forall s, plain s (parse m RFactor s)) by (intros; apply (IH RFactor)).
  destruct k; unfold local; cbn [isTail parse].
  - apply local_then; auto. destruct (lit "+" s) as [r|] eqn:E; [apply lit_length in E; lia | lia].
  - apply local_two; auto. discriminate.
  - apply local_then; auto.
  - apply local_two; auto. discriminate.
  - apply plain_or; [apply IHf|]. apply plain_need; [lia|]. intros r L. apply plain_and with r; [apply IHf | lia|].
    intros s' L'. left. exists s', (fun a => (PNeg a, [])). split; [lia | reflexivity].
  - apply local_then; auto.
  - unfold need. destruct (lit "^" s) as [r|] eqn:E1.
    + apply lit_length in E1. destruct (local_sum m IH RFactor RPower PPow s r eq_refl eq_refl E1) as [[s' [F [L P]]]|[[g P]|[P|P]]].
      * left. exists s', F. split; [exact L|]. intros a st. now rewrite P.
      * left. exists s, (topOf g). split; [lia|]. intros a st. rewrite P. cbn [orElse]. now rewrite topOf_eq.
      * right; left. intros a st. now rewrite P.
      * right; right. intros a st. now rewrite P.
    + left. exists s, (fun a => (a, [])). split; [lia|]. reflexivity.
  - pose proof (skip_length s) as Ls. apply plain_or; [apply plain_or; [apply plain_or|]|].
    + destruct (matchFct pfcts (skip s)) as [[f r]|] eqn:E; [|apply plain_no]. apply matchFct_length in E.
      apply plain_need; [lia|]. intros r1 L1. apply plain_and with r1; [apply IHe | lia|]. intros s' L'. unfold need.
      destruct (lit ")" s') as [r3|] eqn:E3.
      * apply lit_length in E3. left. exists r3, (fun a => (PFct f a, [])). split; [lia | reflexivity].
      * right; left. exists (fun a => [a]). reflexivity.
    + destruct (noCase (txt "atan2") (skip s)) as [r|] eqn:E; [|apply plain_no]. apply noCase_length in E.
      apply plain_need; [lia|]. intros r1 L1. apply plain_and with r1; [apply IHe | lia|]. intros s' L'. unfold need.
      destruct (lit "," s') as [r3|] eqn:E3.
      * apply lit_length in E3. destruct (IHe r3) as [[s1 [t [g [L P]]]]|[[g P]|[P|P]]].
        -- destruct (lit ")" s1) as [r5|] eqn:E5.
           ++ pose proof (lit_length _ _ _ E5). left. exists r5, (fun a => under2 PAtan2 g a t). split; [lia|]. intros a st. rewrite P. cbn [andThen].
              rewrite E5. apply pop2_topOf.
           ++ right; left. exists (fun a => t :: g ++ [a]). intros a st. rewrite P. cbn [andThen]. rewrite E5. cbn. now rewrite <- app_assoc.
        -- right; left. exists (fun a => g ++ [a]). intros a st. rewrite P. cbn. now rewrite <- app_assoc.
        -- right; right; left. intros a st. now rewrite P.
        -- right; right; right. intros a st. now rewrite P.
      * right; left. exists (fun a => [a]). reflexivity.
    + destruct (scalar_shape s) as [[s' [t [L P]]]|[P|P]].
      * left. exists s', t, []. split; [exact L | exact P].
      * right; left. exists []. exact P.
      * right; right; right. exact P.
    + apply plain_need; [lia|]. intros r1 L1. apply plain_and with r1; [apply IHe | lia|]. intros s' L'. unfold need.
      destruct (lit ")" s') as [r3|] eqn:E3.
      * apply lit_length in E3. left. exists r3, (fun a => (a, [])). split; [lia | reflexivity].
      * right; left. exists (fun a => [a]). reflexivity.
Qed.

(** The stack is never popped when it is empty. *)
Lemma never_empty n s st : parse n RExpression s st <> EmptyStack.
Proof.
  pose proof (local_parse n RExpression s) as P. cbn in P.
  destruct P as [[s' [t [g [_ P]]]]|[[g P]|[P|P]]]; rewrite P; discriminate.
Qed.

(** ** More fuel *)
Definition le_out (a b : out) : Prop := a = NoFuel \/ a = b.
Lemma le_refl a : le_out a a. Proof. now right. Qed.
Lemma le_andThen a b f g : le_out a b -> (forall s st, le_out (f s st) (g s st)) -> le_out (andThen a f) (andThen b g).
Proof. intros [-> | ->] H; [now left|]. destruct b; cbn; auto using le_refl. Qed.
Lemma le_orElse a b f g : le_out a b -> (forall st, le_out (f st) (g st)) -> le_out (orElse a f) (orElse b g).
Proof. intros [-> | ->] H; [now left|]. destruct b; cbn; auto using le_refl. Qed.
Lemma le_need c s st f g : (forall r, le_out (f r) (g r)) -> le_out (need c s st f) (need c s st g).
Proof. intros H. unfold need. destruct (lit c s); auto using le_refl. Qed.

Lemma parse_step n : forall k s st, le_out (parse n k s st) (parse (S n) k s st).
Proof.
  induction n as [|m IH]; intros k s st; [now left|].
  remember (S m) as n. rewrite Heqn at 1. cbn [parse].
  destruct k; repeat first
    [ apply IH | apply le_refl | apply le_andThen | apply le_orElse | apply le_need | progress intros ].
  - destruct (matchFct pfcts (skip s)) as [[f r]|]; [|apply le_refl]. apply le_need. intros. apply le_andThen; [apply IH|]. intros. apply le_refl.
  - destruct (noCase (txt "atan2") (skip s)) as [r|]; [|apply le_refl]. apply le_need. intros. apply le_andThen; [apply IH|].
    intros. apply le_need. intros. apply le_andThen; [apply IH|]. intros. apply le_refl.
Qed.
Lemma parse_more n m k s st o : parse n k s st = o -> o <> NoFuel -> n <= m -> parse m k s st = o.
Proof.
  intros H Ho L. induction L as [|m L IH]; [exact H|]. destruct (parse_step m k s st) as [K|K]; congruence.
Qed.
Lemma parse_agree n m k s st o o' : parse n k s st = o -> parse m k s st = o' -> o <> NoFuel -> o' <> NoFuel -> o = o'.
Proof.
  intros H H' Ho Ho'. destruct (Nat.le_ge_cases n m) as [L|L].
  - rewrite <- H'. symmetry. eapply parse_more; eauto.
  - rewrite <- H. eapply parse_more; eauto.
Qed.

(** ** Sufficient fuel *)
Definition rank (k : rule) : nat :=
  match k with RExpression => 6 | RSummand => 5 | RPosNeg => 4 | RFactor => 3 | ROperand => 2 | _ => 1 end.
Lemma parse_nonempty_tail n k s : isTail k = true -> forall a st,
  (exists s' b st', parse n k s (a :: st) = Yes s' (b :: st') /\ length s' <= length s)
  \/ parse n k s (a :: st) = NoFuel \/ parse n k s (a :: st) = Exception.
Proof.
  intros H a st. pose proof (local_parse n k s) as P. unfold local in P. rewrite H in P.
  destruct P as [[s' [F [L P]]]|[P|P]]; rewrite P; eauto 10.
Qed.
Lemma parse_plain n k s st : isTail k = false ->
  (exists s' b st', parse n k s st = Yes s' (b :: st') /\ length s' < length s /\ (st <> [] -> st' <> []))
  \/ (exists st', parse n k s st = No st' /\ (st <> [] -> st' <> []))
  \/ parse n k s st = NoFuel \/ parse n k s st = Exception.
Proof.
  intros H. pose proof (local_parse n k s) as P. unfold local in P. rewrite H in P.
  destruct P as [[s' [t [g [L P]]]]|[[g P]|[P|P]]]; rewrite P; [left; exists s', t, (g ++ st)|right; left; exists (g ++ st)|auto|auto].
  - repeat split; auto. intros K E. now destruct (app_eq_nil _ _ E).
  - split; auto. intros K E. now destruct (app_eq_nil _ _ E).
Qed.

Lemma no_fuel_sum m k1 k2 f (s r : text) (IH : forall k s st, 9 * length s + rank k <= m -> (isTail k = true -> st <> []) -> parse m k s st <> NoFuel) st :
  isTail k1 = false -> isTail k2 = true -> rank k1 <= 6 -> rank k2 <= 1 -> length r < length s -> 9 * length s <= m ->
  st <> [] -> andThen (andThen (parse m k1 r st) (pop2 f)) (parse m k2) <> NoFuel.
Proof.
  intros H1 H2 R1 R2 L M Hst. assert (K : parse m k1 r st <> NoFuel) by (apply IH; [lia | congruence]).
  destruct (parse_plain m k1 r st H1) as [[s' [b [st' [E [L' N]]]]]|[[st' [E _]]|[E|E]]]; rewrite E in *; try contradiction; try discriminate.
  cbn [andThen]. destruct st' as [|a st']; [now destruct (N Hst)|]. cbn [pop2 andThen].
  apply IH; [lia | discriminate].
Qed.

Lemma enough_fuel m : forall k s st, 9 * length s + rank k <= m -> (isTail k = true -> st <> []) -> parse m k s st <> NoFuel.
Proof.
  induction m as [|m IH]; intros k s st M Hst; [destruct k; cbn in M; lia|].
  assert (T : forall k1 k2 r, isTail k1 = false -> isTail k2 = true -> length r <= length s -> rank k1 < rank k -> andThen (parse m k1 r st) (parse m k2) <> NoFuel).
  { intros k1 k2 r H1 H2 L R. assert (K : parse m k1 r st <> NoFuel) by (apply IH; [lia | congruence]).
    destruct (parse_plain m k1 r st H1) as [[s' [b [st' [E [L' N]]]]]|[[st' [E _]]|[E|E]]]; rewrite E in *; try contradiction; try discriminate.
    cbn [andThen]. apply IH; [|discriminate]. assert (rank k2 = 1) by (destruct k2; [discriminate| |discriminate| |discriminate|discriminate| |discriminate]; reflexivity). lia. }
  assert (E : forall r st, length r < length s -> parse m RExpression r st <> NoFuel) by (intros; apply IH; [cbn; lia | discriminate]).
  destruct k; cbn [parse].
  - apply T; auto. destruct (lit "+" s) as [r|] eqn:K; [apply lit_length in K; lia | lia].
  - unfold need. cbn [rank] in M. specialize (Hst eq_refl). destruct (lit "+" s) as [r|] eqn:E1.
    + rewrite (lit_other "+" "-" s r E1) by discriminate. apply lit_length in E1.
      pose proof (no_fuel_sum m RSummand RSum PAdd s r IH st eq_refl eq_refl ltac:(cbn; lia) ltac:(cbn; lia) E1 ltac:(lia) Hst) as K.
      destruct (andThen (andThen (parse m RSummand r st) (pop2 PAdd)) (parse m RSum)); cbn; congruence.
    + cbn [orElse]. destruct (lit "-" s) as [r|] eqn:E2; [|discriminate]. apply lit_length in E2.
      pose proof (no_fuel_sum m RSummand RSum PSub s r IH st eq_refl eq_refl ltac:(cbn; lia) ltac:(cbn; lia) E2 ltac:(lia) Hst) as K.
      destruct (andThen (andThen (parse m RSummand r st) (pop2 PSub)) (parse m RSum)); cbn; congruence.
  - apply T; auto.
  - unfold need. cbn [rank] in M. specialize (Hst eq_refl). destruct (lit "*" s) as [r|] eqn:E1.
    + rewrite (lit_other "*" "/" s r E1) by discriminate. apply lit_length in E1.
      pose proof (no_fuel_sum m RPosNeg RProduct PMul s r IH st eq_refl eq_refl ltac:(cbn; lia) ltac:(cbn; lia) E1 ltac:(lia) Hst) as K.
      destruct (andThen (andThen (parse m RPosNeg r st) (pop2 PMul)) (parse m RProduct)); cbn; congruence.
    + cbn [orElse]. destruct (lit "/" s) as [r|] eqn:E2; [|discriminate]. apply lit_length in E2.
      pose proof (no_fuel_sum m RPosNeg RProduct PDiv s r IH st eq_refl eq_refl ltac:(cbn; lia) ltac:(cbn; lia) E2 ltac:(lia) Hst) as K.
      destruct (andThen (andThen (parse m RPosNeg r st) (pop2 PDiv)) (parse m RProduct)); cbn; congruence.
  - cbn [rank] in M. assert (K : parse m RFactor s st <> NoFuel) by (apply IH; [cbn [rank]; lia | discriminate]).
    destruct (parse m RFactor s st) as [s1 st1|st1| | |]; try contradiction; try discriminate. cbn [orElse]. unfold need.
    destruct (lit "-" s) as [r|] eqn:E1; [|discriminate]. apply lit_length in E1.
    assert (K' : parse m RFactor r st1 <> NoFuel) by (apply IH; [cbn [rank]; lia | discriminate]).
    destruct (parse_plain m RFactor r st1 eq_refl) as [[s' [b [st' [E' [L' N]]]]]|[[st' [E' _]]|[E'|E']]]; rewrite E' in *; try contradiction; try discriminate.
  - apply T; auto.
  - unfold need. cbn [rank] in M. specialize (Hst eq_refl). destruct (lit "^" s) as [r|] eqn:E1; [|discriminate]. apply lit_length in E1.
    pose proof (no_fuel_sum m RFactor RPower PPow s r IH st eq_refl eq_refl ltac:(cbn; lia) ltac:(cbn; lia) E1 ltac:(lia) Hst) as K.
    destruct (andThen (andThen (parse m RFactor r st) (pop2 PPow)) (parse m RPower)); cbn; congruence.
  - clear T Hst. pose proof (skip_length s) as Ls.
    assert (O : forall o f, o <> NoFuel -> (forall st, f st <> NoFuel) -> orElse o f <> NoFuel) by (intros o f Ho Hf; destruct o; cbn; auto).
    assert (A : forall r st q, length r < length s -> (forall s' b st', length s' < length r -> q s' (b :: st') <> NoFuel) ->
      andThen (parse m RExpression r st) q <> NoFuel).
    { intros r st0 q L Q. pose proof (E r st0 L) as K.
      destruct (parse_plain m RExpression r st0 eq_refl) as [[s' [b [st' [E' [L' N]]]]]|[[st' [E' _]]|[E'|E']]]; rewrite E' in *; try contradiction; try discriminate.
      cbn [andThen]. now apply Q. }
    assert (N : forall c u st0 q, (forall r, length r < length u -> q r <> NoFuel) -> need c u st0 q <> NoFuel).
    { intros c u st0 q Q. unfold need. destruct (lit c u) as [r|] eqn:E0; [|discriminate]. apply lit_length in E0. now apply Q. }
    apply O; [apply O; [apply O|]|].
    + destruct (matchFct pfcts (skip s)) as [[f r]|] eqn:E1; [|discriminate]. apply matchFct_length in E1. apply N. intros r1 L1.
      apply A; [lia|]. intros s' b st' L'. apply N. discriminate.
    + intros st1. destruct (noCase (txt "atan2") (skip s)) as [r|] eqn:E1; [|discriminate]. apply noCase_length in E1. apply N. intros r1 L1.
      apply A; [lia|]. intros s' b st' L'. apply N. intros r3 L3. pose proof (E r3 (b :: st') ltac:(lia)) as K.
      destruct (parse_plain m RExpression r3 (b :: st') eq_refl) as [[s2 [b2 [st2 [E' [L2 N2]]]]]|[[st2 [E' _]]|[E'|E']]]; rewrite E' in *; try contradiction; try discriminate.
      cbn [andThen]. apply N. intros r5 _. destruct st2 as [|x st2]; [now destruct N2|]. discriminate.
    + intros st1. destruct (scalar_shape s) as [[s' [t [_ P]]]|[P|P]]; rewrite P; discriminate.
    + intros st1. apply N. intros r1 L1. apply A; [lia|]. intros s' b st' L'. apply N. discriminate.
Qed.

Lemma parse_decided s : parse (enough s) RExpression s [] <> NoFuel.
Proof. apply enough_fuel; [|discriminate]. unfold enough. change (rank RExpression) with 6. lia. Qed.
