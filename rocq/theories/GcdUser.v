(** poly::gcd for polynomials in one symbol, as users see it (C22). *)
From Verif Require Import LaurentSpec DivSpec LaurentOrder LaurentProd LaurentIdent LaurentSum LaurentExpand LaurentMain LaurentApi RingProd RingSum RingPos RingSpec RingTerm LaurentCoeff PolyTotal PolyCode HRuns DivExact DivRun DivRem DivApi DivUser FuelMono FuelApi SimplApi ApiSpec ApiModel ExprProofs NumInt NumberProofs GcdProofs GcdPoly GcdRun World WorldExact SoundOps RPow RunSpec NumberSpec PolyModel.
From Coq Require Import Lia Lra Bool Permutation Sorted.
From Verif Require Import Run LaurentSpec.
Open Scope Z_scope.

Section User.
  Variables (Y : sys) (B : Z) (t : sym) (st : bool) (r0 : env) (F k : nat).
  Hypothesis Hlt : exactUpTo B (s_nlt Y).
  Hypothesis HB : 0 <= B < intMax.
  Hypothesis Hg : wgood st r0.
  Notation W := (world Y F k).
  Notation upoly := (upoly B t).
  Notation H := (holds st r0).
  Notation x := (symE t).

  Lemma sp_num_result sub a b u v : canon a -> canon b -> Q2R a <> 0%R \/ Q2R b <> 0%R -> polyE u = Num a -> polyE v = Num b -> upoly u -> upoly v -> u <> [] \/ v <> [] ->
    spec H (w_gcd W sub [] (Num a) (Num b)) (result B t u v).
  Proof.
    intros Ca Cb Hab Eu Ev Uu Uv N.
    assert (G : forall c, canon c -> Q2R c <> 0%R -> gcdOf u v [(c, [])]).
    { intros c Cc Nc. destruct N as [N|N].
      - apply polyE_num in Eu as (-> & _ & Na); [|apply Uu | exact N]. apply (gcd_const Y B); auto. apply Uv.
      - apply gcd_comm. apply polyE_num in Ev as (-> & _ & Nb); [|apply Uv | exact N]. apply (gcd_const Y B); auto. apply Uu. }
    assert (NN : forall k c, canon c -> Q2R c <> 0%R -> spec H (gcdNormalize Y (world Y F k) (Num c) []) (result B t u v)).
    { intros k' c Cc Nc. unfold gcdNormalize. cbn [rev normalizationFactor]. eapply spec_bind; [apply spec_ret; exact eq_refl|]. intros f <-.
      eapply spec_weaken; [apply prod_nums; [apply canon_ofZ | exact Cc]|]. intros ? ->. pose proof (sign_pos c Cc Nc) as P. rewrite <- Q2R_qmul in P.
      assert (Cq : canon (qmul (ofZ (qsign c)) c)) by apply qmul_spec. assert (Nq : Q2R (qmul (ofZ (qsign c)) c) <> 0%R) by lra.
      exists [(qmul (ofZ (qsign c)) c, [])]. split; [symmetry; apply num_polyE|]. split; [now apply uni_num|]. split; [discriminate|]. split; [now apply num_posLead | now apply G]. }
    destruct k as [|k']; [exact I|]. cbn [world step w_gcd]. unfold gcdWith.
    eapply spec_bind; [apply expand_num|]. intros ue ->. eapply spec_bind; [apply expand_num|]. intros ve ->.
    destruct (isOne (Num a) || isOne (Num b)); [apply NN; [reflexivity | rewrite Q2R_1; lra]|].
    destruct (isZero (Num a)) eqn:Ea; destruct (isZero (Num b)) eqn:Eb; cbn [andb].
    - apply isZero_num in Ea, Eb; auto. tauto.
    - apply NN; auto. intros E. apply (isZero_num b Cb) in E. congruence.
    - apply NN; auto. intros E. apply (isZero_num a Ca) in E. congruence.
    - assert (Na : Q2R a <> 0%R) by (intros E; apply (isZero_num a Ca) in E; congruence).
      destruct (isEqual (Num a) (Num b)); [now apply NN|].
      destruct (computeNumerics_nz a b Ca Cb Na) as (c & -> & Cc & Nc). now apply NN.
  Qed.
  Lemma uni_number p : upoly p -> degIn t p = 0 -> exists c, polyE p = Num c /\ canon c /\ (p <> [] -> Q2R c <> 0%R).
  Proof.
    intros U D. destruct (not_nil p) as [->|N]; [exists 0%Q; split; [reflexivity|]; split; [reflexivity | congruence]|].
    destruct (uni_const B t p U N D) as (c & -> & C & Nc). exists c. split; [apply num_polyE | auto].
  Qed.
  Lemma valid_any u v : P_ok B u -> P_ok B v -> u <> [] \/ v <> [] -> isInputValid Y (polyE u) (polyE v) = true.
  Proof.
    intros Ku Kv N. destruct (not_nil v) as [->|Nv]; [|now apply (valid Y B HB)]. destruct N as [N|N]; [|congruence].
    pose proof (valid Y B HB u u Ku Ku N) as X. unfold isInputValid in *. rewrite polyE_isZero in * by apply Ku. destruct u; [congruence|]. cbn [andb] in *. apply andb_true_iff in X as [X _]. rewrite X. reflexivity.
  Qed.
  Lemma sp_gcd sub u v : upoly u -> upoly v -> u <> [] \/ v <> [] -> spec H (gcdCompute Y W sub (polyE u) (polyE v)) (result B t u v).
  Proof.
    intros Uu Uv N. unfold gcdCompute. rewrite valid_any by (try exact N; (apply Uu || apply Uv)).
    destruct (symbols_list Y u v) as (L & -> & ND & HL).
    assert (HT : forall s, In s L -> s = t).
    { intros s Hs. destruct (sym_dec s t) as [|Ns]; [assumption|]. exfalso. apply HL in Hs.
      assert (X : forall p, upoly p -> ~ symsOf p s).
      { intros p U S. apply hasSymbol_iff in S. revert S. apply free_iff; [|apply U; intros [X|[]]; congruence]. apply ordinary_iff. split; apply U. }
      destruct Hs as [Hs|Hs]; revert Hs; now apply X. }
    destruct L as [|s [|s' L]]; cbn [map].
    - assert (X : forall p, symsOf p t -> False -> False) by auto. assert (Du : degIn t u = 0) by (destruct (Z.eq_dec (degIn t u) 0) as [|D]; [assumption|]; apply degIn_syms in D; destruct (proj2 (HL t) (or_introl D))).
      assert (Dv : degIn t v = 0) by (destruct (Z.eq_dec (degIn t v) 0) as [|D]; [assumption|]; apply degIn_syms in D; destruct (proj2 (HL t) (or_intror D))).
      destruct (uni_number u Uu Du) as (a & Ea & Ca & Na). destruct (uni_number v Uv Dv) as (b & Eb & Cb & Nb). rewrite Ea, Eb. apply sp_num_result; auto. tauto.
    - rewrite (HT s) by now left. destruct k as [|k']; [exact I|]. cbn [world step w_gcd]. now apply sp_gcdWith.
    - exfalso. inversion ND as [|? ? A _]; subst. apply A. left. rewrite (HT s), (HT s') by (cbn; auto). reflexivity.
  Qed.
End User.

(** The coefficient of the highest power is positive. *)
Lemma dv_multiple h p : ordinary h -> dv (fun r => polyV r h) p <-> multipleOf h p.
Proof.
  intros _. split.
  - intros (w & (s & O & P & V) & E). exists s. split; [now apply ordinary_iff|]. intros r Hr. rewrite V by exact Hr. now apply E.
  - intros (s & O & E). apply ordinary_iff in O as [O P]. exists (fun r => polyV r s). split; [exists s; auto | exact E].
Qed.
Theorem gcd_univariate Y B F k sub t u v g facts r : exactUpTo B (s_nlt Y) -> 0 <= B < intMax ->
  ordinary u -> ordinary v -> totalDegree u <= B -> totalDegree v <= B -> u <> [] \/ v <> [] -> (forall s, hasSymbol s u \/ hasSymbol s v -> s = t) ->
  gcdCompute Y (world Y F k) sub (polyE u) (polyE v) = Ok g facts -> posEnv r -> rightFacts r facts ->
  exists p, g = polyE p /\ ordinary p /\ leadPositive p /\ multipleOf p u /\ multipleOf p v /\
    forall h, ordinary h -> multipleOf h u -> multipleOf h v -> multipleOf h p.
Proof.
  intros Hlt HB Ou Ov Du Dv N HS E Hr Hf.
  assert (U : forall p, ordinary p -> totalDegree p <= B -> (forall s, hasSymbol s p -> s = t) -> upoly B t p).
  { intros p O D S. split; [apply P_ok_iff; auto|]. intros s Hs. apply free_iff; [exact O|]. intros X. apply Hs. left. symmetry. now apply S. }
  pose proof (use r Hr _ (result B t u v) _ _ (fun st Hg => sp_gcd Y B t st r F k Hlt HB Hg sub u v (U u Ou Du (fun s X => HS s (or_introl X))) (U v Ov Dv (fun s X => HS s (or_intror X))) N) E Hf) as (p & -> & Up & Np & PL & D1 & D2 & M).
  assert (Op : ordinary p) by (apply ordinary_iff; split; apply Up).
  exists p. split; [reflexivity|]. split; [exact Op|]. split; [|split; [now apply dv_multiple|]; split; [now apply dv_multiple|]].
  - intros m Hm Em. apply PL; [exact Hm|]. assert (P : posPoly p) by apply Up. rewrite totalDegree_is, (uni_deg B t p Up) in Em by exact P. rewrite <- Em, <- (uni_key B t p m Up Hm). symmetry. apply termDegree_is. unfold posPoly in P. rewrite Forall_forall in P. now apply P.
  - intros h Oh H1 H2. apply dv_multiple; [exact Oh|]. apply M; now apply dv_multiple.
Qed.
