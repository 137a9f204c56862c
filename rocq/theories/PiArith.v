(** Sums and products of multiples of pi: executions of the model. *)
From Verif Require Import TrigApi FuelMono FuelApi Run World.
From Coq Require Import Lia List.
Import ListNotations.
Open Scope Z_scope.

(** The expression of q*pi. *)
Definition piE (q : Q) : expr := if qeqb q 0 then zero else if qeqb q 1 then pi else Prod [Num q; pi].

Section Pi.
  Variables (Y : sys) (F' k' : nat).
  Notation F := (10 + F')%nat.
  Notation W n := (world Y F (n + k')).
  Lemma inner_stop n check simpl i j u b : nth_error u j = None -> contractInner (S n) check simpl i j u b = Ok (u, b) [].
  Proof. intros E. cbn [contractInner]. rewrite E. now destruct (nth_error u i). Qed.
  Lemma inner_next n check simpl i j u b x y : nth_error u i = Some x -> nth_error u j = Some y -> check x y = false ->
    contractInner (S n) check simpl i j u b = contractInner n check simpl i (S j) u b.
  Proof. intros E1 E2 E3. cbn [contractInner]. now rewrite E1, E2, E3. Qed.
  Lemma outer_next n check simpl i u c : (i < length u)%nat -> contractInner (S n) check simpl i (S i) u false = Ok (u, false) [] ->
    contractOuter (S n) check simpl i u c = contractOuter n check simpl (S i) u c.
  Proof.
    intros H E. cbn [contractOuter]. apply Nat.ltb_lt in H. rewrite H, E. cbn [bind]. now destruct (contractOuter n check simpl (S i) u c).
  Qed.
  Lemma outer_stop n check simpl i u c : (length u <= i)%nat -> contractOuter (S n) check simpl i u c = Ok (u, c) [].
  Proof. intros H. cbn [contractOuter]. apply Nat.ltb_ge in H. now rewrite H. Qed.
  Lemma contract_pair n check simpl a b : check a b = false -> contract (3 + n) check simpl [a; b] = Ok [a; b] [].
  Proof.
    intros H. change (3 + n)%nat with (S (2 + n)). cbn [contract]. change (S (2 + n)) with (S (S (S n))).
    rewrite outer_next; [|cbn; lia|]; [|erewrite inner_next by (reflexivity || exact H); now apply inner_stop].
    rewrite outer_next; [|cbn; lia|now apply inner_stop]. rewrite outer_stop by (cbn; lia). reflexivity.
  Qed.
  Lemma contract_three n check simpl a b c : check a b = false -> check a c = false -> check b c = false ->
    contract (4 + n) check simpl [a; b; c] = Ok [a; b; c] [].
  Proof.
    intros H1 H2 H3. change (4 + n)%nat with (S (3 + n)). cbn [contract]. change (S (3 + n)) with (S (S (S (S n)))).
    rewrite outer_next; [|cbn; lia|]; [|do 2 (erewrite inner_next by (reflexivity || eassumption)); now apply inner_stop].
    rewrite outer_next; [|cbn; lia|]; [|erewrite inner_next by (reflexivity || eassumption); now apply inner_stop].
    rewrite outer_next; [|cbn; lia|now apply inner_stop]. rewrite outer_stop by (cbn; lia). reflexivity.
  Qed.
  Lemma simplifyProduct_S W n u : simplifyProduct Y W (S n) u =
    (f <- prepare Y W (S n) u ;;
     match f with
     | [a; b] => simplTwoFactors Y W (S n) a b
     | _ =>
         g <- prepareConst Y W (S n) f ;;
         match g with
         | [] => UB "front of empty list of factors"%string
         | [x] => ret g
         | [a; b] => simplTwoFactors Y W (S n) a b
         | u1 :: r => s <- simplifyProduct Y W n r ;; merge (S n) isOne (simplTwoFactors Y W (S n)) [u1] s
         end
     end).
  Proof. reflexivity. Qed.
  Lemma two_S W n a b : isProduct a = false -> isProduct b = false ->
    simplTwoFactors Y W (S n) a b = simplTwoFactorsWithoutProduct Y W a b.
  Proof. intros H1 H2. cbn [simplTwoFactors]. now rewrite H1, H2. Qed.
  Lemma num_pi W n q : qeqb q 0 = false -> prodCreate Y W (3 + n) [Num q; pi] = Ok (piE q) [].
  Proof.
    intros E0. unfold piE, prodCreate. cbn [existsb isUndefined].
    change (isZero (Num q)) with (qeqb q 0). change (isZero pi) with false. rewrite E0. cbn [orb].
    change (3 + n)%nat with (S (2 + n)). rewrite simplifyProduct_S.
    assert (P : prepare Y W (S (2 + n)) [Num q; pi] = Ok [Num q; pi] []) by (apply contract_pair; reflexivity).
    rewrite P. cbn [bind]. rewrite two_S by reflexivity. unfold simplTwoFactorsWithoutProduct.
    change (isOne (Num q)) with (qeqb q 1). change (isOne pi) with false.
    destruct (qeqb q 1) eqn:E1; [reflexivity|]. change (isConst (Num q) && isConst pi) with false. cbv iota.
    change (haveEqualBases (Num q) pi) with false. cbv iota. unfold ordered.
    change (permuted Y (Num q) pi) with false. reflexivity.
  Qed.
  Lemma prod_pi q : w_prod (W 1) [Num q; pi] = Ok (piE q) [].
  Proof.
    change (prodCreate Y (W 0) F [Num q; pi] = Ok (piE q) []). destruct (qeqb q 0) eqn:E0.
    - unfold piE, prodCreate. cbn [existsb isUndefined]. change (isZero (Num q)) with (qeqb q 0). now rewrite E0.
    - now apply (num_pi _ (7 + F')).
  Qed.

  Lemma prod_one x : isUndefined x = false -> isZero x = false -> w_prod (W 1) [x] = Ok x [].
  Proof.
    intros H1 H2. change (prodCreate Y (W 0) F [x] = Ok x []). unfold prodCreate. cbn [existsb]. rewrite H1, H2. reflexivity.
  Qed.
  Lemma sum_nums p q : w_sum (W 1) [Num p; Num q] = Ok (Num (if qeqb p 0 then q else if qeqb q 0 then p else
    if qeqb (qadd p q) 0 then 0%Q else qadd p q)) [].
  Proof.
    change (w_sum (W 1) [Num p; Num q]) with (sumCreate Y (W 0) F [Num p; Num q]). unfold sumCreate. cbn [existsb isUndefined orb simplifySum].
    change F with (S (9 + F')). cbn [simplTwoSummands isSum orb]. unfold simplTwoSummandsWithoutSum.
    change (isZero (Num p)) with (qeqb p 0). change (isZero (Num q)) with (qeqb q 0).
    destruct (qeqb p 0); [reflexivity|]. destruct (qeqb q 0); [reflexivity|]. cbv zeta. destruct (qeqb (qadd p q) 0); reflexivity.
  Qed.
  Lemma qeqb_eq a b : qeqb a b = true -> a = b.
  Proof.
    unfold qeqb. intros H. apply andb_prop in H as [H1 H2]. apply Z.eqb_eq in H1. apply Pos.eqb_eq in H2.
    destruct a, b; cbn in *; now subst.
  Qed.
  Lemma qadd_0_l q : canon q -> q = qadd 0 q.
  Proof. intros H. unfold qadd. rewrite <- (canon_red q H) at 1. apply Qred_complete. ring. Qed.
  Lemma qadd_0_r q : canon q -> q = qadd q 0.
  Proof. intros H. unfold qadd. rewrite <- (canon_red q H) at 1. apply Qred_complete. ring. Qed.
  Lemma sum_nums_canon p q : canon p -> canon q -> w_sum (W 1) [Num p; Num q] = Ok (Num (qadd p q)) [].
  Proof.
    intros Hp Hq. rewrite sum_nums. do 2 f_equal.
    destruct (qeqb p 0) eqn:E0; [apply qeqb_eq in E0; subst|].
    - now apply qadd_0_l.
    - destruct (qeqb q 0) eqn:E1; [apply qeqb_eq in E1; subst|].
      + now apply qadd_0_r.
      + destruct (qeqb (qadd p q) 0) eqn:E2; [apply qeqb_eq in E2; now rewrite E2|reflexivity].
  Qed.
  Lemma nonConst_pi q : qeqb q 0 = false -> nonConstTerm (W 1) (piE q) = Ok pi [].
  Proof.
    intros E0. unfold piE. rewrite E0. destruct (qeqb q 1); [reflexivity|]. unfold nonConstTerm.
    change (nonConstElements [Num q; pi]) with [pi]. now apply prod_one.
  Qed.
  Lemma const_pi q : canon q -> qeqb q 0 = false -> constTerm (W 1) (piE q) = Ok (Num q) [].
  Proof.
    intros Hq E0. unfold piE. rewrite E0. destruct (qeqb q 1) eqn:E1; [apply qeqb_eq in E1; now subst|]. unfold constTerm.
    change (constElements [Num q; pi]) with [Num q]. apply prod_one; [reflexivity|exact E0].
  Qed.
  Lemma isZero_piE q : isZero (piE q) = qeqb q 0.
  Proof. unfold piE. destruct (qeqb q 0); [reflexivity|]. now destruct (qeqb q 1). Qed.
  Lemma isSum_piE q : isSum (piE q) = false.
  Proof. unfold piE. destruct (qeqb q 0); [reflexivity|]. now destruct (qeqb q 1). Qed.
  Lemma isUndefined_piE q : isUndefined (piE q) = false.
  Proof. unfold piE. destruct (qeqb q 0); [reflexivity|]. now destruct (qeqb q 1). Qed.
  Lemma sum_pi p q : canon p -> canon q -> w_sum (W 2) [piE p; piE q] = Ok (piE (qadd p q)) [].
  Proof.
    intros Hp Hq. change (w_sum (W 2) [piE p; piE q]) with (sumCreate Y (W 1) F [piE p; piE q]). unfold sumCreate. cbn [existsb]. rewrite !isUndefined_piE.
    cbn [orb simplifySum].
    assert (E : simplTwoSummands Y (W 1) F (piE p) (piE q) = simplTwoSummandsWithoutSum Y (W 1) (piE p) (piE q)).
    { change F with (S (9 + F')). cbn [simplTwoSummands]. now rewrite !isSum_piE. }
    rewrite E. unfold simplTwoSummandsWithoutSum. rewrite !isZero_piE.
    destruct (qeqb p 0) eqn:Ep.
    { apply qeqb_eq in Ep. subst. cbn [ret bind]. do 2 f_equal. now apply qadd_0_l. }
    destruct (qeqb q 0) eqn:Eq.
    { apply qeqb_eq in Eq. subst. cbn [ret bind]. do 2 f_equal. now apply qadd_0_r. }
    assert (X : forall (k : res (list expr)), (match piE p, piE q with Num a, Num b => let s := qadd a b in ret (if qeqb s 0 then [] else [Num s]) | _, _ => k end) = k).
    { intros k. unfold piE. rewrite Ep, Eq. destruct (qeqb p 1), (qeqb q 1); reflexivity. }
    rewrite X. unfold haveEqualNonConstTerms. rewrite (nonConst_pi p Ep), (nonConst_pi q Eq). cbn [bind ret].
    change (if isOne pi || isOne pi then false else isEqual pi pi) with true. cbn [app].
    unfold simplEqualNonConstTerms. rewrite (const_pi p Hp Ep), (const_pi q Hq Eq). cbn [bind].
    rewrite (sum_nums_canon p q Hp Hq). cbn [bind isSum negb]. rewrite (nonConst_pi p Ep). cbn [bind]. rewrite prod_pi. reflexivity.
  Qed.

  Lemma contractConst_pi W n r : contractConst Y W (4 + n) 0 [Num r; pi] = Ok [Num r; pi] [].
  Proof. reflexivity. Qed.
  Lemma contractConst_one W n : contractConst Y W (4 + n) 0 [pi] = Ok [pi] [].
  Proof. reflexivity. Qed.
  Lemma neg_pi q : canon q -> minus (W 1) [piE q] = Ok (piE (qmul (-1 # 1) q)) [].
  Proof.
    intros Hq. unfold minus. destruct (qeqb q 0) eqn:E0.
    { apply qeqb_eq in E0. subst. reflexivity. }
    destruct (qeqb q 1) eqn:E1.
    { apply qeqb_eq in E1. subst. change (piE 1) with pi. change (qmul (-1 # 1) 1) with (-1 # 1). apply prod_pi. }
    assert (P : piE q = Prod [Num q; pi]) by (unfold piE; now rewrite E0, E1). rewrite P.
    change (w_prod (W 1) [mOne; Prod [Num q; pi]]) with (prodCreate Y (W 0) F [mOne; Prod [Num q; pi]]).
    unfold prodCreate. cbn [existsb isUndefined orb]. change (isZero mOne) with false. change (isZero (Prod [Num q; pi])) with false. cbn [orb].
    set (w := W 0). change F with (S (9 + F')). rewrite simplifyProduct_S.
    assert (Q : prepare Y w (S (9 + F')) [mOne; Prod [Num q; pi]] = Ok [mOne; Num q; pi] []).
    { unfold prepare. change (extractProducts [mOne; Prod [Num q; pi]]) with [mOne; Num q; pi]. apply (contract_three (6 + F')); reflexivity. }
    rewrite Q. cbn [bind].
    assert (HS : contractNumerics (sortFactors Y [mOne; Num q; pi]) =
      if qeqb (qmul (-1 # 1) q) 1 then [pi] else [Num (qmul (-1 # 1) q); pi]).
    { cbn [sortFactors insertSorted].
      change (permuted Y pi (Num q)) with true. cbv iota. cbn [insertSorted].
      change (permuted Y pi mOne) with true. cbv iota.
      assert (A : qmul (qmul 1 q) (-1 # 1) = qmul (-1 # 1) q /\ qmul (qmul 1 (-1 # 1)) q = qmul (-1 # 1) q).
      { unfold qmul. split; apply Qred_complete; rewrite Qred_correct; ring. }
      destruct A as [A1 A2]. destruct (permuted Y (Num q) mOne); unfold contractNumerics, mOne, pi; cbn [fold_left filter isNumeric negb app];
        rewrite ?A1, ?A2; destruct (qeqb (qmul (-1 # 1) q) 1); reflexivity. }
    unfold prepareConst. rewrite HS. destruct (qeqb (qmul (-1 # 1) q) 1) eqn:E2.
    { change (S (9 + F')%nat) with (4 + (6 + F'))%nat. rewrite contractConst_one. cbn [bind].
      assert (C : forall check simpl, contract (4 + (6 + F')) check simpl [pi] = Ok [pi] []) by reflexivity.
      rewrite !C. cbn [bind]. rewrite C. cbn [bind ret app]. apply qeqb_eq in E2. rewrite E2. reflexivity. }
    change (S (9 + F')%nat) with (4 + (6 + F'))%nat. rewrite contractConst_pi. cbn [bind].
    rewrite (contract_pair (7 + F')) by reflexivity. cbn [bind]. rewrite (contract_pair (7 + F')) by reflexivity. cbn [bind ret app].
    change (4 + (6 + F'))%nat with (S (9 + F'))%nat. rewrite two_S by reflexivity. unfold simplTwoFactorsWithoutProduct.
    change (isOne (Num (qmul (-1 # 1) q))) with (qeqb (qmul (-1 # 1) q) 1). rewrite E2. change (isOne pi) with false. cbv iota.
    change (isConst (Num (qmul (-1 # 1) q)) && isConst pi) with false. cbv iota.
    change (haveEqualBases (Num (qmul (-1 # 1) q)) pi) with false. cbv iota. unfold ordered.
    change (permuted Y (Num (qmul (-1 # 1) q)) pi) with false. cbv iota. cbn [ret bind app].
    assert (E3 : qeqb (qmul (-1 # 1) q) 0 = false).
    { destruct (qeqb (qmul (-1 # 1) q) 0) eqn:E3; [|reflexivity]. apply qeqb_eq in E3. exfalso.
      assert (q == 0)%Q. { assert (X : (qmul (-1 # 1) q == 0)%Q) by (rewrite E3; reflexivity). unfold qmul in X. rewrite Qred_correct in X.
        setoid_replace q with ((-1 # 1) * ((-1 # 1) * q))%Q by ring. rewrite X. reflexivity. }
      apply Qred_complete in H. rewrite (canon_red q Hq) in H. subst. discriminate. }
    unfold piE. rewrite E3, E2. reflexivity.
  Qed.
  Lemma neg_sign q : w_neg (W 2) (piE q) = Ok (if qeqb q 0 then false else if qeqb q 1 then false else qltb q 0) [].
  Proof.
    unfold piE. destruct (qeqb q 0) eqn:E0; [reflexivity|]. destruct (qeqb q 1) eqn:E1; [reflexivity|].
    change (w_neg (W 2) (Prod [Num q; pi])) with (isNegative Y (W 1) (Prod [Num q; pi])). cbn [isNegative prodSign].
    change (w_pos (W 1) (Num q)) with (ret (qgtb q 0)). change (w_pos (W 1) pi) with (ret true). change (w_neg (W 1) (Num q)) with (ret (qltb q 0)).
    cbn [bind ret]. unfold qgtb. destruct (qltb 0 q) eqn:L.
    - cbn [bind ret app]. change (1 =? -1) with false. unfold qltb in *. apply Z.ltb_lt in L. cbn in L. symmetry. f_equal. apply Z.ltb_ge. cbn. lia.
    - cbn [bind ret app]. destruct (qltb q 0); reflexivity.
  Qed.
  Lemma symmetry_pi q : canon q -> doesSymmetryApply (W 2) (piE q) = Ok (if qeqb q 0 then false else if qeqb q 1 then false else qltb q 0) [].
  Proof.
    intros Hq. unfold doesSymmetryApply. destruct (qeqb q 0) eqn:E0; [unfold piE; now rewrite E0|].
    destruct (qeqb q 1) eqn:E1; [unfold piE; now rewrite E0, E1|].
    assert (P : piE q = Prod [Num q; pi]) by (unfold piE; now rewrite E0, E1).
    transitivity (quiet (e <- w_expand (W 2) (piE q) ;; c <- constTerm (W 2) e ;; w_neg (W 2) c)); [now rewrite P|].
    assert (X : w_expand (W 2) (piE q) = Ok (piE q) []).
    { rewrite P at 1. change (w_expand (W 2) (Prod [Num q; pi])) with (expandAsProduct (W 1) F [Num q; pi]).
      unfold expandAsProduct. change (mapM (w_expand (W 1)) [Num q; pi]) with (Ok [Num q; pi] [] : res (list expr)).
      cbn [bind filter isSum negb]. rewrite prod_pi. reflexivity. }
    rewrite X. cbn [bind]. assert (C : constTerm (W 2) (piE q) = Ok (Num q) []).
    { rewrite P. transitivity (prodCreate Y (W 1) F [Num q]); [reflexivity|]. unfold prodCreate. cbn [existsb isUndefined orb].
      assert (Z0 : isZero (Num q) = false) by exact E0. rewrite Z0. reflexivity. }
    rewrite C. reflexivity.
  Qed.
End Pi.
