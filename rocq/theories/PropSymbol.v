(** Theorems for C30 (symbol identity) and C31 (temporary symbols). *)
From Verif Require Import ExprModel ExprProofs SymbolModel SymbolProofs.
Open Scope Z_scope.

(** ** C30: whatever happened before, two created symbols are equal iff name and flag agree.
    A user's name is neither empty nor does it start with the reserved prefix [tmp#]. *)
Theorem C30_symbol_identity : forall (history1 history2 : list sop) n1 p1 n2 p2,
  (nvalue n1 <> EmptyString /\ String.prefix "tmp#" (nvalue n1) = false) ->
  (nvalue n2 <> EmptyString /\ String.prefix "tmp#" (nvalue n2) = false) ->
  isEqual (snd (createSym (srun history1) n1 p1)) (snd (createSym (srun history2) n2 p2)) = true <->
  n1 = n2 /\ p1 = p2.
Proof. exact symbol_identity. Qed.
Print Assumptions C30_symbol_identity.

(** The created symbol has the requested name and flag; an empty name gives Undefined. *)
Theorem C30_symbol_name : forall history n p,
  (nvalue n <> EmptyString -> String.prefix "tmp#" (nvalue n) = false ->
    snd (createSym (srun history) n p) = Sym n p) /\
  (nvalue n = EmptyString -> snd (createSym (srun history) n p) = Undef).
Proof. exact symbol_name. Qed.
Print Assumptions C30_symbol_name.

(** A named symbol is never equal to a temporary one. *)
Theorem C30_named_not_temporary : forall history1 history2 n p q,
  (nvalue n <> EmptyString /\ String.prefix "tmp#" (nvalue n) = false) ->
  isEqual (snd (createSym (srun history1) n p)) (snd (createTmp (srun history2) q)) = false.
Proof. exact named_not_temporary. Qed.
Print Assumptions C30_named_not_temporary.

Example C30_example :
  isEqual (snd (createSym (srun [OTmp true; OCreate (nm "a") true; ODrop 0]) (nm "a") true))
          (snd (createSym (srun [OCreate (nm "a") false]) (nm "a") true)) = true /\
  isEqual (snd (createSym (srun [OTmp true; OCreate (nm "a") true; ODrop 0]) (nm "a") true))
          (snd (createSym (srun [OCreate (nm "a") false]) (nm "a") false)) = false.
Proof. now cbv. Qed.

(** ** C31: temporary symbols *)

(** The full statement is false: after two temporary symbols have been created and the first one
    has been destroyed, the next one equals the second, which is still alive. *)
Theorem C31_fresh_refuted : exists history h e,
  In (h, e) (p_live (srun history)) /\ isEqual (snd (createTmp (srun history) false)) e = true.
Proof. exact fresh_refuted. Qed.
Print Assumptions C31_fresh_refuted.

(** If temporary symbols are destroyed youngest first (and fewer than 2^32 - 1 are alive), a new
    one differs from all living ones.  Missing: other destruction orders, where it is false. *)
Theorem C31_fresh_partial : forall history h e pos,
  lifo pinit history -> fewLive pinit history ->
  In (h, e) (p_live (srun history)) ->
  isEqual (snd (createTmp (srun history) pos)) e = false.
Proof. exact fresh_lifo. Qed.
Print Assumptions C31_fresh_partial.

Example C31_example : let history := [OTmp false; OTmp true; ODrop 1; OTmp true; OCreate (nm "tmp#7") false] in
  lifo pinit history /\ fewLive pinit history /\ length (p_live (srun history)) = 3%nat.
Proof. cbn. repeat split; reflexivity. Qed.
