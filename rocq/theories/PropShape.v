(** Theorems for C49: what every expression looks like that the library hands out, which symbols it has, and which
    undefined behaviour is left.  No facts, no assumption about doubles: [Y] is arbitrary.

    [wellFormed P e], [mentions], [proper], [remainingUB], [endsWell]: ShapeSpec.v. *)
From Verif Require Import SimplWitness ShapeSpec ShapeApi ShapePrint ParserModel PrinterModel DiffModel.
From Coq Require Import Lia.
From Verif Require Import Run.
Open Scope Z_scope.

(** ** Programs *)
Theorem C49_program : forall Y F k n t e facts, proper t -> build (world Y F k) n t = Ok e facts -> wellFormed (mentions t) e.
Proof. exact program_wellFormed. Qed.
Print Assumptions C49_program.
Theorem C49_program_behaviour : forall Y F k n t s, proper t -> build (world Y F k) n t = UB s -> remainingUB s.
Proof. exact program_behaviour. Qed.
Print Assumptions C49_program_behaviour.
(** A symbol that doesn't occur in the program doesn't occur in the result: temporary symbols of normal never leak. *)
Theorem C49_no_new_symbols : forall Y F k n t e facts m p, proper t -> ~ mentions t m p -> build (world Y F k) n t = Ok e facts ->
  wellFormed (fun m' p' => ~ (m' = m /\ p' = p)) e.
Proof. exact program_noNew. Qed.
Print Assumptions C49_no_new_symbols.

(** ** Functions on well-formed expressions *)
Theorem C49_functions : forall Y F k P l a b f, Forall (wellFormed P) l -> wellFormed P a -> wellFormed P b ->
  In f [FSin; FCos; FTan; FAsin; FAcos; FAtan] -> let W := world Y F k in
  endsWell (wellFormed P) (w_sum W l) /\ endsWell (wellFormed P) (w_prod W l) /\ endsWell (wellFormed P) (w_pow W a b) /\
  endsWell (wellFormed P) (w_trig W f a) /\ endsWell (wellFormed P) (w_atan2 W a b) /\ endsWell (wellFormed P) (w_log W a) /\
  endsWell (wellFormed P) (w_expand W a) /\ endsWell (wellFormed P) (w_normal W a).
Proof. exact functions_endWell. Qed.
Print Assumptions C49_functions.
Theorem C49_simplify : forall Y F k P n e, wellFormed P e -> endsWell (wellFormed P) (simplifyVar (world Y F k) n e).
Proof. exact simplify_endsWell. Qed.
Print Assumptions C49_simplify.
Theorem C49_diff : forall Y F k P n e x, wellFormed P e -> endsWell (wellFormed P) (diffTop (world Y F k) n e x).
Proof. exact diff_endsWell. Qed.
Print Assumptions C49_diff.
Theorem C49_fraction : forall Y F k P n e, wellFormed P e ->
  endsWell (fun nd => wellFormed P (fst nd) /\ wellFormed P (snd nd)) (toFraction (world Y F k) n e).
Proof. exact toFraction_endsWell. Qed.
Print Assumptions C49_fraction.
(** Substitution removes the symbol. *)
Theorem C49_subst : forall Y F k (P : name -> bool -> Prop) m q e t, wellFormed (fun n p => (n = m /\ p = q) \/ P n p) e -> wellFormed P t ->
  endsWell (wellFormed P) (w_subst (world Y F k) e (Sym m q) t).
Proof. exact subst_endsWell. Qed.
Print Assumptions C49_subst.

(** ** Text *)
Theorem C49_print : forall Y F k P cs fr n e, wellFormed P e -> endsWell (fun _ => True) (printTop Y (world Y F k) cs fr n e).
Proof. exact print_endsWell. Qed.
Print Assumptions C49_print.
Theorem C49_parse : forall Y F k n s t u, parseVar s = Some t -> toTerm t = Some u ->
  endsWell (wellFormed (mentions u)) (build (world Y F k) n u).
Proof. exact parse_endsWell. Qed.
Print Assumptions C49_parse.

(** ** Cases *)
Definition fracProg : term := TNormal (TAdd (TDiv (TInt 1) (TSqrt tx)) (TDiv (TInt 1) (TTrig FSin ty))).
Lemma fracProg_run : exists l facts, build W0 40 fracProg = Ok (Prod l) facts /\ length l = 3%nat.
Proof. eexists _, _. split; [lazy; reflexivity|reflexivity]. Qed.
Example C49_case : proper fracProg /\ ~ mentions fracProg (nm "z"%string) false /\
  exists l facts, build W0 40 fracProg = Ok (Prod l) facts /\ length l = 3%nat.
Proof. split; [cbn; tauto|]. split; [|exact fracProg_run]. cbn. unfold nm. intros H. repeat destruct H as [H|H]; try tauto; destruct H as [H _]; discriminate. Qed.
Example C49_functions_case : Forall (wellFormed (fun _ _ => True)) [Pow sx (Num (1 # 2)); Fct FAtan2 [sx; sy]].
Proof. repeat constructor; discriminate. Qed.
Example C49_parse_case : exists t u, parseVar (txt "2*a/(b+sin(c))") = Some t /\ toTerm t = Some u.
Proof. eexists _, _. split; lazy; reflexivity. Qed.

(** ** Not proved: that no undefined behaviour is left; two of the four kinds can be reached. *)
Definition sumProg : term :=
  TExpand (TMul (TMul (TMul (TAdd tx (TInt 1)) (TAdd ty (TInt 1))) (TAdd (TInt 1) (TSqrt (TInt 2))))
                (TSub (TInt 1) (TSqrt (TInt 2)))).
Definition tanProg : term := TDiv (TTrig FTan tx) (TTrig FTan tx).
Lemma sumProg_run : build W0 40 sumProg = UB "front of empty list of summands".
Proof. lazy. reflexivity. Qed.
Lemma tanProg_run : build W0 40 tanProg = UB "front of empty list of factors".
Proof. lazy. reflexivity. Qed.
Theorem C49_no_undefined_behaviour_refuted :
  ~ forall Y F k n t s, proper t -> build (world Y F k) n t <> UB s.
Proof. intros H. eapply (H refSys 40%nat 40%nat 40%nat sumProg); [cbn; tauto|exact sumProg_run]. Qed.
Print Assumptions C49_no_undefined_behaviour_refuted.
