(** The contract of the mutually recursive functions. *)
From Verif Require Export RunFacts SimplModel.
Open Scope R_scope.

Definition plus1 (P : name -> bool -> Prop) (n : name) (p : bool) : name -> bool -> Prop :=
  fun m q => P m q \/ (m = n /\ q = p).
Definition trigF (f : fct) : bool := match f with FLog | FAtan2 => false | _ => true end.

(** Temporary symbols: their names are longer than those of the symbols at hand and differ from each
    other, and each term contains earlier ones only. *)
Definition ptmp (P : name -> bool -> Prop) (l : list (name * bool * expr)) : name -> bool -> Prop :=
  fun n p => P n p \/ exists t, In (n, p, t) l.
Definition mapOK (P : name -> bool -> Prop) (m : smap) : Prop :=
  (forall n p, P n p -> (String.length (nvalue n) < m_base m)%nat) /\
  forall i n p t, nth_error (m_list m) i = Some (n, p, t) ->
    n = tmpNm (m_base m + i) /\ wf (ptmp P (firstn i (m_list m))) t.
(** The fraction n/d has the value v. *)
Definition fracIs (r : env) (n d : expr) (v : R) : Prop :=
  exists a b, eval r n = Some a /\ eval r d = Some b /\ b <> 0 /\ v = a / b.
Definition normalRes (st : bool) (r : env) (P : name -> bool -> Prop) (m : smap) (e : expr)
  (x : expr * expr * smap) : Prop :=
  let '(n, d, m') := x in
  exists l, m_base m' = m_base m /\ m_list m' = m_list m ++ l /\ mapOK P m' /\ wgood st (ext r (m_list m')) /\
    wf (ptmp P (m_list m')) n /\ wf (ptmp P (m_list m')) d /\
    forall v, eval r e = Some v ->
      (forall k p t, In (k, p, t) l -> eval (ext r (m_list m')) t <> None) /\ fracIs (ext r (m_list m')) n d v.

Record soundOps (W : oper) : Prop := {
  so_sum : forall st r P l, wgood st r -> Forall (wf P) l ->
    spec (holds st r) (w_sum W l) (fun e => wf P e /\ ole (sumVal r l) (eval r e));
  so_prod : forall st r P l, wgood st r -> Forall (wf P) l ->
    spec (holds st r) (w_prod W l) (fun e => wf P e /\ ole (prodVal r l) (eval r e));
  so_pow : forall st r P b x, wgood st r -> wf P b -> wf P x ->
    spec (holds st r) (w_pow W b x) (fun e => wf P e /\ ole (opow (eval r b) (eval r x)) (eval r e));
  so_spow : forall st r P b x, wgood st r -> wf P b -> wf P x ->
    spec (holds st r) (w_spow W b x) (fun e => wf P (fst e) /\ wf P (snd e) /\
      ole (opow (eval r b) (eval r x)) (opow (eval r (fst e)) (eval r (snd e))));
  so_trig : forall st r P f a, wgood st r -> wf P a -> trigF f = true ->
    spec (holds st r) (w_trig W f a) (fun e => wf P e /\ ole (eval r (Fct f [a])) (eval r e));
  so_atan2 : forall st r P y x, wgood st r -> wf P y -> wf P x ->
    spec (holds st r) (w_atan2 W y x) (fun e => wf P e /\ ole (eval r (Fct FAtan2 [y; x])) (eval r e));
  so_log : forall st r P a, wgood st r -> wf P a ->
    spec (holds st r) (w_log W a) (fun e => wf P e /\ ole (eval r (Fct FLog [a])) (eval r e));
  so_expand : forall st r P e, wgood st r -> wf P e ->
    spec (holds st r) (w_expand W e) (fun e' => wf P e' /\ ole (eval r e) (eval r e'));
  so_subst : forall st r P n p t e, wgood st r -> wf (plus1 P n p) e -> wf P t ->
    spec (holds st r) (w_subst W e (Sym n p) t)
      (fun e' => wf P e' /\ forall v, eval r t = Some v -> ole (eval (upd r n p v) e) (eval r e'));
  so_pos : forall st r P e, wgood st r -> wf P e ->
    spec (holds st r) (w_pos W e) (fun b => b = true -> forall v, eval r e = Some v -> sgnOK st v);
  so_neg : forall st r P e, wgood st r -> wf P e ->
    spec (holds st r) (w_neg W e) (fun b => b = true -> forall v, eval r e = Some v -> sgnOK st (- v));
  so_normal : forall st r P e, wgood st r -> wf P e ->
    spec (holds st r) (w_normal W e) (fun e' => wf P e' /\ ole (eval r e) (eval r e'));
  so_normalF : forall st r P m e, wgood st r -> mapOK P m -> wgood st (ext r (m_list m)) -> wf P e ->
    spec (holds st r) (w_normalF W m e) (normalRes st r P m e)
}.
