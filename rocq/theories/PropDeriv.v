(** Theorems for C48: derivatives of expanded polynomials, and the parts of C14 and C15 that need no facts.

    [expandsTo Y e x]: expand of e returns x.  [diffsTo Y x t d]: diff of x with respect to the symbol t returns d
    (LaurentDiffApi.v).  [laurent], [degreeBound], [exactUpTo]: see PropExpand.v.  [hasDeriv], [mentions]: DiffSpec.v.
    [derivPoly]: the formal derivative (DerivSpec.v). *)
From Verif Require Import SimplWitness LaurentSpec LaurentApi DerivSpec LaurentDiffApi DiffModel DiffSpec PropExpand ExprProofs.
From Coq Require Import Lra Lia.
From Verif Require Import Run LaurentSpec.
Open Scope R_scope.

(** diff ends with one result, which is expanded again and whose degree is at most one higher (for negative exponents). *)
Theorem C48_ends : forall Y B e t x, exactUpTo B (s_nlt Y) -> laurent e -> (degreeBound e < B)%Z -> expandsTo Y e x ->
  exists d, diffsTo Y x t d /\ laurent d /\ (degreeBound d <= degreeBound e + 1)%Z /\ expandsTo Y d d /\
    (exists F0 k0 n0, forall F k n, (F0 <= F)%nat -> (k0 <= k)%nat -> (n0 <= n)%nat ->
       exists facts, diffTop (world Y F k) n x (symE t) = Ok d facts) /\
    (forall F k n, diffTop (world Y F k) n x (symE t) = Fuel \/ exists facts, diffTop (world Y F k) n x (symE t) = Ok d facts).
Proof. intros Y B e t x H. exact (diff_ends Y B H e t x). Qed.
Print Assumptions C48_ends.

(** The result is the normal form of the formal derivative. *)
Theorem C48_formal_derivative : forall Y B e t x d, exactUpTo B (s_nlt Y) -> laurent e -> (degreeBound e < B)%Z ->
  expandsTo Y e x -> diffsTo Y x t d ->
  exists p q, polyOK p /\ polyOK q /\ x = polyE p /\ d = polyE q /\ forall r, allPos r -> polyV r q = polyV r (derivPoly t p).
Proof. intros Y B e t x d H. exact (diff_formal Y B H e t x d). Qed.
Print Assumptions C48_formal_derivative.

(** Its value is the derivative of the polynomial: for positive values of the symbols, also of the expression
    that was expanded; ... *)
Theorem C48_derivative : forall Y B e t x d r, exactUpTo B (s_nlt Y) -> laurent e -> (degreeBound e < B)%Z ->
  expandsTo Y e x -> diffsTo Y x t d -> allPos r ->
  exists v, eval r d = Some v /\ hasDeriv (fun s => eval (upd r (fst t) (snd t) s) e) (r (fst t) (snd t)) v.
Proof. intros Y B e t x d r H. exact (diff_deriv Y B H e t x d r). Qed.
Print Assumptions C48_derivative.
(** ... for all nonzero values, of the expanded polynomial.  (C14 without facts.) *)
Theorem C14_polynomials : forall Y B e t x d r, exactUpTo B (s_nlt Y) -> laurent e -> (degreeBound e < B)%Z ->
  expandsTo Y e x -> diffsTo Y x t d -> posEnv r -> (forall n p, r n p <> 0) ->
  exists v, eval r d = Some v /\ hasDeriv (fun s => eval (upd r (fst t) (snd t) s) x) (r (fst t) (snd t)) v.
Proof. intros Y B e t x d r H. exact (diff_value Y B H e t x d r). Qed.
Print Assumptions C14_polynomials.

(** C15 without facts and in both directions: the derivative is the number zero if and only if the symbol doesn't occur. *)
Theorem C15_polynomials : forall Y B e t x d, exactUpTo B (s_nlt Y) -> laurent e -> (degreeBound e < B)%Z ->
  expandsTo Y e x -> diffsTo Y x t d -> (d = zero <-> mentions (fst t) (snd t) x = false).
Proof. intros Y B e t x d H. exact (diff_zero Y B H e t x d). Qed.
Print Assumptions C15_polynomials.

(** Mixed derivatives are equal expressions. *)
Theorem C48_mixed_derivatives : forall Y B e s t x ds dt dst dts, exactUpTo B (s_nlt Y) -> laurent e -> (degreeBound e + 1 < B)%Z ->
  expandsTo Y e x -> diffsTo Y x s ds -> diffsTo Y ds t dst -> diffsTo Y x t dt -> diffsTo Y dt s dts -> dst = dts.
Proof. intros Y B e s t x ds dt dst dts H. exact (diff_commutes Y B H e s t x ds dt dst dts). Qed.
Print Assumptions C48_mixed_derivatives.

(** The derivative of a sum is the sum of the derivatives, the one of a product the expansion of what the product
    rule gives, as expressions. *)
Theorem C48_sum_rule : forall Y B e1 e2 t x1 x2 x d1 d2 d, exactUpTo B (s_nlt Y) -> laurent e1 -> laurent e2 ->
  (degreeBound e1 < B)%Z -> (degreeBound e2 < B)%Z ->
  expandsTo Y e1 x1 -> expandsTo Y e2 x2 -> expandsTo Y (Sum [e1; e2]) x ->
  diffsTo Y x1 t d1 -> diffsTo Y x2 t d2 -> diffsTo Y x t d -> sumsTo Y [d1; d2] d.
Proof. intros Y B e1 e2 t x1 x2 x d1 d2 d H. exact (diff_sum Y B H e1 e2 t x1 x2 x d1 d2 d). Qed.
Print Assumptions C48_sum_rule.
Theorem C48_product_rule : forall Y B e1 e2 t x1 x2 x d1 d2 d, exactUpTo B (s_nlt Y) -> laurent e1 -> laurent e2 ->
  (degreeBound e1 + degreeBound e2 < B)%Z ->
  expandsTo Y e1 x1 -> expandsTo Y e2 x2 -> expandsTo Y (Prod [e1; e2]) x ->
  diffsTo Y x1 t d1 -> diffsTo Y x2 t d2 -> diffsTo Y x t d -> expandsTo Y (Sum [Prod [d1; e2]; Prod [e1; d2]]) d.
Proof. intros Y B e1 e2 t x1 x2 x d1 d2 d H. exact (diff_product Y B H e1 e2 t x1 x2 x d1 d2 d). Qed.
Print Assumptions C48_product_rule.

(** x^2*(x + y)*y^(-1) = x^3*y^(-1) + x^2 and its derivatives. *)
Definition exQ : expr := Prod [Pow sx (Num 2); Sum [sx; sy]; Pow sy (Num (-1 # 1))].
Definition exQx : expr := Sum [Pow sx (Num 2); Prod [Pow sx (Num 3); Pow sy (Num (-1 # 1))]].
Definition tX : sym := (nm "x"%string, false).
Definition tY : sym := (nm "y"%string, false).
Example C48_case : exactUpTo 10 (s_nlt refSys) /\ laurent exQ /\ (degreeBound exQ + 1 < 10)%Z /\ expandsTo refSys exQ exQx /\
  diffsTo refSys exQx tX (Sum [Prod [Num 2; sx]; Prod [Num 3; Pow sx (Num 2); Pow sy (Num (-1 # 1))]]) /\
  diffsTo refSys exQx tY (Prod [Num (-1 # 1); Pow sx (Num 3); Pow sy (Num (-2 # 1))]) /\
  diffsTo refSys exQx (nm "z"%string, false) zero.
Proof.
  split; [apply exact_ref|]. split.
  { unfold exQ, sx, sy. apply l_prod; [discriminate|]. intros x [<-|[<-|[<-|[]]]].
    - apply (l_symPow _ _ 2).
    - apply l_sum; [discriminate|]. intros x [<-|[<-|[]]]; apply l_sym.
    - apply (l_symPow _ _ (-1)). }
  split; [cbn; lia|]. split; [exists 40%nat, 40%nat, []; lazy; reflexivity|].
  split; [exists 20%nat, 20%nat, 4%nat, []; lazy; reflexivity|].
  split; [exists 20%nat, 20%nat, 4%nat, []; lazy; reflexivity|].
  exists 20%nat, 20%nat, 4%nat, []. lazy. reflexivity.
Qed.
