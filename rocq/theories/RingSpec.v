(** Programs that compute polynomials, and their degree. *)
From Verif Require Export LaurentSpec ApiModel ApiSpec World.
Open Scope Z_scope.

(** Numerator and denominator are smaller than 324. *)
Definition smallNumber (q : Q) : Prop := Z.abs (Qnum q) < 324 /\ Z.pos (Qden q) < 324.
(** The expression isn't a large number, nor a product with a large numeric factor. *)
Definition smallFactor (e : expr) : Prop :=
  match e with Num q => smallNumber q | Prod l => forall q, In (Num q) l -> smallNumber q | _ => True end.

(** [polyTerm Y t d]: the program [t] is made of integers, fractions, symbols, sums, differences,
    products, powers with positive integer exponents, divisions by numbers, calls of expand and
    substitutions for symbols (that aren't declared positive) in expanded polynomials; its result has
    degree at most [d].  The numeric factor of the base of a power and of a replacement and the number
    that is divided by must be small when they are computed: powers of larger numbers can be wrong, see C04. *)
Inductive polyTerm (Y : sys) : term -> Z -> Prop :=
| p_int z : polyTerm Y (TInt z) 0
| p_frac n d : d <> 0 -> polyTerm Y (TFrac n d) 0
| p_sym n p : polyTerm Y (TSym n p) 1
| p_add a b d d' : polyTerm Y a d -> polyTerm Y b d' -> polyTerm Y (TAdd a b) (Z.max d d')
| p_sub a b d d' : polyTerm Y a d -> polyTerm Y b d' -> polyTerm Y (TSub a b) (Z.max d d')
| p_neg a d : polyTerm Y a d -> polyTerm Y (TNeg a) d
| p_mul a b d d' : polyTerm Y a d -> polyTerm Y b d' -> polyTerm Y (TMul a b) (d + d')
| p_pow a d n : polyTerm Y a d -> 1 <= n ->
    (forall F k m e facts, build (world Y F k) m a = Ok e facts -> smallFactor e) -> polyTerm Y (TPow a (TInt n)) (d * n)
| p_div a b d d' : polyTerm Y a d -> polyTerm Y b d' ->
    (forall F k m e facts, build (world Y F k) m b = Ok e facts -> exists q, e = Num q /\ q <> 0%Q /\ smallNumber q) ->
    polyTerm Y (TDiv a b) (Z.max d d')
| p_expand a d : polyTerm Y a d -> polyTerm Y (TExpand a) d
| p_subst a b n d d' : polyTerm Y a d -> polyTerm Y b d' ->
    (forall F k m e facts, build (world Y F k) m b = Ok e facts -> smallFactor e) ->
    polyTerm Y (TSubst (TExpand a) n false b) (Z.max d' (Z.max 1 d' * d)).

(** The program returns [e], in the model with some bounds and thus with all larger ones. *)
Definition returns (Y : sys) (t : term) (e : expr) : Prop := exists F k n facts, build (world Y F k) n t = Ok e facts.
