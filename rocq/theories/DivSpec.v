(** Polynomials without negative exponents, and division: specification for C50.  The expressions for
    polynomials and their values are those of LaurentSpec.v. *)
From Verif Require Export RingSpec.
From Verif Require Export LaurentSpec.
Open Scope Z_scope.

(** A polynomial in normal form whose exponents are positive. *)
Definition ordinary (p : poly) : Prop := polyOK p /\ forall m f, In m p -> In f (snd m) -> 0 < snd f.
(** The symbol t has the exponent k in the term m. *)
Definition exponentIs (t : sym) (m : mono) (k : Z) : Prop := In (t, k) (snd m) \/ k = 0 /\ forall f, In f (snd m) -> fst f <> t.
(** The sum of all exponents. *)
Definition termDegree (m : mono) : Z := fold_right (fun f a => snd f + a) 0 (snd m).
(** The largest sum of exponents. *)
Definition totalDegree (p : poly) : Z := fold_right (fun m a => Z.max (termDegree m) a) 0 p.
Definition hasSymbol (t : sym) (p : poly) : Prop := exists m f, In m p /\ In f (snd m) /\ fst f = t.

(** u is a multiple of v. *)
Definition multipleOf (v u : poly) : Prop := exists w, ordinary w /\ forall r, allPos r -> (polyV r u = polyV r w * polyV r v)%R.
(** The coefficients of the terms of the highest degree are positive.  With one symbol there is one such
    term. *)
Definition leadPositive (p : poly) : Prop := forall m, In m p -> termDegree m = totalDegree p -> (0 < Q2R (fst m))%R.
