(** C35 with IEEE doubles: sine and cosine of multiples of pi/8 and pi/12.  The notions used in the statements are in
    EvalSpec.v (accurate), Sem.v (eval, posEnv), PiBase.v (noFct: no function occurs in the expression). *)
From Coq Require Import Reals List Arith.
From Verif Require Import ApiModel World Run Sem EvalSpec EvalAmple PiBase PiMultiples PiTan.
Import ListNotations.
Open Scope Z_scope.

(** sin(a/b*pi) and cos(a/b*pi) return, for b = 8 and b = 12, an expression without functions that has the value of the
    function, for positive and negative a and every number of full turns.  Full statement: without the bound for a; also
    for tan (next theorem). *)
Theorem C35_eighths_twelfths_partial : forall lib r f a b, accurate lib -> posEnv r -> In f [FSin; FCos] -> b = 8 \/ b = 12 -> Z.abs a < 2 ^ 290 ->
  exists e, noFct e = true /\ eval r e = Some (match f with FSin => sin | _ => cos end (IZR a / IZR b * PI)%R) /\
    exists F0 k0, forall F k n, (F0 <= F)%nat -> (k0 <= k)%nat ->
      exists facts, build (world (doubleSys lib 1000) F k) n (TTrig f (TMul (TFrac a b) (TConst CPi))) = Ok e facts.
Proof. exact eighths_twelfths. Qed.
Print Assumptions C35_eighths_twelfths_partial.

(** sin(-(10^60 + 1)*pi/12). *)
Example C35_eighths_twelfths_case : exists lib e F k facts,
  build (world (doubleSys lib 1000) F k) 0 (TTrig FSin (TMul (TFrac (- (10 ^ 60 + 1)) 12) (TConst CPi))) = Ok e facts /\ noFct e = true.
Proof.
  exists realLibrary.
  destruct (C35_eighths_twelfths_partial realLibrary (fun _ _ => 1%R) FSin (- (10 ^ 60 + 1)) 12 library_exists (fun _ => Rlt_0_1) (or_introl eq_refl) (or_intror eq_refl)
    eq_refl) as (e & C & _ & F0 & k0 & R). destruct (R F0 k0 0%nat (le_n _) (le_n _)) as [facts E]. exists e, F0, k0, facts. now split.
Qed.

(** tan(a/b*pi) is, for b = 8 and b = 6, an expression without functions that has the value of the tangent, and Undefined
    where there is none.  tan(3/4*pi) and the like pass an increment of an end iterator (C40), which is taken to be
    harmless here.  Full statement: without the bound for a; also for b = 12. *)
Theorem C35_tan_eighths_sixths_partial : forall lib r a b, accurate lib -> posEnv r -> b = 8 \/ b = 6 -> Z.abs a < 2 ^ 290 ->
  exists e, noFct e = true /\
    (cos (IZR a / IZR b * PI) = 0%R -> e = Undef) /\ (cos (IZR a / IZR b * PI) <> 0%R -> eval r e = Some (tan (IZR a / IZR b * PI))) /\
    exists F0 k0, forall F k n, (F0 <= F)%nat -> (k0 <= k)%nat ->
      exists facts, build (world (doubleSys lib 1000) F k) n (TTrig FTan (TMul (TFrac a b) (TConst CPi))) = Ok e facts.
Proof. exact eighths_sixths. Qed.
Print Assumptions C35_tan_eighths_sixths_partial.

(** tan(-(10^60 + 1)*pi/6); tan(-(10^60 + 5)*pi/6) is Undefined. *)
Example C35_tan_eighths_sixths_case : exists lib e F k facts facts',
  build (world (doubleSys lib 1000) F k) 0 (TTrig FTan (TMul (TFrac (- (10 ^ 60 + 1)) 6) (TConst CPi))) = Ok e facts /\ noFct e = true /\
  build (world (doubleSys lib 1000) F k) 0 (TTrig FTan (TMul (TFrac (- (10 ^ 60 + 5)) 6) (TConst CPi))) = Ok Undef facts'.
Proof.
  exists realLibrary.
  destruct (C35_tan_eighths_sixths_partial realLibrary (fun _ _ => 1%R) (- (10 ^ 60 + 1)) 6 library_exists (fun _ => Rlt_0_1) (or_intror eq_refl) eq_refl)
    as (e & C & _ & _ & F0 & k0 & R).
  destruct (C35_tan_eighths_sixths_partial realLibrary (fun _ _ => 1%R) (- (10 ^ 60 + 5)) 6 library_exists (fun _ => Rlt_0_1) (or_intror eq_refl) eq_refl)
    as (e1 & _ & U & _ & F1 & k1 & R1).
  assert (U' : e1 = Undef).
  { apply U. replace (IZR (- (10 ^ 60 + 5)) / 6 * PI)%R with (IZR ((- (10 ^ 60 + 5)) * 4) / 24 * PI)%R by (rewrite mult_IZR; field). apply cos_zero. reflexivity. }
  subst e1. destruct (R (F0 + F1)%nat (k0 + k1)%nat 0%nat (Nat.le_add_r _ _) (Nat.le_add_r _ _)) as [facts E].
  destruct (R1 (F0 + F1)%nat (k0 + k1)%nat 0%nat (Plus.le_plus_r _ _) (Plus.le_plus_r _ _)) as [facts' E'].
  exists e, (F0 + F1)%nat, (k0 + k1)%nat, facts, facts'. exact (conj E (conj C E')).
Qed.
