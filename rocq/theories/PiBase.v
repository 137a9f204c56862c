(** Sine of the multiples of pi/12 and pi/8 in [0, 2*pi) with IEEE doubles: executions. *)
From Verif Require Import TrigApi EvalModel Run World Certain PiArith.
From Coq Require Import List.
Import ListNotations.
Open Scope Z_scope.

Definition sameDouble (a b : spec_float) : bool :=
  match a, b with S754_finite s m e, S754_finite s' m' e' => Bool.eqb s s' && Pos.eqb m m' && Z.eqb e e' | _, _ => false end.
(** The library with a given value of std::pow(2, 0.5). *)
Definition fixLib (lib : library) (m : positive) : library := mkLibrary
  (fun x y => if sameDouble x (dOfZ 2) && sameDouble y dHalf then S754_finite false m (-52) else l_pow lib x y)
  (l_fct lib) (l_atan2 lib).
Definition grid : list Q :=
  map (fun z => Qred (z # 24)) (filter (fun z => (z mod 2 =? 0)%Z || (z mod 3 =? 0)%Z) (map Z.of_nat (seq 0 48))).
(** No function is left. *)
Fixpoint noFct (e : expr) : bool :=
  match e with Fct _ _ => false | Sum l | Prod l => forallb noFct l | Pow a b => noFct a && noFct b | _ => true end.
Definition nilb {A} (l : list A) := match l with [] => true | _ => false end.
Definition sinOk (lib : library) (m : positive) (q : Q) : bool :=
  let Y := doubleSys (fixLib lib m) 1000 in let W := world Y 40 40 in
  match numSin Y W (piE q) with
  | Ok (Some e) l =>
      noFct e && nilb (doubtful l) &&
      match minus (world Y 40 41) [e] with Ok e' l' => noFct e' && nilb (doubtful l') && (negb (qeqb q 0) || isZero e') | _ => false end
  | _ => false
  end.
Lemma base1 lib : forallb (sinOk lib 6369051672525772) grid = true.
Proof. vm_compute. reflexivity. Qed.
Lemma base2 lib : forallb (sinOk lib 6369051672525773) grid = true.
Proof. vm_compute. reflexivity. Qed.
