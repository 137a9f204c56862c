(** Model of src/numpowersimpl.cpp for rational input (the branch
    computeNonRational, lines 53-62, only concerns doubles). *)
From Verif Require Export PrimeFacModel.
Open Scope Z_scope.

(** Payload, src/numpowersimpl.h:32-36. *)
Record payload := mkPay { pBase : Q; pExp : Q; pPre : Q }.

(** Outcome: a result, an exception, an endless loop / exhausted fuel. *)
Inductive nres (A : Type) := NOk (a : A) | NThrow | NLoop.
Arguments NOk {A}. Arguments NThrow {A}. Arguments NLoop {A}.
Definition nbind {A B} (m : nres A) (f : A -> nres B) : nres B :=
  match m with NOk a => f a | NThrow => NThrow | NLoop => NLoop end.
Definition nopt {A} (m : option A) (f : A -> nres A) : nres A :=
  match m with Some a => f a | None => NThrow end.
Notation "x <~ m ; k" := (nbind m (fun x => k)) (at level 60, right associativity).
Definition throwIfNone {A} (m : option A) : nres A := match m with Some a => NOk a | None => NThrow end.
Definition loopIfNone {A} (m : option A) : nres A := match m with Some a => NOk a | None => NLoop end.
(** A power that must be rational: integer exponents only. *)
Definition intPow (fl : floats) (b e : Q) : nres Q :=
  match toThe fl b e with PRat r => NOk r | _ => NThrow end.

(** isInputValid, src/numpowersimpl.cpp:23-26. *)
Definition npValid (p : payload) : bool := negb (qltb (pBase p) 0 && negb (qIsInt (pExp p))).

(** areValuesSmallEnough, src/numpowersimpl.cpp:139-147. *)
Definition npSmall (limit : Z) (p : payload) : bool :=
  negb ((Z.abs (qnum (pBase p)) >? limit) || (qden (pBase p) >? limit)
        || (Z.abs (qnum (pPre p)) >? limit) || (qden (pPre p) >? limit)).

(** adjustExpGreaterThanOne, src/numpowersimpl.cpp:211-223. *)
Definition npAdjustExp (fl : floats) (p : payload) : nres payload :=
  if qgtb (pExp p) 1 || qltb (pExp p) (-1 # 1) then
    let expFloor := ofZ (Z.quot (qnum (pExp p)) (qden (pExp p))) in
    ex <~ intPow fl (pBase p) expFloor;
    NOk (mkPay (pBase p) (qsub (pExp p) expFloor) (qmul (pPre p) ex))
  else NOk p.

(** defPreFacPrimesInPower, src/numpowersimpl.cpp:169-184: (prefactor primes, new
    prefactor).  The object's pfPrimes member is empty before. *)
Definition npPreFacPrimes (fl : floats) (p : payload) : nres (pfac * Q) :=
  e <~ throwIfNone (mkRat 1 (qnum (pExp p)));
  match toThe fl (pPre p) e with
  | PThrow => NThrow
  | PDbl => NOk (mkPf [] [], pPre p)
  | PRat r => f <~ loopIfNone (pfOf r);
              NOk (pfToThe f (qden (pExp p)), 1%Q)
  end.

(** cancel, src/numpowersimpl.cpp:149-162 with the methods of lines 164-209. *)
Definition npCancel (fl : floats) (p : payload) : nres payload :=
  nb <~ loopIfNone (pfOf (pBase p));
  pf <~ npPreFacPrimes fl p;
  let nb1 := pfMultiply nb (fst pf) in
  let '(nb2, extracted) := pfExtract nb1 (pExp p) in
  exv <~ throwIfNone (pfEval extracted);
  let pre1 := qmul (snd pf) exv in
  let '(nb3, exp1) := pfCollect nb2 (pExp p) in
  b <~ throwIfNone (pfEval nb3);
  let p1 := if qeqb b 1 then mkPay pre1 exp1 b else mkPay b exp1 pre1 in
  npAdjustExp fl p1.

(** shiftPreFacSignBack, src/numpowersimpl.cpp:234-243. *)
Definition npSignBack (neg : bool) (p : payload) : payload :=
  if neg then
    if qeqb (pExp p) 1 then mkPay (qmul (pBase p) (-1 # 1)) (pExp p) (pPre p)
    else mkPay (pBase p) (pExp p) (qmul (pPre p) (-1 # 1))
  else p.

(** computePosExpPosBase, computeAllPos: src/numpowersimpl.cpp:114-137. *)
Definition npPosPos (fl : floats) (limit : Z) (p : payload) : nres payload :=
  let neg := qltb (pPre p) 0 in
  let p1 := if neg then mkPay (pBase p) (pExp p) (qmul (pPre p) (-1 # 1)) else p in
  p2 <~ (if npSmall limit p1 then npCancel fl p1
         else if qIsInt (pExp p1) then npAdjustExp fl p1 else NOk p1);
  NOk (npSignBack neg p2).

(** computePosExp with shiftNegBase, src/numpowersimpl.cpp:96-112. *)
Definition npPosExp (fl : floats) (limit : Z) (p : payload) : nres payload :=
  if qltb (pBase p) 0 then
    ex <~ intPow fl (-1 # 1) (pExp p);
    npPosPos fl limit (mkPay (qmul (pBase p) (-1 # 1)) (pExp p) (qmul (pPre p) ex))
  else npPosPos fl limit p.

(** computeNegExp, src/numpowersimpl.cpp:78-94. *)
Definition npNegExp (fl : floats) (limit : Z) (p : payload) : nres payload :=
  pre1 <~ throwIfNone (qinv (pPre p));
  p1 <~ npPosExp fl limit (mkPay (pBase p) (qmul (pExp p) (-1 # 1)) pre1);
  pre2 <~ throwIfNone (qinv (pPre p1));
  if qeqb (pBase p1) 0 then NOk (mkPay (pBase p1) (pExp p1) pre2)
  else if qeqb (pExp p1) 1 then
    b <~ throwIfNone (qinv (pBase p1)); NOk (mkPay b (pExp p1) pre2)
  else NOk (mkPay (pBase p1) (qmul (pExp p1) (-1 # 1)) pre2).

(** adjustExpSignAndBase, src/numpowersimpl.cpp:225-232. *)
Definition npAdjustSign (p : payload) : nres payload :=
  if ((qnum (pBase p) =? 1) && negb (qeqb (pExp p) 1))
     || (qltb (pExp p) 0 && qIsFraction (pBase p)) then
    b <~ throwIfNone (qinv (pBase p)); NOk (mkPay b (qmul (pExp p) (-1 # 1)) (pPre p))
  else NOk p.

(** compute, computeRational, computeNegOrPosExp: src/numpowersimpl.cpp:43-76.  An invalid
    input is logged and left as it is. *)
Definition numPowerSimpl (fl : floats) (limit : Z) (p : payload) : nres payload :=
  if negb (npValid p) then NOk p
  else
    p1 <~ (if qltb (pExp p) 0 then npNegExp fl limit p else npPosExp fl limit p);
    npAdjustSign p1.
