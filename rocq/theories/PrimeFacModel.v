(** Model of src/simpleprimepolicy.h and src/primefac.{h,cpp}. *)
From Verif Require Export NumberModel.
From Coq Require Import Mergesort Orders.
Open Scope Z_scope.

(** Outcome of a loop: [None] means that the fuel of the model is exhausted. *)

(** src/simpleprimepolicy.h:16-19 and 24-27: while (n % p == 0) { push p; n /= p; }.
    Returns the number of pushed factors and the remaining n. *)
Fixpoint divOut (fuel : nat) (p n : Z) : option (nat * Z) :=
  if Z.rem n p =? 0 then
    match fuel with
    | O => None
    | S f => match divOut f p (Z.quot n p) with
             | None => None
             | Some (k, r) => Some (S k, r)
             end
    end
  else Some (O, n).

(** src/simpleprimepolicy.h:23-27: for (i = 3; (double)i < upperLimit; i += 2) with
    upperLimit = sqrt(n0) + 0.5 (line 21), n0 being the odd part of the input.
    Simplification: the comparison with the double sqrt(n0) + 0.5 is carried out exactly:
    i < sqrt(n0) + 1/2 iff (2*i - 1)^2 < 4*n0 for i >= 1. *)
Definition belowLimit (i n0 : Z) : bool := (2 * i - 1) * (2 * i - 1) <? 4 * n0.

Fixpoint oddLoop (fuel dfuel : nat) (i n0 n : Z) : option (list Z * Z) :=
  if belowLimit i n0 then
    match fuel with
    | O => None
    | S f =>
        match divOut dfuel i n with
        | None => None
        | Some (k, r) =>
            match oddLoop f dfuel (i + 2) n0 r with
            | None => None
            | Some (ps, rest) => Some (repeat i k ++ ps, rest)
            end
        end
    end
  else Some ([], n).

(** SimplePrimePolicy::computeAndStore, src/simpleprimepolicy.h:9-31.  The fuel is
    enough for every positive n (see PrimeFacProofs); for n = 0 the while loop of
    lines 16-19 does not terminate: [None]. *)
Definition primeFactors (n : Z) : option (list Z) :=
  let dfuel := S (Z.to_nat (Z.log2 n)) in
  match divOut dfuel 2 n with
  | None => None
  | Some (k, n0) =>
      match oddLoop (S (Z.to_nat (Z.sqrt n0))) dfuel 3 n0 n0 with
      | None => None
      | Some (ps, r) => Some (repeat 2 k ++ ps ++ (if r >? 2 then [r] else []))
      end
  end.

(** The two sorted prime vectors of class PrimeFac, src/primefac.h:61-62. *)
Record pfac := mkPf { pfNum : list Z; pfDen : list Z }.

(** Constructor from a number, src/primefac.h:23-29, 51-55. *)
Definition pfOf (q : Q) : option pfac :=
  if qltb q 0 then Some (mkPf [] [])
  else match primeFactors (qnum q), primeFactors (qden q) with
       | Some n, Some d => Some (mkPf n d)
       | _, _ => None
       end.

(** duplicate, src/primefac.cpp:12-45: each maximal run of c equal elements becomes a
    run of n*c elements.  [run] is the length of the current run so far. *)
Fixpoint dupRuns (n : nat) (run : nat) (l : list Z) : list Z :=
  match l with
  | [] => []
  | x :: r =>
      match r with
      | y :: _ => if y =? x then dupRuns n (run + n) r
                  else repeat x run ++ dupRuns n n r
      | [] => repeat x run
      end
  end.

(** PrimeFac::toThe, src/primefac.cpp:48-60. *)
Definition pfToThe (f : pfac) (e : Z) : pfac :=
  let d l := if e =? 0 then [] else dupRuns (Z.to_nat (Z.abs e)) (Z.to_nat (Z.abs e)) l in
  let r := mkPf (d (pfNum f)) (d (pfDen f)) in
  if e <? 0 then mkPf (pfDen r) (pfNum r) else r.

(** cancelPrimes, src/primefac.cpp:83-97: removes common elements of two sorted vectors. *)
Fixpoint cancelPrimes (p1 : list Z) : list Z -> list Z * list Z :=
  fix inner (p2 : list Z) : list Z * list Z :=
    match p1, p2 with
    | [], _ => ([], p2)
    | _, [] => (p1, [])
    | x :: r1, y :: r2 =>
        if x <? y then let '(a, b) := cancelPrimes r1 p2 in (x :: a, b)
        else if y <? x then let '(a, b) := inner r2 in (a, y :: b)
        else cancelPrimes r1 r2
    end.

(** Insertion into a sorted list; [sortZ] stands for boost::sort, whose result on
    integers is the sorted permutation whatever the algorithm is. *)
Fixpoint insertZ (x : Z) (l : list Z) : list Z :=
  match l with
  | [] => [x]
  | y :: r => if x <=? y then x :: l else y :: insertZ x r
  end.
Definition sortZ (l : list Z) : list Z := fold_right insertZ [] l.

(** PrimeFac::merge, src/primefac.cpp:99-104. *)
Definition mergePrimes (target source : list Z) : list Z := sortZ (target ++ source).

(** PrimeFac::multiply, src/primefac.cpp:69-81. *)
Definition pfMultiply (f other : pfac) : pfac :=
  match pfNum other, pfDen other with
  | [], [] => f
  | _, _ =>
      let '(num, oden) := cancelPrimes (pfNum f) (pfDen other) in
      let '(den, onum) := cancelPrimes (pfDen f) (pfNum other) in
      mkPf (mergePrimes num onum) (mergePrimes den oden)
  end.

(** extractPrimes, src/primefac.cpp:108-125.  [prime], [cnt] are the loop variables
    prime and nPrime; [pend] holds the elements of the current group that are still in
    the vector in front of the iterator (they are erased when nPrime reaches expDenom).
    Returns (remaining source, target).  When a group is complete, std::prev of the
    iterator returned by erase is taken and nPrime is 0, while prime keeps its value:
    a following equal element increments nPrime to 1. *)
Fixpoint extractPrimes (d : Z) (prime cnt : Z) (pend : list Z) (l : list Z) : list Z * list Z :=
  match l with
  | [] => (pend, [])
  | x :: r =>
      if negb (prime =? x) then
        let '(a, b) := extractPrimes d x 1 [x] r in (pend ++ a, b)
      else if cnt + 1 =? d then
        let '(a, b) := extractPrimes d prime 0 [] r in (a, prime :: b)
      else extractPrimes d prime (cnt + 1) (pend ++ [x]) r
  end.

(** PrimeFac::extract, src/primefac.cpp:128-138: (remaining, extracted). *)
Definition pfExtract (f : pfac) (e : Q) : pfac * pfac :=
  let '(n, en) := extractPrimes (qden e) 0 0 [] (pfNum f) in
  let '(d, ed) := extractPrimes (qden e) 0 0 [] (pfDen f) in
  (mkPf n d, pfToThe (mkPf en ed) (qnum e)).

(** equalCountOrZero, src/primefac.cpp:155-162: walks over blocks of [guess] elements and
    compares the first and the last element of each block. *)
Fixpoint blocksEqual (fuel guess : nat) (l : list Z) : bool :=
  match l with
  | [] => true
  | x :: _ =>
      match fuel with
      | O => false
      | S f => (x =? nth (guess - 1) l 0) && blocksEqual f guess (skipn guess l)
      end
  end.

(** Length of the leading run of equal elements, src/primefac.cpp:166-168. *)
Fixpoint runLen (x : Z) (l : list Z) : nat :=
  match l with
  | [] => O
  | y :: r => if y =? x then S (runLen x r) else O
  end.

(** getEqualCountOf, src/primefac.cpp:164-178, for a vector that isn't empty. *)
Definition equalCountOf (l : list Z) : nat :=
  let firstSize := runLen (hd 0 l) l in
  if negb (Nat.eqb (Nat.modulo (length l) firstSize) 0) then 0%nat
  else if Nat.eqb firstSize 1 then 1%nat
  else if blocksEqual (length l) firstSize (skipn firstSize l) then firstSize else 0%nat.

(** PrimeFac::getEqualCount, src/primefac.cpp:182-195. *)
Definition equalCount (f : pfac) : nat :=
  match pfNum f, pfDen f with
  | [], [] => 0%nat
  | [], d => equalCountOf d
  | n, [] => equalCountOf n
  | n, d => if Nat.eqb (equalCountOf n) (equalCountOf d) then equalCountOf n else 0%nat
  end.

(** eraseRemoveDuplicates, src/primefac.cpp:199-203: std::unique drops repeated neighbours. *)
Fixpoint uniq (l : list Z) : list Z :=
  match l with
  | [] => []
  | x :: r => match r with
              | y :: _ => if x =? y then uniq r else x :: uniq r
              | [] => [x]
              end
  end.

(** PrimeFac::collectToNewExp, src/primefac.cpp:140-151: (collected primes, new exponent). *)
Definition pfCollect (f : pfac) (e : Q) : pfac * Q :=
  let c := equalCount f in
  if Nat.ltb 1 c then (mkPf (uniq (pfNum f)) (uniq (pfDen f)), qmul (ofZ (Z.of_nat c)) e)
  else match pfNum f, pfDen f with
       | [], [] => (f, 1%Q)
       | _, _ => (f, e)
       end.

(** PrimeFac::eval, src/primefac.cpp:222-228. *)
Definition prodZ (l : list Z) : Z := fold_left Z.mul l 1.
Definition pfEval (f : pfac) : option Q := mkRat (prodZ (pfNum f)) (prodZ (pfDen f)).
