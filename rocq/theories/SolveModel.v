(** Model of the linear solver: src/directsolve.cpp, src/solve.cpp and the templates in
    include/tsym/solve.h.

    The entries are of an arbitrary type [T] with the arithmetic of class Var given as a record,
    so that the theorems hold for every entry type whose arithmetic is sound.  A
    SquareMatrixAdaptor (src/stdvecwrapper.h:21-33) is a function of row and column. *)
From Coq Require Import List Arith Bool.
Import ListNotations.

(** The operations of Var used by the solver: include/tsym/var.h operators, simplify and
    complexity in src/functions.cpp. *)
Record entryOps (T : Type) := mkEntry {
  e_zero : T;
  e_one : T;
  e_mone : T;
  e_add : T -> T -> T;
  e_sub : T -> T -> T;
  e_mul : T -> T -> T;
  e_div : T -> T -> T;
  e_simp : T -> T;
  e_isZero : T -> bool;   (* operator== with 0 *)
  e_comp : T -> nat
}.
Arguments e_zero {T}. Arguments e_one {T}. Arguments e_mone {T}. Arguments e_add {T}. Arguments e_sub {T}.
Arguments e_mul {T}. Arguments e_div {T}. Arguments e_simp {T}. Arguments e_isZero {T}. Arguments e_comp {T}.

(** enum class Algo, include/tsym/solve.h:12. *)
Inductive algo := Gauss | GaussLCPivot.

Section Solve.
  Context {T : Type} (o : entryOps T).

  Definition mat := nat -> nat -> T.
  Definition vec := nat -> T.

  Definition upd (m : mat) (i j : nat) (x : T) : mat :=
    fun a b => if (a =? i) && (b =? j) then x else m a b.
  Definition updV (v : vec) (i : nat) (x : T) : vec :=
    fun a => if a =? i then x else v a.

  (** Indices a, a+1, ..., b-1 of a for loop. *)
  Definition range (a b : nat) : list nat := seq a (b - a).

  (** firstNonZeroPivot, src/directsolve.cpp:7-16; [None]: invalid_argument. *)
  Definition firstNonZeroPivot (dim : nat) (m : mat) (row : nat) : option nat :=
    find (fun i => negb (e_isZero o (m i row))) (range row dim).

  (** leastComplexityPivot, src/directsolve.cpp:18-34; [maxU] is the largest unsigned. *)
  Definition leastComplexityPivot (maxU : nat) (dim : nat) (m : mat) (row : nat) : nat :=
    snd (fold_left (fun st i =>
      let comp := e_comp o (m i row) in
      if negb (e_isZero o (m i row)) && (comp <? fst st) then (comp, i) else st)
      (range row dim) (maxU, row)).

  (** selectPivot, src/solve.cpp:22-25. *)
  Definition selectPivot (maxU : nat) (a : algo) (dim : nat) (m : mat) (row : nat) : option nat :=
    match a with
    | Gauss => firstNonZeroPivot dim m row
    | GaussLCPivot => Some (leastComplexityPivot maxU dim m row)
    end.

  (** swapRows, swapScalar, src/directsolve.cpp:38-47. *)
  Definition swapRows (m : mat) (r s : nat) : mat :=
    fun a b => if a =? r then m s b else if a =? s then m r b else m a b.
  Definition swapScalar (v : vec) (r s : nat) : vec :=
    fun a => if a =? r then v s else if a =? s then v r else v a.

  (** The elimination below the pivot in column [j], src/directsolve.cpp:68-73. *)
  Definition elimRow (dim j : nat) (m : mat) (i : nat) : mat :=
    let m1 := upd m i j (e_simp o (e_div o (m i j) (m j j))) in
    fold_left (fun m k => upd m i k (e_simp o (e_sub o (m i k) (e_mul o (m i j) (m j k)))))
      (range (S j) dim) m1.
  Definition elimCol (dim j : nat) (m : mat) : mat :=
    fold_left (elimRow dim j) (range (S j) dim) m.

  (** State of eliminateGauss: matrix, right hand side, number of row swaps. *)
  Record gstate := mkG { g_m : mat; g_rhs : option vec; g_swaps : nat }.

  (** One iteration of the outer loop of eliminateGauss, src/directsolve.cpp:56-74. *)
  Definition gaussStep (piv : nat -> mat -> nat -> option nat) (dim : nat) (s : gstate) (j : nat) : option gstate :=
    match piv dim (g_m s) j with
    | None => None
    | Some p =>
        let s1 := if p =? j then s
                  else mkG (swapRows (g_m s) j p)
                           (match g_rhs s with Some v => Some (swapScalar v j p) | None => None end)
                           (S (g_swaps s)) in
        Some (mkG (elimCol dim j (g_m s1)) (g_rhs s1) (g_swaps s1))
    end.

  Fixpoint gaussLoop (piv : nat -> mat -> nat -> option nat) (dim : nat) (js : list nat) (s : gstate) : option gstate :=
    match js with
    | [] => Some s
    | j :: rest =>
        match gaussStep piv dim s j with
        | None => None
        | Some s' => gaussLoop piv dim rest s'
        end
    end.

  (** eliminateGauss, src/directsolve.cpp:51-77. *)
  Definition eliminateGauss (piv : nat -> mat -> nat -> option nat) (dim : nat) (m : mat) (rhs : option vec) : option gstate :=
    gaussLoop piv dim (range 0 (dim - 1)) (mkG m rhs 0).

  (** Forward substitution, src/directsolve.cpp:86-88. *)
  Definition forwardRow (m : mat) (rhs : vec) (i : nat) : vec :=
    fold_left (fun r j => updV r i (e_sub o (r i) (e_mul o (m i j) (r j)))) (range 0 i) rhs.
  Definition forward (dim : nat) (m : mat) (rhs : vec) : vec :=
    fold_left (forwardRow m) (range 0 dim) rhs.

  (** One iteration of the backward substitution, src/directsolve.cpp:90-100; the state is the
      matrix and x. *)
  Definition backRow (dim : nat) (rhs : vec) (st : mat * vec) (i : nat) : option (mat * vec) :=
    let (m, x) := st in
    let x1 := fold_left (fun x j => updV x i (e_sub o (x i) (e_mul o (m i j) (x j)))) (range (S i) dim) x in
    let m1 := upd m i i (e_simp o (m i i)) in
    if e_isZero o (m1 i i) then None
    else Some (m1, updV x1 i (e_simp o (e_div o (e_add o (rhs i) (x1 i)) (m1 i i)))).

  Fixpoint backLoop (dim : nat) (rhs : vec) (is : list nat) (st : mat * vec) : option (mat * vec) :=
    match is with
    | [] => Some st
    | i :: rest => match backRow dim rhs st i with None => None | Some st' => backLoop dim rhs rest st' end
    end.

  (** computeSolution, src/directsolve.cpp:79-101; [x] starts as zero (lines 83-84). *)
  Definition computeSolution (dim : nat) (m : mat) (rhs : vec) : option vec :=
    match backLoop dim (forward dim m rhs) (rev (range 0 dim)) (m, fun _ => e_zero o) with
    | None => None
    | Some (_, x) => Some x
    end.

  (** data[i*dim + j], src/stdvecwrapper.h:25-32; data[i], lines 11-14. *)
  Definition ofVector (l : list T) : vec := fun i => nth i l (e_zero o).
  Definition ofFlat (l : list T) (dim : nat) : mat := fun i j => nth (i * dim + j) l (e_zero o).
  Definition toVector (dim : nat) (v : vec) : list T := map v (range 0 dim).

  (** detail::solve, src/solve.cpp:28-41; [None]: invalid_argument. *)
  Definition solveDetail (maxU : nat) (a : algo) (A b : list T) (dim : nat) : option (list T) :=
    match eliminateGauss (selectPivot maxU a) dim (ofFlat A dim) (Some (ofVector b)) with
    | None => None
    | Some s =>
        match g_rhs s with
        | None => None
        | Some rhs =>
            match computeSolution dim (g_m s) rhs with
            | None => None
            | Some x => Some (toVector dim x)
            end
        end
    end.

  (** detFromPlu, src/solve.cpp:10-19. *)
  Definition detFromPlu (dim : nat) (m : mat) (swaps : nat) : T :=
    e_simp o (fold_left (fun d i => e_mul o d (m i i)) (range 0 dim)
      (if Nat.even swaps then e_one o else e_mone o)).

  (** detail::determinant, src/solve.cpp:43-53. *)
  Definition determinantDetail (maxU : nat) (a : algo) (A : list T) (dim : nat) : option T :=
    match eliminateGauss (selectPivot maxU a) dim (ofFlat A dim) None with
    | None => None
    | Some s => Some (detFromPlu dim (g_m s) (g_swaps s))
    end.

  (** Column [i] of detail::invert, src/solve.cpp:62-80. *)
  Definition invertColumn (maxU : nat) (a : algo) (A : list T) (dim i : nat) : option (list T) :=
    solveDetail maxU a A (map (fun j => if i =? j then e_one o else e_zero o) (range 0 dim)) dim.

  Fixpoint sequence {X} (l : list (option X)) : option (list X) :=
    match l with
    | [] => Some []
    | None :: _ => None
    | Some x :: r => match sequence r with None => None | Some xs => Some (x :: xs) end
    end.

  (** detail::invert, src/solve.cpp:55-83: entry (r, i) of the result is entry r of column i. *)
  Definition invertDetail (maxU : nat) (a : algo) (A : list T) (dim : nat) : option (list T) :=
    match sequence (map (invertColumn maxU a A dim) (range 0 dim)) with
    | None => None
    | Some cols =>
        Some (flat_map (fun r => map (fun i => nth r (nth i cols []) (e_zero o)) (range 0 dim)) (range 0 dim))
    end.

  (** ** Skip fields, include/tsym/solve.h *)

  (** toStdVec for vectors, lines 53-71. *)
  Definition toStdVec (src : vec) (skip : nat -> bool) (dim : nat) : list T :=
    flat_map (fun i => if skip i then [] else [src i]) (range 0 dim).
  (** toStdVec for matrices, lines 73-96. *)
  Definition toStdMat (src : mat) (skip : nat -> bool) (dim : nat) : list T :=
    flat_map (fun i => if skip i then [] else
      flat_map (fun j => if skip j then [] else [src i j]) (range 0 dim)) (range 0 dim).

  (** fromStdVec for vectors, lines 98-111: the iterator [value] runs through the source;
      reading past its end would be undefined behaviour ([None]). *)
  Fixpoint fromStdVec (idx : list nat) (skip : nat -> bool) (src : list T) (dest : vec) : option vec :=
    match idx with
    | [] => Some dest
    | i :: rest =>
        if skip i then fromStdVec rest skip src dest
        else match src with
             | [] => None
             | v :: src' => fromStdVec rest skip src' (updV dest i v)
             end
    end.

  (** fromStdVec for matrices, lines 113-133. *)
  Fixpoint fromStdRow (i : nat) (idx : list nat) (skip : nat -> bool) (src : list T) (dest : mat) : option (list T * mat) :=
    match idx with
    | [] => Some (src, dest)
    | j :: rest =>
        if skip j then fromStdRow i rest skip src dest
        else match src with
             | [] => None
             | v :: src' => fromStdRow i rest skip src' (upd dest i j v)
             end
    end.
  Fixpoint fromStdMat (dim : nat) (idx : list nat) (skip : nat -> bool) (src : list T) (dest : mat) : option mat :=
    match idx with
    | [] => Some dest
    | i :: rest =>
        if skip i then fromStdMat dim rest skip src dest
        else match fromStdRow i (range 0 dim) skip src dest with
             | None => None
             | Some (src', dest') => fromStdMat dim rest skip src' dest'
             end
    end.

  (** Outcome of a call: result, invalid_argument, undefined behaviour. *)
  Inductive outcome (X : Type) := Returns (x : X) | Throws | UB.
  Global Arguments Returns {X}. Global Arguments Throws {X}. Global Arguments UB {X}.

  (** solve, include/tsym/solve.h:140-152; [x] is the solution vector before the call. *)
  Definition solve (maxU : nat) (a : algo) (A : mat) (b x : vec) (skip : nat -> bool) (dim : nat) : outcome vec :=
    let coeff := toStdMat A skip dim in
    let rhs := toStdVec b skip dim in
    match solveDetail maxU a coeff rhs (length rhs) with
    | None => Throws
    | Some r => match fromStdVec (range 0 dim) skip r x with None => UB | Some x' => Returns x' end
    end.

  (** determinant, include/tsym/solve.h:160-168. *)
  Definition determinant (maxU : nat) (a : algo) (A : mat) (skip : nat -> bool) (dim : nat) : outcome T :=
    let reducedDim := length (filter (fun i => negb (skip i)) (range 0 dim)) in
    match determinantDetail maxU a (toStdMat A skip dim) reducedDim with
    | None => Throws
    | Some d => Returns d
    end.

  (** invert, include/tsym/solve.h:175-185. *)
  Definition invert (maxU : nat) (a : algo) (A : mat) (skip : nat -> bool) (dim : nat) : outcome mat :=
    let reducedDim := length (filter (fun i => negb (skip i)) (range 0 dim)) in
    match invertDetail maxU a (toStdMat A skip dim) reducedDim with
    | None => Throws
    | Some r => match fromStdMat dim (range 0 dim) skip r A with None => UB | Some m => Returns m end
    end.
End Solve.
