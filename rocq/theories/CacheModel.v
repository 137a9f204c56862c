(** Memory of the library between calls: the caches (src/cache.h, src/cache.cpp), the tables that are
    built once (src/numtrigosimpl.cpp:20-80) and the option for the resolution of primes
    (src/options.cpp).

    The code of a memorised function is any program that calls memorised functions and goes on with
    their results; what it computes in between is left open.  So the model covers all the functions
    listed below at once.  Simplifications: keys and results are lists of expressions (BasePtr results
    are lists of one element; the entries of a table are a flat list); the counter for temporary symbols
    (src/symbol.cpp), which normal() uses, isn't part of this memory. *)
From Verif Require Export ExprModel.
From Coq Require Import ZArith List.
Import ListNotations.

(** The memorised functions: simplifySum (src/sumsimpl.cpp:238-249), simplifyProduct
    (src/productsimpl.cpp:618-629), Base::normalViaCache (src/base.cpp:147-157), expandAsProduct
    (src/baseptrlistfct.cpp:153-186), poly::divide (src/poly.cpp:212-223), poly::gcd
    (src/poly.cpp:268-278), sineTable and tanTable (src/numtrigosimpl.cpp:20-80). *)
Inductive fid := FSum | FProd | FNormal | FExpand | FDivide | FGcd | FSineTable | FTanTable.
Definition fid_eqb (a b : fid) : bool :=
  match a, b with
  | FSum, FSum | FProd, FProd | FNormal, FNormal | FExpand, FExpand | FDivide, FDivide | FGcd, FGcd
  | FSineTable, FSineTable | FTanTable, FTanTable => true
  | _, _ => false
  end.
(** Only the cache of products has the option in its key (src/productsimpl.cpp:607-616, 621-623). *)
Definition keyed (f : fid) : bool := match f with FProd => true | _ => false end.
(** Static tables aren't registered for clearing. *)
Definition permanent (f : fid) : bool := match f with FSineTable | FTanTable => true | _ => false end.

(** The code of a function: it ends with a result, throws or calls a function. *)
Inductive prog :=
| Ret (v : list expr)
| Raise
| Call (f : fid) (args : list expr) (next : list expr -> prog).

(** One entry: function, option in the key, arguments, result. *)
Record entry := mkEntry { eFct : fid; eOpt : option Z; eArgs : list expr; eVal : list expr }.
Definition cache := list entry.

Section Code.
  (** The code of each function for each value of the option. *)
  Variable body : Z -> fid -> list expr -> prog.

  (** map.find: src/sumsimpl.cpp:243 and so on; equality of keys is areEqual (src/baseptrlist.cpp,
      productsimpl.cpp:609-615). *)
  Definition keyOpt (o : Z) (f : fid) : option Z := if keyed f then Some o else None.
  Definition optEqb (a b : option Z) : bool :=
    match a, b with Some x, Some y => Z.eqb x y | None, None => true | _, _ => false end.
  Definition matches (o : Z) (f : fid) (args : list expr) (e : entry) : bool :=
    fid_eqb f (eFct e) && optEqb (keyOpt o f) (eOpt e) && areEqual args (eArgs e).
  Definition lookup (o : Z) (f : fid) (args : list expr) (c : cache) : option (list expr) :=
    match find (matches o f args) c with Some e => Some (eVal e) | None => None end.

  (** Running code with memory: a call takes the stored result or runs the code of the function and
      stores its result, src/sumsimpl.cpp:243-248 and so on.  An exception stores nothing.  The number of
      nested calls is bounded by n ([None]: bound reached). *)
  Fixpoint run (n : nat) (o : Z) (p : prog) (c : cache) : option (option (list expr) * cache) :=
    match n with
    | O => None
    | S m =>
        match p with
        | Ret v => Some (Some v, c)
        | Raise => Some (None, c)
        | Call f args next =>
            match lookup o f args c with
            | Some v => run m o (next v) c
            | None =>
                match run m o (body o f args) c with
                | Some (Some v, c') => run m o (next v) (mkEntry f (keyOpt o f) args v :: c')
                | other => other
                end
            end
        end
    end.

  (** clearRegisteredCaches, src/cache.cpp:24-28. *)
  Definition clear (c : cache) : cache := filter (fun e => permanent (eFct e)) c.

  (** What a process does: calls of functions, clearing the caches, changes of the option
      (setMaxPrimeResolution, src/options.cpp:20-23). *)
  Inductive event := Ask (f : fid) (args : list expr) | Clear | SetOption (o : Z).
  Record process := mkProcess { pOpt : Z; pCache : cache }.
  (** The answer of a process to an event, if any. *)
  Definition step (n : nat) (s : process) (e : event) : option (process * option (option (list expr))) :=
    match e with
    | Ask f args =>
        match run n (pOpt s) (Call f args Ret) (pCache s) with
        | Some (v, c) => Some (mkProcess (pOpt s) c, Some v)
        | None => None
        end
    | Clear => Some (mkProcess (pOpt s) (clear (pCache s)), None)
    | SetOption o => Some (mkProcess o (pCache s), None)
    end.
  Fixpoint history (n : nat) (s : process) (l : list event) : option (process * list (option (list expr))) :=
    match l with
    | [] => Some (s, [])
    | e :: l' =>
        match step n s e with
        | Some (s', a) =>
            match history n s' l' with
            | Some (s'', as') => Some (s'', match a with Some v => v :: as' | None => as' end)
            | None => None
            end
        | None => None
        end
    end.
End Code.

(** A new process. *)
Definition fresh (o : Z) : process := mkProcess o [].
