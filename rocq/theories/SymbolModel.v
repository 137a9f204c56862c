(** Model of the symbol factory in src/symbol.cpp: the pool of named symbols, the static
    counter of temporary symbols and the destructor. *)
From Verif Require Export ExprModel.
From Coq Require Import DecimalString.
Open Scope Z_scope.

(** tmpSymbolNamePrefix, src/symbol.h:46. *)
Definition tmpPrefix : string := "tmp#"%string.

(** std::to_string(unsigned). *)
Definition toString (n : N) : string := NilZero.string_of_uint (N.to_uint n).

(** unsigned arithmetic with 32 bits. *)
Definition wrap (z : Z) : Z := z mod 4294967296.

(** Constructor of a temporary symbol, src/symbol.cpp:24-30. *)
Definition tmpName (id : Z) : name := nm (tmpPrefix ++ toString (Z.to_N id))%string.

(** The process state: the static pool (src/symbol.cpp:66), the static counter (line 14) and
    the temporary symbols that are referenced by somebody, identified by a serial number for
    the handle (their address). *)
Record pstate := mkP {
  p_pool : list ((name * bool) * expr);
  p_ctr : Z;
  p_live : list (nat * expr);
  p_next : nat
}.

Definition pinit : pstate := mkP [] 0 [] 0.

(** createTmpSymbol, src/symbol.cpp:85-90. *)
Definition createTmp (s : pstate) (pos : bool) : pstate * expr :=
  let c := wrap (p_ctr s + 1) in
  let e := Sym (tmpName c) pos in
  (mkP (p_pool s) c ((p_next s, e) :: p_live s) (S (p_next s)), e).

(** pool.find(key), src/symbol.cpp:67-70. *)
Fixpoint poolFind (pool : list ((name * bool) * expr)) (n : name) (pos : bool) : option expr :=
  match pool with
  | [] => None
  | (k, e) :: rest => if nameEq (fst k) n && Bool.eqb (snd k) pos then Some e else poolFind rest n pos
  end.

(** createNonEmptyName, src/symbol.cpp:63-73. *)
Definition createNonEmptyName (s : pstate) (n : name) (pos : bool) : pstate * expr :=
  match poolFind (p_pool s) n pos with
  | Some e => (s, e)
  | None => (mkP (((n, pos), Sym n pos) :: p_pool s) (p_ctr s) (p_live s) (p_next s), Sym n pos)
  end.

(** Symbol::create, src/symbol.cpp:38-61, 75-83. *)
Definition createSym (s : pstate) (n : name) (pos : bool) : pstate * expr :=
  if strEq (nvalue n) "" then (s, Undef)
  else if String.prefix tmpPrefix (nvalue n) then createTmp s pos
  else createNonEmptyName s n pos.

(** ~Symbol, src/symbol.cpp:32-36, when the last reference to handle [h] is dropped. *)
Definition dropTmp (s : pstate) (h : nat) : pstate :=
  match List.find (fun p => Nat.eqb (fst p) h) (p_live s) with
  | None => s
  | Some (_, Sym n _) =>
      mkP (p_pool s)
        (if String.prefix tmpPrefix (nvalue n) then wrap (p_ctr s - 1) else p_ctr s)
        (filter (fun p => negb (Nat.eqb (fst p) h)) (p_live s)) (p_next s)
  | Some _ => s
  end.

(** What a program does with symbols. *)
Inductive sop :=
| OCreate (n : name) (pos : bool)
| OTmp (pos : bool)
| ODrop (h : nat).

Definition sstep (s : pstate) (o : sop) : pstate :=
  match o with
  | OCreate n pos => fst (createSym s n pos)
  | OTmp pos => fst (createTmp s pos)
  | ODrop h => dropTmp s h
  end.

Definition srun (l : list sop) : pstate := fold_left sstep l pinit.
