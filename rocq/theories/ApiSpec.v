(** The mathematical meaning of a program that uses the public interface.  This is specification: it
    refers to real arithmetic only, not to the algorithms. *)
From Verif Require Export ApiModel RunSpec.
Open Scope R_scope.

Definition omap (f : R -> option R) (a : option R) : option R := match a with Some v => f v | None => None end.
Definition omap2 (f : R -> R -> option R) (a b : option R) : option R :=
  match a, b with Some v, Some w => f v w | _, _ => None end.

Fixpoint tval (r : env) (t : term) : option R :=
  match t with
  | TInt z => Some (IZR z)
  | TFrac n d => if Req_EM_T (IZR d) 0 then None else Some (IZR n / IZR d)
  | TSym n p => Some (r n p)
  | TConst CPi => Some PI
  | TConst CE => Some (exp 1)
  | TAdd a b => omap2 (fun v w => Some (v + w)) (tval r a) (tval r b)
  | TSub a b => omap2 (fun v w => Some (v - w)) (tval r a) (tval r b)
  | TMul a b => omap2 (fun v w => Some (v * w)) (tval r a) (tval r b)
  | TDiv a b => omap2 (fun v w => if Req_EM_T w 0 then None else Some (v / w)) (tval r a) (tval r b)
  | TNeg a => omap (fun v => Some (- v)) (tval r a)
  | TPow a b => omap2 rpow (tval r a) (tval r b)
  | TSqrt a => omap (fun v => if Rle_dec 0 v then Some (sqrt v) else None) (tval r a)
  | TLog a => omap (fun v => if Rlt_dec 0 v then Some (ln v) else None) (tval r a)
  | TTrig f a => match f with FLog | FAtan2 => None | _ => omap (fct1 f) (tval r a) end
  | TAtan2 a b => omap2 angle (tval r a) (tval r b)
  | TSubst a n p b =>
      (* a positive symbol stands for positive values only *)
      omap (fun v => if p then if Rlt_dec 0 v then tval (upd r n p v) a else None else tval (upd r n p v) a) (tval r b)
  | TExpand a | TNormal a | TSimplify a => tval r a
  end.

(** The facts an execution took for granted are true for the assignment r: for [st = true] with positive
    symbols standing for positive values, for [st = false] with positive symbols standing for nonnegative
    values, see [holds]. *)
Definition rightFacts (r : env) (facts : list cond) : Prop := exists st, Forall (holds st r) facts.
