(** The value a tree of the parser stands for.  Specification: real arithmetic only. *)
From Verif Require Export ApiSpec ParserModel.
Open Scope R_scope.

Fixpoint pval (r : env) (t : ptree) : option R :=
  match t with
  | PPi => Some PI
  | PEuler => Some (exp 1)
  | PSym n sub => Some (r (mkName (str n) (str sub) "") false)
  | PFloat _ => None                     (* floating point numbers have no exact value *)
  | PInt z => Some (IZR z)
  | PFct f a =>
      omap (fun v => match f with
                     | PSin => Some (sin v) | PCos => Some (cos v) | PAtan => Some (atan v)
                     | PTan => if Req_EM_T (cos v) 0 then None else Some (tan v)
                     | PAsin => if Rle_dec (-1) v then if Rle_dec v 1 then Some (asin v) else None else None
                     | PAcos => if Rle_dec (-1) v then if Rle_dec v 1 then Some (acos v) else None else None
                     | PLog => if Rlt_dec 0 v then Some (ln v) else None
                     | PSqrt => if Rle_dec 0 v then Some (sqrt v) else None
                     end) (pval r a)
  | PAtan2 y x => omap2 angle (pval r y) (pval r x)
  | PPow a b => omap2 rpow (pval r a) (pval r b)
  | PNeg a => omap (fun v => Some (- v)) (pval r a)
  | PMul a b => omap2 (fun v w => Some (v * w)) (pval r a) (pval r b)
  | PDiv a b => omap2 (fun v w => if Req_EM_T w 0 then None else Some (v / w)) (pval r a) (pval r b)
  | PAdd a b => omap2 (fun v w => Some (v + w)) (pval r a) (pval r b)
  | PSub a b => omap2 (fun v w => Some (v - w)) (pval r a) (pval r b)
  end.
