(** The functions of the code together: they call each other through the record [oper], and a world of
    depth k allows k nested calls ([Fuel] beyond).  All theorems hold for every depth. *)
From Verif Require Export NormalModel.

Section World.
  Variables (Y : sys) (F : nat).   (* the C++ library and the bound for loops *)

  (** One more level of calls. *)
  Definition step (W : oper) : oper := {|
    w_sum := sumCreate Y W F;
    w_prod := prodCreate Y W F;
    w_pow := powCreate W;
    w_spow := simplifyPower Y W;
    w_trig := trigCreate Y W F;
    w_atan2 := atan2Create Y W F;
    w_log := logCreate Y W;
    w_expand := expandExpr Y W F;
    w_subst := substExpr W;
    w_pos := isPositive Y W;
    w_neg := isNegative Y W;
    w_normal := normalTop W F;
    w_normalF := normalF Y W F;
    w_gcd := gcdWith Y W F
  |}.

  Fixpoint world (k : nat) : oper := match k with O => noOper | S k' => step (world k') end.
End World.
