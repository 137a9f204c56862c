(** A concrete floating point unit for examples: fixed point numbers with 96 binary digits.  The theorems
    hold for every [sys]; this one is used to run the model. *)
From Verif Require Export World.
Open Scope Z_scope.

Definition fbits : Z := 96.
Definition fone : Z := 2 ^ 96.
Definition fmul (a b : Z) : Z := Z.shiftr (a * b) fbits.
Definition fdiv (a b : Z) : Z := Z.shiftl a fbits / b.
Definition ofQ (q : Q) : Z := Z.shiftl (Qnum q) fbits / Zpos (Qden q).

(** sum of t_0 + t_1 + ... where t_{i+1} = next i t_i *)
Fixpoint series (n : nat) (i t acc : Z) (next : Z -> Z -> Z) : Z :=
  match n with O => acc | S n' => series n' (i + 1) (next i t) (acc + t) next end.
Definition atanhS (x : Z) : Z := (* x + x^3/3 + ... *)
  let y := fmul x x in
  snd (Nat.iter 40 (fun '(i, t, a) => (i + 2, fmul t y, a + t / i)) (1, x, 0)).
Definition atanS (x : Z) : Z :=
  let y := - fmul x x in
  snd (Nat.iter 60 (fun '(i, t, a) => (i + 2, fmul t y, a + t / i)) (1, x, 0)).
Definition fln2 : Z := Eval vm_compute in 2 * atanhS (fone / 3).
Definition fpi : Z := Eval vm_compute in 16 * atanS (fone / 5) - 4 * atanS (fone / 239).
Definition fln (x : Z) : Z :=
  let k := Z.log2 x - fbits in
  let m := if 0 <=? k then Z.shiftr x k else Z.shiftl x (- k) in
  2 * atanhS (fdiv (m - fone) (m + fone)) + k * fln2.
Definition fexp (x : Z) : Z :=
  let k := x / fln2 in
  let s := series 40 0 fone 0 (fun i t => fmul t (x - k * fln2) / (i + 1)) in
  if 0 <=? k then Z.shiftl s k else Z.shiftr s (- k).
Definition fsin (x0 : Z) : Z :=
  let x := x0 - (x0 / (2 * fpi)) * (2 * fpi) in
  let y := - fmul x x in series 40 0 x 0 (fun i t => fmul t y / ((2 * i + 2) * (2 * i + 3))).
Definition fcos (x0 : Z) : Z :=
  let x := x0 - (x0 / (2 * fpi)) * (2 * fpi) in
  let y := - fmul x x in series 40 0 fone 0 (fun i t => fmul t y / ((2 * i + 1) * (2 * i + 2))).
Definition fsqrt (x : Z) : Z := Z.sqrt (Z.shiftl x fbits).
Definition fhalf (x : Z) : Z := fdiv x (fone + fsqrt (fone + fmul x x)).
Definition fatan (x : Z) : Z :=
  let f x := 8 * atanS (fhalf (fhalf (fhalf x))) in if x <? 0 then - f (- x) else f x.
Definition fasin (x : Z) : Z :=
  let c := fsqrt (Z.max 0 (fone - fmul x x)) in
  if c =? 0 then (if x <? 0 then - (fpi / 2) else fpi / 2) else fatan (fdiv x c).
Definition fatan2 (y x : Z) : Z :=
  if x =? 0 then (if 0 <? y then fpi / 2 else - (fpi / 2))
  else if 0 <? x then fatan (fdiv y x) else if 0 <=? y then fatan (fdiv y x) + fpi else fatan (fdiv y x) - fpi.

(** Number(double), tryDoubleToFraction, src/number.cpp:24-74. *)
Definition mkNum (x : Z) : num Z :=
  let t := Z.quot (x * 10000 + (if 0 <? x then fone / 2 else - (fone / 2))) fone in
  if Z.abs (t * fone / 10000 - x) <? Z.shiftr fone 52 then NQ (Qred (t # 10000)) else ND x.
Definition toF (a : num Z) : Z := match a with NQ q => ofQ q | ND d => d end.
Definition fpow (b e : Z) : Z := fexp (fmul (fln b) e).

Definition refFloats : floats := {|
  fl_root n d := Some ((fpow (Z.shiftl n fbits) (fone / d) + fone / 2) / fone);
  fl_pow x d := match mkNum (fpow (ofQ x) (fone / d)) with NQ q => Some q | ND _ => None end
|}.

Definition refSys : sys := {|
  sD := Z;
  s_fl := refFloats;
  s_limit := 1000000;
  s_nlt := qltb;
  s_cst c := ND match c with CPi => fpi | CE => fexp fone end;
  s_add a b := mkNum (toF a + toF b);
  s_mul a b := mkNum (fmul (toF a) (toF b));
  s_pow a b :=
    if toF a =? 0 then (if toF b <? 0 then None else Some a)
    else if toF a <? 0 then
      match b with
      | NQ q => if qIsInt q then Some (mkNum ((if Z.even (qnum q) then 1 else -1) * fpow (- toF a) (toF b))) else None
      | ND _ => None
      end
    else Some (mkNum (fpow (toF a) (toF b)));
  s_fct f a := mkNum match f with
    | FSin => fsin (toF a) | FCos => fcos (toF a) | FTan => fdiv (fsin (toF a)) (fcos (toF a))
    | FAsin => fasin (toF a) | FAcos => fpi / 2 - fasin (toF a) | FAtan => fatan (toF a)
    | FLog => fln (toF a) | FAtan2 => 0 end;
  s_atan2 a b := mkNum (fatan2 (toF a) (toF b));
  s_lt a b := toF a <? toF b;
  s_eq a b := Z.abs (toF a - toF b) <? Z.shiftr (100 * Z.max fone (Z.max (Z.abs (toF a)) (Z.abs (toF b)))) 52
|}.

(** The world used in examples. *)
Definition W0 : oper := world refSys 40 40.
