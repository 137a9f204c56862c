(** Vocabulary for the statements about expressions (C05 to C08, C29). *)
From Verif Require Import ExprModel.
Open Scope Z_scope.

(** Undefined does not occur in the expression. *)
Inductive defined : expr -> Prop :=
| def_num q : defined (Num q)
| def_sym n p : defined (Sym n p)
| def_cst c : defined (Cst c)
| def_fct f l : (forall x, In x l -> defined x) -> defined (Fct f l)
| def_sum l : (forall x, In x l -> defined x) -> defined (Sum l)
| def_prod l : (forall x, In x l -> defined x) -> defined (Prod l)
| def_pow b e : defined b -> defined e -> defined (Pow b e).

(** Expressions as the library builds them, without atan2 and with all numerics
    in [N]: sums and products have at least two operands, a power's exponent isn't
    1, functions have one argument. *)
Inductive orderable (N : Q -> Prop) : expr -> Prop :=
| or_num q : N q -> orderable N (Num q)
| or_sym n p : orderable N (Sym n p)
| or_cst c : orderable N (Cst c)
| or_fct f x : orderable N x -> orderable N (Fct f [x])
| or_sum x y l : (forall z, In z (x :: y :: l) -> orderable N z) -> orderable N (Sum (x :: y :: l))
| or_prod x y l : (forall z, In z (x :: y :: l) -> orderable N z) -> orderable N (Prod (x :: y :: l))
| or_pow b e : e <> Num 1 -> orderable N b -> orderable N e -> orderable N (Pow b e).

(** [lt] is a strict total order on [D]. *)
Record strictTotal {A} (D : A -> Prop) (lt : A -> A -> Prop) : Prop := {
  st_irrefl : forall a, D a -> ~ lt a a;
  st_trans : forall a b c, D a -> D b -> D c -> lt a b -> lt b c -> lt a c;
  st_total : forall a b, D a -> D b -> a <> b -> lt a b \/ lt b a
}.
