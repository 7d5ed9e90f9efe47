(** Vocabulary: a result of one arithmetic operation on finite values. *)
From Coq Require Import QArith.
From Verif Require Import PyBase FPModel FPSpec.

(** z is what one operation on finite values of the type f returns, and q is its exact result. *)
Inductive one_op (f : fmt) : Q -> fpv -> Prop :=
| op_add x y a b z : instance f x -> instance f y -> fvalue x a -> fvalue y b -> fp_add x (AFP y) = Ok z -> one_op f (a + b) z
| op_sub x y a b z : instance f x -> instance f y -> fvalue x a -> fvalue y b -> fp_sub x (AFP y) = Ok z -> one_op f (a - b) z
| op_mul x y a b z : instance f x -> instance f y -> fvalue x a -> fvalue y b -> fp_mul x (AFP y) = Ok z -> one_op f (a * b) z
| op_div x y a b z : instance f x -> instance f y -> fvalue x a -> fvalue y b -> ~ (b == 0)%Q -> fp_div x (AFP y) = Ok z -> one_op f (a / b) z
| op_fma x y w a b c z : instance f x -> instance f y -> instance f w -> fvalue x a -> fvalue y b -> fvalue w c ->
    fp_fma x (AFP y) (AFP w) = Ok z -> one_op f (a * b + c) z
| op_new n q : num_value n q -> one_op f q (fp_init f n).
