(** Specification of computing in a wider type. *)
From Coq Require Import ZArith QArith List.
From Verif Require Import PyBase FPModel FPSpec FloatModel.
Import ListNotations.
Open Scope Z_scope.

(** An operation on two values of the type f done in the type g: F(G(x) op G(y)). *)
Definition via (f g : fmt) (h : fpv -> fparg -> res fpv) (x y : fpv) : res fpv :=
  x' <- fp_new (Some g) (PFP x) ;;
  y' <- fp_new (Some g) (PFP y) ;;
  r <- h x' (AFP y') ;;
  fp_new (Some f) (PFP r).
(** h is one of + - * / and q the exact result of applying it to a and b. *)
Definition exact_result (h : fpv -> fparg -> res fpv) (a b q : Q) : Prop :=
  (h = fp_add /\ q = a + b)%Q \/ (h = fp_sub /\ q = a - b)%Q \/ (h = fp_mul /\ q = a * b)%Q \/ (h = fp_div /\ ~ b == 0 /\ q = a / b)%Q.
(** w is the value z; if the exact result is zero, w and z are zeros and their signs are left open. *)
Definition same_result (q : Q) (w z : fpv) : Prop :=
  (~ (q == 0)%Q -> w = z) /\ fp_eq w (AFP z) = Ok true.
