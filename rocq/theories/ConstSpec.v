(** Specification of make_constant. *)
From Coq Require Import ZArith.
Open Scope Z_scope.

(** The size the constant gets: the one asked for, or that of x. *)
Definition const_size (n : Z) (size : option Z) : Z := match size with None => n | Some k => k end.
