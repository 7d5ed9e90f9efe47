(** make_constant of the z3 family (hwtypes/z3_bit_vector.py:246-249). Definitions only; the concrete one
    is in BVModel.v and the SMT one in SMTModel.v. *)
From Verif Require Import PyBase BVModel SMTTerm SMTModel Z3Model.

(** make_constant, z3_bit_vector.py:246-249. *)
Definition z_make_constant (S : simplifier) (x : svec) (v : sval) (size : option Z) : res svec :=
  match size with
  | None => z_construct S (skind x) (ssize x) v
  | Some n => z_construct S (skind x) n v
  end.
