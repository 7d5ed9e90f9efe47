(** Vocabulary for the printing of symbolic values. *)
From Coq Require Import String.
From Verif Require Import PyBase BVModel SMTTerm SPrintModel.

(** A class that exists: vectors have sizes from 0. *)
Definition real_cls (c : pcls) : Prop := match c with PVec _ c => 0 <= csize c | _ => True end.
(** One whose variables have more than one possible value. *)
Definition has_values (c : pcls) : Prop := match c with PVec _ c => 1 <= csize c | _ => True end.
(** Objects the constructors make. *)
Definition made (x : pobj) : Prop :=
  real_cls (p_cls x) /\ (x = new_value (p_cls x) (p_term x) \/ exists n, x = new_variable (p_cls x) n).
(** What a formula stands for under an assignment. *)
Inductive answer := AB (b : bool) | AZ (z : Z).
Definition stands_for (e : env) (t : formula) : answer :=
  match t with FB p => AB (evalb e p) | FV t => AZ (evalv e t) | FI i => AZ (evali e i) end.
(** The name of x, if it has one, is how the library prints the variable of that name. *)
Definition plain_name (show : formula -> string) (x : pobj) : Prop :=
  forall n, p_name x = Some n -> show (symbol (p_cls x) n) = n.
(** The library prints t and u differently unless they are the same formula. *)
Definition tells_apart (show : formula -> string) (t u : formula) : Prop := show t = show u -> t = u.
