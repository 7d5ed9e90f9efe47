(** Specification of type modifiers: superclasses, read off the __bases__ only. *)
From Verif Require Import PyBase MetaModel ModModel.

(** [a] is [b] or has it among its (transitive) bases. *)
Inductive ancestor (s : mst) : nat -> nat -> Prop :=
| anc_refl : forall a, ancestor s a a
| anc_step : forall a b c, In b (k_bases (get_kls s a)) -> ancestor s b c -> ancestor s a c.

(** A state a program can reach. *)
Definition reachable (s : mst) : Prop := exists h, s = orun mst0 h.

(** Some superclass of [c] (or [c] itself) was made by applying the modifier [m]. *)
Definition modified_above (s : mst) (m c : nat) : Prop := exists x, ancestor s c x /\ get_modifier s x = Ok m.
