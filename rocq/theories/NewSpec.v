(** Specification for new(klass, bind). *)
From Verif Require Import PyBase MetaModel HierModel.

(** No class made so far, collected or not, is [t]. *)
Definition unseen (s : meta) (t : nat) : Prop := (length (classes s) <= t)%nat.
Definition hunseen (s : hst) (t : nat) : Prop := (length (hclasses s) <= t)%nat.
