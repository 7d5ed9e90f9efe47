(** Specification of the floating point class machinery, independent of method resolution orders and of the cache. *)
From Verif Require Import PyBase MetaModel FPModel FMetaModel.

(** [a] is [b] or has it among its (transitive) bases, reading the class statements only. *)
Inductive fsub (s : fmeta) : nat -> nat -> Prop :=
| fsub_refl : forall a, fsub s a a
| fsub_step : forall a b c, In b (fc_bases (get_fcls s a)) -> fsub s b c -> fsub s a c.

(** A class the program can still use, of the floating point kind, and its binding. *)
Definition is_fp (s : fmeta) (k : nat) : Prop := falive s k = true /\ fc_fp (get_fcls s k) = true.
Definition unbound (s : fmeta) (k : nat) : Prop := fc_binding (get_fcls s k) = None.

(** Ordinary classes (mixins) come after the floating point classes in the bases of every floating point class above [k]. *)
Definition fmixins_last (s : fmeta) (k : nat) : Prop :=
  forall x, fsub s k x -> fc_fp (get_fcls s x) = true ->
    exists bvs mixins, fc_bases (get_fcls s x) = bvs ++ mixins
      /\ Forall (fun b => fc_fp (get_fcls s b) = true) bvs /\ Forall (fun b => fc_fp (get_fcls s b) = false) mixins.

(** X[n], by indexing again. *)
Definition bound_version (s : fmeta) (n : fmt) (x : nat) : nat :=
  match getitem_fcls s x (FIdx n) with Ok (_, t) => t | Raise _ => 0%nat end.

(** The built-in classes: 1 AbstractFPVector, 2 FPVector. *)
Definition fbuiltin : list fmcall := [FMClass [1]]%nat.
