(** Specification of the class machinery, independent of method resolution orders and of the cache. *)
From Verif Require Import PyBase MetaModel.

(** [a] is [b] or has it among its (transitive) bases, reading the class statements only. *)
Inductive sub (s : meta) : nat -> nat -> Prop :=
| sub_refl : forall a, sub s a a
| sub_step : forall a b c, In b (c_bases (get_cls s a)) -> sub s b c -> sub s a c.

(** A class the program can still use, of the bit-vector kind, and its size. *)
Definition is_bv (s : meta) (k : nat) : Prop := alive s k = true /\ c_bv (get_cls s k) = true.
Definition unsized (s : meta) (k : nat) : Prop := c_size (get_cls s k) = None.

(** Ordinary classes (mixins) come after the bit-vector classes in the bases of every bit-vector class above [k]. *)
Definition mixins_last (s : meta) (k : nat) : Prop :=
  forall x, sub s k x -> c_bv (get_cls s x) = true ->
    exists bvs mixins, c_bases (get_cls s x) = bvs ++ mixins
      /\ Forall (fun b => c_bv (get_cls s b) = true) bvs /\ Forall (fun b => c_bv (get_cls s b) = false) mixins.

(** X[n], by indexing again. *)
Definition sized_version (s : meta) (n : Z) (x : nat) : nat :=
  match getitem_cls s x (XInt n) with Ok (_, t) => t | Raise _ => 0%nat end.

(** The most specific classes above both [a] and [b]. *)
Definition common_superclass (s : meta) (a b x : nat) : Prop := sub s a x /\ sub s b x.
Definition most_specific_common (s : meta) (a b x : nat) : Prop :=
  common_superclass s a b x /\ forall y, common_superclass s a b y -> sub s y x -> y = x.

(** The built-in classes: 2 BitVector, 3 NumVector, 4 UIntVector, 5 SIntVector. *)
Definition builtin : list mcall := [MClass [1]; MClass [2]; MClass [3]; MClass [3]]%nat.
