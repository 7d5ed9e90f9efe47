(** What is said about types that implement the bit-vector protocol. *)
From Verif Require Import PyBase MetaModel ProtoModel.

(** x is an object of the program / a class. *)
Definition exists_in (w : world) (x : nat) : Prop := (x < length w)%nat.
Definition class_in (w : world) (c : nat) : Prop := (c < length w)%nat /\ is_class w c = true.
(** The class c or one of its bases defines the attribute in its body. *)
Definition provides (w : world) (c : nat) (a : attr) : Prop := exists k, In k (mro w c) /\ In a (q_dict (get w k)).
(** The metaclass of the metaclass of c has no _bitvector_t_ (it is type, usually). *)
Definition plain_meta (w : world) (c : nat) : Prop :=
  let mm := typeof w (typeof w c) in ~ provides w mm ABvT /\ ~ provides w (typeof w mm) ABvT.
(** The protocol as its comments describe it: the metaclass provides _bitvector_t_; the class provides (or its metaclass
    does) the two conversions. *)
Definition implements (w : world) (c : nat) : Prop :=
  provides w (typeof w c) ABvT /\
  (provides w c AFrom \/ provides w (typeof w c) AFrom) /\ (provides w c ATo \/ provides w (typeof w c) ATo).
