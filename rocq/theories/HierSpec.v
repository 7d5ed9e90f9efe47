(** Specification of the hierarchies of algebraic data types, independent of method resolution orders and of the cache. *)
From Verif Require Import PyBase MetaModel HierModel.

(** [a] is [b] or has it among its (transitive) bases, reading the class statements only. *)
Inductive hsub (s : hst) : nat -> nat -> Prop :=
| hsub_refl : forall a, hsub s a a
| hsub_step : forall a b c, In b (h_bases (hget s a)) -> hsub s b c -> hsub s a c.

(** The library's classes. *)
Definition c_Tuple := 1%nat.
Definition c_AnonymousProduct := 2%nat.
Definition c_Product := 3%nat.
Definition c_Sum := 4%nat.
Definition c_TaggedUnion := 5%nat.

(** T.fields; None for unbound types. *)
Definition fields_of (s : hst) (c : nat) : option (list nat) := h_fields (hget s c).
Definition unbound (s : hst) (c : nat) : Prop := fields_of s c = None.
(** A class the program can use. *)
Definition usable (s : hst) (c : nat) : Prop := halive s c = true.

(** The same index: in order for tuples and anonymous products, as sets for sums. *)
Definition same_index (kd : kind) (i j : idx) : Prop :=
  match kd, i, j with
  | KSum, IdxTypes l, IdxTypes m => forall x, In x l <-> In x m
  | _, _, _ => i = j
  end.
(** T.fields says the index: a tuple of types, or a set of types. *)
Definition fields_say (kd : kind) (i : idx) (fs : list nat) : Prop :=
  match i with
  | IdxTypes l => if is_kind kd KSum then (forall x, In x fs <-> In x l) /\ NoDup fs else fs = l
  | IdxNames l => fs = map snd l
  end.
(** The fields of a class statement of a tagged union, as a set; of a product, in order. *)
Definition same_fields (kd : kind) (a b : fields) : Prop :=
  match kd with KTag => forall x, In x a <-> In x b | _ => a = b end.

(** [bases] of a class statement bring in at least one class of metaclass [kd], others of metaclasses above it, and no bound type. *)
Definition plain_bases (s : hst) (kd : kind) (bases : list nat) : Prop :=
  (exists b, In b bases /\ hkind s b = kd) /\
  (forall b, In b bases -> usable s b /\ unbound s b /\ below kd (hkind s b) = true).

(** The body of the class [x] defines the name [n]. *)
Definition defines (s : hst) (x : nat) (n : string) : Prop := exists a, In (n, a) (h_attrs (hget s x)).
