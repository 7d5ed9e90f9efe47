(** Reading an object with everything it holds, and what is reachable from it (C107). *)
From Verif Require Import PyBase BVModel ADTTy ADTModel AliasModel.

(** Object [r], read to the leaves, is [v]. *)
Inductive reads (h : heap) : nat -> val -> Prop :=
| reads_atom r t z : nth_error h r = Some (OAtom t z) -> reads h r (VAtom t z)
| reads_tup r t b xs vs : nth_error h r = Some (ONode t (STup b xs)) -> Forall2 (reads h) xs vs -> reads h r (VTup t b vs)
| reads_sum r t x v : nth_error h r = Some (ONode t (SSum x)) -> reads h x v -> reads h r (VSum t v)
| reads_tag r t k x v : nth_error h r = Some (ONode t (STag k x)) -> reads h x v -> reads h r (VTag t k v).
(** The same, except that object [r0] reads as [v0] wherever it occurs. *)
Inductive reads_with (h : heap) (r0 : nat) (v0 : val) : nat -> val -> Prop :=
| rw_here : reads_with h r0 v0 r0 v0
| rw_atom r t z : r <> r0 -> nth_error h r = Some (OAtom t z) -> reads_with h r0 v0 r (VAtom t z)
| rw_tup r t b xs vs : r <> r0 -> nth_error h r = Some (ONode t (STup b xs)) -> Forall2 (reads_with h r0 v0) xs vs -> reads_with h r0 v0 r (VTup t b vs)
| rw_sum r t x v : r <> r0 -> nth_error h r = Some (ONode t (SSum x)) -> reads_with h r0 v0 x v -> reads_with h r0 v0 r (VSum t v)
| rw_tag r t k x v : r <> r0 -> nth_error h r = Some (ONode t (STag k x)) -> reads_with h r0 v0 x v -> reads_with h r0 v0 r (VTag t k v).

(** [b] is [a] or held by it, directly or not. *)
Inductive reach (h : heap) : nat -> nat -> Prop :=
| reach_refl a : reach h a a
| reach_step a o x b : nth_error h a = Some o -> In x (refs o) -> reach h x b -> reach h a b.

(** The class object occurs nowhere in a type. *)
Fixpoint grounded (t : ty) : bool :=
  match t with
  | TLeaf LObject => false
  | TLeaf _ | TEnum _ _ => true
  | TNode _ _ fs => forallb (fun f => grounded (snd f)) fs
  | TMod _ t => grounded t
  end.
Definition plain_call (c : acall) : Prop :=
  match c with ANode (OpAtom t _) | ANode (OpCall t _ _) => grounded t = true | _ => True end.

(** x.n = w on contents. *)
Definition vsetattr (H : Z -> Z -> bool) (x : val) (n : string) (w : val) : res val :=
  match vshape x with None => Raise EOutOfModel | Some s => rmap (mk_val (vtype x)) (setattr H vtype (vtype x) s n w) end.
(** The object a call assigns to. *)
Definition target (c : acall) : option nat :=
  match c with
  | ANode (OpSetItem r _ _) | ANode (OpSetSlice r _ _ _) | ANode (OpSetAttr r _ _) | ASetBit r _ _ => Some r
  | _ => None
  end.

(** What is reachable from [x] in [h'] is a copy of what is reachable from [r] in [h], with the same sharing. *)
Definition renamed (f : nat -> nat) (o : obj) : obj :=
  match o with
  | OAtom t z => OAtom t z
  | ONode t (STup b xs) => ONode t (STup b (map f xs))
  | ONode t (SSum x) => ONode t (SSum (f x))
  | ONode t (STag k x) => ONode t (STag k (f x))
  end.
Definition same_graph (h h' : heap) (r x : nat) : Prop :=
  exists f, f r = x /\ (forall a b, reach h r a -> reach h r b -> f a = f b -> a = b) /\
    forall a o, reach h r a -> nth_error h a = Some o -> nth_error h' (f a) = Some (renamed f o).
