(** Specification vocabulary for the visitors (C53). *)
From Coq Require Import Permutation.
From Verif Require Import PyBase BVModel ADTTy ADTModel ADTSpec VisitModel.

(** The handler a type belongs to. *)
Inductive handles : ty -> handler -> Prop :=
| h_leaf l : handles (TLeaf l) VLeaf
| h_enum n ms : handles (TEnum n ms) VEnum
| h_tuple u fs : handles (TNode KTuple u fs) VTuple
| h_anon u fs : handles (TNode KAnon u fs) VTuple
| h_product n x u fs : handles (TNode (KProd n x) u fs) VProduct
| h_sum u fs : handles (TNode KSum u fs) VSumH
| h_tagged n x u fs : handles (TNode (KTag n x) u fs) VTagged
| h_mod m t h : handles t h -> handles (TMod m t) h.
Definition atomic (h : handler) : bool := match h with VEnum | VLeaf => true | _ => false end.

(** All components, once per occurrence. *)
Fixpoint inside (t : ty) : list ty :=
  match t with
  | TNode _ _ fs => flat_map (fun f => snd f :: inside (snd f)) fs
  | TMod _ t => inside t
  | _ => []
  end.
(** The leaves and Enums in field order (the alternatives of Sums and TaggedUnions in some order). *)
Inductive leaves : ty -> list ty -> Prop :=
| lv_atom t : node_of t = None -> leaves t [t]
| lv_node t k fs gs ls : node_of t = Some (k, fs) -> Permutation gs fs -> (tuple_like k -> gs = fs) ->
    Forall2 (fun g l => leaves (snd g) l) gs ls -> leaves t (List.concat ls).
(** An order of the alternatives of every Sum and TaggedUnion. *)
Definition is_order (order : ty -> list nat) : Prop :=
  forall t k fs, node_of t = Some (k, fs) -> Permutation (order t) (seq 0 (length fs)).
(** A leaf that is no Enum is reached. *)
Inductive reaches_leaf : ty -> Prop :=
| rl_leaf l : reaches_leaf (TLeaf l)
| rl_mod m t : reaches_leaf t -> reaches_leaf (TMod m t)
| rl_node k u fs f : In f fs -> reaches_leaf (snd f) -> reaches_leaf (TNode k u fs).

(** ** Instances *)
(** Well typed at every depth; the value of a Sum is an instance of exactly one alternative. *)
Inductive deep (H : Z -> Z -> bool) : val -> Prop :=
| deep_atom t z : node_of t = None -> deep H (VAtom t z)
| deep_tup t k fs b vs : node_of t = Some (k, fs) -> tuple_like k -> length vs = length fs -> Forall (deep H) vs -> deep H (VTup t b vs)
| deep_sum t fs f gs hs v : node_of t = Some (KSum, fs) -> fs = gs ++ f :: hs -> sub H (vtype v) (snd f) = true ->
    (forall g, In g (gs ++ hs) -> sub H (vtype v) (snd g) = false) -> deep H v -> deep H (VSum t v)
| deep_tag t n x fs k v : node_of t = Some (KTag n x, fs) -> (k < length fs)%nat -> deep H v -> deep H (VTag t k v).
(** The components present, outermost first; None counts as absent. *)
Fixpoint parts (x : val) : list val :=
  x :: match x with
       | VAtom _ _ => []
       | VTup _ _ vs => flat_map (fun v => if is_none v then [] else parts v) vs
       | VSum _ v | VTag _ _ v => if is_none v then [] else parts v
       end.
