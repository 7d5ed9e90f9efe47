(** Specification vocabulary for instances of algebraic data types (C39-C45). Independent of the functions of ADTModel.v,
    except issubclass ([sub]) and the representation of types and values. *)
From Coq Require Import Sorted.
From Verif Require Import PyBase BVModel ADTTy ADTModel.

(** ** Types *)
Definition tuple_like (k : nkind) : Prop := match k with KTuple | KAnon | KProd _ _ => True | _ => False end.
(** The order of ADTTy.v, used to list the alternatives of a Sum. *)
Definition before (a b : ty) : Prop := lex (code a) (code b) = Lt.
(** Types as the classes of hwtypes build them. *)
Definition kind_ok (k : nkind) (fs : list (string * ty)) : Prop :=
  match k with
  | KTuple => Forall (fun f => fst f = EmptyString) fs
  | KAnon => NoDup (names fs)
  | KProd _ _ => NoDup (names fs) /\ fs <> []
  | KSum => Forall (fun f => fst f = EmptyString) fs /\ Sorted before (types fs)
  | KTag _ _ => NoDup (names fs) /\ fs <> [] /\ StronglySorted (fun a b => String.ltb a b = true) (names fs)
  end.
Inductive twf : ty -> Prop :=
| twf_leaf l : twf (TLeaf l)
| twf_enum n ms : NoDup (map fst ms) -> ms <> [] -> StronglySorted (fun a b => String.ltb a b = true) (map fst ms) -> twf (TEnum n ms)
| twf_node k u fs : kind_ok k fs -> Forall (fun f => twf (snd f)) fs -> twf (TNode k u fs)
| twf_mod m t : twf t -> twf (TMod m t).

(** ** Well-typed objects *)
Definition instance (H : Z -> Z -> bool) (h : heap) (r : nat) (t : ty) : Prop :=
  exists o, nth_error h r = Some o /\ sub H (otype o) t = true.
(** The declared number of components, each an instance of its field; a Sum holds an instance of one alternative; a
    TaggedUnion holds an instance of the field its tag denotes. *)
Inductive fits (H : Z -> Z -> bool) (h : heap) (t : ty) : shape nat -> Prop :=
| fits_tup k fs b xs : node_of t = Some (k, fs) -> tuple_like k ->
    Forall2 (fun f r => instance H h r (snd f)) fs xs -> fits H h t (STup b xs)
| fits_sum fs f r : node_of t = Some (KSum, fs) -> In f fs -> instance H h r (snd f) -> fits H h t (SSum r)
| fits_tag n x fs i f r : node_of t = Some (KTag n x, fs) -> nth_error fs i = Some f -> instance H h r (snd f) ->
    fits H h t (STag i r).
Definition well_typed (H : Z -> Z -> bool) (h : heap) : Prop :=
  forall r t s, nth_error h r = Some (ONode t s) -> fits H h t s.
Definition no_slice (o : op) : Prop := match o with OpSetSlice _ _ _ _ => False | _ => True end.

(** The part [lo, hi) of a list of length [n] that the slice a:b denotes. *)
Definition slice_part (n : nat) (a b : option Z) (lo hi : nat) : Prop :=
  let at_ d o := match o with None => d | Some i => if i <? 0 then Z.max 0 (i + Z.of_nat n) else Z.min i (Z.of_nat n) end in
  Z.of_nat lo = at_ 0 a /\ Z.of_nat hi = Z.max (Z.of_nat lo) (at_ (Z.of_nat n) b).

(** ** The last successful attribute assignment on object [r] in a history *)
Fixpoint last_set (H : Z -> Z -> bool) (h : heap) (l : list op) (r : nat) : option (string * nat) :=
  match l with
  | [] => None
  | o :: l =>
      match last_set H (fst (step H h o)) l r with
      | Some p => Some p
      | None => match o, snd (step H h o) with
                | OpSetAttr r' n v, Ok _ => if Nat.eqb r r' then Some (n, v) else None
                | _, _ => None
                end
      end
  end.

(** ** Instances by contents *)
(** Well typed one level deep (components may be instances of subclasses). *)
Inductive vok (H : Z -> Z -> bool) : val -> Prop :=
| vok_tup t k fs b vs : node_of t = Some (k, fs) -> tuple_like k ->
    Forall2 (fun f v => sub H (vtype v) (snd f) = true) fs vs -> vok H (VTup t b vs)
| vok_sum t fs f v : node_of t = Some (KSum, fs) -> In f fs -> sub H (vtype v) (snd f) = true -> vok H (VSum t v)
| vok_tag t n x fs i f v : node_of t = Some (KTag n x, fs) -> nth_error fs i = Some f -> sub H (vtype v) (snd f) = true ->
    vok H (VTag t i v).
(** Freshly built values of exactly the given class whose components have exactly the declared classes. *)
Inductive exact : ty -> val -> Prop :=
| ex_atom t z : is_adt t = false -> exact t (VAtom t z)
| ex_enum n ms i : 0 <= i < Z.of_nat (length ms) -> exact (TEnum n ms) (VAtom (TEnum n ms) i)
| ex_tup t k fs vs : node_of t = Some (k, fs) -> tuple_like k -> Forall2 (fun f v => exact (snd f) v) fs vs -> exact t (VTup t true vs)
| ex_sum t fs f v : node_of t = Some (KSum, fs) -> In f fs -> exact (snd f) v -> exact t (VSum t v)
| ex_tag t n x fs i f v : node_of t = Some (KTag n x, fs) -> nth_error fs i = Some f -> exact (snd f) v -> exact t (VTag t i v).

(** Built from Enums only, no Enum carrying a modifier. *)
Fixpoint enum_based (t : ty) : bool :=
  match t with
  | TLeaf _ => false
  | TEnum _ _ => true
  | TNode _ _ fs => forallb (fun f => enum_based (snd f)) fs
  | TMod _ t => match node_of t with None => false | Some _ => enum_based t end
  end.
(** A concrete bit or bit-vector class of some width, with any modifiers. *)
Fixpoint plain_leaf (t : ty) : bool :=
  match t with
  | TLeaf (LBit f) => f =? 0
  | TLeaf (LVec f _ (Some _)) => f =? 0
  | TMod _ t => plain_leaf t
  | _ => false
  end.
(** The number of values of such a type. *)
Definition total (l : list nat) : nat := fold_right Nat.add 0%nat l.
Definition prod (l : list nat) : nat := fold_right Nat.mul 1%nat l.
Fixpoint cardinal (t : ty) : nat :=
  match t with
  | TLeaf _ => 0
  | TEnum _ ms => length ms
  | TNode KSum _ fs | TNode (KTag _ _) _ fs => total (map (fun f => cardinal (snd f)) fs)
  | TNode _ _ fs => prod (map (fun f => cardinal (snd f)) fs)
  | TMod _ t => cardinal t
  end.

(** ** Laws of leaf equality and hashing, assumed in C45 *)
Definition leaf_refl (L : ty -> Z -> ty -> Z -> res bool) : Prop := forall t x, L t x t x = Ok true.
Definition leaf_sym (L : ty -> Z -> ty -> Z -> res bool) : Prop := forall t x u y, L t x u y = L u y t x.
Definition leaf_trans (L : ty -> Z -> ty -> Z -> res bool) : Prop :=
  forall t x y z, L t x t y = Ok true -> L t y t z = Ok true -> L t x t z = Ok true.
Definition leaf_hash (L : ty -> Z -> ty -> Z -> res bool) (K : hashing) : Prop :=
  forall t x y, L t x t y = Ok true -> h_atom K t x = h_atom K t y.
(** Different alternatives of a Sum are unrelated classes, and leaf objects of different alternatives are never equal. *)
Definition separate (H : Z -> Z -> bool) (L : ty -> Z -> ty -> Z -> res bool) (fs : list (string * ty)) : Prop :=
  forall f g, In f fs -> In g fs -> snd f <> snd g ->
    sub H (snd f) (snd g) = false /\ forall x y, L (snd f) x (snd g) y <> Ok true.
Inductive flat (H : Z -> Z -> bool) (L : ty -> Z -> ty -> Z -> res bool) : ty -> Prop :=
| flat_atom t : node_of t = None -> flat H L t
| flat_node t k fs : node_of t = Some (k, fs) -> (k = KSum -> separate H L fs) -> Forall (fun f => flat H L (snd f)) fs -> flat H L t.

(** ** Types for witnesses and examples: BitVector[4], Bit, None, an Enum, Tuple[BitVector[4], BitVector[4]], two Products,
    two Sums and a TaggedUnion *)
Definition bv4 : ty := TLeaf (LVec 0 KBV (Some 4)).
Definition bit : ty := TLeaf (LBit 0).
Definition none_t : ty := TLeaf (LOther 0).
Definition col : ty := TEnum "Color" [("blue"%string, EInt 1); ("red"%string, EInt 0)].
Definition pair4 : ty := TNode KTuple [] (unnamed [bv4; bv4]).
Definition point : ty := TNode (KProd "Point" 0) [] [("x"%string, bv4); ("y"%string, bv4)].
Definition size2 : ty := TNode (KProd "Size" 0) [] [("w"%string, bv4); ("h"%string, bv4)].
Definition sum_pp : ty := TNode KSum [] (unnamed (type_set [pair4; point])).
Definition sum_cb : ty := TNode KSum [] (unnamed (type_set [col; bit])).
Definition bv8 : ty := TLeaf (LVec 0 KBV (Some 8)).
Definition sum_48 : ty := TNode KSum [] (unnamed (type_set [bv4; bv8])).
Definition tagged : ty := TNode (KTag "U" 0) [] [("a"%string, bv4); ("b"%string, bv4); ("c"%string, col)].
Definition nosub : Z -> Z -> bool := fun _ _ => false.
