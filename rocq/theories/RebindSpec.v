(** Specification vocabulary for rebinding, stripping and pushing modifiers (C47-C49, C51, C52). Independent of the
    functions of RebindModel.v. *)
From Coq Require Import Permutation.
From Verif Require Import PyBase BVModel ADTTy ADTModel ADTSpec.

(** ** Components *)
(** Some component of [t], at any depth, satisfies [P]. *)
Inductive occurs (P : ty -> Prop) : ty -> Prop :=
| occ_here t k fs f : node_of t = Some (k, fs) -> In f fs -> P (snd f) -> occurs P t
| occ_deep t k fs f : node_of t = Some (k, fs) -> In f fs -> occurs P (snd f) -> occurs P t.

(** Attributes of a Product or TaggedUnion that are no fields (methods, ...) are not kept when its fields change. *)
Definition without_methods (k : nkind) : nkind :=
  match k with KProd n _ => KProd n 0 | KTag n _ => KTag n 0 | k => k end.
(** The type of kind [k] on new fields, when it had fields [fs]. *)
Definition refielded (k : nkind) (u : list Z) (fs gs : list (string * ty)) (t : ty) : Prop :=
  (gs = fs /\ t = TNode k u fs) \/ (gs <> fs /\ t = mk_node (without_methods k) u gs).
(** [replaced g keep T T']: T' is T with every component that [g] maps to something replaced by it, from the outside in,
    and nothing else changed. [keep]: modifiers are transparent. *)
Inductive replaced (g : ty -> ty -> Prop) (keep : bool) : ty -> ty -> Prop :=
| rep_here t t' : (keep = true -> forall m s, t <> TMod m s) -> g t t' -> replaced g keep t t'
| rep_mod m t t' : keep = true -> replaced g keep t t' -> replaced g keep (TMod m t) (TMod m t')
| rep_atom t : (keep = true -> forall m s, t <> TMod m s) -> (forall t', ~ g t t') -> node_of t = None -> replaced g keep t t
| rep_node k u fs gs t : (forall t', ~ g (TNode k u fs) t') ->
    Forall2 (fun a b => fst a = fst b /\ replaced g keep (snd a) (snd b)) fs gs -> refielded k u fs gs t ->
    replaced g keep (TNode k u fs) t.
(** The same with the outermost type itself never replaced. *)
Definition replaced_below (g : ty -> ty -> Prop) (t t' : ty) : Prop :=
  exists k u fs gs, t = TNode k u fs /\
    Forall2 (fun a b => fst a = fst b /\ replaced g false (snd a) (snd b)) fs gs /\ refielded k u fs gs t'.

(** The types for which rebinding does what it says: modifiers only on leaves and Enums (or on the unbound class), no
    AnonymousProduct. *)
Inductive plain : ty -> Prop :=
| plain_atom t : node_of t = None -> plain t
| plain_node k u fs : k <> KAnon -> Forall (fun f => plain (snd f)) fs -> plain (TNode k u fs).
(** Modifiers anywhere, none twice on the same type. *)
Fixpoint carries (m : Z) (t : ty) : Prop :=
  match t with TMod m' t => m = m' \/ carries m t | TNode _ u _ => In m u | _ => False end.
Inductive plain_mod : ty -> Prop :=
| pm_leaf l : plain_mod (TLeaf l)
| pm_enum n ms : plain_mod (TEnum n ms)
| pm_node k u fs : k <> KAnon -> Forall (fun f => plain_mod (snd f)) fs -> plain_mod (TNode k u fs)
| pm_mod m t : ~ carries m t -> plain_mod t -> plain_mod (TMod m t).
(** No attributes besides the fields. *)
Inductive bare : ty -> Prop :=
| bare_atom t : node_of t = None -> bare t
| bare_node k u fs : without_methods k = k -> Forall (fun f => bare (snd f)) fs -> bare (TNode k u fs)
| bare_mod m t : bare t -> bare (TMod m t).

(** No component that [g] changes occurs inside another component of the same type. *)
Inductive apart (g : ty -> ty -> Prop) : ty -> Prop :=
| apart_atom t : node_of t = None -> apart g t
| apart_node k u fs :
    (forall f h, In f fs -> In h fs -> occurs (eq (snd f)) (snd h) -> replaced g true (snd f) (snd f)) ->
    Forall (fun f => apart g (snd f)) fs -> apart g (TNode k u fs).

(** T == A, or with rebind_sub_types issubclass(T, A). *)
Definition matches (H : Z -> Z -> bool) (A : ty) (st : bool) (t : ty) : Prop := t = A \/ (st = true /\ sub H t A = true).
Definition to_type (P : ty -> Prop) (B : ty) : ty -> ty -> Prop := fun t t' => P t /\ t' = B.
(** The size of a bit-vector class. *)
Inductive sized : ty -> option Z -> Prop :=
| sized_vec f k n : sized (TLeaf (LVec f k n)) n
| sized_abs : sized (TLeaf LAbsVec) None
| sized_mod m t n : sized t n -> sized (TMod m t) n.
(** Subclasses of X become Y[n], or Y if unsized. *)
Definition to_vector (H : Z -> Z -> bool) (X : ty) (f : Z) (k : kind) : ty -> ty -> Prop :=
  fun t t' => sub H t X = true /\ exists n, sized t n /\ t' = TLeaf (LVec f k n).
Definition vector_class (t : ty) : Prop := t = TLeaf LAbsVec \/ exists f k n, t = TLeaf (LVec f k n).
Definition to_family (H : Z -> Z -> bool) (f : Z) : ty -> ty -> Prop :=
  fun t t' => to_vector H (TLeaf LAbsVec) f KBV t t' \/ (sub H t (TLeaf LAbsBit) = true /\ t' = TLeaf (LBit f)).

(** Types over Bit and BitVector of one family. *)
Inductive over (f : Z) : ty -> Prop :=
| over_vec n : over f (TLeaf (LVec f KBV n))
| over_bit : over f (TLeaf (LBit f))
| over_object : over f (TLeaf LObject)
| over_other i : over f (TLeaf (LOther i))
| over_enum n ms : over f (TEnum n ms)
| over_node k u fs : k <> KAnon -> without_methods k = k -> Forall (fun a => over f (snd a)) fs -> over f (TNode k u fs).

(** ** Modifiers *)
Inductive modifier_free : ty -> Prop :=
| mf_leaf l : modifier_free (TLeaf l)
| mf_enum n ms : modifier_free (TEnum n ms)
| mf_node k fs : Forall (fun f => modifier_free (snd f)) fs -> modifier_free (TNode k [] fs).
(** The same type with the modifiers left out. *)
Inductive erased : ty -> ty -> Prop :=
| er_leaf l : erased (TLeaf l) (TLeaf l)
| er_enum n ms : erased (TEnum n ms) (TEnum n ms)
| er_mod m t t' : erased t t' -> erased (TMod m t) t'
| er_node k u fs gs : Forall2 (fun a b => fst a = fst b /\ erased (snd a) (snd b)) fs gs -> erased (TNode k u fs) (mk_node k u gs).
(** Types on which strip and push are defined: modifiers are applied to bound types only. *)
Inductive bound_only : ty -> Prop :=
| bo_leaf l : bound_only (TLeaf l)
| bo_enum n ms : bound_only (TEnum n ms)
| bo_mod m t : bound_only t -> bound_only (TMod m t)
| bo_node k fs : k <> KAnon -> without_methods k = k -> Forall (fun f => bound_only (snd f)) fs -> bound_only (TNode k [] fs).
(** Modifiers on leaves and Enums only. *)
Inductive mods_on_leaves : ty -> Prop :=
| ml_atom t : node_of t = None -> mods_on_leaves t
| ml_node k fs : Forall (fun f => mods_on_leaves (snd f)) fs -> mods_on_leaves (TNode k [] fs).
(** [leaf_at t p l ms]: the leaf (or Enum) [l] of [t] at position [p], with its own modifiers followed by those of its
    ancestors from the inside out. The alternatives of a Sum are not distinguished by position. *)
Definition position (k : nkind) (i : nat) (n : string) : nat * string :=
  match k with KTuple | KAnon => (i, EmptyString) | KSum => (0%nat, EmptyString) | _ => (0%nat, n) end.
Inductive leaf_at : ty -> list (nat * string) -> ty -> list Z -> Prop :=
| la_leaf l : leaf_at (TLeaf l) [] (TLeaf l) []
| la_enum n ms : leaf_at (TEnum n ms) [] (TEnum n ms) []
| la_mod m t p l ms : leaf_at t p l ms -> leaf_at (TMod m t) p l (ms ++ [m])
| la_node k u fs i n t p l ms : nth_error fs i = Some (n, t) -> leaf_at t p l ms ->
    leaf_at (TNode k u fs) (position k i n :: p) l ms.

(** ** Witness types: m(Tuple[BitVector[4]]), AnonymousProduct[x=BitVector[4]], a Product with a method, a nested type *)
Definition mtuple : ty := TMod 1 (TNode KTuple [] (unnamed [bv4])).
Definition anon4 : ty := TNode KAnon [] [("x"%string, bv4)].
Definition with_method : ty := TNode (KProd "P" 7) [] [("x"%string, bv4)].
Definition nested : ty :=
  TNode (KProd "N" 0) [] [("a"%string, pair4); ("b"%string, TNode KSum [] (unnamed (type_set [bv4; bit; col])));
                          ("c"%string, TNode (KTag "U" 0) [] [("s"%string, bv4); ("t"%string, TMod 1 bit)])].
Definition nested_mod : ty :=
  TMod 2 (TNode KTuple [] (unnamed [TMod 1 bv4; TMod 3 (TNode (KProd "P" 0) [] [("x"%string, bv4); ("e"%string, col)])])).
Definition mname (m : Z) : string := "M".
