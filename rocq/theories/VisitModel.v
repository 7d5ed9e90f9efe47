(** The visitors of hwtypes/adt_util.py:12-73. Definitions only.
    The modelled visitor overrides every visit_X with one that records the call and then calls the inherited visit_X, and
    defines visit_leaf (the name used by visit, adt_util.py:27; the base class only has visit_Leaf, 35) or not ([leaf]). *)
From Verif Require Import PyBase BVModel ADTTy ADTModel.

Inductive generic := GEnum | GProduct | GTuple | GTagged | GSum.
(** issubclass(t, Enum), ...; adt.py:15, 94, 110, 113, 209, 255. *)
Fixpoint is_enum (t : ty) : bool := match t with TEnum _ _ => true | TMod _ t => is_enum t | _ => false end.
Definition is_a (t : ty) (g : generic) : bool :=
  match g, node_of t with
  | GEnum, _ => is_enum t
  | GProduct, Some (KProd _ _, _) => true
  | GTuple, Some ((KTuple | KAnon | KProd _ _), _) => true
  | GTagged, Some (KTag _ _, _) => true
  | GSum, Some ((KSum | KTag _ _), _) => true
  | _, _ => false
  end.
Inductive handler := VEnum | VProduct | VTuple | VTagged | VSumH | VLeaf.
(** visit, adt_util.py:13-27. *)
Definition dispatch (t : ty) : handler :=
  if is_a t GEnum then VEnum
  else if is_a t GProduct then VProduct
  else if is_a t GTuple then VTuple
  else if is_a t GTagged then VTagged
  else if is_a t GSum then VSumH
  else VLeaf.

Section Visit.
Variable leaf : bool.
(** The order in which field_dict lists the fields of a Sum (a frozenset) or TaggedUnion (declaration order); positions in
    the field list of ADTTy.v. *)
Variable order : ty -> list nat.
Definition pick {A} (l : list A) (is : list nat) : list A :=
  flat_map (fun i => match nth_error l i with Some a => [a] | None => [] end) is.
Definition in_order {A} (t : ty) (l : list A) : list A :=
  match node_of t with Some ((KSum | KTag _ _), _) => pick l (order t) | _ => l end.
(** ADTVisitor, 52-60: [self] is the type visited, [t] the same type with modifiers peeled off for the recursion. *)
Fixpoint visit_as (self t : ty) : res (list (handler * ty)) :=
  match t with
  | TMod _ t => visit_as self t
  | TNode _ _ fs =>
      match dispatch self with
      | VEnum => Ok [(VEnum, self)]
      | VLeaf => if leaf then Ok [(VLeaf, self)] else Raise EAttributeError
      | h => l <- sequence (in_order self (map (fun f => visit_as (snd f) (snd f)) fs)) ;; Ok ((h, self) :: List.concat l)
      end
  | _ =>
      match dispatch self with
      | VLeaf => if leaf then Ok [(VLeaf, self)] else Raise EAttributeError
      | h => Ok [(h, self)]
      end
  end.
Definition visit (t : ty) : res (list (handler * ty)) := visit_as t t.

(** ADTInstVisitor, 63-73: the entries of value_dict (ADTModel.v) that are not None. *)
Fixpoint vvisit (H : Z -> Z -> bool) (x : val) : res (list (handler * val)) :=
  let go (l : list (option (val * res (list (handler * val))))) :=
    rs <- mapM (fun o => match o with Some (v, r) => if is_none v then Ok [] else r | None => Ok [] end) l ;;
    Ok ((dispatch (vtype x), x) :: List.concat rs) in
  match dispatch (vtype x) with
  | VEnum => Ok [(VEnum, x)]
  | VLeaf => if leaf then Ok [(VLeaf, x)] else Raise EAttributeError
  | _ =>
      match node_of (vtype x), x with
      | Some (_, fs), VTup _ _ vs =>
          l <- mapM (fun i => match nth_error (map (fun v => (v, vvisit H v)) vs) i with Some p => Ok (Some p) | None => Raise EIndexError end)
                    (seq 0 (length fs)) ;; go l
      | Some (_, fs), VSum _ v => go (map (fun t => if sub H (vtype v) t then Some (v, vvisit H v) else None) (types fs))
      | Some (_, fs), VTag _ k v => go (map (fun i => if Nat.eqb k i then Some (v, vvisit H v) else None) (seq 0 (length fs)))
      | _, _ => Raise EAttributeError
      end
  end.
End Visit.
