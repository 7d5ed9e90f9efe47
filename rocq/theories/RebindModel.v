(** rebind, rebind_bitvector, rebind_keep_modifiers, rebind_type, strip_modifiers, push_modifiers and the visitors
    (hwtypes/adt_meta.py:113-122, 209-222, 631-634; adt_util.py; modifiers.py:46-58, 119-163) on the types of ADTTy.v.
    Definitions only. [H]: issubclass between the classes outside the model. [mn]: the names of the modifiers. *)
From Verif Require Import PyBase BVModel ADTTy ADTModel.

(** ** Modifiers *)
(** unwrap_modifier, modifiers.py:119-126: modifiers innermost first. *)
Fixpoint unwrap (t : ty) : ty * list Z :=
  match t with TMod m t => let '(t, ms) := unwrap t in (t, ms ++ [m]) | _ => (t, []) end.
(** m(t), modifiers.py:46-58: applying a modifier to a class that already has it, or whose unbound class has it, makes a
    class with a duplicate base, a TypeError (see ModModel.v). *)
Fixpoint has_mod (m : Z) (t : ty) : bool :=
  match t with
  | TMod m' t => (m =? m') || has_mod m t
  | TNode _ u _ => existsb (Z.eqb m) u
  | _ => false
  end.
Definition apply_mod (m : Z) (t : ty) : res ty := if has_mod m t then Raise ETypeError else Ok (TMod m t).
(** wrap_modifier, modifiers.py:128-134. *)
Fixpoint distinct (l : list Z) : bool :=
  match l with [] => true | x :: l => negb (existsb (Z.eqb x) l) && distinct l end.
Definition wrap (t : ty) (ms : list Z) : res ty :=
  if distinct ms then fold_left (fun r m => t <- r ;; apply_mod m t) ms (Ok t) else Raise ETypeError.

(** cls.unbound_t: the unbound class of a modified type is the modified unbound class (adt_meta.py:252-275). *)
Fixpoint unbound_mods (t : ty) : list Z :=
  match t with TNode _ u _ => u | TMod m t => m :: unbound_mods t | _ => [] end.

Section Types.
Variable H : Z -> Z -> bool.
Variable mn : Z -> string.

(** cls.__name__ of a named type; modifiers.py:51. *)
Fixpoint tname (t : ty) : string :=
  match t with
  | TNode (KProd n _) _ _ | TNode (KTag n _) _ _ | TEnum n _ => n
  | TMod m t => (mn m ++ tname t)%string
  | _ => EmptyString
  end.
Fixpoint fields_eqb (a b : list (string * ty)) : bool :=
  match a, b with
  | [], [] => true
  | f :: a, g :: b => String.eqb (fst f) (fst g) && ty_eqb (snd f) (snd g) && fields_eqb a b
  | _, _ => false
  end.
(** cls.unbound_t[types] for Tuple and Sum; AnonymousProduct rejects a list (adt_meta.py:122, 376-378). *)
Definition bind_types (t : ty) (fs : list (string * ty)) : res ty :=
  match node_of t with
  | Some (KTuple, _) => Ok (mk_node KTuple (unbound_mods t) fs)
  | Some (KSum, _) => Ok (mk_node KSum (unbound_mods t) fs)
  | Some (KAnon, _) => Raise ETypeError
  | _ => Raise EOutOfModel
  end.
(** cls.unbound_t.from_fields(name, fields): the rest of the namespace is not passed on (adt_meta.py:182-202, 220). *)
Definition bind_named (t : ty) (name : string) (fs : list (string * ty)) : res ty :=
  match node_of t with
  | Some (KProd _ _, _) => Ok (mk_node (KProd name 0) (unbound_mods t) fs)
  | Some (KTag _ _, _) => Ok (mk_node (KTag name 0) (unbound_mods t) fs)
  | _ => Raise EOutOfModel
  end.
(** The end of rebind, adt_meta.py:122, 219-222; Enums are returned (634). *)
Definition bind_again (t : ty) (fs' : list (string * ty)) : res ty :=
  match node_of t with
  | None => Ok t
  | Some ((KProd _ _ | KTag _ _), fs) => if fields_eqb fs' fs then Ok t else bind_named t (tname t) fs'
  | Some _ => bind_types t fs'
  end.

(** ** rebind, adt_meta.py:113-122, 209-222 *)
Section Rebind.
Variables (A B : ty) (st rc : bool).
Definition hit (t : ty) : bool := ty_eqb t A || (st && sub H t A).
(** The new fields of a type: the loop 114-121, 210-217. Inner calls always recurse. *)
Fixpoint new_fields (t : ty) : res (list (string * ty)) :=
  match t with
  | TNode _ _ fs =>
      sequence (map (fun f =>
        if hit (snd f) then Ok (fst f, B)
        else if rc && is_adt (snd f) then
          gs <- new_fields (snd f) ;; r <- bind_again (snd f) gs ;; Ok (fst f, r)
        else Ok f) fs)
  | TMod _ t => new_fields t
  | _ => Ok []
  end.
Definition rebind (t : ty) : res ty :=
  if is_adt t then gs <- new_fields t ;; bind_again t gs else Raise EAttributeError.
End Rebind.

(** cls.fields: the components of a Tuple or Product, the set of types of a Sum or TaggedUnion (frozensets iterate in any
    order: [iter]); Enum members are no types and are left alone (adt_util.py:86-98). *)
Section Util.
Variable iter : list ty -> list ty.
Definition class_fields (t : ty) : list ty :=
  match node_of t with
  | Some ((KSum | KTag _ _), fs) => iter (type_set (types fs))
  | Some (_, fs) => types fs
  | None => []
  end.
(** new_adt.rebind(field, new_field, rebind_recursive=rc) for every field in turn. *)
Definition rebind_all (rc : bool) (t : ty) (ps : list (ty * ty)) : res ty :=
  fold_left (fun r p => t <- r ;; rebind (fst p) (snd p) false rc t) ps (Ok t).

(** ** rebind_bitvector(adt, X, Y, keep_modifiers), adt_util.py:75-100 *)
(** adt.size of a bit-vector class, None when unsized. *)
Fixpoint vec_size (t : ty) : option Z :=
  match t with TLeaf (LVec _ _ n) => n | TMod _ t => vec_size t | _ => None end.
Section BitVector.
Variables (X : ty) (yf : Z) (yk : kind) (keep : bool).
(** The result, and the new types of the fields. Frozensets list each type once; the map of old to new types is computed
    field by field here, which is the same. With keep_modifiers the modifiers are unwrapped and wrapped one by one. *)
Definition pair_of (l : list (ty * ty)) (t : ty) : ty * ty :=
  match find (fun p => ty_eqb (fst p) t) l with Some p => p | None => (t, t) end.
Fixpoint rebind_bv_aux (t : ty) : res ty * res (list (ty * ty)) :=
  let done (ps : res (list (ty * ty))) :=
    if sub H t X then Ok (TLeaf (LVec yf yk (vec_size t)))
    else if is_adt t then l <- ps ;; rebind_all false t (map (pair_of l) (class_fields t))
    else Ok t in
  match t with
  | TNode _ _ fs =>
      let ps := sequence (map (fun f => r <- fst (rebind_bv_aux (snd f)) ;; Ok (snd f, r)) fs) in (done ps, ps)
  | TMod m t =>
      let '(r, ps) := rebind_bv_aux t in
      (if keep then t <- r ;; apply_mod m t else done ps, ps)
  | _ => (done (Ok []), Ok [])
  end.
Definition rebind_bitvector (t : ty) : res ty := fst (rebind_bv_aux t).
End BitVector.

(** ** rebind_keep_modifiers(adt, A, B), adt_util.py:102-116: the rebinds recurse *)
Section Keep.
Variables A B : ty.
Fixpoint rebind_keep_aux (t : ty) : res ty * res (list (ty * ty)) :=
  match t with
  | TNode _ _ fs =>
      let ps := sequence (map (fun f => r <- fst (rebind_keep_aux (snd f)) ;; Ok (snd f, r)) fs) in
      (if sub H t A then Ok B else l <- ps ;; rebind_all true t (map (pair_of l) (class_fields t)), ps)
  | TMod m t => let '(r, ps) := rebind_keep_aux t in (t <- r ;; apply_mod m t, ps)
  | _ => (if sub H t A then Ok B else Ok t, Ok [])
  end.
Definition rebind_keep_modifiers (t : ty) : res ty := fst (rebind_keep_aux t).
End Keep.

(** ** rebind_type(T, family), adt_util.py:123-137. The names get_modifier, dont_rebind, ... are undefined (129). *)
Definition rebind_type (f : Z) (t : ty) : res ty :=
  match t with
  | TMod _ _ => Raise ENameError
  | TNode _ _ _ =>
      t <- rebind_bitvector (TLeaf LAbsVec) f KBV false t ;; rebind (TLeaf LAbsBit) (TLeaf (LBit f)) true true t
  | _ =>
      if sub H t (TLeaf LAbsVec) then rebind_bitvector (TLeaf LAbsVec) f KBV false t
      else if sub H t (TLeaf LAbsBit) then Ok (TLeaf (LBit f))
      else Ok t
  end.
End Util.
End Types.

(** ** strip_modifiers, modifiers.py:137-149; push_modifiers, 152-163 *)
(** Rebuilding one level: from_fields for Product and TaggedUnion, unbound_t[...] for Tuple and Sum; Enums and leaves have
    no level below. *)
Definition rebuild (mn : Z -> string) (t : ty) (fs' : list (string * ty)) : res ty :=
  match node_of t with
  | Some ((KProd _ _ | KTag _ _), _) => bind_named t (tname mn t) fs'
  | _ => bind_types t fs'
  end.
Fixpoint strip (mn : Z -> string) (t : ty) : res ty :=
  match t with
  | TMod _ t => strip mn t
  | TNode _ _ fs => fs' <- sequence (map (fun f => r <- strip mn (snd f) ;; Ok (fst f, r)) fs) ;; rebuild mn t fs'
  | _ => Ok t
  end.
Fixpoint push (mn : Z -> string) (t : ty) (mods : list Z) : res ty :=
  match t with
  | TMod m t => push mn t (m :: mods)
  | TNode _ _ fs => fs' <- sequence (map (fun f => r <- push mn (snd f) mods ;; Ok (fst f, r)) fs) ;; rebuild mn t fs'
  | _ => wrap t mods
  end.
