(** new(klass, bind) (hwtypes/modifiers.py:13-23), over the classes of MetaModel.v and of HierModel.v. Definitions only.
    Simplifications: __name__ and __module__ are not kept, so the arguments [name] and [module] (15-18) are left out. *)
From Verif Require Import PyBase MetaModel HierModel.

(** The class statement of line 14 and the subscript of line 21, for bit-vector classes. *)
Definition new_vec (s : meta) (k : nat) (i : option cidx) : res (meta * nat) :=
  r <- new_class s (c_bv (get_cls s k)) [k] None None ;;
  match i with
  | Some i => getitem_cls (fst r) (snd r) i
  | None => Ok r
  end.

(** The same for algebraic data types and ordinary classes. *)
Definition new_adt_type (s : hst) (k : nat) (i : option idx) : res (hst * nat) :=
  r <- class_stmt s [k] "T"%string [] [] ;;
  match i with
  | Some i => getitem (fst r) (snd r) i
  | None => Ok r
  end.

(** A subscript of a bound type looks up a field: an int, a string, or a type. *)
Inductive bidx := BPos (z : Z) | BStr (n : string) | BTy (t : nat).
(** cls.fields[z], a Python tuple. *)
Definition tuple_item (l : list nat) (z : Z) : res nat :=
  let n := Z.of_nat (length l) in
  let z := if (z <? 0)%Z then (z + n)%Z else z in
  if ((0 <=? z) && (z <? n))%Z then Ok (nth (Z.to_nat z) l 0%nat) else Raise EIndexError.
(** T[i] for a bound T, hwtypes/adt_meta.py:353-357, 488-495, 501-511, 565-569; T in S is 510-511. *)
Definition bound_item (s : hst) (c : nat) (i : bidx) : res nat :=
  match h_fields (hget s c) with
  | None => Raise EOutOfModel
  | Some l =>
      match hkind s c, i with
      | (KTuple | KAnon | KProd), BPos z => tuple_item l z
      | KProd, BStr n =>
          match field_dict s c with
          | Some d => match find (fun f => String.eqb (fst f) n) d with Some f => Ok (snd f) | None => Raise EKeyError end
          | None => Raise EAttributeError
          end
      | (KTuple | KAnon | KProd), _ => Raise ETypeError
      | (KSum | KTag), BTy t => if mem t l then Ok t else Raise EKeyError
      | (KSum | KTag), _ => Raise EKeyError
      | _, _ => Raise ETypeError
      end
  end.
(** T[a:b:st] for a bound T: a tuple of types, adt_meta.py:350-358, 488-493. A slice of a Sum or TaggedUnion is unhashable. *)
Definition bound_slice (s : hst) (c : nat) (a b st : option Z) : res (list nat) :=
  match h_fields (hget s c) with
  | None => Raise EOutOfModel
  | Some l =>
      match hkind s c with
      | KTuple | KAnon | KProd => list_slice 0%nat l a b st
      | _ => Raise ETypeError
      end
  end.
(** new(K, i) for a bound K: line 14 makes a subclass, which is bound too, and line 21 looks up a field. *)
Definition new_bound (s : hst) (k : nat) (i : bidx) : res (hst * nat) :=
  r <- class_stmt s [k] "T"%string [] [] ;;
  t <- bound_item (fst r) (snd r) i ;; Ok (fst r, t).
