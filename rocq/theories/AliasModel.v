(** ADT instances that share components: calls on a heap of objects, with item assignment on a vector that may be a component
    of several objects, copy.copy and copy.deepcopy. A Tuple, Product, Sum or TaggedUnion stores the objects it is given
    (hwtypes/adt.py:31, 50-52, 135, 163, adt_meta.py:555-562), not copies of them. Definitions only. *)
From Verif Require Import PyBase BVModel ADTTy ADTModel.

Inductive acall :=
| ANode (o : op)                              (* construction and assignment, ADTModel.v *)
| ASetBit (r : nat) (i : Z) (b : bool)        (* x[i] = b for a concrete vector x, bit_vector.py:226-241 *)
| ACopy (r : nat)                             (* copy.copy(x) *)
| ADeep (depth : nat) (r : nat).              (* copy.deepcopy(x) with the given recursion limit *)

Definition with_refs (s : shape nat) (xs : list nat) : shape nat :=
  match s, xs with
  | STup b _, _ => STup b xs
  | SSum _, x :: _ => SSum x
  | STag k _, x :: _ => STag k x
  | _, [] => s
  end.
Definition refs (o : obj) : list nat :=
  match o with OAtom _ _ => [] | ONode _ (STup _ xs) => xs | ONode _ (SSum x) | ONode _ (STag _ x) => [x] end.
Definition with_parts (o : obj) (xs : list nat) : obj :=
  match o with OAtom t z => OAtom t z | ONode t s => ONode t (with_refs s xs) end.

(** CPython Lib/copy.py: deepcopy of an object whose class has no __deepcopy__ makes a new instance of the class and copies
    its attributes; [memo] maps objects to their copies. Simplified: immutable leaves (ints, Enum members, Bits) are copied
    too, and the copy of an object is numbered after the copies of its components. *)
Definition memo := list (nat * nat).
Definition memo_get (m : memo) (r : nat) : option nat := match find (fun p => Nat.eqb (fst p) r) m with Some p => Some (snd p) | None => None end.
Section Deep.
  Variable one : heap -> memo -> nat -> option (heap * memo * nat).
  Fixpoint deep_list (h : heap) (m : memo) (l : list nat) : option (heap * memo * list nat) :=
    match l with
    | [] => Some (h, m, [])
    | r :: l =>
        match one h m r with
        | None => None
        | Some (h, m, x) => match deep_list h m l with None => None | Some (h, m, xs) => Some (h, m, x :: xs) end
        end
    end.
End Deep.
Fixpoint deep (fuel : nat) (h : heap) (m : memo) (r : nat) : option (heap * memo * nat) :=
  match memo_get m r with
  | Some x => Some (h, m, x)
  | None =>
      match fuel, nth_error h r with
      | S f, Some o =>
          match deep_list (deep f) h m (refs o) with
          | None => None
          | Some (h, m, xs) => Some (h ++ [with_parts o xs], (r, length h) :: m, length h)
          end
      | _, _ => None
      end
  end.

(** One call. copy.copy makes a new instance with the same attributes (Lib/copy.py _reconstruct): it has the same components. *)
Definition astep (H : Z -> Z -> bool) (h : heap) (c : acall) : heap * res nat :=
  match c with
  | ANode o => step H h o
  | ASetBit r i b =>
      match nth_error h r with
      | Some (OAtom t z) =>
          match vec_leaf t with
          | Some (0, n) =>
              match BVModel.setitem_int (BV (BVC KBV n) z) i (VBit b) with
              | Ok y => (update r (OAtom t (bval y)) h, Ok r)
              | Raise e => (h, Raise e)
              end
          | _ => (h, Raise EOutOfModel)
          end
      | Some _ => (h, Raise EOutOfModel)
      | None => (h, Raise ENameError)
      end
  | ACopy r => match nth_error h r with Some o => (h ++ [o], Ok (length h)) | None => (h, Raise ENameError) end
  | ADeep d r =>
      if live h r then match deep d h [] r with Some (h', _, x) => (h', Ok x) | None => (h, Raise EOutOfModel) end else (h, Raise ENameError)
  end.
Definition arun (H : Z -> Z -> bool) (h : heap) (l : list acall) : heap := fold_left (fun h c => fst (astep H h c)) l h.
