(** Vectors and ADT instances used as Python sequences: for loops, list(), tuple unpacking, reversed() and the operator in.
    The classes define __getitem__ (hwtypes/bit_vector.py:243-254, smt_bit_vector.py:314-348, z3_bit_vector.py:265-298,
    adt.py:45-46, 149-155) and, for vectors, __len__ (bit_vector.py:260-261, smt_bit_vector.py:368-369,
    z3_bit_vector.py:319-320), but neither __iter__ nor __contains__ nor __reversed__, so Python's iteration over
    __getitem__ is what runs. Definitions only.
    Simplified: sizes are below sys.maxsize. *)
From Verif Require Import PyBase BVModel OpModel SMTTerm SMTModel Z3Model MixModel ADTTy ADTModel.

(** How a loop ends: no item is left, an exception, or it has not ended after the given number of steps. *)
Inductive lend := LStop | LExc (e : exn) | LMore.

Section Iter.
Context {St It : Type} (get : St -> Z -> res (St * It)).
(** next() of an iterator made by iter(x), CPython Objects/iterobject.c iter_iternext: x[0], x[1], ...; IndexError ends the
    iteration for ever, other exceptions are passed on. [None] is an iterator that has ended. *)
Definition it_next (s : St) (p : option Z) : St * option Z * res (option It) :=
  match p with
  | None => (s, None, Ok None)
  | Some i =>
      match get s i with
      | Ok (s, v) => (s, Some (i + 1), Ok (Some v))
      | Raise EIndexError => (s, None, Ok None)
      | Raise e => (s, p, Raise e)
      end
  end.
(** for v in x: body(v). The state is everything the body can change, x included. The result: the state, the items, the end. *)
Fixpoint for_loop (fuel : nat) (body : St -> It -> res St) (s : St) (p : option Z) : St * list It * lend :=
  match fuel with
  | O => (s, [], LMore)
  | S f =>
      match it_next s p with
      | (s, p, Ok (Some v)) =>
          match body s v with
          | Ok s => let '(s, l, e) := for_loop f body s p in (s, v :: l, e)
          | Raise e => (s, [v], LExc e)
          end
      | (s, p, Ok None) => (s, [], LStop)
      | (s, p, Raise e) => (s, [], LExc e)
      end
  end.
(** list(x), tuple(x), [*x]. *)
Definition seq_list (fuel : nat) (s : St) : St * list It * lend := for_loop fuel (fun s _ => Ok s) s (Some 0).
(** a, b, c = x with [n] names: CPython Python/ceval.c unpack_iterable; exactly [n] items are wanted. *)
Definition seq_unpack (n : nat) (s : St) : res (list It) :=
  match seq_list (S n) s with
  | (_, l, LStop) => if Nat.eqb (length l) n then Ok l else Raise EValueError
  | (_, _, LExc e) => Raise e
  | (_, _, LMore) => Raise EValueError
  end.
(** v in x, CPython Objects/abstract.c _PySequence_IterSearch; [same] is "is or ==" of an item and v, with the truth value
    of the answer. [None]: not decided after [fuel] steps. *)
Fixpoint seq_in (fuel : nat) (same : It -> res bool) (s : St) (p : option Z) : St * option (res bool) :=
  match fuel with
  | O => (s, None)
  | S f =>
      match it_next s p with
      | (s, p, Ok (Some v)) =>
          match same v with
          | Ok true => (s, Some (Ok true))
          | Ok false => seq_in f same s p
          | Raise e => (s, Some (Raise e))
          end
      | (s, p, Ok None) => (s, Some (Ok false))
      | (s, p, Raise e) => (s, Some (Raise e))
      end
  end.
(** reversed(x), CPython Objects/enumobject.c reversed_next: x[n-1], ..., x[0], where n is len(x). *)
Fixpoint seq_rev (n : nat) (s : St) : St * list It * lend :=
  match n with
  | O => (s, [], LStop)
  | S m =>
      match get s (Z.of_nat m) with
      | Ok (s, v) => let '(s, l, e) := seq_rev m s in (s, v :: l, e)
      | Raise EIndexError => (s, [], LStop)
      | Raise e => (s, [], LExc e)
      end
  end.
Definition seq_reversed (len : option Z) (s : St) : St * list It * lend :=
  match len with None => (s, [], LExc ETypeError) | Some n => seq_rev (Z.to_nat n) s end.
End Iter.

(** ** Concrete vectors *)
Definition vec_get (x : bv) (i : Z) : res (bv * bool) := rmap (fun b => (x, b)) (getitem_int x i).
(** len(x), bit_vector.py:260-261. *)
Definition vec_len (x : bv) : option Z := Some (bsize x).
(** The item, a new Bit, is never the object looked for. [item_first]: CPython 3.9 and later compare item == v, earlier
    versions v == item. *)
Definition bit_same (item_first : bool) (v : pyval) (b : bool) : res bool :=
  r <- (if item_first then py_cmp CEq (VBit b) v else py_cmp CEq v (VBit b)) ;;
  match r with ONew w => truth w | _ => Raise EOutOfModel end.
Definition vec_in (item_first : bool) (v : pyval) (x : bv) : option (res bool) :=
  snd (seq_in vec_get (S (Z.to_nat (bsize x))) (bit_same item_first v) x (Some 0)).

(** ** Symbolic vectors *)
Definition sym_get (S : simplifier) (f : fam) (x : svec) (i : Z) : res (svec * bterm) :=
  rmap (fun t => (x, t)) (match f with FSmt => s_getitem_int S x i | FZ3 => z_index S x i end).
Definition sym_len (x : svec) : option Z := Some (ssize x).
Definition sym_same (S : simplifier) (f : fam) (item_first : bool) (v : sval) (t : bterm) : res bool :=
  r <- (if item_first then sym_compare S f CEq (SBit t) v else sym_compare S f CEq v (SBit t)) ;; s_truth f r.
Definition sym_in (S : simplifier) (f : fam) (item_first : bool) (v : sval) (x : svec) : option (res bool) :=
  snd (seq_in (sym_get S f) (Datatypes.S (Z.to_nat (ssize x))) (sym_same S f item_first v) x (Some 0)).

(** ** ADT instances *)
(** x[i]: a Tuple or Product gives its component (adt.py:45-46); an int is never one of the classes of a Sum or TaggedUnion
    (149-154). Neither defines __len__. *)
Definition adt_get (x : val) (i : Z) : res (val * val) :=
  match x with
  | VTup _ _ vs =>
      p <- py_index (length vs) i ;; match nth_error vs p with Some v => Ok (x, v) | None => Raise EIndexError end
  | VSum _ _ | VTag _ _ _ => Raise ETypeError
  | VAtom _ _ => Raise EOutOfModel
  end.
Definition adt_len (x : val) : option Z := None.
Definition adt_in (H : Z -> Z -> bool) (L : ty -> Z -> ty -> Z -> res bool) (item_first : bool) (v : val) (x : val) : option (res bool) :=
  snd (seq_in adt_get (S (match x with VTup _ _ vs => length vs | _ => 0 end))
         (fun w => if item_first then py_eq H L w v else py_eq H L v w) x (Some 0)).
