(** Classes used as Python sequences: the metaclasses define __getitem__ (hwtypes/bit_vector_abc.py:75-98,
    adt_meta.py:353-357, 488-508) and AbstractBitVectorMeta __len__ (bit_vector_abc.py:115-119), but neither __iter__ nor
    __bool__, and only SumMeta __contains__ (adt_meta.py:510-511), so iteration, in and bool() of a class go through them.
    Definitions only. *)
From Verif Require Import PyBase MetaModel SeqModel.
From Verif Require HierModel NewModel.

(** K[i] as the next item of iter(K). The state is the history of the program (MetaModel.v). *)
Definition cls_get (k : nat) (h : list mcall) (i : Z) : res (list mcall * nat) :=
  match getitem_cls (mrun h) k (XInt i) with
  | Ok (_, t) => Ok (h ++ [MIndex k (XInt i)], t)
  | Raise e => Raise e
  end.
(** len(K), bit_vector_abc.py:115-119. *)
Definition cls_len (s : meta) (k : nat) : res Z :=
  match c_size (get_cls s k) with Some n => Ok n | None => Raise EAttributeError end.
(** bool(K): the metaclass has __len__ and no __bool__; ordinary classes are true. *)
Definition cls_truth (s : meta) (k : nat) : res bool :=
  if c_bv (get_cls s k) then rmap (fun n => negb (n =? 0)) (cls_len s k) else Ok true.
(** list(K), tuple(K): CPython Objects/listobject.c list_extend asks for the length first (Objects/abstract.c
    PyObject_LengthHint), and passes on every exception but TypeError. *)
Definition cls_list (fuel : nat) (k : nat) (h : list mcall) : list mcall * list nat * lend :=
  match cls_len (mrun h) k with
  | Ok _ | Raise ETypeError => seq_list (cls_get k) fuel h
  | Raise e => (h, [], LExc e)
  end.
(** reversed(K): Objects/enumobject.c reversed_new takes the length, all exceptions passed on. *)
Definition cls_reversed (k : nat) (h : list mcall) : list mcall * list nat * lend :=
  match cls_len (mrun h) k with Ok n => seq_reversed (cls_get k) (Some n) h | Raise e => (h, [], LExc e) end.
(** x in K: classes are compared by identity. *)
Definition cls_in (fuel : nat) (k x : nat) (h : list mcall) : option (res bool) :=
  snd (seq_in (cls_get k) fuel (fun t => Ok (Nat.eqb t x)) h (Some 0)).
(** T[i] of a bound ADT class as the next item of iter(T). *)
Definition bound_get (c : nat) (s : HierModel.hst) (i : Z) : res (HierModel.hst * nat) :=
  rmap (fun t => (s, t)) (NewModel.bound_item s c (NewModel.BPos i)).
