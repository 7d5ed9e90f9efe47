(** FrozenDict and OrderedFrozenDict (hwtypes/util.py:6-40). Definitions only. Keys and values are any types, with
    their == and hash() as functions. *)
From Verif Require Import PyBase.

Section Dict.
  Context {K V : Type} (keq : K -> K -> bool) (veq : V -> V -> bool).

  (** A Python dict: the items in insertion order. d[k], and d[k] = v, which keeps the position and the first key. *)
  Definition dict := list (K * V).
  Fixpoint lookup (d : dict) (k : K) : option V :=
    match d with
    | [] => None
    | (k', v) :: d => if keq k' k then Some v else lookup d k
    end.
  Fixpoint assign (d : dict) (k : K) (v : V) : dict :=
    match d with
    | [] => [(k, v)]
    | (k', v') :: d => if keq k' k then (k', v) :: d else (k', v') :: assign d k v
    end.
  (** dict(pairs) and OrderedDict(pairs) *)
  Definition of_pairs (l : list (K * V)) : dict := fold_left (fun d p => assign d (fst p) (snd p)) l [].

  (** dict.__eq__ *)
  Definition dict_eqb (a b : dict) : bool :=
    Nat.eqb (length a) (length b) &&
    forallb (fun p => match lookup b (fst p) with Some v => veq (snd p) v | None => false end) a.
  (** OrderedDict.__eq__ on two OrderedDicts: dict.__eq__, then the keys in order. *)
  Fixpoint keys_eqb (a b : dict) : bool :=
    match a, b with
    | [], [] => true
    | (k, _) :: a, (k', _) :: b => keq k k' && keys_eqb a b
    | _, _ => false
    end.
  Definition odict_eqb (a b : dict) : bool := dict_eqb a b && keys_eqb a b.

  (** FrozenDict(pairs), 9-11, and OrderedFrozenDict(pairs), 38-40, by their _d. *)
  Inductive frozen := Frozen (d : dict) | Ordered (d : dict).
  Definition items (x : frozen) : dict := match x with Frozen d | Ordered d => d end.
  (** __getitem__, __len__, __iter__, 13-20 *)
  Definition getitem (x : frozen) (k : K) : res V := match lookup (items x) k with Some v => Ok v | None => Raise EKeyError end.
  Definition len (x : frozen) : nat := length (items x).
  Definition iter (x : frozen) : list K := map fst (items x).

  (** x == y, 22-26. For mixed operands Python asks the OrderedFrozenDict o first, a subclass: o.__eq__(f) compares o._d == f
      (26), where OrderedDict.__eq__ gives NotImplemented and f.__eq__(o._d) compares f._d == o._d (26), an unordered
      comparison. x != y is its negation, 28-29. *)
  Definition frozen_eqb (x y : frozen) : bool :=
    match x, y with
    | Frozen a, Frozen b => dict_eqb a b
    | Ordered a, Ordered b => odict_eqb a b
    | Frozen a, Ordered b => dict_eqb a b
    | Ordered a, Frozen b => dict_eqb b a
    end.
  Definition frozen_neb (x y : frozen) : bool := negb (frozen_eqb x y).

  (** hash(x), 11, 31-32 and 40: [item] is the hash of the pair (k, v); [fset] and [tup] compute the hash of a frozenset and
      of a tuple from the hashes of the members. *)
  Definition frozen_hash (item : K * V -> Z) (fset tup : list Z -> Z) (x : frozen) : Z :=
    match x with
    | Frozen d => fset (map item d)
    | Ordered d => tup (map item d)
    end.
End Dict.
Arguments dict : clear implicits.
Arguments frozen : clear implicits.
