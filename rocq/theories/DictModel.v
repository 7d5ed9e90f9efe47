(** Bit vectors, Bits and ints as keys of a Python dict: BitVector.__hash__ (hwtypes/bit_vector.py:214-215), Bit.__hash__
    (127-128) and the two __eq__ (63-65, 436), over histories of dictionary operations and calls of the API that also
    assign to bits. Sets are the same without items. Definitions only.
    CPython's dict is modelled as its entries in insertion order, each with the hash computed when it was inserted. *)
From Coq Require Import Permutation.
From Verif Require Import PyBase BVModel OpModel HeapModel.

Record entry := Entry { e_hash : Z; e_key : hval; e_item : nat }.
Definition dict := list entry.

(** hash() of a str, of the tuple (Bit, value), of an int; the order in which the table is probed for a hash. *)
Record hashes := Hashes { hstr : string -> Z; hbit : bool -> Z; hint : Z -> Z; probe : Z -> dict -> list nat }.
Definition probes_all (K : hashes) : Prop := forall z d, Permutation (probe K z d) (seq 0 (length d)).

(** hash(v): 214-215, 127-128; a bool hashes as the int it is; lists are unhashable. Strings and other objects as keys are
    not modelled. *)
Definition py_hash (K : hashes) (v : pyval) : res Z :=
  match v with
  | VBV x => Ok (hstr K (hash_key x))
  | VBit b => Ok (hbit K (bit_hash_key b))
  | VInt z => Ok (hint K z)
  | VBool b => Ok (hint K (if b then 1 else 0))
  | VSeq _ => Raise ETypeError
  | VStr _ | VOther _ _ _ => Raise EOutOfModel
  end.

(** bool(k == v): Bit.__bool__ is 118-119. *)
Definition truth (r : oret) : res bool :=
  match r with ONew (VBit b) | ONew (VBool b) => Ok b | _ => Raise EOutOfModel end.
Definition num (v : pyval) : option Z :=
  match v with VInt z => Some z | VBool b => Some (if b then 1 else 0) | _ => None end.
Definition key_eq (k v : pyval) : res bool :=
  match num k, num v with
  | Some a, Some b => Ok (a =? b)
  | _, _ => r <- py_cmp CEq k v ;; truth r
  end.
Definition same_object (a b : hval) : bool :=
  match a, b with HRef r, HRef s => Nat.eqb r s | _, _ => false end.

(** The lookup: entries with the stored hash are compared, first by identity, then with ==, until one is equal. An
    exception of == ends the lookup. *)
Fixpoint scan (h : heap) (d : dict) (z : Z) (v : hval) (ps : list nat) : res (option nat) :=
  match ps with
  | [] => Ok None
  | p :: ps =>
      match nth_error d p with
      | None => scan h d z v ps
      | Some e =>
          if negb (e_hash e =? z) then scan h d z v ps
          else if same_object (e_key e) v then Ok (Some p)
          else b <- key_eq (deref h (e_key e)) (deref h v) ;;
               if (b : bool) then Ok (Some p) else scan h d z v ps
      end
  end.
Definition lookup (K : hashes) (h : heap) (d : dict) (v : hval) : res (Z * option nat) :=
  z <- py_hash K (deref h v) ;; p <- scan h d z v (probe K z d) ;; Ok (z, p).

Fixpoint remove_at {A} (p : nat) (l : list A) : list A :=
  match p, l with
  | _, [] => []
  | O, _ :: l => l
  | S p, x :: l => x :: remove_at p l
  end.

(** A call of the API, d[x] = i, d[x], del d[x]. *)
Inductive dop := DCall (c : call) | DStore (x i : nat) | DLoad (x : nat) | DDel (x : nat).
Inductive dout := Done | Item (i : nat) | Exc (e : exn).
Record dst := DSt { d_state : state; d_dict : dict }.

Definition dstep (K : hashes) (s : dst) (o : dop) : dst * dout :=
  let st := d_state s in
  let d := d_dict s in
  let find x := lookup K (st_heap st) d (var (st_env st) x) in
  match o with
  | DCall c => (DSt (step st c) d, Done)
  | DStore x i =>
      match find x with
      | Raise e => (s, Exc e)
      | Ok (z, None) => (DSt st (d ++ [Entry z (var (st_env st) x) i]), Done)
      | Ok (_, Some p) =>                                   (* the old key stays *)
          match nth_error d p with
          | Some e => (DSt st (update d p (Entry (e_hash e) (e_key e) i)), Done)
          | None => (s, Exc EOutOfModel)
          end
      end
  | DLoad x =>
      match find x with
      | Raise e => (s, Exc e)
      | Ok (_, None) => (s, Exc EKeyError)
      | Ok (_, Some p) => (s, match nth_error d p with Some e => Item (e_item e) | None => Exc EOutOfModel end)
      end
  | DDel x =>
      match find x with
      | Raise e => (s, Exc e)
      | Ok (_, None) => (s, Exc EKeyError)
      | Ok (_, Some p) => (DSt st (remove_at p d), Done)
      end
  end.
Fixpoint drun (K : hashes) (s : dst) (l : list dop) : dst * list dout :=
  match l with
  | [] => (s, [])
  | o :: l => let (s, a) := dstep K s o in let (s, r) := drun K s l in (s, a :: r)
  end.
Definition dstart : dst := DSt start [].
