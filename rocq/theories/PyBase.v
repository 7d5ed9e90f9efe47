(** Python values, exceptions, integers and slices used by the model.
    These definitions model the CPython runtime, not hwtypes source lines; every
    definition says which Python construct it stands for. *)
From Coq Require Export Ascii String.
From Coq Require Export ZArith Bool.
From Coq Require Export List.
Export ListNotations.
Open Scope Z_scope.

(** Exceptions distinguished by the code. [EInconsistentSize] is
    hwtypes/bit_vector_abc.py:14 (a subclass of TypeError). [EZ3] is z3.Z3Exception. [EOutOfModel] marks
    calls whose Python semantics the model does not cover; no theorem concludes it. *)
Inductive exn :=
| ETypeError | EInconsistentSize | EValueError | EIndexError | EAttributeError
| ENameError | EKeyError | EZeroDivision | ENotImplementedErr | EAssertion
| EReservedName | EZ3 | EOutOfModel | ESyntaxError | EOverflow.

(** A Python call that returns or raises. *)
Inductive res (A : Type) := Ok (a : A) | Raise (e : exn).
Arguments Ok {A} a.
Arguments Raise {A} e.

Definition bind {A B} (r : res A) (f : A -> res B) : res B :=
  match r with Ok a => f a | Raise e => Raise e end.
Notation "x <- r ;; k" := (bind r (fun x => k)) (at level 61, r at next level, right associativity).

Definition rmap {A B} (f : A -> B) (r : res A) : res B :=
  match r with Ok a => Ok (f a) | Raise e => Raise e end.

(** [except TypeError] also catches InconsistentSizeError (bit_vector_abc.py:14). *)
Definition is_type_error (e : exn) : bool :=
  match e with ETypeError | EInconsistentSize => true | _ => false end.

(** int(b) for a bool b. *)
Definition b2z (b : bool) : Z := if b then 1 else 0.

(** List comprehension whose element expression can raise: evaluated left to right. *)
Fixpoint mapM {A B} (f : A -> res B) (l : list A) : res (list B) :=
  match l with
  | [] => Ok []
  | a :: l => b <- f a ;; bs <- mapM f l ;; Ok (b :: bs)
  end.

(** range(n) as integers. *)
Definition zrange (n : Z) : list Z := map Z.of_nat (seq 0 (Z.to_nat n)).

(** CPython PySlice_AdjustIndices: clamp one bound of a slice.
    [low]/[high] are the values used when the bound falls below 0 / at or above the length. *)
Definition clamp_index (n step i : Z) : Z :=
  let i := if i <? 0 then i + n else i in
  if i <? 0 then (if step <? 0 then -1 else 0)
  else if n <=? i then (if step <? 0 then n - 1 else n)
  else i.

(** CPython PySlice_Unpack + PySlice_AdjustIndices: the positions l[a:b:s] reads from a
    list of length n, in order; step 0 is a ValueError. *)
Definition slice_indices (n : Z) (a b s : option Z) : res (list Z) :=
  let step := match s with None => 1 | Some s => s end in
  if step =? 0 then Raise EValueError else
  let start := match a with
               | None => if step <? 0 then n - 1 else 0
               | Some i => clamp_index n step i end in
  let stop := match b with
              | None => if step <? 0 then -1 else n
              | Some i => clamp_index n step i end in
  let len := if step <? 0
             then (if stop <? start then (start - stop - 1) / (- step) + 1 else 0)
             else (if start <? stop then (stop - start - 1) / step + 1 else 0) in
  Ok (map (fun i => start + i * step) (zrange len)).

(** l[a:b:s] for a Python list. *)
Definition list_slice {A} (d : A) (l : list A) (a b s : option Z) : res (list A) :=
  rmap (map (fun i => nth (Z.to_nat i) l d)) (slice_indices (Z.of_nat (length l)) a b s).

(** Subscript argument: an int, a slice, or something else. *)
Inductive pyindex := IInt (i : Z) | ISlice (a b s : option Z) | IOther.
