(** Which types implement the bit-vector protocol: the two levels of instance and subclass checks
    (hwtypes/bit_vector_util.py:11-48). Definitions only.
    Simplifications: classes override no __instancecheck__, __subclasscheck__, __getattr__ or __class__; attributes are
    those of the class bodies and do not change; __prepare__ and __init_subclass__ do nothing. *)
From Verif Require Import PyBase MetaModel.

(** The attributes the checks look for: _bitvector_t_, _from_bitvector_ and _to_bitvector_. *)
Inductive attr := ABvT | AFrom | ATo.
Definition attr_eqb (a b : attr) : bool := match a, b with ABvT, ABvT | AFrom, AFrom | ATo, ATo => true | _, _ => false end.

(** An object: its type, its __mro__ (none if it is not a class) and its own attributes. Objects are numbered in order of
    creation. *)
Record pobj := PObj { q_type : nat; q_mro : list nat; q_dict : list attr }.
Definition world := list pobj.
(** object, type, _BitVectorProtocolMetaMeta (12-21), BitVectorProtocolMeta (24-36), BitVectorProtocol (39-48). *)
Definition w_object : nat := 0.
Definition w_type : nat := 1.
Definition w_metameta : nat := 2.
Definition w_meta : nat := 3.
Definition w_protocol : nat := 4.
Definition w_init : world :=
  [PObj 1 [0] []; PObj 1 [1; 0] []; PObj 1 [2; 1; 0] []; PObj 2 [3; 1; 0] [ABvT]; PObj 3 [4; 0] [AFrom; ATo]]%nat.

Definition get (w : world) (x : nat) : pobj := nth x w (PObj 1 [] []).
Definition typeof (w : world) (x : nat) : nat := q_type (get w x).
Definition mro (w : world) (x : nat) : list nat := q_mro (get w x).
Definition is_class (w : world) (x : nat) : bool := match mro w x with [] => false | _ => true end.

(** hasattr(x, a): x's own attributes, those of its bases if it is a class, those of its type. *)
Definition defines (w : world) (a : attr) (x : nat) : bool := existsb (attr_eqb a) (q_dict (get w x)).
Definition hasattr (w : world) (x : nat) (a : attr) : bool :=
  existsb (defines w a) (x :: mro w x ++ mro w (typeof w x)).

(** Which class's __instancecheck__ and __subclasscheck__ isinstance(_, c) and issubclass(_, c) call: the first one in
    the resolution order of type(c) that has them. *)
Definition check_of (w : world) (c : nat) : option nat :=
  find (fun k => Nat.eqb k w_type || Nat.eqb k w_metameta || Nat.eqb k w_meta) (mro w (typeof w c)).

(** isinstance(x, c). CPython answers True at once if type(x) is c (abstract.c, object_isinstance); both
    __instancecheck__ (13-15, 27-28) are issubclass(type(x), c), with the two __subclasscheck__ (17-21, 30-33); type's own
    look at the resolution order. The fuel bounds the chain of types and is never exhausted
    (ProtoFacts.isinstance_eq). *)
Fixpoint isinst (fuel : nat) (w : world) (x c : nat) : bool :=
  if Nat.eqb (typeof w x) c then true else
  match fuel with
  | O => false
  | S f =>
      let s := typeof w x in
      match check_of w c with
      | Some 2%nat => hasattr w s ABvT && negb (isinst f w s c)                                      (* 21 *)
      | Some 3%nat => isinst f w s (typeof w c) && hasattr w s AFrom && hasattr w s ATo              (* 31-33 *)
      | _ => mem c (mro w s)
      end
  end.
Definition isinstance (w : world) (x c : nat) : bool := isinst (4 + x + c) w x c.
(** issubclass(s, c) for a class s. *)
Definition issubclass (w : world) (s c : nat) : bool :=
  match check_of w c with
  | Some 2%nat => hasattr w s ABvT && negb (isinstance w s c)                                        (* 21 *)
  | Some 3%nat => isinstance w s (typeof w c) && hasattr w s AFrom && hasattr w s ATo                (* 31-33 *)
  | _ => mem c (mro w s)
  end.

(** The metaclass of a class statement: the most derived of the one given and those of the bases (CPython,
    _PyType_CalculateMetaclass). *)
Fixpoint winner (w : world) (m : nat) (bases : list nat) : option nat :=
  match bases with
  | [] => Some m
  | b :: bases =>
      let t := typeof w b in
      if mem t (mro w m) then winner w m bases
      else if mem m (mro w t) then winner w t bases
      else None
  end.
(** What a program does: class statements (without metaclass= the metaclass is the type of the first base) and calls of
    classes. A statement that raises changes nothing. *)
Inductive pop := PClass (bases : list nat) (meta : option nat) (body : list attr) | PInst (c : nat).
Definition pstep (w : world) (o : pop) : world :=
  match o with
  | PClass bases meta body =>
      let bases := match bases with [] => [w_object] | _ => bases end in
      let m := match meta with Some m => m | None => typeof w (hd 0%nat bases) end in
      if forallb (fun b => Nat.ltb b (length w) && is_class w b) bases && Nat.ltb m (length w) && mem w_type (mro w m)
      then match winner w m bases, merge (total_len (map (mro w) bases ++ [bases])) (map (mro w) bases ++ [bases]) with
           | Some t, Some l => w ++ [PObj t (length w :: l) body]
           | _, _ => w
           end
      else w
  | PInst c =>
      if Nat.ltb c (length w) && is_class w c && negb (mem w_type (mro w c)) then w ++ [PObj c [] []] else w
  end.
Definition prun (h : list pop) : world := fold_left pstep h w_init.
(** determine_return_type, 210-213: two objects that are neither tuples, bits nor vectors are accepted by ite if their
    type is the same and implements the protocol; push_ite, 231: a branch is converted if it is a protocol object. *)
Definition ite_accepts (w : world) (x y : nat) : bool :=
  Nat.eqb (typeof w x) (typeof w y) && issubclass w (typeof w x) w_protocol.
Definition ite_converts (w : world) (x : nat) : bool := isinstance w x w_protocol.
