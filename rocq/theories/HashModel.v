(** Which values have a hash: the __eq__ and __hash__ the classes of the library define, Python's rule for classes that define
    one of them, and hash() of nested ADT instances. Definitions only. Simplified: the numbers are left to functions (ADTModel.v
    and DictModel.v have them); Enum members have hashable values. *)
From Verif Require Import PyBase BVModel.

(** What a class body binds __hash__ to: bit_vector.py:127-128, 214-215, adt.py:42-43, 146-147 and 275-276 (hash(self._value_)),
    232-233 (tag and value), or a function of the user's. *)
Inductive hashfn := HObject | HBit | HVector | HValue | HTagValue | HUser (f : nat).
Record body := Body { b_eq : bool; b_hash : option hashfn }.
(** type(x).__hash__ for the bodies of the classes of type(x).__mro__ (without object): CPython puts __hash__ = None in a class
    that defines __eq__ but not __hash__ (Objects/typeobject.c, type_new / inherit_slots). None: not hashable. *)
Fixpoint slot (m : list body) : option hashfn :=
  match m with
  | [] => Some HObject
  | Body _ (Some h) :: _ => Some h
  | Body true None :: _ => None
  | Body false None :: m => slot m
  end.

(** The classes of the library, and the bodies of their MRO. Abstract classes: bit_vector_abc.py:131 (AbstractBit), 157, and
    fp_vector_abc.py:121. *)
Inductive lib :=
| CBit | CVec (k : kind)                                   (* bit_vector.py *)
| CSMTBit | CSMTVec (k : kind) | CSMTInt                    (* smt_bit_vector.py, smt_int.py *)
| CZ3Bit | CZ3Vec (k : kind)                                (* z3_bit_vector.py *)
| CFP | CSMTFP                                             (* fp_vector.py, smt_fp_vector.py *)
| CEnum | CTuple | CAnon | CProduct | CSum | CTagged.      (* adt.py *)
Definition neither : body := Body false None.
Definition num_mro (base derived : body) (root : list body) (k : kind) : list body :=
  match k with
  | KBV => root
  | KNum => base :: root
  | KUInt | KSInt => derived :: base :: root
  end.
Definition lib_mro (c : lib) : list body :=
  match c with
  | CBit => [Body true (Some HBit); Body true None]                                                  (* bit_vector.py:64, 127 *)
  | CVec k => num_mro (Body false (Some HVector)) (Body false (Some HVector))                        (* 504, 508, 516 *)
                      [Body true (Some HVector); neither] k                                          (* 214, 436 *)
  | CSMTBit => [Body true None; Body true None]                                                      (* smt_bit_vector.py:120 *)
  | CSMTVec k => num_mro neither neither [Body true None; neither] k                                 (* 554, 608-614 *)
  | CSMTInt => [Body true None]                                                                      (* smt_int.py:132 *)
  | CZ3Bit => [Body true None; Body true None]                                                       (* z3_bit_vector.py:106 *)
  | CZ3Vec k => num_mro neither neither [Body true None; neither] k                                  (* 486, 532-539 *)
  | CFP => [Body true None; neither]                                                                 (* fp_vector.py:371 *)
  | CSMTFP => [Body true None; neither]                                                              (* smt_fp_vector.py:208 *)
  | CEnum => [Body true (Some HValue)]                                                               (* adt.py:266, 275 *)
  | CTuple => [Body true (Some HValue)]                                                              (* adt.py:33, 42 *)
  | CAnon => [neither; Body true (Some HValue)]                                                      (* adt.py:94 *)
  | CProduct => [neither; neither; Body true (Some HValue)]                                          (* adt.py:110 *)
  | CSum => [Body true (Some HValue)]                                                                (* adt.py:137, 146 *)
  | CTagged => [Body true (Some HTagValue); Body true (Some HValue)]                                 (* adt.py:226, 232 *)
  end.

(** An object: its class (the library class it derives from and the bodies of its MRO), and its contents. Tuples, AnonymousProducts
    and Products hold a tuple, or a list once a component has been assigned (adt.py:50-52); Sums and TaggedUnions one component. *)
Inductive hobj :=
| OLeaf (c : lib) (m : list body) (x : Z)
| OTuple (c : lib) (m : list body) (assigned : bool) (xs : list hobj)
| OOne (c : lib) (m : list body) (tag : Z) (x : hobj).
(** Leaf hashes, object.__hash__, hashes of tags and tuples, and what functions of the user's return or raise. *)
Record hashes := Hashes { h_leaf : hashfn -> Z -> Z; h_object : hobj -> Z; h_tag : Z -> Z; h_tuple : list Z -> Z; h_user : nat -> hobj -> res Z }.

Fixpoint seq_res (l : list (res Z)) : res (list Z) :=
  match l with
  | [] => Ok []
  | r :: l => z <- r ;; zs <- seq_res l ;; Ok (z :: zs)
  end.
(** hash(o) *)
Fixpoint hash (K : hashes) (o : hobj) : res Z :=
  match o with
  | OLeaf _ m x =>
      match slot m with
      | None => Raise ETypeError
      | Some (HUser f) => h_user K f o
      | Some HObject => Ok (h_object K o)
      | Some h => Ok (h_leaf K h x)
      end
  | OTuple _ m a xs =>
      match slot m with
      | None => Raise ETypeError
      | Some (HUser f) => h_user K f o
      | Some HObject => Ok (h_object K o)
      | Some HValue => if a then Raise ETypeError else l <- seq_res (map (hash K) xs) ;; Ok (h_tuple K l)
      | Some _ => Raise EAttributeError
      end
  | OOne _ m t x =>
      match slot m with
      | None => Raise ETypeError
      | Some (HUser f) => h_user K f o
      | Some HObject => Ok (h_object K o)
      | Some HValue => hash K x
      | Some HTagValue => z <- hash K x ;; Ok (h_tag K t + z)
      | Some _ => Raise EAttributeError
      end
  end.
