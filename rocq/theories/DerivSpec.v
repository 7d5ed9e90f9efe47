(** Specification for vectors of derived classes: the plain vector with the same number. *)
From Verif Require Import PyBase BVModel OpModel SMTSpec ProgModel MetaModel MetaSpec DerivModel.

(** Classes are numbered as in MetaSpec.builtin: 2 BitVector, 5 SIntVector. *)
Definition below_BitVector (s : meta) (c : nat) : Prop := issub s c 2 = true.
Definition below_SIntVector (s : meta) (c : nat) : bool := issub s c 5.

(** A class with instances: sized, and derived from BitVector. *)
Definition vclass (s : meta) (c : nat) : Prop :=
  is_bv s c /\ below_BitVector s c /\ exists n, c_size (get_cls s c) = Some n /\ 0 <= n.
(** An object of a program: a Bit, or an instance of such a class whose number fits its size. *)
Definition object (s : meta) (v : uval) : Prop :=
  match v with
  | UInt _ => False
  | UBit _ => True
  | UVec x => vclass s (vcls x) /\ exists n, c_size (get_cls s (vcls x)) = Some n /\ 0 <= vval x < 2 ^ n
  end.
(** The classes a program starts from: those of its objects and those it names. *)
Definition object_classes (rs : list uval) : list nat := flat_map (fun v => match v with UVec x => [vcls x] | _ => [] end) rs.
Definition named (i : vcall) : list nat := match i with DLit c _ | DConv c _ => [c] | _ => [] end.
Definition start_classes (rs : list uval) (p : list vcall) : list nat := object_classes rs ++ flat_map named p.

(** c is u[n] for some n. *)
Definition sized_of (s : meta) (u c : nat) : Prop := exists n, getitem_cls s u (XInt n) = Ok (s, c).

(** The same number in the built-in class: SIntVector[n] for what is derived from SIntVector, BitVector[n] for the rest. *)
Definition plain_cls (s : meta) (c : nat) : bvcls :=
  BVC (if below_SIntVector s c then KSInt else KBV) (match c_size (get_cls s c) with Some n => n | None => 0 end).
Definition plain (s : meta) (v : uval) : pyval :=
  match v with UInt z => VInt z | UBit b => VBit b | UVec x => VBV (BV (plain_cls s (vcls x)) (vval x)) end.
Definition plain_call (s : meta) (i : vcall) : instr :=
  match i with
  | DLit c z => PLit (plain_cls s c) z
  | DBit b => PBit b
  | DConv c x => PConv (plain_cls s c) x
  | DMeth m x y => PMeth m x y
  | DRel m x y => PRel m x y
  | DInv x => PInv x
  | DNeg x => PNeg x
  | DRol x k => PRol x k
  | DRor x k => PRor x k
  | DOp op x y => POp op x y
  | DCmp c x y => PCmp c x y
  | DCmpInt c z y => PCmpInt c z y
  | DItem x i => PItem x i
  | DSlice x a b => PSlice x a b
  | DConcat x y => PConcat x y
  | DZext x k => PZext x k
  | DSext x k => PSext x k
  | DExt x k => PExt x k
  | DSet x i b => PSet x i b
  | DAdc x y c => PAdc x y c
  end.

(** Calls on x whose result is made with type(x).unsized_t. *)
Definition rebuilds (i : vcall) : option nat :=
  match i with
  | DMeth MComp x (Num _) | DRol x _ | DRor x _ | DSlice x _ _ | DConcat x _ | DAdc x (Num _) _ => Some x
  | DZext x k | DSext x k | DExt x k => if 0 <=? k then Some x else None
  | _ => None
  end.
(** The results a call reads. *)
Definition reads (i : vcall) : list nat :=
  let op o := match o with Reg k => [k] | Num _ => [] end in
  match i with
  | DLit _ _ | DBit _ => []
  | DConv _ x | DInv x | DNeg x | DRol x _ | DRor x _ | DItem x _ | DSlice x _ _ | DZext x _ | DSext x _ | DExt x _ | DCmpInt _ _ x => [x]
  | DMeth _ x y | DRel _ x y | DOp _ x y | DCmp _ x y | DSet x _ y => x :: op y
  | DConcat x y => [x; y]
  | DAdc x y c => x :: op y ++ op c
  end.
(** Calls on x whose result has the class of x. *)
Definition keeps (i : vcall) : option nat :=
  match i with
  | DMeth MComp _ _ => None
  | DMeth _ x _ | DInv x | DNeg x | DOp _ x _ | DSet x _ _ => Some x
  | _ => None
  end.
