(** Instances of algebraic data types: construction, assignment, matching, value_dict/from_values, enumerate, equality
    and hashing (hwtypes/adt.py, adt_meta.py, util.py TypedProperty). Definitions only.
    Not modelled: assignment to private attributes (x._value_ = ...), to attributes that are no fields (they do not touch
    the components), to __class__; fields named "self" or "cls" (C55). *)
From Verif Require Import PyBase BVModel ADTTy.

(** self._value_ (and self._tag_): a Python tuple or, after an item assignment, a list (adt.py:31, 50-52); the value of
    a Sum (135, 163); tag and value of a TaggedUnion, the tag being the position of the field (adt_meta.py:553-571;
    fields of a TaggedUnion are listed in name order, see [twf]). *)
Inductive shape (X : Type) := STup (istuple : bool) (xs : list X) | SSum (x : X) | STag (tag : nat) (x : X).
Arguments STup {X}. Arguments SSum {X}. Arguments STag {X}.

Fixpoint index_of (s : string) (l : list string) : option nat :=
  match l with
  | [] => None
  | x :: l => if String.eqb s x then Some 0%nat else option_map S (index_of s l)
  end.
Fixpoint assoc {A} (s : string) (l : list (string * A)) : option A :=
  match l with
  | [] => None
  | (x, a) :: l => if String.eqb s x then Some a else assoc s l
  end.
Fixpoint update {A} (n : nat) (a : A) (l : list A) : list A :=
  match n, l with
  | O, _ :: l => a :: l
  | S n, x :: l => x :: update n a l
  | _, [] => []
  end.
(** l[i] for a Python int: the position, or IndexError. *)
Definition py_index (n : nat) (i : Z) : res nat :=
  let j := if i <? 0 then i + Z.of_nat n else i in
  if (0 <=? j) && (j <? Z.of_nat n) then Ok (Z.to_nat j) else Raise EIndexError.

(** ** Operations on one instance, for components of type [X] with class [typ] *)
Section Ops.
Context {X : Type} (H : Z -> Z -> bool) (typ : X -> ty).

Definition isinstance (x : X) (t : ty) : bool := sub H (typ x) t.

(** Tuple.__init__, adt.py:23-31. *)
Definition tuple_init (fs : list (string * ty)) (xs : list X) : res (shape X) :=
  if negb (Nat.eqb (length xs) (length fs)) then Raise EValueError
  else if forallb (fun p => isinstance (fst p) (snd p)) (combine xs (types fs)) then Ok (STup true xs)
  else Raise ETypeError.
(** Binding of arguments to the parameters of the generated __init__(self, x, y, ...), adt_meta.py:386-413. *)
Definition bind_args (ns : list string) (pos : list X) (kw : list (string * X)) : res (list X) :=
  if Nat.ltb (length ns) (length pos) then Raise ETypeError
  else if negb (forallb (fun p => existsb (String.eqb (fst p)) (skipn (length pos) ns)) kw) then Raise ETypeError
  else rest <- mapM (fun n => match assoc n kw with Some x => Ok x | None => Raise ETypeError end) (skipn (length pos) ns) ;;
       Ok (pos ++ rest).
(** Sum.__init__(self, value), adt.py:132-135: the exact class of the value is a field. *)
Definition sum_init (fs : list (string * ty)) (pos : list X) (kw : list (string * X)) : res (shape X) :=
  let arg := match pos, kw with
             | [x], [] => Some x
             | [], [(n, x)] => if String.eqb n "value" then Some x else None
             | _, _ => None
             end in
  match arg with
  | None => Raise ETypeError
  | Some x => if existsb (ty_eqb (typ x)) (types fs) then Ok (SSum x) else Raise ETypeError
  end.
(** TypedProperty.__set__ of a field of a TaggedUnion, util.py:104-109, adt_meta.py:553-566. *)
Definition tag_set (fs : list (string * ty)) (n : string) (x : X) : res (shape X) :=
  match index_of n (names fs), assoc n fs with
  | Some i, Some t => if isinstance x t then Ok (STag i x) else Raise ETypeError
  | _, _ => Raise EAttributeError
  end.
(** TaggedUnion.__init__, adt.py:210-221. *)
Definition tag_init (fs : list (string * ty)) (pos : list X) (kw : list (string * X)) : res (shape X) :=
  match pos with
  | _ :: _ => Raise ETypeError
  | [] =>
      match kw with
      | [(n, x)] => match assoc n fs with None => Raise EValueError | Some _ => tag_set fs n x end
      | _ => Raise EValueError
      end
  end.
(** T( *pos, **kw) for a bound type, adt_meta.py:232-246. *)
Definition call (t : ty) (pos : list X) (kw : list (string * X)) : res (shape X) :=
  match node_of t with
  | Some (KTuple, fs) => match kw with [] => tuple_init fs pos | _ => Raise ETypeError end
  | Some (KAnon, fs) | Some (KProd _ _, fs) => xs <- bind_args (names fs) pos kw ;; tuple_init fs xs
  | Some (KSum, fs) => sum_init fs pos kw
  | Some (KTag _ _, fs) => tag_init fs pos kw
  | None => Raise EOutOfModel
  end.

(** Subscripts: ints, strings, classes, other objects; slices are treated in the heap model. *)
Inductive key := IxInt (i : Z) | IxStr (s : string) | IxTy (t : ty) | IxOther.

(** Tuple.__setitem__, adt.py:48-54. type(self)[idx] is fields[idx] (adt_meta.py:353-357) or, for a string on a Product,
    field_dict[idx] (486-493); then list subscripting. *)
Definition tuple_setitem (fs : list (string * ty)) (xs : list X) (i : Z) (x : X) : res (shape X) :=
  p <- py_index (length fs) i ;;
  if isinstance x (nth p (types fs) (TLeaf LObject)) then
    q <- py_index (length xs) i ;; Ok (STup false (update q x xs))
  else Raise ETypeError.
Definition setitem (t : ty) (s : shape X) (k : key) (x : X) : res (shape X) :=
  match node_of t, s with
  | Some (KTuple, fs), STup _ xs | Some (KAnon, fs), STup _ xs | Some (KProd _ _, fs), STup _ xs =>
      match k with
      | IxInt i => tuple_setitem fs xs i x
      | IxStr n =>
          match node_of t with
          | Some (KProd _ _, _) => match assoc n fs with None => Raise EKeyError | Some _ => Raise ETypeError end
          | _ => Raise ETypeError
          end
      | _ => Raise ETypeError
      end
  (** Sum.__setitem__, adt.py:157-163 *)
  | Some (KSum, fs), SSum _ =>
      match k with
      | IxTy u => if existsb (ty_eqb u) (types fs) then (if isinstance x u then Ok (SSum x) else Raise ETypeError) else Raise ETypeError
      | _ => Raise ETypeError
      end
  (** TaggedUnion.__setitem__, adt.py:223-224 *)
  | Some (KTag _ _, _), STag _ _ => Raise ETypeError
  | _, _ => Raise EOutOfModel
  end.
(** setattr(self, n, x) for a field n: Product properties (adt_meta.py:440-452), TaggedUnion properties (553-566). *)
Definition setattr (t : ty) (s : shape X) (n : string) (x : X) : res (shape X) :=
  match node_of t, s with
  | Some (KAnon, fs), STup _ xs | Some (KProd _ _, fs), STup _ xs =>
      match index_of n (names fs), assoc n fs with
      | Some i, Some u => if isinstance x u then tuple_setitem fs xs (Z.of_nat i) x else Raise ETypeError
      | _, _ => Raise EAttributeError
      end
  | Some (KTag _ _, fs), STag _ _ => tag_set fs n x
  | _, _ => Raise EAttributeError
  end.
(** Sum.__getitem__ and Sum.Match, adt.py:114-130, 149-154: the pair (match, value). *)
Definition sum_get (t : ty) (s : shape X) (u : ty) : res (bool * X) :=
  match node_of t, s with
  | Some (_, fs), SSum x => if existsb (ty_eqb u) (types fs) then Ok (isinstance x u, x) else Raise ETypeError
  | Some (_, fs), STag _ x => if existsb (ty_eqb u) (type_set (types fs)) then Ok (isinstance x u, x) else Raise ETypeError
  | _, _ => Raise EOutOfModel
  end.
(** The property of a field of a TaggedUnion, adt_meta.py:555-558. *)
Definition tag_get (t : ty) (s : shape X) (n : string) : res (bool * X) :=
  match node_of t, s with
  | Some (_, fs), STag k x => match index_of n (names fs) with Some i => Ok (Nat.eqb k i, x) | None => Raise EAttributeError end
  | _, _ => Raise EAttributeError
  end.
(** Match.value, adt.py:125-130. *)
Definition match_value (m : bool * X) : res X := if fst m then Ok (snd m) else Raise ETypeError.
End Ops.

(** ** Histories of calls on a heap of objects *)
(** [OAtom]: an object that is no Tuple, Product, Sum or TaggedUnion instance: a bit-vector, a Bit, an int, an Enum
    member, ...; the number stands for its value. *)
Inductive obj := OAtom (t : ty) (z : Z) | ONode (t : ty) (s : shape nat).
Definition otype (o : obj) : ty := match o with OAtom t _ | ONode t _ => t end.
Definition heap := list obj.
Definition rtype (h : heap) (r : nat) : ty := match nth_error h r with Some o => otype o | None => TLeaf LObject end.

(** Operands are references to objects; a program may use any object (all components are reachable by subscripting). *)
Inductive op :=
| OpAtom (t : ty) (z : Z)
| OpCall (t : ty) (pos : list nat) (kw : list (string * nat))
| OpTuple (pos : list nat)
| OpSetItem (r : nat) (k : key) (v : nat)
| OpSetSlice (r : nat) (a b : option Z) (v : nat)
| OpSetAttr (r : nat) (n : string) (v : nat).

Definition live (h : heap) (r : nat) : bool := Nat.ltb r (length h).
(** list(v), for the value assigned to a slice: a bit-vector gives new Bit objects (bit_vector.py __iter__ via __len__ and
    __getitem__), a Tuple its components. Classes [LOther] are taken to be not iterable. *)
Fixpoint vec_leaf (t : ty) : option (Z * Z) :=
  match t with TLeaf (LVec f _ (Some n)) => Some (f, n) | TMod _ t => vec_leaf t | _ => None end.
Definition iter_obj (h : heap) (r : nat) : res (heap * list nat) :=
  match nth_error h r with
  | Some (OAtom t z) =>
      match vec_leaf t with
      | Some (f, n) => let bits := map (fun i => OAtom (TLeaf (LBit f)) (b2z (Z.testbit z i))) (zrange n) in
                       Ok (h ++ bits, seq (length h) (length bits))
      | None => Raise ETypeError
      end
  | Some (ONode _ (STup _ xs)) => Ok (h, xs)
  | _ => Raise ETypeError
  end.
Definition bound (n : nat) (d : Z) (a : option Z) : nat :=
  Z.to_nat (match a with None => d | Some i => clamp_index (Z.of_nat n) 1 i end).
(** Tuple.__setitem__ with a slice a:b, adt.py:48-54: type(self)[a:b] is a tuple of classes, isinstance accepts any of
    them, and list slice assignment splices. *)
Definition set_slice (H : Z -> Z -> bool) (h : heap) (t : ty) (s : shape nat) (a b : option Z) (v : nat) : res (heap * shape nat) :=
  match node_of t, s with
  | Some (_, fs), STup _ xs =>
      let n := length fs in
      let lo := bound n 0 a in let hi := Nat.max lo (bound n (Z.of_nat n) b) in
      if existsb (sub H (rtype h v)) (firstn (hi - lo) (skipn lo (types fs))) then
        p <- iter_obj h v ;;
        (let n' := length xs in let lo' := bound n' 0 a in let hi' := Nat.max lo' (bound n' (Z.of_nat n') b) in
         Ok (fst p, STup false (firstn lo' xs ++ snd p ++ skipn hi' xs)))
      else Raise ETypeError
  | _, _ => Raise ETypeError
  end.
(** One call; a reference to no object is an unbound variable. *)
Definition step (H : Z -> Z -> bool) (h : heap) (o : op) : heap * res nat :=
  match o with
  | OpAtom t z => match node_of t with None => (h ++ [OAtom t z], Ok (length h)) | Some _ => (h, Raise EOutOfModel) end
  | OpCall t pos kw =>
      if forallb (live h) (pos ++ map snd kw) then
        match call H (rtype h) t pos kw with
        | Ok s => (h ++ [ONode t s], Ok (length h))
        | Raise e => (h, Raise e)
        end
      else (h, Raise ENameError)
  (** Tuple(...) on the unbound class, adt.py:16-21 *)
  | OpTuple pos =>
      if forallb (live h) pos then
        let t := TNode KTuple [] (unnamed (map (rtype h) pos)) in
        match call H (rtype h) t pos [] with
        | Ok s => (h ++ [ONode t s], Ok (length h))
        | Raise e => (h, Raise e)
        end
      else (h, Raise ENameError)
  | OpSetItem r k v =>
      if live h v then
        match nth_error h r with
        | Some (ONode t s) =>
            match setitem H (rtype h) t s k v with
            | Ok s => (update r (ONode t s) h, Ok r)
            | Raise e => (h, Raise e)
            end
        | _ => (h, Raise EOutOfModel)
        end
      else (h, Raise ENameError)
  | OpSetSlice r a b v =>
      if live h v then
        match nth_error h r with
        | Some (ONode t s) =>
            match set_slice H h t s a b v with
            | Ok (h, s) => (update r (ONode t s) h, Ok r)
            | Raise e => (h, Raise e)
            end
        | _ => (h, Raise EOutOfModel)
        end
      else (h, Raise ENameError)
  | OpSetAttr r n v =>
      if live h v then
        match nth_error h r with
        | Some (ONode t s) =>
            match setattr H (rtype h) t s n v with
            | Ok s => (update r (ONode t s) h, Ok r)
            | Raise e => (h, Raise e)
            end
        | _ => (h, Raise EOutOfModel)
        end
      else (h, Raise ENameError)
  end.
Definition run (H : Z -> Z -> bool) (h : heap) (l : list op) : heap := fold_left (fun h o => fst (step H h o)) l h.

(** ** Instances by contents *)
Inductive val :=
| VAtom (t : ty) (z : Z)
| VTup (t : ty) (istuple : bool) (vs : list val)
| VSum (t : ty) (v : val)
| VTag (t : ty) (tag : nat) (v : val).
Definition vtype (v : val) : ty := match v with VAtom t _ | VTup t _ _ | VSum t _ | VTag t _ _ => t end.
Definition vshape (v : val) : option (shape val) :=
  match v with
  | VAtom _ _ => None
  | VTup _ b vs => Some (STup b vs)
  | VSum _ v => Some (SSum v)
  | VTag _ k v => Some (STag k v)
  end.
Definition mk_val (t : ty) (s : shape val) : val :=
  match s with STup b vs => VTup t b vs | SSum v => VSum t v | STag k v => VTag t k v end.
Definition vcall (H : Z -> Z -> bool) (t : ty) (pos : list val) (kw : list (string * val)) : res val :=
  rmap (mk_val t) (call H vtype t pos kw).
(** t[i] = v: the contents of t afterwards. *)
Definition vsetitem (H : Z -> Z -> bool) (x : val) (k : key) (v : val) : res val :=
  match vshape x with None => Raise EOutOfModel | Some s => rmap (mk_val (vtype x)) (setitem H vtype (vtype x) s k v) end.

(** None, of class [LOther 0]. *)
Definition is_none (v : val) : bool := match v with VAtom (TLeaf (LOther 0)) _ => true | _ => false end.

(** value_dict: keys are positions (Tuple), names (Product, TaggedUnion) or classes (Sum); adt.py:59-64, 98-103, 168-176,
    238-247. The dictionary lists its items in the order of field_dict. *)
Inductive vkey := VkPos (n : nat) | VkName (s : string) | VkTy (t : ty).
Definition tuple_keys (k : nkind) (fs : list (string * ty)) : list vkey :=
  match k with KTuple => map VkPos (seq 0 (length fs)) | _ => map VkName (names fs) end.
Definition value_dict (H : Z -> Z -> bool) (x : val) : res (list (vkey * option val)) :=
  match node_of (vtype x), x with
  | Some (k, fs), VTup _ _ vs =>
      l <- mapM (fun i => match nth_error vs i with Some v => Ok v | None => Raise EIndexError end) (seq 0 (length fs)) ;;
      Ok (combine (tuple_keys k fs) (map Some l))
  | Some (_, fs), VSum _ v =>
      Ok (map (fun t => (VkTy t, if sub H (vtype v) t then Some v else None)) (types fs))
  | Some (_, fs), VTag _ k v =>
      Ok (map (fun p => (VkName (fst (snd p)), if Nat.eqb k (fst p) then Some v else None)) (combine (seq 0 (length fs)) fs))
  | _, _ => Raise EAttributeError
  end.
(** from_values on a dictionary with the keys of field_dict in its order, adt.py:66-87, 105-107, 178-201, 249-252. [None]
    entries and entries holding the value None are the same thing. *)
Definition entry_none (o : option val) : bool := match o with None => true | Some v => is_none v end.
Definition from_values (H : Z -> Z -> bool) (t : ty) (d : list (vkey * option val)) : res val :=
  match node_of t with
  | Some (KSum, fs) | Some (KTag _ _, fs) =>
      let items := flat_map (fun p => match snd (fst p) with Some v => if is_none v then [] else [(fst (fst p), snd p, v)] | None => [] end)
                            (combine d (types fs)) in
      if negb (forallb (fun i => sub H (vtype (snd i)) (snd (fst i))) items) then Raise ETypeError
      else match items with
           | [(VkTy _, _, v)] => vcall H t [v] []
           | [(VkName n, _, v)] => vcall H t [] [(n, v)]
           | _ => Raise EValueError
           end
  | Some (k, fs) =>
      vs <- mapM (fun p => match p with
                           | (_, Some v, u) => if sub H (vtype v) u then Ok v else Raise ETypeError
                           | (_, None, u) => Raise ETypeError
                           end) (combine d (types fs)) ;;
      match k with
      | KTuple => vcall H t vs []
      | _ => vcall H t [] (combine (names fs) vs)
      end
  | None => Raise EAttributeError
  end.

(** Evaluate from left to right until the first exception. *)
Definition sequence {A} (l : list (res A)) : res (list A) := mapM (fun r => r) l.

(** ** enumerate *)
(** itertools.product *)
Fixpoint product {A} (ls : list (list A)) : list (list A) :=
  match ls with
  | [] => [[]]
  | l :: ls => flat_map (fun x => map (cons x) (product ls)) l
  end.
(** field(0) and field() for a field that is no ADT, adt_meta.py:365, 517, 580: concrete bit-vectors and Bits only. *)
Fixpoint leaf_call0 (cls t : ty) : res val :=
  match t with
  | TLeaf (LVec 0 _ (Some _)) | TLeaf (LBit 0) => Ok (VAtom cls 0)
  | TMod _ t => leaf_call0 cls t
  | _ => Raise EOutOfModel
  end.
Fixpoint leaf_call (t : ty) : res val :=
  match t with
  | TLeaf (LVec _ _ (Some _)) | TLeaf (LBit _) => Raise ETypeError
  | TMod _ t => leaf_call t
  | _ => Raise EOutOfModel
  end.
(** cls.enumerate() for a class cls with the fields of [t]: TupleMeta 359-368, SumMeta 512-517, TaggedUnionMeta 575-580,
    EnumMeta 628-629 (the members are those of the unmodified Enum). The list of all values, or the first exception. *)
Fixpoint enum_as (H : Z -> Z -> bool) (cls t : ty) : res (list val) :=
  match t with
  | TLeaf _ => Raise EAttributeError
  | TEnum _ ms => Ok (map (VAtom t) (zrange (Z.of_nat (length ms))))
  | TMod _ t => enum_as H cls t
  | TNode k _ fs =>
      match k with
      | KSum =>
          ls <- sequence (map (fun f => if is_adt (snd f) then enum_as H (snd f) (snd f) else rmap (fun v => [v]) (leaf_call (snd f))) fs) ;;
          mapM (fun v => vcall H cls [v] []) (List.concat ls)
      | KTag _ _ =>
          ls <- sequence (map (fun f => l <- (if is_adt (snd f) then enum_as H (snd f) (snd f) else rmap (fun v => [v]) (leaf_call (snd f))) ;;
                               Ok (map (pair (fst f)) l)) fs) ;;
          mapM (fun p => vcall H cls [] [p]) (List.concat ls)
      | _ =>
          ls <- sequence (map (fun f => if is_adt (snd f) then enum_as H (snd f) (snd f) else rmap (fun v => [v]) (leaf_call0 (snd f) (snd f))) fs) ;;
          mapM (fun vs => vcall H cls vs []) (product ls)
      end
  end.
Definition enumerate (H : Z -> Z -> bool) (t : ty) : res (list val) := enum_as H t t.

(** ** Equality and hashing *)
(** Atoms: Enum members compare by value (adt.py:266-270); [L] is == on the other leaf objects, it may raise. A leaf object
    never equals an ADT instance (its __eq__ returns NotImplemented or False for one). *)
Definition evalue_eqb (a b : evalue) : bool :=
  match a, b with EInt x, EInt y => x =? y | EAuto x, EAuto y => x =? y | _, _ => false end.
Definition member (ms : list (string * evalue)) (z : Z) : evalue := snd (nth (Z.to_nat z) ms (EmptyString, EInt 0)).
Definition atom_eq (L : ty -> Z -> ty -> Z -> res bool) (t : ty) (x : Z) (u : ty) (y : Z) : res bool :=
  match t, u with
  | TEnum _ ms, TEnum _ ms' => Ok (ty_eqb t u && evalue_eqb (member ms x) (member ms' y))
  | TEnum _ _, _ | _, TEnum _ _ => Ok false
  | _, _ => L t x u y
  end.
(** Python's tuple and list comparison: left to right, until the first difference. *)
Definition all_eq {A B} (f : A -> B -> res bool) : list A -> list B -> res bool :=
  fix all_eq (l : list A) (m : list B) : res bool :=
  match l, m with
  | [], [] => Ok true
  | x :: l, y :: m => b <- f x y ;; if b then all_eq l m else Ok false
  | _, _ => Ok false
  end.
(** a == b if [sw] is false, b == a if it is true. Python calls first the __eq__ of the right operand if its class is a
    proper subclass, then the other one; each __eq__ (adt.py:33-37, 137-141, 226-230) answers only when the other operand
    is an instance of its own class. Without an answer the operands are different (unless they are the same object). *)
Fixpoint eq_sw (H : Z -> Z -> bool) (L : ty -> Z -> ty -> Z -> res bool) (sw : bool) (a b : val) {struct a} : res bool :=
  let ta := vtype a in let tb := vtype b in
  let '(p, q) := if sw then (tb, ta) else (ta, tb) in
  match a, b with
  | VAtom t x, VAtom u y => if sw then atom_eq L u y t x else atom_eq L t x u y
  | VAtom _ _, _ | _, VAtom _ _ => Ok false
  | _, _ =>
      if sub H q p || sub H p q then
        let sw' := if sub H q p then sw else negb sw in
        match a, b with
        | VTup _ f xs, VTup _ g ys => if Bool.eqb f g then all_eq (eq_sw H L sw') xs ys else Ok false
        | VTag _ k x, VTag _ j y => if Nat.eqb k j then eq_sw H L sw' x y else Ok false
        | VSum _ x, VSum _ y | VSum _ x, VTag _ _ y | VTag _ _ x, VSum _ y => eq_sw H L sw' x y
        | _, _ => Ok false
        end
      else Ok false
  end.
Definition py_eq (H : Z -> Z -> bool) (L : ty -> Z -> ty -> Z -> res bool) (a b : val) : res bool := eq_sw H L false a b.

(** hash(x), adt.py:42-43, 146-147, 232-233, 275-276. [h_atom]: hash of leaf objects; [h_tuple]: hash of a tuple with the
    given hashes; [h_int]: hash of an int, also what hash(x) does to the result of __hash__. *)
Record hashing := { h_atom : ty -> Z -> res Z; h_auto : Z -> Z; h_int : Z -> Z; h_tuple : list Z -> Z }.
Fixpoint py_hash (K : hashing) (v : val) : res Z :=
  match v with
  | VAtom (TEnum _ ms) z => Ok (match member ms z with EInt x => h_int K (h_int K x) | EAuto i => h_int K (h_auto K i) end)
  | VAtom t z => h_atom K t z
  | VTup _ b vs => if b then l <- sequence (map (py_hash K) vs) ;; Ok (h_int K (h_tuple K l)) else Raise ETypeError
  | VSum _ v => rmap (h_int K) (py_hash K v)
  | VTag _ k v => rmap (fun z => h_int K (h_int K (Z.of_nat k) + z)) (py_hash K v)
  end.
