(** Bit.ite on concrete values: nested tuples, polymorphic result classes and the bit-vector protocol
    (hwtypes/bit_vector.py:95-116, hwtypes/bit_vector_util.py). Definitions only. *)
From Verif Require Import PyBase BVModel OpModel.

(** Unsized classes: the four built-in ones and the polymorphic classes PolyVector[T0, T1, select]
    (bit_vector_util.py:54-97). A polymorphic class is never cached (63), so each has an identity. *)
Inductive pcls := PBase (k : kind) | PPoly (id : nat) (t0 t1 : pcls) (sel : bool).

Definition pcls_eqb (a b : pcls) : bool :=
  match a, b with
  | PBase k, PBase l => kind_eqb k l
  | PPoly i _ _ _, PPoly j _ _ _ => Nat.eqb i j
  | _, _ => false
  end.

(** _get_common_bases + PolyVector._get_bases, bit_vector_util.py:100-119, 133-145: the most specific
    built-in class above both. For built-in classes this is the join of the chain BitVector > NumVector >
    {UIntVector, SIntVector} (proved about the recursive search in MetaModel.v). *)
Definition kind_join (a b : kind) : kind :=
  if kind_le a b then b else if kind_le b a then a else KNum.
Fixpoint base_kind (c : pcls) : kind :=
  match c with
  | PBase k => k
  | PPoly _ t0 t1 _ => kind_join (base_kind t0) (base_kind t1)
  end.

(** A vector object: unsized class, size, value. *)
Record pobj := PObj { pc : pcls; pn : Z; pv : Z }.

(** The object seen as a plain bit-vector (the methods never look at more than size and value). *)
Definition as_bv (x : pobj) : bv := BV (BVC KBV (pn x)) (pv x).
Definition like (x : pobj) (b : bv) : pobj := PObj (pc x) (bsize b) (bval b).

(** Class identity of two objects: same unsized class and size (bit_vector_abc.py:75-97 caches K[n]). *)
Definition same_cls (x y : pobj) : bool := pcls_eqb (pc x) (pc y) && (pn x =? pn y).

(** T(value) for a vector argument, BitVector.__init__ 183-186, 204-205. *)
Definition recast (c : pcls) (n : Z) (v : Z) : pobj := PObj c n (Z.land v (Z.shiftl 1 n - 1)).

(** ** Branches of ite *)
(** A user type implementing the protocol (bit_vector_util.py:39-48): its bit-vector class and its
    conversion from and to that class. Instances are their payload. *)
Record proto := Proto { p_cls : bvcls; p_from : bv -> res Z; p_to : Z -> bv }.
(** The user's protocol types, by number. *)
Definition ptypes := nat -> proto.

Inductive branch :=
| BrTuple (l : list branch)
| BrBit (b : bool)
| BrVec (x : pobj)
| BrProto (i : nat) (payload : Z)
| BrOther.                       (* anything else: int, str, user object without the protocol *)

(** Result types of determine_return_type, bit_vector_util.py:185-216. *)
Inductive rtype := RTuple (l : list rtype) | RBit | RVec (c : pcls) (n : Z) | RProto (i : nat).

(** determine_return_type; the nat is the supply of identities for new classes. The except clause at 195
    turns any TypeError inside a tuple into a TypeError. *)
Fixpoint return_type (id : nat) (sel : bool) (t f : branch) : res (rtype * nat) :=
  match t, f with
  | BrTuple lt, BrTuple lf =>
      let fix go (id : nat) (lt lf : list branch) : res (list rtype * nat) :=
        match lt, lf with
        | [], [] => Ok ([], id)
        | t :: lt, f :: lf =>
            r <- return_type id sel t f ;;
            rs <- go (snd r) lt lf ;;
            Ok (fst r :: fst rs, snd rs)
        | _, _ => Raise ETypeError                       (* lengths differ: 192, 198-200 *)
        end in
      match go id lt lf with
      | Ok (l, id) => Ok (RTuple l, id)
      | Raise e => if is_type_error e then Raise ETypeError else Raise e
      end
  | BrTuple _, _ | _, BrTuple _ => Raise ETypeError      (* 198-200 *)
  | BrBit _, BrBit _ => Ok (RBit, id)                    (* 201-203 *)
  | BrVec x, BrVec y =>                                  (* 205-208 *)
      if same_cls x y then Ok (RVec (pc x) (pn x), id)
      else if negb (pn x =? pn y) then Raise EInconsistentSize      (* 126-127 *)
      else Ok (RVec (PPoly id (pc x) (pc y) sel) (pn x), S id)      (* 150 *)
  | BrProto i _, BrProto j _ =>                          (* 209-212 *)
      if Nat.eqb i j then Ok (RProto i, id) else Raise ETypeError
  | _, _ => Raise ETypeError                             (* 213-214 *)
  end.

(** push_ite, bit_vector_util.py:226-237, with _ite of bit_vector.py:113-114. Protocol objects are
    replaced by the selected _to_bitvector_() (one level: _to_bitvector_ returns a bit-vector). *)
Fixpoint push_ite (tab : ptypes) (sel : bool) (t f : branch) : res branch :=
  match t, f with
  | BrTuple lt, BrTuple lf =>
      let fix go (lt lf : list branch) : res (list branch) :=
        match lt, lf with
        | [], [] => Ok []
        | t :: lt, f :: lf => r <- push_ite tab sel t f ;; rs <- go lt lf ;; Ok (r :: rs)
        | _, _ => Raise EAssertion                                    (* 230 *)
        end in
      rmap BrTuple (go lt lf)
  | BrTuple _, _ => Raise EAssertion                                  (* 229 *)
  | BrProto i a, BrProto j b =>
      if negb (Nat.eqb i j) then Raise EAssertion                     (* 233 *)
      else let x := p_to (tab i) (if sel then a else b) in
           Ok (BrVec (PObj (PBase (bkind x)) (bsize x) (bval x)))
  | BrProto _ _, _ => Raise EAssertion
  | _, _ => Ok (if sel then t else f)
  end.

(** coerce_branch, bit_vector_util.py:218-224. *)
Fixpoint coerce_branch (tab : ptypes) (r : rtype) (b : branch) : res branch :=
  match r, b with
  | RTuple lr, BrTuple lb =>
      let fix go (lr : list rtype) (lb : list branch) : res (list branch) :=
        match lr, lb with
        | [], [] => Ok []
        | r :: lr, b :: lb => x <- coerce_branch tab r b ;; xs <- go lr lb ;; Ok (x :: xs)
        | _, _ => Raise EAssertion
        end in
      rmap BrTuple (go lr lb)
  | RTuple _, _ => Raise EAssertion
  | RBit, BrBit b => Ok (BrBit b)                        (* Bit(Bit) *)
  | RVec c n, BrVec x => Ok (BrVec (recast c n (pv x)))
  | RProto i, BrVec x =>                                 (* from_bv_args, 210-211 *)
      rmap (BrProto i) (p_from (tab i) (mk (p_cls (tab i)) (pv x)))
  | _, _ => Raise EOutOfModel
  end.

(** build_ite, bit_vector_util.py:239-243. *)
Definition ite (tab : ptypes) (id : nat) (sel : bool) (t f : branch) : res (branch * nat) :=
  r <- return_type id sel t f ;;
  v <- push_ite tab sel t f ;;
  w <- coerce_branch tab (fst r) v ;;
  Ok (w, snd r).

(** ** Methods of polymorphic classes *)
(** A method of a class: a function of one of the built-in classes, or a VCall (bit_vector_util.py:166-176)
    choosing between two methods. build_VCall returns the common method when both classes share it. *)
Inductive pmeth := MLeaf (signed_variant : bool) | MVCall (sel : bool) (m0 m1 : pmeth).
Definition build_vcall (sel : bool) (m0 m1 : pmeth) : pmeth :=
  match m0, m1 with
  | MLeaf a, MLeaf b => if Bool.eqb a b then m0 else MVCall sel m0 m1
  | _, _ => MVCall sel m0 m1
  end.
(** Does SIntVector override the operator (bit_vector.py:521-549) / the comparison (551-581)? *)
Definition op_overridden (op : binop) : bool :=
  match op with OShr | OFloorDiv | OMod => true | _ => false end.
Definition cmp_overridden (c : cmpop) : bool :=
  match c with CEq | CNe => false | _ => true end.
Fixpoint resolve (overridden : bool) (c : pcls) : pmeth :=
  match c with
  | PBase k => MLeaf (overridden && kind_eqb k KSInt)
  | PPoly _ t0 t1 sel => build_vcall sel (resolve overridden t0) (resolve overridden t1)
  end.

(** Operands of an operator. *)
Inductive parg := AVec (y : pobj) | AOther (v : pyval).
Definition arg_val (a : parg) : pyval := match a with AVec y => VBV (as_bv y) | AOther v => v end.

(** What an operator method returns. *)
Inductive pret := PNotImpl | PVec (x : pobj) | PBit (b : bool).

(** Vectors and Bits only, no protocol objects. *)
Definition no_protocols : ptypes := fun _ => Proto (BVC KBV 0) (fun _ => Ok 0) (fun _ => BV (BVC KBV 0) 0).
Definition as_branch (r : pret) : branch :=
  match r with PVec x => BrVec x | PBit b => BrBit b | PNotImpl => BrOther end.
Definition as_ret (b : branch) : pret :=
  match b with BrVec x => PVec x | BrBit b => PBit b | _ => PNotImpl end.

(** The end of VCall, bit_vector_util.py:171-175: only v0 is compared with NotImplemented (twice), so a
    NotImplemented v1 goes into select.ite, which raises TypeError. The nat is the supply of class identities. *)
Definition vcall (sel : bool) (v0 v1 : pret) (id : nat) : res (pret * nat) :=
  match v0 with
  | PNotImpl => Ok (PNotImpl, id)
  | _ => r <- ite no_protocols id sel (as_branch v0) (as_branch v1) ;; Ok (as_ret (fst r), snd r)
  end.

Definition variant (s : bool) : kind := if s then KSInt else KBV.

(** x.__op__(other): the built-in function runs on self; its result has the class of self. *)
Definition leaf_forward (op : binop) (s : bool) (x : pobj) (a : parg) : res pret :=
  match dispatch_oper (op_method op (variant s)) (as_bv x) (arg_val a) with
  | Ok NotImpl => Ok PNotImpl
  | Ok OLeft => Ok (PVec x)
  | Ok (ONew (VBV b)) => Ok (PVec (like x b))
  | Ok _ => Raise EOutOfModel
  | Raise e => Raise e
  end.
(** x.__rop__(other), as in OpModel.reflected: the result has the class of the coerced left operand. *)
Definition leaf_reflected (op : binop) (s : bool) (x : pobj) (a : parg) : res pret :=
  match op, s with
  | OShr, false =>                                       (* __rrshift__ = dispatch_oper(__rshift__) *)
      match dispatch_oper bvlshr (as_bv x) (arg_val a) with
      | Ok NotImpl => Ok PNotImpl
      | Ok OLeft => Ok (PVec x)
      | Ok (ONew (VBV b)) => Ok (PVec (like x b))
      | Ok _ => Raise EOutOfModel
      | Raise e => Raise e
      end
  | _, _ =>
      match coerce (BVC KBV (pn x)) (arg_val a) with
      | Raise _ => Raise ENameError
      | Ok o =>
          let o := match a with AVec y => y | AOther _ => PObj (pc x) (bsize o) (bval o) end in
          leaf_forward op s o (AVec x)
      end
  end.
Definition leaf_cmp (c : cmpop) (s : bool) (x : pobj) (a : parg) : res pret :=
  match cmp_method c (variant s) (as_bv x) (arg_val a) with
  | Ok b => Ok (PBit b)
  | Raise EInconsistentSize => Raise EInconsistentSize
  | Raise ETypeError => Ok PNotImpl
  | Raise e => Raise e
  end.
Fixpoint run_meth (leaf : bool -> pobj -> parg -> res pret) (m : pmeth) (id : nat) (x : pobj) (a : parg)
  : res (pret * nat) :=
  match m with
  | MLeaf s => r <- leaf s x a ;; Ok (r, id)
  | MVCall sel m0 m1 =>
      v0 <- run_meth leaf m0 id x a ;;
      v1 <- run_meth leaf m1 (snd v0) x a ;;
      vcall sel (fst v0) (fst v1) (snd v1)
  end.
Definition p_forward (op : binop) (id : nat) (x : pobj) (a : parg) : res (pret * nat) :=
  run_meth (leaf_forward op) (resolve (op_overridden op) (pc x)) id x a.
Definition p_reflected (op : binop) (id : nat) (x : pobj) (a : parg) : res (pret * nat) :=
  run_meth (leaf_reflected op) (resolve (op_overridden op) (pc x)) id x a.
Definition p_cmp (c : cmpop) (id : nat) (x : pobj) (a : parg) : res (pret * nat) :=
  run_meth (leaf_cmp c) (resolve (cmp_overridden c) (pc x)) id x a.

(** issubclass(type(y), type(x)) for objects of equal size: the built-in ancestors of a class are those of
    its base kind; a polymorphic class has no subclasses but itself. *)
Definition sub_cls (y x : pobj) : bool :=
  (pn y =? pn x) && (pcls_eqb (pc y) (pc x) ||
    match pc x with PBase k => kind_le (base_kind (pc y)) k | _ => false end).
(** The right class provides a different reflected function. *)
Definition meth_eqb (m1 m2 : pmeth) : bool :=
  match m1, m2 with MLeaf a, MLeaf b => Bool.eqb a b | _, _ => false end.
Definition r_overloaded (op : binop) (x y : pobj) : bool :=
  negb (meth_eqb (resolve (op_overridden op) (pc x)) (resolve (op_overridden op) (pc y))).

Fixpoint p_first (id : nat) (l : list (nat -> res (pret * nat))) : res (pret * nat) :=
  match l with
  | [] => Raise ETypeError
  | m :: l => match m id with Ok (PNotImpl, id) => p_first id l | r => r end
  end.

(** x op a where x is a vector of any class: CPython's protocol as in OpModel.py_binop. Right operands that
    are Bits are not covered. *)
Definition p_binop (op : binop) (id : nat) (x : pobj) (a : parg) : res (pret * nat) :=
  match a with
  | AVec y =>
      if same_cls x y then p_first id [fun id => p_forward op id x a]
      else if sub_cls y x && r_overloaded op x y
      then p_first id [fun id => p_reflected op id y (AVec x); fun id => p_forward op id x a]
      else p_first id [fun id => p_forward op id x a; fun id => p_reflected op id y (AVec x)]
  | AOther _ => p_first id [fun id => p_forward op id x a]
  end.

(** x cmp a, CPython do_richcompare as in OpModel.py_cmp. *)
Fixpoint p_cmp_first (id : nat) (l : list (nat -> res (pret * nat))) : res (pret * nat) :=
  match l with
  | [] => Raise EOutOfModel                              (* identity fallback or TypeError: OpModel.cmp_fallback *)
  | m :: l => match m id with Ok (PNotImpl, id) => p_cmp_first id l | r => r end
  end.
Definition p_compare (c : cmpop) (id : nat) (x : pobj) (a : parg) : res (pret * nat) :=
  match a with
  | AVec y =>
      if negb (same_cls x y) && sub_cls y x
      then p_cmp_first id [fun id => p_cmp (cmp_swap c) id y (AVec x); fun id => p_cmp c id x a]
      else p_cmp_first id [fun id => p_cmp c id x a; fun id => p_cmp (cmp_swap c) id y (AVec x)]
  | AOther _ => p_cmp_first id [fun id => p_cmp c id x a]
  end.

(** int(x): '__int__' is not rebuilt for polymorphic classes (bit_vector_util.py:87), so it is inherited from
    the common base. *)
Definition p_int (x : pobj) : res Z :=
  match base_kind (pc x) with
  | KSInt => as_sint (as_bv x)
  | _ => Ok (as_uint (as_bv x))
  end.

(** ** Histories of vector creation *)
(** Calls that create vector objects: construction, ite and operators with any right operand. *)
Inductive hcall :=
| HNew (k : kind) (n : Z) (z : Z)                (* K[n](z) *)
| HIte (sel : bool) (i j : nat)                  (* Bit(sel).ite(v_i, v_j) *)
| HOp (op : binop) (i : nat) (w : pyval)         (* v_i op w *)
| HOpV (op : binop) (i j : nat).                 (* v_i op v_j *)
Record pool := Pool { next_id : nat; objs : list pobj }.
Definition push_vec (p : pool) (id : nat) (x : pobj) : pool := Pool id (objs p ++ [x]).
Definition hstep (p : pool) (c : hcall) : pool :=
  match c with
  | HNew k n z => if n <? 0 then p else push_vec p (next_id p) (recast (PBase k) n z)
  | HIte sel i j =>
      match nth_error (objs p) i, nth_error (objs p) j with
      | Some x, Some y =>
          match ite no_protocols (next_id p) sel (BrVec x) (BrVec y) with
          | Ok (BrVec v, id) => push_vec p id v
          | _ => p
          end
      | _, _ => p
      end
  | HOp op i w =>
      match nth_error (objs p) i with
      | Some x => match p_binop op (next_id p) x (AOther w) with Ok (PVec v, id) => push_vec p id v | _ => p end
      | _ => p
      end
  | HOpV op i j =>
      match nth_error (objs p) i, nth_error (objs p) j with
      | Some x, Some y =>
          match p_binop op (next_id p) x (AVec y) with Ok (PVec v, id) => push_vec p id v | _ => p end
      | _, _ => p
      end
  end.
Definition hrun (h : list hcall) : pool := fold_left hstep h (Pool 0 []).
