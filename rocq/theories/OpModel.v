(** Python operators applied to bit-vectors and Bits: the dunder methods of
    hwtypes/bit_vector.py and CPython's binary-operator and rich-comparison protocols.
    Definitions only. *)
From Coq Require Import DecimalString.
From Verif Require Import PyBase BVModel.

(** The infix operators the classes define, bit_vector.py:404-434. *)
Inductive binop := OAnd | OOr | OXor | OShl | OShr | OAdd | OSub | OMul | OFloorDiv | OMod.
Inductive cmpop := CEq | CNe | CLt | CLe | CGt | CGe.

(** What a dunder method produces: NotImplemented, an operand itself, or a new object. *)
Inductive oret := NotImpl | OLeft | ORight | ONew (v : pyval).

(** dispatch_oper, bit_vector.py:151-160 (and the identical try/except of
    SIntVector.__rshift__ etc., 521-527, 531-537, 541-547): InconsistentSizeError
    propagates, any other TypeError gives NotImplemented. The receiver is the left operand. *)
Definition dispatch_oper (method : bv -> pyval -> res rv) (self : bv) (other : pyval) : res oret :=
  match method self other with
  | Ok (New x) => Ok (ONew (VBV x))
  | Ok Self => Ok OLeft
  | Raise EInconsistentSize => Raise EInconsistentSize
  | Raise ETypeError => Ok NotImpl
  | Raise e => Raise e
  end.

(** The named method behind each operator for each class: bit_vector.py:404-434 and, for
    SIntVector, 521-547. *)
Definition op_method (op : binop) (k : kind) : bv -> pyval -> res rv :=
  match op with
  | OAnd => bvand | OOr => bvor | OXor => bvxor | OShl => bvshl
  | OShr => match k with KSInt => bvashr | _ => bvlshr end
  | OAdd => bvadd | OSub => bvsub | OMul => bvmul
  | OFloorDiv => match k with KSInt => bvsdiv | _ => bvudiv end
  | OMod => match k with KSInt => bvsrem | _ => bvurem end
  end.

(** x.__op__(other). *)
Definition forward (op : binop) (self : bv) (other : pyval) : res oret :=
  dispatch_oper (op_method op (bkind self)) self other.

(** dispatch_roper, bit_vector.py:164-174: if _coerce raises anything, evaluating the
    handler name [inconsistentsizeerror] (line 168) raises NameError. [method] is the forward
    dunder of the class that defines the reflected one; its receiver is the coerced left operand,
    which is the left operand itself when that is a bit-vector. *)
Definition dispatch_roper (op : binop) (defk : kind) (self : bv) (other : pyval) : res oret :=
  match coerce (bcls self) other with
  | Raise _ => Raise ENameError
  | Ok o =>
      match dispatch_oper (op_method op defk) o (VBV self), other with
      | Ok OLeft, VBV _ => Ok OLeft
      | Ok OLeft, _ => Ok (ONew (VBV o))
      | r, _ => r
      end
  end.

(** x.__rop__(other): bit_vector.py:405-434; __rrshift__ is dispatch_oper(__rshift__) (417), so
    it computes self >> other (a NotImplemented from the inner call is passed on); SIntVector
    redefines __rrshift__, __rfloordiv__, __rmod__ (529, 539, 549). *)
Definition reflected (op : binop) (self : bv) (other : pyval) : res oret :=
  match op, bkind self with
  | OShr, KSInt => dispatch_roper OShr KSInt self other
  | OShr, _ => match dispatch_oper bvlshr self other with
               | Ok OLeft => Ok ORight
               | r => r
               end
  | OFloorDiv, KSInt => dispatch_roper OFloorDiv KSInt self other
  | OMod, KSInt => dispatch_roper OMod KSInt self other
  | _, _ => dispatch_roper op KBV self other
  end.

(** issubclass(K1[n1], K2[n2]) on sized classes (bit_vector_abc.py:90-94; see MetaModel.v). *)
Definition cls_le (a b : bvcls) : bool := kind_le (ck a) (ck b) && (csize a =? csize b).
Definition cls_eqb (a b : bvcls) : bool := kind_eqb (ck a) (ck b) && (csize a =? csize b).

(** CPython method_is_overloaded: the right operand's class provides a different reflected
    method. Only SIntVector overrides any (bit_vector.py:529, 539, 549). *)
Definition reflected_overridden (op : binop) (left right : kind) : bool :=
  match op with
  | OShr | OFloorDiv | OMod => negb (kind_eqb left KSInt) && kind_eqb right KSInt
  | _ => false
  end.

(** Bit's __and__/__or__/__xor__ and reflected forms, bit_vector.py:27-38, 71-93. *)
Definition bit_fn (op : binop) : option (bool -> bool -> bool) :=
  match op with
  | OAnd => Some andb | OOr => Some orb | OXor => Some xorb | _ => None
  end.
Definition bit_method (op : binop) (self : bool) (other : pyval) : res oret :=
  match bit_fn op with
  | None => Ok NotImpl                                  (* no such method *)
  | Some f =>
      match bit_init other with
      | Ok o => Ok (ONew (VBit (f self o)))
      | Raise e => if is_type_error e then Ok NotImpl else Raise e
      end
  end.
Definition bit_rmethod (op : binop) (self : bool) (other : pyval) : res oret :=
  match bit_fn op with
  | None => Ok NotImpl
  | Some f =>
      match bit_init other with
      | Ok o => Ok (ONew (VBit (f o self)))
      | Raise e => if is_type_error e then Ok NotImpl else Raise e
      end
  end.

(** Try methods in order until one does not return NotImplemented; TypeError otherwise. *)
Fixpoint first_of (l : list (unit -> res oret)) : res oret :=
  match l with
  | [] => Raise ETypeError
  | m :: l => match m tt with Ok NotImpl => first_of l | r => r end
  end.

(** CPython binary_op1 / SLOT1BINFULL for [a op b] where a or b is a Bit or a bit-vector.
    Other operands (int, bool, list, object ...) return NotImplemented from their own
    methods; [str % x] (string formatting) and operators between two other objects are not
    modelled. *)
Definition py_binop (op : binop) (a b : pyval) : res oret :=
  match a, b with
  | VBV x, VBV y =>
      if negb (cls_eqb (bcls x) (bcls y)) && cls_le (bcls y) (bcls x)
         && reflected_overridden op (bkind x) (bkind y)
      then first_of [fun _ => reflected op y a; fun _ => forward op x b]
      else if cls_eqb (bcls x) (bcls y) then first_of [fun _ => forward op x b]
      else first_of [fun _ => forward op x b; fun _ => reflected op y a]
  | VBV x, VBit y => first_of [fun _ => forward op x b; fun _ => bit_rmethod op y a]
  | VBit x, VBV y => first_of [fun _ => bit_method op x b; fun _ => reflected op y a]
  | VBit x, VBit y => first_of [fun _ => bit_method op x b]
  | VBV x, _ => first_of [fun _ => forward op x b]
  | VBit x, _ => first_of [fun _ => bit_method op x b]
  | VStr _, VBV y =>
      match op with OMod => Raise EOutOfModel | _ => first_of [fun _ => reflected op y a] end
  | _, VBV y => first_of [fun _ => reflected op y a]
  | VStr _, VBit y =>
      match op with OMod => Raise EOutOfModel | _ => first_of [fun _ => bit_rmethod op y a] end
  | _, VBit y => first_of [fun _ => bit_rmethod op y a]
  | _, _ => Raise EOutOfModel
  end.

(** The object an operator expression evaluates to. *)
Definition oret_val (a b : pyval) (r : oret) : res pyval :=
  match r with
  | NotImpl => Raise ETypeError
  | OLeft => Ok a
  | ORight => Ok b
  | ONew v => Ok v
  end.
Definition py_binop_val (op : binop) (a b : pyval) : res pyval :=
  r <- py_binop op a b ;; oret_val a b r.

(** The named method behind each comparison, bit_vector.py:436-441 and, for SIntVector,
    551-581. *)
Definition cmp_method (c : cmpop) (k : kind) : bv -> pyval -> res bool :=
  match c, k with
  | CEq, _ => bveq | CNe, _ => bvne
  | CLt, KSInt => bvslt | CLe, KSInt => bvsle | CGt, KSInt => bvsgt | CGe, KSInt => bvsge
  | CLt, _ => bvult | CLe, _ => bvule | CGt, _ => bvugt | CGe, _ => bvuge
  end.

(** x.__cmp__(other) through dispatch_oper. *)
Definition cmp_forward (c : cmpop) (self : bv) (other : pyval) : res oret :=
  match cmp_method c (bkind self) self other with
  | Ok b => Ok (ONew (VBit b))
  | Raise EInconsistentSize => Raise EInconsistentSize
  | Raise ETypeError => Ok NotImpl
  | Raise e => Raise e
  end.

(** The swapped comparison Python tries on the right operand. *)
Definition cmp_swap (c : cmpop) : cmpop :=
  match c with CEq => CEq | CNe => CNe | CLt => CGt | CLe => CGe | CGt => CLt | CGe => CLe end.

(** Bit's __eq__/__ne__, bit_vector.py:63-69; it defines no ordering. *)
Definition bit_cmp (c : cmpop) (self : bool) (other : pyval) : res oret :=
  let go (f : bool -> bool -> bool) :=
    match bit_init other with
    | Ok o => Ok (ONew (VBit (f self o)))
    | Raise e => if is_type_error e then Ok NotImpl else Raise e
    end in
  match c with
  | CEq => go Bool.eqb
  | CNe => go xorb
  | _ => Ok NotImpl
  end.

(** End of do_richcompare: == and != fall back to identity (the two operands are always
    different objects here: at least one method was missing), orderings raise TypeError. *)
Definition cmp_fallback (c : cmpop) : res oret :=
  match c with
  | CEq => Ok (ONew (VBool false))
  | CNe => Ok (ONew (VBool true))
  | _ => Raise ETypeError
  end.
Fixpoint cmp_first_of (c : cmpop) (l : list (unit -> res oret)) : res oret :=
  match l with
  | [] => cmp_fallback c
  | m :: l => match m tt with Ok NotImpl => cmp_first_of c l | r => r end
  end.

(** CPython do_richcompare for [a cmp b] where a or b is a Bit or a bit-vector: a right operand
    whose class is a proper subclass of the left one's is tried first. *)
Definition py_cmp (c : cmpop) (a b : pyval) : res oret :=
  match a, b with
  | VBV x, VBV y =>
      if negb (cls_eqb (bcls x) (bcls y)) && cls_le (bcls y) (bcls x)
      then cmp_first_of c [fun _ => cmp_forward (cmp_swap c) y a; fun _ => cmp_forward c x b]
      else cmp_first_of c [fun _ => cmp_forward c x b; fun _ => cmp_forward (cmp_swap c) y a]
  | VBV x, VBit y => cmp_first_of c [fun _ => cmp_forward c x b; fun _ => bit_cmp (cmp_swap c) y a]
  | VBit x, VBV y => cmp_first_of c [fun _ => bit_cmp c x b; fun _ => cmp_forward (cmp_swap c) y a]
  | VBit x, VBit y => cmp_first_of c [fun _ => bit_cmp c x b; fun _ => bit_cmp (cmp_swap c) y a]
  | VBV x, _ => cmp_first_of c [fun _ => cmp_forward c x b]
  | VBit x, _ => cmp_first_of c [fun _ => bit_cmp c x b]
  | _, VBV y => cmp_first_of c [fun _ => cmp_forward (cmp_swap c) y a]
  | _, VBit y => cmp_first_of c [fun _ => bit_cmp (cmp_swap c) y a]
  | _, _ => Raise EOutOfModel
  end.

(** Bit.__invert__, bit_vector.py:60-61. *)
Definition bit_invert (b : bool) : bool := negb b.

(** BitVector.__hash__, bit_vector.py:214-215: the hashed text f"{type(self)}{self._value}".
    The class prints as its __name__ (bit_vector_abc.py:93, 121-122). *)
Definition decimal (z : Z) : string := NilEmpty.string_of_uint (N.to_uint (Z.to_N z)).
Definition kind_name (k : kind) : string :=
  match k with KBV => "BitVector" | KNum => "NumVector" | KUInt => "UIntVector" | KSInt => "SIntVector" end.
Definition cls_name (c : bvcls) : string := (kind_name (ck c) ++ "[" ++ decimal (csize c) ++ "]")%string.
Definition hash_key (x : bv) : string := (cls_name (bcls x) ++ decimal (bval x))%string.

(** Bit.__hash__, bit_vector.py:127-128: hash of (type, value); the key is the pair, all
    concrete Bits have type Bit. *)
Definition bit_hash_key (b : bool) : bool := b.
