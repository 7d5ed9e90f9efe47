(** Values of several families: truth values, operators between a concrete and a symbolic operand, and equality of ADT
    instances whose components are symbolic. hwtypes/bit_vector.py:27-38, 118-119, 143-174, 454-458,
    hwtypes/smt_bit_vector.py:46-57, 168-178, 210-218, 368-369, hwtypes/z3_bit_vector.py:44-51, 156-162, 319-320,
    hwtypes/adt.py:33-40, 137-144, 226-230. Definitions only. *)
From Verif Require Import PyBase BVModel OpModel SMTTerm SMTModel Z3Model.

(** pySMT values (SMTBit, SMTBitVector) or z3 values (z3Bit, z3BitVector). *)
Inductive fam := FSmt | FZ3.

(** bool(v) for the results of comparisons and for vectors: SMTBit.__bool__ raises (smt_bit_vector.py:168-169); z3Bit has neither
    __bool__ nor __len__, so every z3Bit is true; the vectors of both families have only __len__ (smt_bit_vector.py:368-369,
    z3_bit_vector.py:319-320). *)
Definition s_truth (f : fam) (v : sval) : res bool :=
  match v with
  | SBool b => Ok b
  | SBit _ => match f with FSmt => Raise ETypeError | FZ3 => Ok true end
  | SVec x => Ok (negb (ssize x =? 0))
  | _ => Raise EOutOfModel
  end.

(** ** Operators between families *)
(** A concrete operand seen by the symbolic classes: an object with __int__ and __bool__. *)
Definition lift (v : pyval) : sval :=
  match v with
  | VBV c => SOther (Some (bv_int c)) (Some (bv_bool c))
  | VBit b => SOther (Some (Ok (b2z b))) (Some (Ok b))
  | _ => SOther None None
  end.
(** A symbolic operand seen by the concrete classes: no __int__; SMTBit.__bool__ raises. *)
Definition foreign (f : fam) (v : sval) : pyval :=
  match f, v with
  | FSmt, SBit _ => VOther None (Some (Raise ETypeError)) true
  | _, _ => VOther None None true
  end.
Definition sym_binop (S : simplifier) (f : fam) : binop -> sval -> sval -> res sval :=
  match f with FSmt => s_binop S | FZ3 => z_binop S end.
Definition sym_compare (S : simplifier) (f : fam) : cmpop -> sval -> sval -> res sval :=
  match f with FSmt => s_compare S | FZ3 => z_compare S end.
(** concrete op symbolic: the concrete method first (OpModel.v), then what the symbolic operand does with a left operand whose own
    method returned NotImplemented. [py_binop] and [py_cmp] with no method left raise TypeError or compare identities. *)
Definition conc_method (op : binop) (a : pyval) (o : pyval) : res oret :=
  match a with VBV x => forward op x o | VBit b => bit_method op b o | _ => Raise EOutOfModel end.
Definition mixed_left (S : simplifier) (f : fam) (op : binop) (a : pyval) (b : sval) : res (pyval + sval) :=
  r <- conc_method op a (foreign f b) ;;
  match r with
  | NotImpl => rmap inr (sym_binop S f op (lift a) b)
  | OLeft => Ok (inl a)
  | ORight => Raise EOutOfModel
  | ONew v => Ok (inl v)
  end.
Definition mixed_right (S : simplifier) (f : fam) (op : binop) (a : sval) (b : pyval) : res sval := sym_binop S f op a (lift b).
(** Comparisons: the concrete methods are those of cmp_forward and Bit.__eq__, __ne__. *)
Definition conc_cmp (c : cmpop) (a : pyval) (o : pyval) : res oret :=
  match a with VBV x => cmp_forward c x o | VBit b => bit_cmp c b o | _ => Raise EOutOfModel end.
Definition mixed_cmp_left (S : simplifier) (f : fam) (c : cmpop) (a : pyval) (b : sval) : res (pyval + sval) :=
  r <- conc_cmp c a (foreign f b) ;;
  match r with
  | NotImpl => rmap inr (sym_compare S f c (lift a) b)
  | OLeft => Ok (inl a)
  | ORight => Raise EOutOfModel
  | ONew v => Ok (inl v)
  end.
Definition mixed_cmp_right (S : simplifier) (f : fam) (c : cmpop) (a : sval) (b : pyval) : res sval := sym_compare S f c a (lift b).

(** ** ADT instances with symbolic components *)
(** Objects have an identity. Nodes have a class; [le] is issubclass. Instances changed by item assignment are left out (their
    components are kept in a list, C40). *)
Inductive inst :=
| ILeaf (id : nat) (v : sval)
| ITup (id cls : nat) (l : list inst)
| ISum (id cls : nat) (x : inst)
| ITag (id cls tag : nat) (x : inst).
Definition iid (a : inst) : nat := match a with ILeaf i _ | ITup i _ _ | ISum i _ _ | ITag i _ _ _ => i end.

Section Eq.
Variable S : simplifier.
Variable f : fam.
Variable le : nat -> nat -> bool.

(** Comparison of two Python tuples: the first pair that is not the same object and whose == is not true decides; then the
    lengths. *)
Definition tuple_eq (eq : inst -> inst -> res sval) : list inst -> list inst -> res sval :=
  fix tuple_eq (l m : list inst) : res sval :=
  match l, m with
  | [], [] => Ok (SBool true)
  | x :: l, y :: m =>
      if Nat.eqb (iid x) (iid y) then tuple_eq l m
      else r <- eq x y ;; t <- s_truth f r ;; if t then tuple_eq l m else Ok (SBool false)
  | _, _ => Ok (SBool false)
  end.
(** a == b if [sw] is false, b == a if it is true, as ADTModel.eq_sw. A symbolic leaf compared with a node: SMT leaves return
    NotImplemented, z3 leaves raise TypeError. *)
Fixpoint i_eq (sw : bool) (a b : inst) {struct a} : res sval :=
  match a, b with
  | ILeaf _ x, ILeaf _ y => if sw then sym_compare S f CEq y x else sym_compare S f CEq x y
  | ILeaf _ _, _ | _, ILeaf _ _ => match f with FSmt => Ok (SBool false) | FZ3 => Raise ETypeError end
  | ITup _ c _, ITup _ d _ | ISum _ c _, ISum _ d _ | ISum _ c _, ITag _ d _ _ | ITag _ c _ _, ISum _ d _ | ITag _ c _ _, ITag _ d _ _ =>
      let '(p, q) := if sw then (d, c) else (c, d) in
      if le q p || le p q then
        let sw' := if le q p then sw else negb sw in
        match a, b with
        | ITup _ _ l, ITup _ _ m => tuple_eq (i_eq sw') l m
        | ITag _ _ k x, ITag _ _ j y => if Nat.eqb k j then i_eq sw' x y else Ok (SBool false)
        | ISum _ _ x, ISum _ _ y | ISum _ _ x, ITag _ _ _ y | ITag _ _ _ x, ISum _ _ y => i_eq sw' x y
        | _, _ => Ok (SBool false)
        end
      else Ok (SBool false)
  | _, _ => Ok (SBool false)
  end.
(** a != b: not (a == b), adt.py:39-40, 143-144. *)
Definition i_ne (a b : inst) : res sval := r <- i_eq false a b ;; t <- s_truth f r ;; Ok (SBool (negb t)).
End Eq.
