(** Model of hwtypes/smt_bit_vector.py (SMTBit, SMTBitVector, SMTNumVector, SMTUIntVector, SMTSIntVector) over
    the terms of SMTTerm.v. Definitions only. The simplifier pySMT applies in every constructor
    (smt_bit_vector.py:107, 292) is the argument [S]. Names of variables are in NameModel.v. Creating a pySMT
    node checks sorts and raises PysmtTypeError (a TypeError) on a mismatch; infix notation on FNodes is enabled. *)
From Verif Require Import PyBase BVModel OpModel SMTTerm.

(** An SMTBitVector: its class and its _value. *)
Record svec := SV { scls : bvcls; sterm : vterm }.
Definition ssize (x : svec) : Z := csize (scls x).
Definition skind (x : svec) : kind := ck (scls x).

(** Arguments by the distinctions the code makes (smt_bit_vector.py:84-104, 252-290). [SOther i b] is an object of
    another class (a concrete BitVector, a float ...) with the results of int() and bool() if it defines
    __int__/__bool__. Strings are left out: map(B1, "0") recurses for ever (277-282). *)
Inductive sval :=
| SInt (z : Z)
| SBool (b : bool)
| SBit (t : bterm)
| SVec (x : svec)
| SNodeB (t : bterm)               (* a Boolean FNode *)
| SNodeV (t : vterm)               (* a bit-vector FNode *)
| SSeq (l : list sval)
| SOther (i : option (res Z)) (b : option (res bool)).

Section Smt.
Variable S : simplifier.

(** SMTBit(FNode), smt_bit_vector.py:86-90, 107; creation of the node itself may raise. *)
Definition bit_node (t : bterm) : res bterm :=
  if bwf t then Ok (simp_b S t) else Raise ETypeError.

(** SMTBit(value), smt_bit_vector.py:84-107. *)
Definition sbit_init (v : sval) : res bterm :=
  match v with
  | SNodeB t => bit_node t                                            (* 86-88 *)
  | SNodeV _ => Raise ETypeError                                      (* 89-90 *)
  | SBit t => Ok (simp_b S t)                                         (* 91-94 *)
  | SBool b => Ok (simp_b S (BConst b))                               (* 95-96 *)
  | SInt z => if (z =? 0) || (z =? 1) then Ok (simp_b S (BConst (negb (z =? 0)))) else Raise EValueError   (* 97-100 *)
  | SOther _ (Some b) => x <- b ;; Ok (simp_b S (BConst x))           (* 101-102 *)
  | SOther _ None | SVec _ | SSeq _ => Raise ETypeError               (* 103-104 *)
  end.

(** K[n](FNode), smt_bit_vector.py:254-259, 292-293: the sort of the node must be BVType(n). *)
Definition vec_node (c : bvcls) (t : vterm) : res svec :=
  if vwf t && (width t =? csize c) then Ok (SV c (simp_v S t)) else Raise ETypeError.

(** smt.BV(value, n): PysmtValueError unless 0 <= value < 2^n (pySMT FormulaManager.BV). *)
Definition vec_const (c : bvcls) (z : Z) : res svec :=
  if (0 <=? z) && (z <? 2 ^ csize c) then vec_node c (VConst z (csize c)) else Raise EValueError.

(** FNode[lo:hi]: BVExtract asserts hi >= lo >= 0 (pySMT FormulaManager.BVExtract). *)
Definition extract (t : vterm) (lo hi : Z) : res vterm :=
  if (lo <=? hi) && (0 <=? lo) then
    (if vwf (VExtract lo hi t) then Ok (VExtract lo hi t) else Raise ETypeError)
  else Raise EAssertion.

(** __getitem__ with a slice, smt_bit_vector.py:316-337. *)
Definition s_getitem_slice (x : svec) (a b s : option Z) : res svec :=
  let size := ssize x in
  let start := match a with None => 0 | Some i => if i <? 0 then size + i else i end in
  let stop := match b with None => size | Some i => if i <? 0 then size + i else i end in
  let stop := Z.min stop size in
  match s with
  | None | Some 1 =>
      v <- extract (sterm x) start (stop - 1) ;;
      c <- sized (skind x) (width v) ;;
      vec_node c v
  | Some _ => Raise EIndexError
  end.

(** __getitem__ with an int, smt_bit_vector.py:338-346. *)
Definition s_getitem_int (x : svec) (index : Z) : res bterm :=
  let index := if index <? 0 then ssize x + index else index in
  if (0 <=? index) && (index <? ssize x)
  then v <- extract (sterm x) index index ;; bit_node (BEq v (VConst 1 1))
  else Raise EIndexError.

(** __getitem__, smt_bit_vector.py:314-348. *)
Definition s_getitem (x : svec) (i : pyindex) : res sval :=
  match i with
  | ISlice a b s => rmap SVec (s_getitem_slice x a b s)
  | IInt i => rmap SBit (s_getitem_int x i)
  | IOther => Raise ETypeError
  end.

(** zext, sext, ext, smt_bit_vector.py:565-578, 677-678; the count is an int. *)
Definition s_zext (x : svec) (e : Z) : res svec :=
  if e <? 0 then Raise EValueError
  else c <- sized (skind x) (ssize x + e) ;; vec_node c (VZExt e (sterm x)).
Definition s_sext (x : svec) (e : Z) : res svec :=
  if e <? 0 then Raise EValueError
  else c <- sized (skind x) (ssize x + e) ;; vec_node c (VSExt e (sterm x)).
Definition s_ext (x : svec) (e : Z) : res svec :=
  match skind x with KSInt => s_sext x e | _ => s_zext x e end.

(** concat, smt_bit_vector.py:371-375. *)
Definition s_concat (x : svec) (other : sval) : res svec :=
  match other with
  | SVec y =>
      if kind_le (skind y) (skind x)
      then c <- sized (skind x) (ssize x + ssize y) ;; vec_node c (VConcat (sterm y) (sterm x))
      else Raise ETypeError
  | _ => Raise ETypeError
  end.

(** ft.reduce(lambda acc, elem: acc.concat(elem), l), smt_bit_vector.py:282. *)
Fixpoint concat_all (acc : svec) (l : list svec) : res svec :=
  match l with
  | [] => Ok acc
  | y :: l => r <- s_concat acc (SVec y) ;; concat_all r l
  end.

(** SMTBitVector.__init__ with a value, smt_bit_vector.py:250-293 (warnings dropped). *)
Fixpoint s_init (c : bvcls) (v : sval) : res svec :=
  match v with
  | SNodeV t => vec_node c t                                          (* 254-257 *)
  | SNodeB _ => Raise ETypeError                                      (* 258-259 *)
  | SVec x =>                                                         (* 260-272 *)
      if csize c - ssize x <? 0 then
        r <- s_getitem_slice x None (Some (csize c)) None ;; vec_node c (sterm r)
      else if 0 <? csize c - ssize x then
        r <- s_zext x (csize c - ssize x) ;; vec_node c (sterm r)
      else vec_node c (sterm x)
  | SBit t => vec_node c (VIte t (VConst 1 (csize c)) (VConst 0 (csize c)))   (* 274-275 *)
  | SSeq l =>                                                         (* 277-282 *)
      if negb (Z.of_nat (length l) =? csize c) then Raise EValueError
      else
        let fix go (l : list sval) : res (list svec) :=
          match l with
          | [] => Ok []
          | v :: l => x <- s_init (BVC (ck c) 1) v ;; xs <- go l ;; Ok (x :: xs)
          end in
        xs <- go l ;;
        match xs with
        | [] => Raise ETypeError                                      (* reduce() of empty sequence *)
        | x :: xs => r <- concat_all x xs ;; vec_node c (sterm r)
        end
  | SInt z => vec_const c (z mod 2 ^ csize c)                         (* 283-284 *)
  | SBool b => vec_const c (b2z b mod 2 ^ csize c)
  | SOther (Some i) _ => z <- i ;; vec_const c z                      (* 286-288 *)
  | SOther None _ => Raise ETypeError                                 (* 289-290 *)
  end.

(** K[n](v). *)
Definition s_construct (k : kind) (n : Z) (v : sval) : res svec :=
  c <- sized k n ;; s_init c v.
(** make_constant, smt_bit_vector.py:295-298. *)
Definition s_make_constant (x : svec) (v : sval) (size : option Z) : res svec :=
  match size with
  | None => s_construct (skind x) (ssize x) v
  | Some n => s_construct (skind x) n v
  end.

(** _coerce, smt_bit_vector.py:172-178. *)
Definition s_coerce (c : bvcls) (v : sval) : res svec :=
  match v with
  | SVec y => if negb (ssize y =? csize c) then Raise EInconsistentSize else Ok y
  | _ => s_init c v
  end.

(** bv_cast, smt_bit_vector.py:181-186. *)
Definition s_cast {A} (fn : svec -> svec -> res A) (self : svec) (other : sval) : res A :=
  y <- s_coerce (scls self) other ;; fn self y.

(** int_cast, smt_bit_vector.py:189-194: int(other); SMTBit and SMTBitVector have no __int__. *)
Definition s_int (v : sval) : res Z :=
  match v with
  | SInt z => Ok z
  | SBool b => Ok (b2z b)
  | SOther (Some i) _ => i
  | _ => Raise ETypeError
  end.

(** type(self)(BVOp(self.value, other.value)). *)
Definition s_bin (op : vop) := s_cast (fun x y => vec_node (scls x) (VBin op (sterm x) (sterm y))).
Definition s_nbin (op : vop) := s_cast (fun x y => vec_node (scls x) (VNot (VBin op (sterm x) (sterm y)))).

(** bvnot, bvneg, smt_bit_vector.py:377-378, 468-469. *)
Definition s_bvnot (x : svec) : res svec := vec_node (scls x) (VNot (sterm x)).
Definition s_bvneg (x : svec) : res svec := vec_node (scls x) (VNeg (sterm x)).
(** smt_bit_vector.py:380-414. *)
Definition s_bvand := s_bin XAnd.
Definition s_bvnand := s_nbin XAnd.
Definition s_bvor := s_bin XOr.
Definition s_bvnor := s_nbin XOr.
Definition s_bvxor := s_bin XXor.
Definition s_bvxnor := s_nbin XXor.
Definition s_bvshl := s_bin XShl.
Definition s_bvlshr := s_bin XLShr.
Definition s_bvashr := s_bin XAShr.
(** smt_bit_vector.py:492-518. *)
Definition s_bvadd := s_bin XAdd.
Definition s_bvsub := s_bin XSub.
Definition s_bvmul := s_bin XMul.
Definition s_bvudiv := s_bin XUDiv.
Definition s_bvurem := s_bin XURem.
Definition s_bvsdiv := s_bin XSDiv.
Definition s_bvsrem := s_bin XSRem.

(** bvrol, bvror, smt_bit_vector.py:416-422: pySMT raises PysmtValueError unless 0 <= steps <= width. *)
Definition s_bvrol (x : svec) (v : sval) : res svec :=
  k <- s_int v ;;
  if (k <? 0) || (width (sterm x) <? k) then Raise EValueError else vec_node (scls x) (VRol k (sterm x)).
Definition s_bvror (x : svec) (v : sval) : res svec :=
  k <- s_int v ;;
  if (k <? 0) || (width (sterm x) <? k) then Raise EValueError else vec_node (scls x) (VRor k (sterm x)).

(** bvcomp, smt_bit_vector.py:424-426. *)
Definition s_bvcomp := s_cast (fun x y =>
  c <- sized (skind x) 1 ;; vec_node c (VComp (sterm x) (sterm y))).

(** Comparisons, smt_bit_vector.py:428-466. pySMT builds NotEquals as Not(Equals) and UGT/UGE/SGT/SGE with the
    operands of ULT/ULE/SLT/SLE exchanged. *)
Definition s_rel (f : vterm -> vterm -> bterm) := s_cast (fun x y => bit_node (f (sterm x) (sterm y))).
Definition s_bveq := s_rel BEq.
Definition s_bvne := s_rel (fun a b => BNot (BEq a b)).
Definition s_bvult := s_rel BUlt.
Definition s_bvule := s_rel BUle.
Definition s_bvugt := s_rel (fun a b => BUlt b a).
Definition s_bvuge := s_rel (fun a b => BUle b a).
Definition s_bvslt := s_rel BSlt.
Definition s_bvsle := s_rel BSle.
Definition s_bvsgt := s_rel (fun a b => BSlt b a).
Definition s_bvsge := s_rel (fun a b => BSle b a).

(** adc, smt_bit_vector.py:471-487; a + b + c is bvadd of equal-sized vectors. *)
Definition s_adc (x : svec) (other carry : sval) : res (svec * bterm) :=
  o <- s_coerce (scls x) other ;;
  c1 <- sized (skind x) 1 ;;
  c <- s_coerce c1 carry ;;
  a <- s_zext x 1 ;;
  b <- s_zext o 1 ;;
  cc <- s_zext c (ssize x) ;;
  s1 <- s_bvadd a (SVec b) ;;
  s2 <- s_bvadd s1 (SVec cc) ;;
  lo <- s_getitem_slice s2 (Some 0) (Some (-1)) None ;;
  hi <- s_getitem_int s2 (-1) ;;
  Ok (lo, hi).

(** repeat, smt_bit_vector.py:561-563: BVRepeat concatenates count - 1 further copies (none if count <= 1);
    the node must still have the sort of self. *)
Definition bv_repeat_node (t : vterm) (count : Z) : vterm :=
  Nat.iter (Z.to_nat (count - 1)) (fun r => VConcat r t) t.
Definition s_repeat (x : svec) (v : sval) : res svec :=
  r <- s_int v ;; vec_node (scls x) (bv_repeat_node (sterm x) r).

(** zext, sext, ext with a count that is any object, smt_bit_vector.py:565-578, 677-678 (int_cast, 189-194). *)
Definition s_zext_of (x : svec) (v : sval) : res svec := e <- s_int v ;; s_zext x e.
Definition s_sext_of (x : svec) (v : sval) : res svec := e <- s_int v ;; s_sext x e.
Definition s_ext_of (x : svec) (v : sval) : res svec :=
  match skind x with KSInt => s_sext_of x v | _ => s_zext_of x v end.

(** __setitem__, smt_bit_vector.py:351-365. SMTBit(value).ite on two objects of the class of self builds
    type(self)(Ite(...)) (bit_vector_util.py:226-243). *)
Definition s_bit_like (v : sval) : bool :=
  match v with
  | SBool _ | SBit _ => true
  | SInt z => (z =? 0) || (z =? 1)
  | _ => false
  end.
Definition s_setitem_int (x : svec) (index : Z) (v : sval) : res svec :=
  if negb (s_bit_like v) then Raise EValueError
  else
    let index := if index <? 0 then ssize x + index else index in
    if negb ((0 <=? index) && (index <? ssize x)) then Raise EIndexError
    else
      mask <- s_init (scls x) (SInt (Z.shiftl 1 index)) ;;
      b <- sbit_init v ;;
      t <- s_bvor x (SVec mask) ;;
      nm <- s_bvnot mask ;;
      f <- s_bvand x (SVec nm) ;;
      r <- vec_node (scls x) (VIte b (sterm t) (sterm f)) ;;
      Ok (SV (scls x) (sterm r)).
Definition s_setitem (x : svec) (i : pyindex) (v : sval) : res svec :=
  match i with
  | ISlice _ _ _ => Raise ENotImplementedErr
  | IInt i => s_setitem_int x i v
  | IOther => if negb (s_bit_like v) then Raise EValueError else Raise ETypeError
  end.

(** ** Operators *)
(** What a dunder method returns. *)
Inductive sret := SNotImpl | SRet (v : sval).

(** dispatch_oper, smt_bit_vector.py:197-206 and the same try/except in SMTSIntVector, 615-675. *)
Definition s_dispatch (r : res sval) : res sret :=
  match r with
  | Ok v => Ok (SRet v)
  | Raise EInconsistentSize => Raise EInconsistentSize
  | Raise ETypeError => Ok SNotImpl
  | Raise e => Raise e
  end.

(** smt_bit_vector.py:522-552 and, for SMTSIntVector, 615-643. *)
Definition s_op_method (op : binop) (k : kind) : svec -> sval -> res svec :=
  match op with
  | OAnd => s_bvand | OOr => s_bvor | OXor => s_bvxor | OShl => s_bvshl
  | OShr => match k with KSInt => s_bvashr | _ => s_bvlshr end
  | OAdd => s_bvadd | OSub => s_bvsub | OMul => s_bvmul
  | OFloorDiv => match k with KSInt => s_bvsdiv | _ => s_bvudiv end
  | OMod => match k with KSInt => s_bvsrem | _ => s_bvurem end
  end.
Definition s_forward (op : binop) (x : svec) (v : sval) : res sret :=
  s_dispatch (rmap SVec (s_op_method op (skind x) x v)).

(** dispatch_roper, smt_bit_vector.py:210-220 (the misspelt handler name raises NameError whenever _coerce raises). *)
Definition s_dispatch_roper (op : binop) (defk : kind) (x : svec) (v : sval) : res sret :=
  match s_coerce (scls x) v with
  | Raise _ => Raise ENameError
  | Ok o => s_dispatch (rmap SVec (s_op_method op defk o (SVec x)))
  end.
(** Reflected methods, smt_bit_vector.py:523-552, 535, 623, 633, 643. *)
Definition s_reflected (op : binop) (x : svec) (v : sval) : res sret :=
  match op, skind x with
  | OShr, KSInt => s_dispatch_roper OShr KSInt x v
  | OShr, _ => s_dispatch (rmap SVec (s_bvlshr x v))
  | OFloorDiv, KSInt => s_dispatch_roper OFloorDiv KSInt x v
  | OMod, KSInt => s_dispatch_roper OMod KSInt x v
  | _, _ => s_dispatch_roper op KBV x v
  end.

(** bit_cast and SMTBit.__and__, __rand__, __or__, __ror__, __xor__, smt_bit_vector.py:46-57, 130-152; there is no
    __rxor__ (the second definition of __xor__ at 150-152 builds Xor with the operands exchanged). *)
Definition sbit_fn (op : binop) : option (bterm -> bterm -> bterm) :=
  match op with
  | OAnd => Some BAnd | OOr => Some BOr
  | OXor => Some (fun p q => BNot (BIff q p))            (* smt.Xor(other, self) *)
  | _ => None
  end.
Definition sbit_cast (fn : bterm -> bterm -> bterm) (self : bterm) (v : sval) : res sret :=
  match v with
  | SBit o => rmap (fun t => SRet (SBit t)) (bit_node (fn self o))
  | _ =>
      match sbit_init v with
      | Ok o => rmap (fun t => SRet (SBit t)) (bit_node (fn self o))
      | Raise e => if is_type_error e then Ok SNotImpl else Raise e
      end
  end.
Definition sbit_method (op : binop) (self : bterm) (v : sval) : res sret :=
  match sbit_fn op with None => Ok SNotImpl | Some f => sbit_cast f self v end.
Definition sbit_rmethod (op : binop) (self : bterm) (v : sval) : res sret :=
  match op with
  | OAnd => sbit_cast (fun p q => BAnd q p) self v
  | OOr => sbit_cast (fun p q => BOr q p) self v
  | _ => Ok SNotImpl
  end.
(** __invert__, smt_bit_vector.py:127-128. *)
Definition sbit_invert (self : bterm) : res bterm := bit_node (BNot self).

Fixpoint s_first_of (l : list (unit -> res sret)) : res sval :=
  match l with
  | [] => Raise ETypeError
  | m :: l => match m tt with Ok SNotImpl => s_first_of l | Ok (SRet v) => Ok v | Raise e => Raise e end
  end.

(** CPython's binary operator protocol, as OpModel.py_binop. Operators between two other objects, and with a raw
    FNode on the left, are not modelled. *)
Definition s_binop (op : binop) (a b : sval) : res sval :=
  match a, b with
  | SVec x, SVec y =>
      if negb (cls_eqb (scls x) (scls y)) && cls_le (scls y) (scls x)
         && reflected_overridden op (skind x) (skind y)
      then s_first_of [fun _ => s_reflected op y a; fun _ => s_forward op x b]
      else if cls_eqb (scls x) (scls y) then s_first_of [fun _ => s_forward op x b]
      else s_first_of [fun _ => s_forward op x b; fun _ => s_reflected op y a]
  | SVec x, SBit y => s_first_of [fun _ => s_forward op x b; fun _ => sbit_rmethod op y a]
  | SBit x, SVec y => s_first_of [fun _ => sbit_method op x b; fun _ => s_reflected op y a]
  | SBit x, SBit y => s_first_of [fun _ => sbit_method op x b]
  | SVec x, _ => s_first_of [fun _ => s_forward op x b]
  | SBit x, _ => s_first_of [fun _ => sbit_method op x b]
  | (SNodeB _ | SNodeV _), _ => Raise EOutOfModel
  | _, SVec y => s_first_of [fun _ => s_reflected op y a]
  | _, SBit y => s_first_of [fun _ => sbit_rmethod op y a]
  | _, _ => Raise EOutOfModel
  end.

(** Comparison methods, smt_bit_vector.py:554-559, 645-675. *)
Definition s_cmp_method (c : cmpop) (k : kind) : svec -> sval -> res bterm :=
  match c, k with
  | CEq, _ => s_bveq | CNe, _ => s_bvne
  | CLt, KSInt => s_bvslt | CLe, KSInt => s_bvsle | CGt, KSInt => s_bvsgt | CGe, KSInt => s_bvsge
  | CLt, _ => s_bvult | CLe, _ => s_bvule | CGt, _ => s_bvugt | CGe, _ => s_bvuge
  end.
Definition s_cmp_forward (c : cmpop) (x : svec) (v : sval) : res sret :=
  s_dispatch (rmap SBit (s_cmp_method c (skind x) x v)).
(** SMTBit.__eq__, __ne__, smt_bit_vector.py:119-125. *)
Definition sbit_cmp (c : cmpop) (self : bterm) (v : sval) : res sret :=
  match c with
  | CEq => sbit_cast BIff self v
  | CNe => sbit_cast (fun p q => BNot (BIff p q)) self v
  | _ => Ok SNotImpl
  end.
Fixpoint s_cmp_first_of (c : cmpop) (l : list (unit -> res sret)) : res sval :=
  match l with
  | [] => match c with                                   (* identity of two different objects *)
          | CEq => Ok (SBool false) | CNe => Ok (SBool true) | _ => Raise ETypeError end
  | m :: l => match m tt with Ok SNotImpl => s_cmp_first_of c l | Ok (SRet v) => Ok v | Raise e => Raise e end
  end.
(** CPython do_richcompare, as OpModel.py_cmp. *)
Definition s_compare (c : cmpop) (a b : sval) : res sval :=
  match a, b with
  | SVec x, SVec y =>
      if negb (cls_eqb (scls x) (scls y)) && cls_le (scls y) (scls x)
      then s_cmp_first_of c [fun _ => s_cmp_forward (cmp_swap c) y a; fun _ => s_cmp_forward c x b]
      else s_cmp_first_of c [fun _ => s_cmp_forward c x b; fun _ => s_cmp_forward (cmp_swap c) y a]
  | SVec x, SBit y => s_cmp_first_of c [fun _ => s_cmp_forward c x b; fun _ => sbit_cmp (cmp_swap c) y a]
  | SBit x, SVec y => s_cmp_first_of c [fun _ => sbit_cmp c x b; fun _ => s_cmp_forward (cmp_swap c) y a]
  | SBit x, SBit y => s_cmp_first_of c [fun _ => sbit_cmp c x b; fun _ => sbit_cmp (cmp_swap c) y a]
  | SVec x, _ => s_cmp_first_of c [fun _ => s_cmp_forward c x b]
  | SBit x, _ => s_cmp_first_of c [fun _ => sbit_cmp c x b]
  | (SNodeB _ | SNodeV _), _ => Raise EOutOfModel
  | _, SVec y => s_cmp_first_of c [fun _ => s_cmp_forward (cmp_swap c) y a]
  | _, SBit y => s_cmp_first_of c [fun _ => sbit_cmp (cmp_swap c) y a]
  | _, _ => Raise EOutOfModel
  end.

(** ** Substitution *)
(** One pair (from_.value, to.value) of substitute, smt_bit_vector.py:161-166, 580-585. *)
Inductive spair := PairB (from to : bterm) | PairV (from to : vterm).

(** The replacement of a symbol: the dict comprehension keeps the last of several pairs with the same key. *)
Fixpoint find_b (s : string) (l : list spair) : option bterm :=
  match l with
  | [] => None
  | p :: l =>
      match find_b s l with
      | Some t => Some t
      | None => match p with PairB (BVar s') t => if String.eqb s s' then Some t else None | _ => None end
      end
  end.
Fixpoint find_v (s : string) (w : Z) (l : list spair) : option vterm :=
  match l with
  | [] => None
  | p :: l =>
      match find_v s w l with
      | Some t => Some t
      | None => match p with
                | PairV (VVar s' w') t => if String.eqb s s' && (w =? w') then Some t else None
                | _ => None
                end
      end
  end.

(** FNode.substitute with symbols as keys: every occurrence is replaced in one pass, replacements are not visited
    again (pySMT MGSubstituter). *)
Fixpoint subst_b (l : list spair) (t : bterm) : bterm :=
  match t with
  | BConst b => BConst b
  | BVar s => match find_b s l with Some t => t | None => BVar s end
  | BNot p => BNot (subst_b l p)
  | BAnd p q => BAnd (subst_b l p) (subst_b l q)
  | BOr p q => BOr (subst_b l p) (subst_b l q)
  | BIff p q => BIff (subst_b l p) (subst_b l q)
  | BIte c p q => BIte (subst_b l c) (subst_b l p) (subst_b l q)
  | BEq a b => BEq (subst_v l a) (subst_v l b)
  | BUlt a b => BUlt (subst_v l a) (subst_v l b)
  | BUle a b => BUle (subst_v l a) (subst_v l b)
  | BSlt a b => BSlt (subst_v l a) (subst_v l b)
  | BSle a b => BSle (subst_v l a) (subst_v l b)
  | BIEq a b => BIEq (subst_i l a) (subst_i l b)
  | BILt a b => BILt (subst_i l a) (subst_i l b)
  | BILe a b => BILe (subst_i l a) (subst_i l b)
  end
with subst_v (l : list spair) (t : vterm) : vterm :=
  match t with
  | VConst v w => VConst v w
  | VVar s w => match find_v s w l with Some t => t | None => VVar s w end
  | VNot a => VNot (subst_v l a)
  | VNeg a => VNeg (subst_v l a)
  | VBin op a b => VBin op (subst_v l a) (subst_v l b)
  | VConcat a b => VConcat (subst_v l a) (subst_v l b)
  | VExtract lo hi a => VExtract lo hi (subst_v l a)
  | VZExt k a => VZExt k (subst_v l a)
  | VSExt k a => VSExt k (subst_v l a)
  | VRol k a => VRol k (subst_v l a)
  | VRor k a => VRor k (subst_v l a)
  | VComp a b => VComp (subst_v l a) (subst_v l b)
  | VIte c a b => VIte (subst_b l c) (subst_v l a) (subst_v l b)
  end
with subst_i (l : list spair) (t : iterm) : iterm :=
  match t with
  | IConst z => IConst z
  | IVar s => IVar s
  | IAdd a b => IAdd (subst_i l a) (subst_i l b)
  | ISub a b => ISub (subst_i l a) (subst_i l b)
  | IMul a b => IMul (subst_i l a) (subst_i l b)
  | INat a => INat (subst_v l a)
  end.

(** Pairs of a symbol and a term of its sort; other pairs are not modelled. *)
Definition pair_ok (p : spair) : res unit :=
  match p with
  | PairB (BVar _) _ => Ok tt
  | PairV (VVar _ w) t => if width t =? w then Ok tt else Raise EOutOfModel
  | _ => Raise EOutOfModel
  end.
(** SMTBit.substitute, SMTBitVector.substitute: the latter always builds an SMTBitVector[size]. *)
Definition sbit_substitute (self : bterm) (l : list spair) : res bterm :=
  _ <- mapM pair_ok l ;; bit_node (subst_b l self).
Definition s_substitute (x : svec) (l : list spair) : res svec :=
  _ <- mapM pair_ok l ;; vec_node (BVC KBV (ssize x)) (subst_v l (sterm x)).

(** ** SMTInt *)
(** SMTInt(value), smt_int.py:47-66; [TInt] an SMTInt, [TNode] an integer FNode, [TVal] any other argument. *)
Inductive ival := TInt (t : iterm) | TNode (t : iterm) | TVal (v : sval).
Definition int_node (t : iterm) : res iterm :=
  if iwf t then Ok (simp_i S t) else Raise ETypeError.
Definition i_init (v : ival) : res iterm :=
  match v with
  | TNode t => int_node t                                             (* 49-51 *)
  | TVal (SNodeV t) => int_node (INat t)                              (* 52-53 *)
  | TVal (SNodeB _) => Raise ETypeError                               (* 54-55 *)
  | TInt t => Ok (simp_i S t)                                         (* 56-57 *)
  | TVal (SVec x) => int_node (INat (sterm x))                        (* 58-59 *)
  | TVal (SBool b) => int_node (IConst (b2z b))                       (* 60-61 *)
  | TVal (SInt z) => int_node (IConst z)                              (* 62-63 *)
  | TVal (SOther (Some i) _) => z <- i ;; int_node (IConst z)         (* 64-65 *)
  | TVal (SOther None _) | TVal (SBit _) | TVal (SSeq _) => Raise ETypeError    (* 66 *)
  end.
(** int_cast, smt_int.py:13-24: NotImplemented is [None]. *)
Definition i_cast {A} (fn : iterm -> iterm -> res A) (self : iterm) (v : ival) : res (option A) :=
  match v with
  | TInt o => rmap Some (fn self o)
  | _ => match i_init v with
         | Ok o => rmap Some (fn self o)
         | Raise e => if is_type_error e then Ok None else Raise e
         end
  end.
(** smt_int.py:78-101. *)
Definition i_add := i_cast (fun a b => int_node (IAdd a b)).
Definition i_sub := i_cast (fun a b => int_node (ISub a b)).
Definition i_rsub := i_cast (fun a b => int_node (ISub b a)).
Definition i_mul := i_cast (fun a b => int_node (IMul a b)).
Definition i_radd := i_add.
Definition i_rmul := i_mul.
Definition i_neg (self : iterm) : res iterm :=
  z <- i_init (TVal (SInt 0)) ;;
  r <- i_sub z (TInt self) ;;
  match r with Some t => Ok t | None => Raise ETypeError end.
(** Comparisons, smt_int.py:111-133. pySMT builds GE/GT with the operands of LE/LT exchanged. *)
Definition i_ge := i_cast (fun a b => bit_node (BILe b a)).
Definition i_gt := i_cast (fun a b => bit_node (BILt b a)).
Definition i_le := i_cast (fun a b => bit_node (BILe a b)).
Definition i_lt := i_cast (fun a b => bit_node (BILt a b)).
Definition i_eq := i_cast (fun a b => bit_node (BIEq a b)).
Definition i_ne := i_cast (fun a b => bit_node (BNot (BIEq a b))).

(** The operators of SMTInt seen from Python: a op b with an SMTInt on the left, or an SMTInt on the right of
    anything else (smt_int.py:81-101; comparisons are reflected). *)
Inductive iop := JAdd | JSub | JMul.
Definition i_binop (op : iop) (a b : ival) : res iterm :=
  let wrap (r : res (option iterm)) := x <- r ;; match x with Some t => Ok t | None => Raise ETypeError end in
  match a, b with
  | TInt x, _ => wrap (match op with JAdd => i_add x b | JSub => i_sub x b | JMul => i_mul x b end)
  | _, TInt y => wrap (match op with JAdd => i_radd y a | JSub => i_rsub y a | JMul => i_rmul y a end)
  | _, _ => Raise EOutOfModel
  end.
Definition i_cmp_method (c : cmpop) : iterm -> ival -> res (option bterm) :=
  match c with CEq => i_eq | CNe => i_ne | CLt => i_lt | CLe => i_le | CGt => i_gt | CGe => i_ge end.
Definition i_compare (c : cmpop) (a b : ival) : res bterm :=
  let wrap (r : res (option bterm)) := x <- r ;; match x with Some t => Ok t | None => Raise EOutOfModel end in
  match a, b with
  | TInt x, _ => wrap (i_cmp_method c x b)
  | _, TInt y => wrap (i_cmp_method (cmp_swap c) y a)
  | _, _ => Raise EOutOfModel
  end.

(** as_uint, as_sint, smt_bit_vector.py:594-602. *)
Definition s_as_uint (x : svec) : res iterm := i_init (TVal (SVec x)).
Definition s_as_sint (x : svec) : res iterm :=
  lo <- s_getitem_slice x None (Some (-1)) None ;;
  a <- i_init (TVal (SVec lo)) ;;
  m <- s_binop OAnd (SVec x) (SInt (Z.shiftl 1 (ssize x - 1))) ;;
  b <- i_init (TVal m) ;;
  r <- i_sub a (TInt b) ;;
  match r with Some t => Ok t | None => Raise ETypeError end.

(** ** Formula constructors, smt_utils.py:40-76 *)
Inductive formula := FBit (t : bterm) | FAnd (l : list formula) | FOr (l : list formula) | FImplies (p q : formula).
(** functools.reduce of & or | on SMTBits; the & of two SMTBits is SMTBit.__and__. *)
Definition bit_op (op : binop) (a b : bterm) : res bterm :=
  r <- s_binop op (SBit a) (SBit b) ;; match r with SBit t => Ok t | _ => Raise EOutOfModel end.
Fixpoint reduce_bits (op : binop) (acc : bterm) (l : list bterm) : res bterm :=
  match l with
  | [] => Ok acc
  | b :: l => r <- bit_op op acc b ;; reduce_bits op r l
  end.
(** to_hwtypes of And/Or/Implies and _to_hwtypes, smt_utils.py:19-22, 50-53, 64-67, 75-76. *)
Fixpoint to_hwtypes (f : formula) : res bterm :=
  let fix all (l : list formula) : res (list bterm) :=
    match l with [] => Ok [] | f :: l => t <- to_hwtypes f ;; ts <- all l ;; Ok (t :: ts) end in
  match f with
  | FBit t => Ok t
  | FAnd l => ts <- all l ;; match ts with [] => sbit_init (SBool true) | t :: ts => reduce_bits OAnd t ts end
  | FOr l => ts <- all l ;; match ts with [] => sbit_init (SBool false) | t :: ts => reduce_bits OOr t ts end
  | FImplies p q =>
      a <- to_hwtypes p ;; na <- sbit_invert a ;; b <- to_hwtypes q ;; bit_op OOr na b
  end.

End Smt.
