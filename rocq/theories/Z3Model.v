(** Model of hwtypes/z3_bit_vector.py (z3Bit, z3BitVector, z3NumVector, z3UIntVector, z3SIntVector) over the terms of
    SMTTerm.v. Definitions only. The argument [S] is z3.simplify, which every constructor applies (z3_bit_vector.py:93,
    243). The values, vectors and classes are those of SMTModel.v ([SNodeB], [SNodeV]: a BoolRef, a BitVecRef).
    Names of variables (18-42, 58-72, 183-197) and __repr__ are not modelled; size 0 is rejected by z3. *)
From Verif Require Import PyBase BVModel OpModel SMTTerm SMTModel.

Section Z3.
Variable S : simplifier.

(** z3Bit(BoolRef), z3_bit_vector.py:75-76, 93. *)
Definition z_bit (t : bterm) : res bterm := if bwf t then Ok (simp_b S t) else Raise ETypeError.

(** z3Bit(value), z3_bit_vector.py:73-93; bool() of a BitVecRef is left out. *)
Definition z_bit_init (v : sval) : res bterm :=
  match v with
  | SNodeB t => z_bit t                                               (* 75-76 *)
  | SBit t => Ok (simp_b S t)                                         (* 77-80 *)
  | SBool b => Ok (simp_b S (BConst b))                               (* 81-82 *)
  | SInt z => if (z =? 0) || (z =? 1) then Ok (simp_b S (BConst (negb (z =? 0)))) else Raise EValueError   (* 83-86 *)
  | SOther _ (Some b) => x <- b ;; Ok (simp_b S (BConst x))           (* 87-88 *)
  | SOther _ None | SVec _ | SSeq _ => Raise ETypeError               (* 89-90 *)
  | SNodeV _ => Raise EOutOfModel
  end.

(** K[n](BitVecRef), z3_bit_vector.py:203-208, 243-244: the sort of the term must be BitVecSort(n). *)
Definition z_node (c : bvcls) (t : vterm) : res svec :=
  if vwf t && (width t =? csize c) then Ok (SV c (simp_v S t)) else Raise ETypeError.

(** z3.BitVecVal(value, n) reduces modulo 2^n. *)
Definition z_const (c : bvcls) (z : Z) : res svec := z_node c (VConst (z mod 2 ^ csize c) (csize c)).

(** z3.If(b, BitVecVal(1, T), BitVecVal(0, T)), z3_bit_vector.py:222-226. *)
Definition z_of_bool (c : bvcls) (t : bterm) : res svec :=
  z_node c (VIte t (VConst 1 (csize c)) (VConst 0 (csize c))).

(** z3.Extract(hi, lo, t): Z3Exception unless hi >= lo >= 0. *)
Definition z_extract (hi lo : Z) (t : vterm) : res vterm :=
  if (lo <=? hi) && (0 <=? lo) then
    (if vwf (VExtract lo hi t) then Ok (VExtract lo hi t) else Raise EZ3)
  else Raise EZ3.

(** __getitem__ with a slice, z3_bit_vector.py:265-287. *)
Definition z_slice (x : svec) (a b s : option Z) : res svec :=
  let size := ssize x in
  let start := match a with None => 0 | Some i => if i <? 0 then size + i else i end in
  let stop := match b with None => size | Some i => if i <? 0 then size + i else i end in
  let stop := Z.min stop size in
  match s with
  | None | Some 1 =>
      v <- z_extract (stop - 1) start (sterm x) ;;
      c <- sized (skind x) (width v) ;;
      z_node c v
  | Some _ => Raise EIndexError
  end.
(** __getitem__ with an int, z3_bit_vector.py:288-296. *)
Definition z_index (x : svec) (index : Z) : res bterm :=
  let index := if index <? 0 then ssize x + index else index in
  if negb ((0 <=? index) && (index <? ssize x)) then Raise EIndexError
  else v <- z_extract index index (sterm x) ;; z_bit (BEq v (VConst 1 1)).

(** zext, sext, ext, z3_bit_vector.py:499-512; the count is an int. [ext] is not redefined by z3SIntVector. *)
Definition z_zext (x : svec) (e : Z) : res svec :=
  if e <? 0 then Raise EValueError
  else c <- sized (skind x) (ssize x + e) ;; z_node c (VZExt e (sterm x)).
Definition z_sext (x : svec) (e : Z) : res svec :=
  if e <? 0 then Raise EValueError
  else c <- sized (skind x) (ssize x + e) ;; z_node c (VSExt e (sterm x)).
Definition z_ext (x : svec) (e : Z) : res svec := z_zext x e.

(** concat, z3_bit_vector.py:322-326: isinstance(other, unsized class of self). *)
Definition z_concat (x : svec) (other : sval) : res svec :=
  match other with
  | SVec y =>
      if kind_le (skind y) (skind x)
      then c <- sized (skind x) (ssize x + ssize y) ;; z_node c (VConcat (sterm y) (sterm x))
      else Raise ETypeError
  | _ => Raise ETypeError
  end.
Fixpoint z_concat_all (acc : svec) (l : list svec) : res svec :=
  match l with
  | [] => Ok acc
  | y :: l => r <- z_concat acc (SVec y) ;; z_concat_all r l
  end.

(** z3BitVector.__init__ with a value, z3_bit_vector.py:199-244 (warnings dropped). *)
Fixpoint z_init (c : bvcls) (v : sval) : res svec :=
  match v with
  | SNodeV t => z_node c t                                            (* 203-208 *)
  | SVec x =>                                                         (* 209-221 *)
      if csize c - ssize x <? 0 then
        r <- z_slice x None (Some (csize c)) None ;; z_node c (sterm r)
      else if 0 <? csize c - ssize x then
        r <- z_zext x (csize c - ssize x) ;; z_node c (sterm r)
      else z_node c (sterm x)
  | SNodeB t => z_of_bool c t                                         (* 222-223 *)
  | SBit t => z_of_bool c t                                           (* 225-226 *)
  | SSeq l =>                                                         (* 228-233 *)
      if negb (Z.of_nat (length l) =? csize c) then Raise EValueError
      else
        let fix go (l : list sval) : res (list svec) :=
          match l with
          | [] => Ok []
          | v :: l => x <- z_init (BVC (ck c) 1) v ;; xs <- go l ;; Ok (x :: xs)
          end in
        xs <- go l ;;
        match xs with
        | [] => Raise ETypeError                                      (* reduce() of empty sequence *)
        | x :: xs => r <- z_concat_all x xs ;; z_node c (sterm r)
        end
  | SInt z => z_const c z                                             (* 234-235 *)
  | SBool b => z_const c (b2z b)
  | SOther (Some i) _ => z <- i ;; z_const c z                        (* 237-239 *)
  | SOther None _ => Raise ETypeError                                 (* 240-241 *)
  end.
(** K[n](v). *)
Definition z_construct (k : kind) (n : Z) (v : sval) : res svec :=
  c <- sized k n ;; z_init c v.

(** _coerce, z3_bit_vector.py:156-162: a plain TypeError when the sizes differ. *)
Definition z_coerce (c : bvcls) (v : sval) : res svec :=
  match v with
  | SVec y => if negb (ssize y =? csize c) then Raise ETypeError else Ok y
  | _ => z_init c v
  end.
(** bv_cast, z3_bit_vector.py:164-169. *)
Definition z_cast {A} (fn : svec -> svec -> res A) (self : svec) (other : sval) : res A :=
  y <- z_coerce (scls self) other ;; fn self y.

(** type(self)(f(self.value, other.value)). *)
Definition z_bin (op : vop) := z_cast (fun x y => z_node (scls x) (VBin op (sterm x) (sterm y))).
Definition z_nbin (op : vop) := z_cast (fun x y => z_node (scls x) (VNot (VBin op (sterm x) (sterm y)))).
(** z3_bit_vector.py:328-329, 419-420. *)
Definition z_bvnot (x : svec) : res svec := z_node (scls x) (VNot (sterm x)).
Definition z_bvneg (x : svec) : res svec := z_node (scls x) (VNeg (sterm x)).
(** z3_bit_vector.py:331-373, 443-469. RotateLeft/RotateRight take a vector amount; / is bvsdiv, % is bvsmod. *)
Definition z_bvand := z_bin XAnd.
Definition z_bvnand := z_nbin XAnd.
Definition z_bvor := z_bin XOr.
Definition z_bvnor := z_nbin XOr.
Definition z_bvxor := z_bin XXor.
Definition z_bvxnor := z_nbin XXor.
Definition z_bvshl := z_bin XShl.
Definition z_bvlshr := z_bin XLShr.
Definition z_bvashr := z_bin XAShr.
Definition z_bvrol := z_bin XRol.
Definition z_bvror := z_bin XRor.
Definition z_bvadd := z_bin XAdd.
Definition z_bvsub := z_bin XSub.
Definition z_bvmul := z_bin XMul.
Definition z_bvudiv := z_bin XUDiv.
Definition z_bvurem := z_bin XURem.
Definition z_bvsdiv := z_bin XSDiv.
Definition z_bvsrem := z_bin XSMod.
(** bvcomp, z3_bit_vector.py:375-377: unsized_t[1](BoolRef). *)
Definition z_bvcomp := z_cast (fun x y =>
  c <- sized (skind x) 1 ;; z_init c (SNodeB (BEq (sterm x) (sterm y)))).
(** Comparisons, z3_bit_vector.py:379-417. *)
Definition z_rel (f : vterm -> vterm -> bterm) := z_cast (fun x y => z_bit (f (sterm x) (sterm y))).
Definition z_bveq := z_rel BEq.
Definition z_bvne := z_rel (fun a b => BNot (BEq a b)).
Definition z_bvult := z_rel BUlt.
Definition z_bvule := z_rel BUle.
Definition z_bvugt := z_rel (fun a b => BUlt b a).
Definition z_bvuge := z_rel (fun a b => BUle b a).
Definition z_bvslt := z_rel BSlt.
Definition z_bvsle := z_rel BSle.
Definition z_bvsgt := z_rel (fun a b => BSlt b a).
Definition z_bvsge := z_rel (fun a b => BSle b a).

(** adc, z3_bit_vector.py:422-438. *)
Definition z_adc (x : svec) (other carry : sval) : res (svec * bterm) :=
  o <- z_coerce (scls x) other ;;
  c1 <- sized (skind x) 1 ;;
  c <- z_coerce c1 carry ;;
  a <- z_zext x 1 ;;
  b <- z_zext o 1 ;;
  cc <- z_zext c (ssize x) ;;
  s1 <- z_bvadd a (SVec b) ;;
  s2 <- z_bvadd s1 (SVec cc) ;;
  lo <- z_slice s2 (Some 0) (Some (-1)) None ;;
  hi <- z_index s2 (-1) ;;
  Ok (lo, hi).

(** repeat, z3_bit_vector.py:495-497, for counts of at least 1 (RepeatBitVec(0) is left out); the term must still have
    the sort of self. *)
Definition z_repeat (x : svec) (r : Z) : res svec :=
  if r <? 1 then Raise EOutOfModel else z_node (scls x) (bv_repeat_node (sterm x) r).

(** z3Bit.ite, z3_bit_vector.py:128-154; BV_t(v) without a size is AbstractBitVectorMeta.__call__
    (bit_vector_abc.py:23-48), which sizes the vector by the value. *)
Definition z_implicit_size (v : sval) : res Z :=
  match v with
  | SBit _ => Ok 1
  | SBool b => Ok (Z.max (bit_length (b2z b)) 1)
  | SInt z => Ok (Z.max (bit_length z) 1)
  | SSeq l => Ok (Z.max (Z.of_nat (length l)) 1)
  | SOther (Some i) _ => z <- i ;; Ok (Z.max (bit_length z) 1)
  | _ => Raise EOutOfModel
  end.
Definition z_implicit (v : sval) : res svec := n <- z_implicit_size v ;; z_construct KBV n v.
Definition z_if (c : bterm) (t f : svec) : res svec := z_node (scls t) (VIte c (sterm t) (sterm f)).
Definition z_ite (c : bterm) (t f : sval) : res svec :=
  match t, f with
  | SVec x, SVec y => if cls_eqb (scls x) (scls y) then z_if c x y else Raise ETypeError     (* 132-135 *)
  | SVec x, _ => y <- z_init (scls x) f ;; z_if c x y                                         (* 136-138 *)
  | _, SVec y => x <- z_init (scls y) t ;; z_node (scls y) (VIte c (sterm x) (sterm y))       (* 139-141 *)
  | _, _ =>                                                                                   (* 142-151 *)
      x <- z_implicit t ;;
      y <- z_implicit f ;;
      let e := ssize x - ssize y in
      if 0 <? e then y <- z_zext y e ;; z_if c x y
      else if e <? 0 then x <- z_zext x (- e) ;; z_if c x y
      else z_if c x y
  end.
(** z3BitVector.ite, z3_bit_vector.py:440-441. *)
Definition z_vec_ite (x : svec) (t f : sval) : res svec := c <- z_bvne x (SInt 0) ;; z_ite c t f.

(** __setitem__, z3_bit_vector.py:301-316. *)
Definition z_setitem_int (x : svec) (index : Z) (v : sval) : res svec :=
  if negb (s_bit_like v) then Raise EValueError
  else
    let index := if index <? 0 then ssize x + index else index in
    if negb ((0 <=? index) && (index <? ssize x)) then Raise EIndexError
    else
      mask <- z_init (scls x) (SInt (Z.shiftl 1 index)) ;;
      b <- z_bit_init v ;;
      t <- z_bvor x (SVec mask) ;;
      nm <- z_bvnot mask ;;
      f <- z_bvand x (SVec nm) ;;
      r <- z_ite b (SVec t) (SVec f) ;;
      Ok (SV (scls x) (sterm r)).

(** ** Operators *)
(** z3_bit_vector.py:471-484 and, for z3SIntVector, 540-547: the dunder methods are the named methods. *)
Definition z_op_method (op : binop) (k : kind) : svec -> sval -> res svec :=
  match op with
  | OAnd => z_bvand | OOr => z_bvor | OXor => z_bvxor | OShl => z_bvshl
  | OShr => match k with KSInt => z_bvashr | _ => z_bvlshr end
  | OAdd => z_bvadd | OSub => z_bvsub | OMul => z_bvmul
  | OFloorDiv => match k with KSInt => z_bvsdiv | _ => z_bvudiv end
  | OMod => match k with KSInt => z_bvsrem | _ => z_bvurem end
  end.
(** bit_cast and z3Bit.__and__, __or__, __xor__, z3_bit_vector.py:44-51, 116-126. *)
Definition z_bit_cast (fn : bterm -> bterm -> bterm) (self : bterm) (v : sval) : res bterm :=
  match v with
  | SBit o => z_bit (fn self o)
  | _ => o <- z_bit_init v ;; z_bit (fn self o)
  end.
Definition z_bit_fn (op : binop) : option (bterm -> bterm -> bterm) :=
  match op with
  | OAnd => Some BAnd | OOr => Some BOr | OXor => Some (fun p q => BNot (BIff p q)) | _ => None
  end.
(** __invert__, z3_bit_vector.py:113-114. *)
Definition z_bit_invert (self : bterm) : res bterm := z_bit (BNot self).
(** CPython's binary operator protocol: there are no reflected methods, and a method that exists raises instead of
    returning NotImplemented. *)
Definition z_binop (op : binop) (a b : sval) : res sval :=
  match a with
  | SVec x => rmap SVec (z_op_method op (skind x) x b)
  | SBit p => match z_bit_fn op with Some f => rmap SBit (z_bit_cast f p b) | None => Raise ETypeError end
  | SNodeB _ | SNodeV _ => Raise EOutOfModel
  | _ => match b with SVec _ | SBit _ => Raise ETypeError | _ => Raise EOutOfModel end
  end.

(** Comparison methods, z3_bit_vector.py:486-491 and, for z3SIntVector, 549-559. *)
Definition z_cmp_method (c : cmpop) (k : kind) : svec -> sval -> res bterm :=
  match c, k with
  | CEq, _ => z_bveq | CNe, _ => z_bvne
  | CLt, KSInt => z_bvslt | CLe, KSInt => z_bvsle | CGt, KSInt => z_bvsgt | CGe, KSInt => z_bvsge
  | CLt, _ => z_bvult | CLe, _ => z_bvule | CGt, _ => z_bvugt | CGe, _ => z_bvuge
  end.
(** z3Bit.__eq__, __ne__, z3_bit_vector.py:105-111; None: no such method. *)
Definition z_bit_cmp (c : cmpop) (self : bterm) (v : sval) : option (res bterm) :=
  match c with
  | CEq => Some (z_bit_cast BIff self v)
  | CNe => Some (z_bit_cast (fun p q => BNot (BIff p q)) self v)
  | _ => None
  end.
(** CPython do_richcompare: a right operand of a strict subclass goes first, then the left, then the right. *)
Definition z_compare (c : cmpop) (a b : sval) : res sval :=
  match a, b with
  | SVec x, SVec y =>
      if negb (cls_eqb (scls x) (scls y)) && cls_le (scls y) (scls x)
      then rmap SBit (z_cmp_method (cmp_swap c) (skind y) y a)
      else rmap SBit (z_cmp_method c (skind x) x b)
  | SVec x, _ => rmap SBit (z_cmp_method c (skind x) x b)
  | SBit p, _ =>
      match z_bit_cmp c p b with
      | Some r => rmap SBit r
      | None => match b with SVec y => rmap SBit (z_cmp_method (cmp_swap c) (skind y) y a) | _ => Raise ETypeError end
      end
  | (SNodeB _ | SNodeV _), _ => Raise EOutOfModel
  | _, SVec y => rmap SBit (z_cmp_method (cmp_swap c) (skind y) y a)
  | _, SBit q => match z_bit_cmp (cmp_swap c) q a with Some r => rmap SBit r | None => Raise ETypeError end
  | _, _ => Raise EOutOfModel
  end.
End Z3.
