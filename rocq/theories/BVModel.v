(** Model of hwtypes/bit_vector.py (Bit, BitVector, NumVector, UIntVector, SIntVector)
    and of the derived methods of hwtypes/bit_vector_abc.py. Definitions only. *)
From Verif Require Import PyBase.

(** The four unsized classes, bit_vector.py:177,503,507,515. User-defined
    subclasses are not in this file (see MetaModel.v for the class machinery). *)
Inductive kind := KBV | KNum | KUInt | KSInt.

Definition kind_eqb (a b : kind) : bool :=
  match a, b with
  | KBV, KBV | KNum, KNum | KUInt, KUInt | KSInt, KSInt => true
  | _, _ => false
  end.

(** issubclass on the unsized classes: bit_vector.py:503 NumVector(BitVector),
    507 UIntVector(NumVector), 515 SIntVector(NumVector). *)
Definition kind_le (a b : kind) : bool :=
  match a, b with
  | _, KBV => true
  | KNum, KNum | KUInt, KNum | KSInt, KNum => true
  | KUInt, KUInt | KSInt, KSInt => true
  | _, _ => false
  end.

(** A sized class K[n], bit_vector_abc.py:75-97. *)
Record bvcls := BVC { ck : kind; csize : Z }.

(** An instance: its class and the _value attribute, bit_vector.py:204-205. *)
Record bv := BV { bcls : bvcls; bval : Z }.

Definition bsize (x : bv) : Z := csize (bcls x).   (* bit_vector_abc.py:162-164 *)
Definition bkind (x : bv) : kind := ck (bcls x).

(** Arguments, by the distinctions the code makes (isinstance / hasattr tests in
    bit_vector.py:47-58, 183-203). [VSeq] is a list/tuple/range/bytes; [VStr n] a
    str of n characters (every 1-character string is truthy). [VOther i b t] is an object
    of another class: [i] is what int() does if it has __int__, [b] what bool() does if
    it has __bool__, [t] its truth value otherwise; it defines no operator of its own. *)
Inductive pyval :=
| VInt (z : Z)
| VBool (b : bool)
| VBit (b : bool)
| VBV (x : bv)
| VSeq (l : list pyval)
| VStr (n : nat)
| VOther (i : option (res Z)) (b : option (res bool)) (t : bool).

(** int2seq, bit_vector.py:23-24. *)
Definition int2seq (value n : Z) : list Z :=
  map (fun i => Z.land (Z.shiftr value i) 1) (zrange n).

(** seq2int, bit_vector.py:14-18, on the truth values of the elements:
    [value |= int(bool(v)) << idx], idx counting from [idx]. *)
Fixpoint seq2int_from (idx value : Z) (l : list bool) : Z :=
  match l with
  | [] => value
  | b :: l => seq2int_from (idx + 1) (Z.lor value (Z.shiftl (b2z b) idx)) l
  end.
Definition seq2int (l : list bool) : Z := seq2int_from 0 0 l.

(** mask and store, bit_vector.py:204-205. *)
Definition mk (c : bvcls) (value : Z) : bv :=
  BV c (Z.land value (Z.shiftl 1 (csize c) - 1)).

(** Indexing the class: K[n], bit_vector_abc.py:82-85 (negative sizes raise ValueError;
    the argument is always an int here). *)
Definition sized (k : kind) (n : Z) : res bvcls :=
  if n <? 0 then Raise EValueError else Ok (BVC k n).

(** bits, bit_vector.py:466-467. *)
Definition bits (x : bv) : list Z := int2seq (bval x) (bsize x).

(** __getitem__ with an int, bit_vector.py:247-252. The Bit is its boolean. *)
Definition getitem_int (x : bv) (index : Z) : res bool :=
  let index := if index <? 0 then bsize x + index else index in
  if (0 <=? index) && (index <? bsize x)
  then Ok (negb (Z.eqb (Z.land (Z.shiftr (bval x) index) 1) 0))
  else Raise EIndexError.

(** as_uint, bit_vector.py:443-444. *)
Definition as_uint (x : bv) : Z := bval x.

(** as_sint, bit_vector.py:446-450. *)
Definition as_sint (x : bv) : res Z :=
  s <- getitem_int x (-1) ;;
  Ok (if s then bval x - Z.shiftl 1 (bsize x) else bval x).

(** __int__, bit_vector.py:454-455 and 518-519. *)
Definition bv_int (x : bv) : res Z :=
  match bkind x with KSInt => as_sint x | _ => Ok (as_uint x) end.

(** __bool__, bit_vector.py:457-458. *)
Definition bv_bool (x : bv) : res bool := rmap (fun z => negb (z =? 0)) (bv_int x).

(** Python truth value bool(v). *)
Definition truth (v : pyval) : res bool :=
  match v with
  | VInt z => Ok (negb (z =? 0))
  | VBool b => Ok b
  | VBit b => Ok b                                   (* bit_vector.py:118-119 *)
  | VBV x => bv_bool x
  | VSeq l => Ok (match l with [] => false | _ => true end)
  | VStr n => Ok (match n with O => false | S _ => true end)
  | VOther _ (Some b) _ => b
  | VOther _ None t => Ok t
  end.

(** BitVector.__init__, bit_vector.py:182-205 (warnings dropped). *)
Definition bv_init (c : bvcls) (v : pyval) : res bv :=
  match v with
  | VBV x => Ok (mk c (bval x))                                   (* 183-186 *)
  | VBit b => Ok (mk c (b2z b))                                   (* 187-188 *)
  | VInt z => Ok (mk c z)                                         (* 189-193 *)
  | VBool b => Ok (mk c (b2z b))
  | VSeq l => bs <- mapM truth l ;; Ok (mk c (seq2int bs))        (* 194-197 *)
  | VStr n => Ok (mk c (seq2int (repeat true n)))
  | VOther (Some i) _ _ => z <- i ;; Ok (mk c z)                  (* 198-201 *)
  | VOther None _ _ => Raise ETypeError                           (* 202-203 *)
  end.

(** K[n](v): class indexing followed by the constructor, bit_vector_abc.py:23-28,75-97. *)
Definition construct (k : kind) (n : Z) (v : pyval) : res bv :=
  c <- sized k n ;; bv_init c v.

(** int.bit_length. *)
Definition bit_length (z : Z) : Z :=
  if z =? 0 then 0 else Z.log2 (Z.abs z) + 1.

(** Implicitly sized construction K(v), bit_vector_abc.py:29-48. *)
Definition implicit_size (v : pyval) : res Z :=
  match v with
  | VBV x => Ok (bsize x)                                        (* 35-36 *)
  | VBit _ => Ok 1                                               (* 37-38 *)
  | VSeq l => Ok (Z.max (Z.of_nat (length l)) 1)                 (* 39-40 *)
  | VStr n => Ok (Z.max (Z.of_nat n) 1)
  | VInt z => Ok (Z.max (bit_length z) 1)                        (* 41-42 *)
  | VBool b => Ok (Z.max (bit_length (b2z b)) 1)
  | VOther (Some i) _ _ => z <- i ;; Ok (Z.max (bit_length z) 1) (* 43-44 *)
  | VOther None _ _ => Raise ETypeError                          (* 45-46 *)
  end.
Definition construct_implicit (k : kind) (v : pyval) : res bv :=
  n <- implicit_size v ;; construct k n v.

(** make_constant, bit_vector.py:207-212. *)
Definition make_constant (c : bvcls) (v : pyval) (size : option Z) : res bv :=
  match size with
  | None => bv_init c v
  | Some n => construct (ck c) n v
  end.

(** A Python list of the integers 0/1 as an argument. *)
Definition bits_arg (l : list Z) : pyval := VSeq (map VInt l).

(** __getitem__ with a slice, bit_vector.py:244-246. *)
Definition getitem_slice (x : bv) (a b s : option Z) : res bv :=
  v <- list_slice 0 (bits x) a b s ;;
  construct (bkind x) (Z.of_nat (length v)) (bits_arg v).

(** __getitem__, bit_vector.py:243-254. *)
Definition getitem (x : bv) (i : pyindex) : res pyval :=
  match i with
  | ISlice a b s => rmap VBV (getitem_slice x a b s)
  | IInt i => rmap VBit (getitem_int x i)
  | IOther => Raise ETypeError
  end.

(** concat, bit_vector.py:263-267; isinstance(other, unsized_t) holds for instances of
    subclasses of the unsized class at any size. *)
Definition concat (x : bv) (other : pyval) : res bv :=
  match other with
  | VBV y =>
      if kind_le (bkind y) (bkind x)
      then construct (bkind x) (bsize x + bsize y)
             (VInt (Z.lor (bval x) (Z.shiftl (bval y) (bsize x))))
      else Raise ETypeError
  | _ => Raise ETypeError
  end.

(** _coerce, bit_vector.py:134-140. *)
Definition coerce (c : bvcls) (v : pyval) : res bv :=
  match v with
  | VBV y => if negb (bsize y =? csize c) then Raise EInconsistentSize else Ok y
  | _ => bv_init c v
  end.

(** bv_cast, bit_vector.py:142-147. *)
Definition bv_cast {A} (fn : bv -> bv -> res A) (self : bv) (other : pyval) : res A :=
  y <- coerce (bcls self) other ;; fn self y.

(** What a method that builds a bit-vector returns: a new object, or the receiver itself
    (bit_vector.py:385 and 399 return self). *)
Inductive rv := New (x : bv) | Self.
Definition rv_val (self : bv) (r : rv) : bv := match r with New x => x | Self => self end.

(** type(self)(value) for an int. *)
Definition renew (self : bv) (z : Z) : rv := New (mk (bcls self) z).

(** bvnot, bit_vector.py:269-270. *)
Definition bvnot (x : bv) : bv := mk (bcls x) (Z.lnot (as_uint x)).
(** bvneg, bit_vector.py:338-339. *)
Definition bvneg (x : bv) : bv := mk (bcls x) (Z.lnot (as_uint x) + 1).

(** bit_vector.py:272-294. *)
Definition bvand := bv_cast (fun x y => Ok (renew x (Z.land (as_uint x) (as_uint y)))).
Definition bvor := bv_cast (fun x y => Ok (renew x (Z.lor (as_uint x) (as_uint y)))).
Definition bvxor := bv_cast (fun x y => Ok (renew x (Z.lxor (as_uint x) (as_uint y)))).
Definition bvshl := bv_cast (fun x y => Ok (renew x (Z.shiftl (as_uint x) (as_uint y)))).
Definition bvlshr := bv_cast (fun x y => Ok (renew x (Z.shiftr (as_uint x) (as_uint y)))).
Definition bvashr := bv_cast (fun x y =>
  s <- as_sint x ;; Ok (renew x (Z.shiftr s (as_uint y)))).

(** self[other:].concat(self[:other]), bit_vector.py:299, 304. *)
Definition rot_split (x : bv) (k : Z) : res rv :=
  a <- getitem_slice x (Some k) None None ;;
  b <- getitem_slice x None (Some k) None ;;
  rmap New (concat a (VBV b)).

(** bvrol, bit_vector.py:296-299 (% by a zero length raises ZeroDivisionError). *)
Definition bvrol := bv_cast (fun x y =>
  if bsize x =? 0 then Raise EZeroDivision
  else rot_split x ((bsize x - as_uint y) mod bsize x)).
(** bvror, bit_vector.py:301-304. *)
Definition bvror := bv_cast (fun x y =>
  if bsize x =? 0 then Raise EZeroDivision
  else rot_split x (as_uint y mod bsize x)).

(** bvcomp, bit_vector.py:306-308. *)
Definition bvcomp := bv_cast (fun x y =>
  rmap New (construct (bkind x) 1 (VBool (as_uint x =? as_uint y)))).

(** bit_vector.py:310-336; the resulting Bit is its boolean. *)
Definition bveq := bv_cast (fun x y => Ok (as_uint x =? as_uint y)).
Definition bvne := bv_cast (fun x y => Ok (negb (as_uint x =? as_uint y))).
Definition bvuge := bv_cast (fun x y => Ok (as_uint y <=? as_uint x)).
Definition bvugt := bv_cast (fun x y => Ok (as_uint y <? as_uint x)).
Definition bvule := bv_cast (fun x y => Ok (as_uint x <=? as_uint y)).
Definition bvult := bv_cast (fun x y => Ok (as_uint x <? as_uint y)).
Definition bvslt := bv_cast (fun x y =>
  a <- as_sint x ;; b <- as_sint y ;; Ok (a <? b)).

(** Derived signed comparisons, bit_vector_abc.py:260-267. *)
Definition bvsle (x : bv) (v : pyval) : res bool :=
  a <- bvslt x v ;; b <- bveq x v ;; Ok (orb a b).
Definition bvsgt (x : bv) (v : pyval) : res bool := rmap negb (bvsle x v).
Definition bvsge (x : bv) (v : pyval) : res bool := rmap negb (bvslt x v).

(** bit_vector.py:362-372. *)
Definition bvadd := bv_cast (fun x y => Ok (renew x (as_uint x + as_uint y))).
Definition bvsub := bv_cast (fun x y => Ok (renew x (as_uint x - as_uint y))).
Definition bvmul := bv_cast (fun x y => Ok (renew x (as_uint x * as_uint y))).

(** bvudiv, bit_vector.py:374-379. *)
Definition bvudiv := bv_cast (fun x y =>
  let o := as_uint y in
  if o =? 0 then Ok (renew x (Z.shiftl 1 (bsize x) - 1))
  else Ok (renew x (as_uint x / o))).
(** bvurem, bit_vector.py:381-386. *)
Definition bvurem := bv_cast (fun x y =>
  let o := as_uint y in
  if o =? 0 then Ok Self else Ok (renew x (as_uint x mod o))).
(** bvsdiv, bit_vector.py:388-393. *)
Definition bvsdiv := bv_cast (fun x y =>
  o <- as_sint y ;;
  if o =? 0 then Ok (renew x (Z.shiftl 1 (bsize x) - 1))
  else a <- as_sint x ;; Ok (renew x (a / o))).
(** bvsrem, bit_vector.py:395-400. *)
Definition bvsrem := bv_cast (fun x y =>
  o <- as_sint y ;;
  if o =? 0 then Ok Self
  else a <- as_sint x ;; Ok (renew x (a mod o))).

(** bvnand, bvnor, bvxnor, bit_vector_abc.py:195-210. *)
Definition bvnand (x : bv) (v : pyval) : res rv :=
  r <- bvand x v ;; Ok (New (bvnot (rv_val x r))).
Definition bvnor (x : bv) (v : pyval) : res rv :=
  r <- bvor x v ;; Ok (New (bvnot (rv_val x r))).
Definition bvxnor (x : bv) (v : pyval) : res rv :=
  r <- bvxor x v ;; Ok (New (bvnot (rv_val x r))).

(** repeat, bit_vector.py:472-477; [r * list] is r copies. int(r) of the argument is
    taken as given (the argument is an int). *)
Definition bv_repeat (x : bv) (r : Z) : res bv :=
  if r <=? 0 then Raise EValueError
  else construct (bkind x) (r * bsize x)
         (bits_arg (List.concat (repeat (bits x) (Z.to_nat r)))).

(** sext, bit_vector.py:479-485. *)
Definition sext (x : bv) (e : Z) : res bv :=
  if e <? 0 then Raise EValueError
  else m <- getitem_int x (-1) ;;
       t <- construct (bkind x) 1 (VBit m) ;;
       r <- bv_repeat t e ;;
       concat x (VBV r).

(** zext, bit_vector.py:490-496. *)
Definition zext (x : bv) (e : Z) : res bv :=
  if e <? 0 then Raise EValueError
  else z <- construct (bkind x) e (VInt 0) ;; concat x (VBV z).

(** ext, bit_vector.py:487-488 and 588-589. *)
Definition ext (x : bv) (e : Z) : res bv :=
  match bkind x with KSInt => sext x e | _ => zext x e end.

(** adc, bit_vector.py:341-357. [a + b + c] is the operator + (all three operands have the
    same size, so it is bvadd of the left operand; see OpModel.py_binop). *)
Definition adc (x : bv) (other carry : pyval) : res (bv * bool) :=
  o <- coerce (bcls x) other ;;
  c1 <- sized (bkind x) 1 ;;
  c <- coerce c1 carry ;;
  a <- zext x 1 ;;
  b <- zext o 1 ;;
  cc <- zext c (bsize x) ;;
  s1 <- bvadd a (VBV b) ;;
  let s1 := rv_val a s1 in
  s2 <- bvadd s1 (VBV cc) ;;
  let s2 := rv_val s1 s2 in
  lo <- getitem_slice s2 (Some 0) (Some (-1)) None ;;
  hi <- getitem_int s2 (-1) ;;
  Ok (lo, hi).

(** Bit.__init__, bit_vector.py:46-58; hasattr(value,'__bool__') is false for sequences. *)
Definition bit_init (v : pyval) : res bool :=
  match v with
  | VBit b => Ok b
  | VBool b => Ok b
  | VInt z => if (z =? 0) || (z =? 1) then Ok (negb (z =? 0)) else Raise EValueError
  | VBV x => bv_bool x
  | VSeq _ | VStr _ => Raise ETypeError
  | VOther _ (Some b) _ => b
  | VOther _ None _ => Raise ETypeError
  end.

(** __setitem__ with an int index, bit_vector.py:231-241; a slice raises
    NotImplementedError (228-229). Bit(value).ite on two objects of the class of self copies
    the selected one (bit_vector_util.py:239-243, modelled in IteModel.v). *)
Definition bit_like (v : pyval) : bool :=
  match v with
  | VBool _ | VBit _ => true
  | VInt z => (z =? 0) || (z =? 1)
  | _ => false
  end.
Definition setitem_int (x : bv) (index : Z) (v : pyval) : res bv :=
  if negb (bit_like v) then Raise EValueError
  else
    let index := if index <? 0 then bsize x + index else index in
    if negb ((0 <=? index) && (index <? bsize x)) then Raise EIndexError
    else
      let mask := mk (bcls x) (Z.shiftl 1 index) in
      t <- bvor x (VBV mask) ;;
      f <- bvand x (VBV (bvnot mask)) ;;
      b <- bit_init v ;;
      Ok (BV (bcls x) (bval (mk (bcls x) (bval (if (b : bool) then rv_val x t else rv_val x f))))).
Definition setitem (x : bv) (i : pyindex) (v : pyval) : res bv :=
  match i with
  | ISlice _ _ _ => Raise ENotImplementedErr
  | IInt i => setitem_int x i v
  | IOther => if negb (bit_like v) then Raise EValueError else Raise ETypeError
  end.

(** as_bool_list, bit_vector.py:469-470. *)
Definition as_bool_list (x : bv) : list bool := map (fun z => negb (z =? 0)) (bits x).

(** binary_string and as_binary_string, bit_vector.py:460-464. str(int(i)) of 0/1. *)
Definition digit (z : Z) : ascii := if z =? 0 then "0"%char else "1"%char.
Definition binary_string (x : bv) : string :=
  string_of_list_ascii (map digit (rev (bits x))).
Definition as_binary_string (x : bv) : string := ("0b" ++ binary_string x)%string.

(** overflow, bit_vector.py:591-595, on Bits. *)
Definition overflow (a b r : bv) : res bool :=
  ma <- getitem_int a (-1) ;;
  mb <- getitem_int b (-1) ;;
  n <- getitem_int r (-1) ;;
  Ok (orb (andb (andb ma mb) (negb n)) (andb (andb (negb ma) (negb mb)) n)).

(** random, bit_vector.py:498-500, 510-512, 583-586: the random source is the argument
    [draw lo hi] (random.randint). *)
Definition bv_random (k : kind) (draw : Z -> Z -> Z) (width : Z) : res bv :=
  match k with
  | KSInt =>
      c <- sized k width ;;
      if width - 1 <? 0 then Raise EValueError      (* 1 << -1 *)
      else bv_init c (VInt (draw (- Z.shiftl 1 (width - 1)) (Z.shiftl 1 (width - 1) - 1)))
  | KNum => construct KBV width (VInt (draw 0 (Z.shiftl 1 width - 1)))
  | _ => construct k width (VInt (draw 0 (Z.shiftl 1 width - 1)))
  end.
