(** Vectors of derived classes: what the methods of hwtypes/bit_vector.py do on instances of classes a program derives from
    BitVector, NumVector, UIntVector and SIntVector (class Word(UIntVector): pass, Word[8], class Byte(BitVector[8]): pass,
    M(BitVector[8]) for a modifier M), over the class machinery of MetaModel.v. Definitions only.
    Simplifications: the derived classes define none of the methods themselves; a remainder by zero is a copy of the
    dividend (identity: C26); after an exception the classes made before it are not followed; operands are ints, Bits and
    vectors; ite is left out. Python integers, slices and operators are those of BVModel.v and OpModel.v. *)
From Verif Require Import PyBase BVModel OpModel SMTSpec ProgModel MetaModel MetaSpec.

(** An instance: type(x) and x._value. *)
Record vobj := VObj { vcls : nat; vval : Z }.
(** Operands and results. *)
Inductive uval := UInt (z : Z) | UBit (b : bool) | UVec (x : vobj).

(** type(x).size, bit_vector_abc.py:107-109; instances have sized classes only (24-28, 48). *)
Definition csz (s : meta) (c : nat) : Z := match c_size (get_cls s c) with Some n => n | None => 0 end.
Definition vsize (s : meta) (x : vobj) : Z := csz s (vcls x).
(** type(x).unsized_t, bit_vector_abc.py:99-105. *)
Definition unsized_t (s : meta) (c : nat) : res nat :=
  match c_unsized (get_cls s c) with Some u => Ok u | None => Raise EAttributeError end.
(** The class that provides __int__, __rshift__, __floordiv__, __mod__, the orderings, their reflected forms and ext: the
    first of SIntVector (5) and BitVector (2) in the method resolution order (bit_vector.py:404-456, 487, 515-589). *)
Definition signed_cls (s : meta) (c : nat) : bool :=
  match find (fun k => Nat.eqb k 2 || Nat.eqb k 5) (c_mro (get_cls s c)) with Some k => Nat.eqb k 5 | None => false end.

(** c(v): BitVector.__init__, bit_vector.py:182-205, for a sized class c. *)
Definition umk (s : meta) (c : nat) (z : Z) : vobj := VObj c (Z.land z (Z.shiftl 1 (csz s c) - 1)).
Definition uinit (s : meta) (c : nat) (v : uval) : vobj :=
  match v with UVec x => umk s c (vval x) | UBit b => umk s c (b2z b) | UInt z => umk s c z end.
(** type(self).unsized_t[n](v), the class and then the object. *)
Definition usized (s : meta) (c : nat) (n : Z) (z : Z) : res (meta * vobj) :=
  u <- unsized_t s c ;; r <- getitem_cls s u (XInt n) ;; Ok (fst r, umk (fst r) (snd r) z).

(** bits, 466-467; __getitem__ with an int, 247-252, and with a slice, 244-246. *)
Definition ubits (s : meta) (x : vobj) : list Z := int2seq (vval x) (vsize s x).
Definition uitem (s : meta) (x : vobj) (index : Z) : res bool :=
  let index := if index <? 0 then vsize s x + index else index in
  if (0 <=? index) && (index <? vsize s x) then Ok (negb (Z.eqb (Z.land (Z.shiftr (vval x) index) 1) 0)) else Raise EIndexError.
Definition useq (l : list Z) : Z := seq2int (map (fun z => negb (z =? 0)) l).
Definition uslice (s : meta) (x : vobj) (a b st : option Z) : res (meta * vobj) :=
  v <- list_slice 0 (ubits s x) a b st ;; usized s (vcls x) (Z.of_nat (length v)) (useq v).

(** as_sint, 446-450; __int__, 454-455 and 518-519; __bool__, 457-458. *)
Definition usint (s : meta) (x : vobj) : res Z :=
  b <- uitem s x (-1) ;; Ok (if (b : bool) then vval x - Z.shiftl 1 (vsize s x) else vval x).
Definition uint (s : meta) (x : vobj) : res Z := if signed_cls s (vcls x) then usint s x else Ok (vval x).
Definition ubool (s : meta) (x : vobj) : res bool := rmap (fun z => negb (z =? 0)) (uint s x).

(** concat, 263-267. *)
Definition uconcat (s : meta) (x : vobj) (other : uval) : res (meta * vobj) :=
  t <- unsized_t s (vcls x) ;;
  match other with
  | UVec y =>
      if issub s (vcls y) t then usized s (vcls x) (vsize s x + vsize s y) (Z.lor (vval x) (Z.shiftl (vval y) (vsize s x)))
      else Raise ETypeError
  | _ => Raise ETypeError
  end.

(** _coerce, 134-140, and bv_cast, 142-147. *)
Definition ucoerce (s : meta) (c : nat) (v : uval) : res vobj :=
  match v with
  | UVec y => if negb (vsize s y =? csz s c) then Raise EInconsistentSize else Ok y
  | _ => Ok (uinit s c v)
  end.
Definition ucast {A} (s : meta) (fn : vobj -> vobj -> res A) (x : vobj) (v : uval) : res A :=
  y <- ucoerce s (vcls x) v ;; fn x y.

(** The methods that answer with type(self)(...): bvnot 269-270, bvneg 338-339, 272-294, 362-400; bvnand, bvnor, bvxnor
    bit_vector_abc.py:195-210. *)
Definition unot (s : meta) (x : vobj) : vobj := umk s (vcls x) (Z.lnot (vval x)).
Definition uneg (s : meta) (x : vobj) : vobj := umk s (vcls x) (Z.lnot (vval x) + 1).
Definition umake (s : meta) (f : Z -> Z -> Z) : vobj -> uval -> res vobj :=
  ucast s (fun x y => Ok (umk s (vcls x) (f (vval x) (vval y)))).
Definition uand s := umake s Z.land.
Definition uor s := umake s Z.lor.
Definition uxor s := umake s Z.lxor.
Definition ushl s := umake s Z.shiftl.
Definition ulshr s := umake s Z.shiftr.
Definition uadd s := umake s Z.add.
Definition usub s := umake s Z.sub.
Definition umul s := umake s Z.mul.
Definition uashr (s : meta) := ucast s (fun x y => a <- usint s x ;; Ok (umk s (vcls x) (Z.shiftr a (vval y)))).
Definition uudiv (s : meta) := ucast s (fun x y =>
  if vval y =? 0 then Ok (umk s (vcls x) (Z.shiftl 1 (vsize s x) - 1)) else Ok (umk s (vcls x) (vval x / vval y))).
Definition uurem (s : meta) := ucast s (fun x y =>
  if vval y =? 0 then Ok x else Ok (umk s (vcls x) (vval x mod vval y))).
Definition usdiv (s : meta) := ucast s (fun x y =>
  o <- usint s y ;;
  if o =? 0 then Ok (umk s (vcls x) (Z.shiftl 1 (vsize s x) - 1)) else a <- usint s x ;; Ok (umk s (vcls x) (a / o))).
Definition usrem (s : meta) := ucast s (fun x y =>
  o <- usint s y ;; if o =? 0 then Ok x else a <- usint s x ;; Ok (umk s (vcls x) (a mod o))).
(** The methods that answer with type(self).unsized_t[...]: bvcomp 306-308, bvrol 296-299, bvror 301-304, repeat 472-477,
    zext 490-496, sext 479-485, ext 487-488 and 588-589. *)
Definition ucomp (s : meta) := ucast s (fun x y => usized s (vcls x) 1 (b2z (vval x =? vval y))).
Definition urot (s : meta) (x : vobj) (k : Z) : res (meta * vobj) :=
  a <- uslice s x (Some k) None None ;; b <- uslice (fst a) x None (Some k) None ;; uconcat (fst b) (snd a) (UVec (snd b)).
Definition urol (s : meta) := ucast s (fun x y =>
  if vsize s x =? 0 then Raise EZeroDivision else urot s x ((vsize s x - vval y) mod vsize s x)).
Definition uror (s : meta) := ucast s (fun x y =>
  if vsize s x =? 0 then Raise EZeroDivision else urot s x (vval y mod vsize s x)).
Definition urepeat (s : meta) (x : vobj) (r : Z) : res (meta * vobj) :=
  if r <=? 0 then Raise EValueError
  else usized s (vcls x) (r * vsize s x) (useq (List.concat (repeat (ubits s x) (Z.to_nat r)))).
Definition uzext (s : meta) (x : vobj) (e : Z) : res (meta * vobj) :=
  if e <? 0 then Raise EValueError else z <- usized s (vcls x) e 0 ;; uconcat (fst z) x (UVec (snd z)).
Definition usext (s : meta) (x : vobj) (e : Z) : res (meta * vobj) :=
  if e <? 0 then Raise EValueError
  else u <- unsized_t s (vcls x) ;; q <- getitem_cls s u (XInt 1) ;; m <- uitem (fst q) x (-1) ;;
       r <- urepeat (fst q) (umk (fst q) (snd q) (b2z m)) e ;; uconcat (fst r) x (UVec (snd r)).
Definition uext (s : meta) (x : vobj) (e : Z) : res (meta * vobj) :=
  if signed_cls s (vcls x) then usext s x e else uzext s x e.
(** adc, 341-357. *)
Definition uadc (s : meta) (x : vobj) (other carry : uval) : res (meta * (vobj * bool)) :=
  o <- ucoerce s (vcls x) other ;;
  u <- unsized_t s (vcls x) ;; r <- getitem_cls s u (XInt 1) ;;
  c <- ucoerce (fst r) (snd r) carry ;;
  a <- uzext (fst r) x 1 ;;
  b <- uzext (fst a) o 1 ;;
  d <- uzext (fst b) c (vsize (fst b) x) ;;
  s1 <- uadd (fst d) (snd a) (UVec (snd b)) ;;
  s2 <- uadd (fst d) s1 (UVec (snd d)) ;;
  lo <- uslice (fst d) s2 (Some 0) (Some (-1)) None ;;
  hi <- uitem (fst lo) s2 (-1) ;;
  Ok (fst lo, (snd lo, hi)).

(** Comparisons, 310-336 and bit_vector_abc.py:260-267. *)
Definition urelf (s : meta) (f : Z -> Z -> bool) : vobj -> uval -> res bool := ucast s (fun x y => Ok (f (vval x) (vval y))).
Definition uslt (s : meta) := ucast s (fun x y => a <- usint s x ;; b <- usint s y ;; Ok (a <? b)).
Definition ueq s := urelf s Z.eqb.
Definition usle (s : meta) (x : vobj) (v : uval) : res bool := a <- uslt s x v ;; b <- ueq s x v ;; Ok (orb a b).
Definition urel (s : meta) (m : rmeth) : vobj -> uval -> res bool :=
  match m with
  | REq => ueq s
  | RNe => urelf s (fun a b => negb (a =? b))
  | RUlt => urelf s Z.ltb
  | RUle => urelf s Z.leb
  | RUgt => urelf s (fun a b => b <? a)
  | RUge => urelf s (fun a b => b <=? a)
  | RSlt => uslt s
  | RSle => usle s
  | RSgt => fun x v => rmap negb (usle s x v)
  | RSge => fun x v => rmap negb (uslt s x v)
  end.
Definition umeth (s : meta) (m : vmeth) (x : vobj) (v : uval) : res (meta * vobj) :=
  let here (r : res vobj) := rmap (pair s) r in
  match m with
  | MAnd => here (uand s x v) | MOr => here (uor s x v) | MXor => here (uxor s x v)
  | MNand => here (rmap (unot s) (uand s x v)) | MNor => here (rmap (unot s) (uor s x v)) | MXnor => here (rmap (unot s) (uxor s x v))
  | MShl => here (ushl s x v) | MLshr => here (ulshr s x v) | MAshr => here (uashr s x v)
  | MAdd => here (uadd s x v) | MSub => here (usub s x v) | MMul => here (umul s x v)
  | MUdiv => here (uudiv s x v) | MUrem => here (uurem s x v)
  | MComp => ucomp s x v
  end.

(** The infix operators, 404-434 and, in SIntVector, 521-549; dispatch_oper 151-160; dispatch_roper 164-174, where any
    exception of _coerce becomes a NameError. None stands for NotImplemented. *)
Definition uop (s : meta) (signed : bool) (op : binop) : vobj -> uval -> res vobj :=
  match op with
  | OAnd => uand s | OOr => uor s | OXor => uxor s | OShl => ushl s
  | OShr => if signed then uashr s else ulshr s
  | OAdd => uadd s | OSub => usub s | OMul => umul s
  | OFloorDiv => if signed then usdiv s else uudiv s
  | OMod => if signed then usrem s else uurem s
  end.
Definition udispatch {A} (r : res A) : res (option A) :=
  match r with Ok x => Ok (Some x) | Raise ETypeError => Ok None | Raise e => Raise e end.
Definition uforward (s : meta) (op : binop) (x : vobj) (v : uval) : res (option uval) :=
  udispatch (rmap UVec (uop s (signed_cls s (vcls x)) op x v)).
Definition ureflected (s : meta) (op : binop) (x : vobj) (other : uval) : res (option uval) :=
  let signed := signed_cls s (vcls x) in
  match op, signed with
  | OShr, false => udispatch (rmap UVec (ulshr s x other))              (* 417 *)
  | _, _ =>
      match ucoerce s (vcls x) other with
      | Raise _ => Raise ENameError
      | Ok o => udispatch (rmap UVec (uop s (match op with OFloorDiv | OMod | OShr => signed | _ => false end) op o (UVec x)))
      end
  end.
(** Bit, 27-38 and 46-93. *)
Definition ubit_init (s : meta) (v : uval) : res bool :=
  match v with
  | UBit b => Ok b
  | UInt z => if (z =? 0) || (z =? 1) then Ok (negb (z =? 0)) else Raise EValueError
  | UVec x => ubool s x
  end.
Definition ubit_method (s : meta) (op : binop) (self : bool) (other : uval) : res (option uval) :=
  match bit_fn op with
  | None => Ok None
  | Some f => match ubit_init s other with
              | Ok o => Ok (Some (UBit (f self o)))
              | Raise e => if is_type_error e then Ok None else Raise e
              end
  end.
Definition ubit_rmethod (s : meta) (op : binop) (self : bool) (other : uval) : res (option uval) :=
  match bit_fn op with
  | None => Ok None
  | Some f => match ubit_init s other with
              | Ok o => Ok (Some (UBit (f o self)))
              | Raise e => if is_type_error e then Ok None else Raise e
              end
  end.
Fixpoint ufirst (l : list (unit -> res (option uval))) : res uval :=
  match l with
  | [] => Raise ETypeError
  | m :: l => match m tt with Ok None => ufirst l | Ok (Some v) => Ok v | Raise e => Raise e end
  end.
(** The classes of the operands provide different reflected methods. *)
Definition uoverridden (s : meta) (op : binop) (x y : vobj) : bool :=
  match op with
  | OShr | OFloorDiv | OMod => negb (signed_cls s (vcls x)) && signed_cls s (vcls y)
  | _ => false
  end.
Definition ubinop (s : meta) (op : binop) (a b : uval) : res uval :=
  match a, b with
  | UVec x, UVec y =>
      if Nat.eqb (vcls x) (vcls y) then ufirst [fun _ => uforward s op x b]
      else if issub s (vcls y) (vcls x) && uoverridden s op x y
      then ufirst [fun _ => ureflected s op y a; fun _ => uforward s op x b]
      else ufirst [fun _ => uforward s op x b; fun _ => ureflected s op y a]
  | UVec x, UBit y => ufirst [fun _ => uforward s op x b; fun _ => ubit_rmethod s op y a]
  | UVec x, UInt _ => ufirst [fun _ => uforward s op x b]
  | UBit x, UVec y => ufirst [fun _ => ubit_method s op x b; fun _ => ureflected s op y a]
  | UBit x, _ => ufirst [fun _ => ubit_method s op x b]
  | UInt _, UVec y => ufirst [fun _ => ureflected s op y a]
  | UInt _, UBit y => ufirst [fun _ => ubit_rmethod s op y a]
  | UInt _, UInt _ => Raise EOutOfModel
  end.
(** Comparisons, 436-441 and 551-581, and Bit's, 63-69. A right operand of a proper subclass is asked first. *)
Definition ucmp_rel (signed : bool) (c : cmpop) : rmeth :=
  match c, signed with
  | CEq, _ => REq | CNe, _ => RNe
  | CLt, true => RSlt | CLe, true => RSle | CGt, true => RSgt | CGe, true => RSge
  | CLt, false => RUlt | CLe, false => RUle | CGt, false => RUgt | CGe, false => RUge
  end.
Definition ucmp_forward (s : meta) (c : cmpop) (x : vobj) (v : uval) : res (option uval) :=
  udispatch (rmap UBit (urel s (ucmp_rel (signed_cls s (vcls x)) c) x v)).
Definition ubit_cmp (s : meta) (c : cmpop) (self : bool) (other : uval) : res (option uval) :=
  let go (f : bool -> bool -> bool) :=
    match ubit_init s other with
    | Ok o => Ok (Some (UBit (f self o)))
    | Raise e => if is_type_error e then Ok None else Raise e
    end in
  match c with CEq => go Bool.eqb | CNe => go xorb | _ => Ok None end.
Definition ucmp (s : meta) (c : cmpop) (a b : uval) : res uval :=
  match a, b with
  | UVec x, UVec y =>
      if negb (Nat.eqb (vcls x) (vcls y)) && issub s (vcls y) (vcls x)
      then ufirst [fun _ => ucmp_forward s (cmp_swap c) y a; fun _ => ucmp_forward s c x b]
      else ufirst [fun _ => ucmp_forward s c x b; fun _ => ucmp_forward s (cmp_swap c) y a]
  | UVec x, UBit y => ufirst [fun _ => ucmp_forward s c x b; fun _ => ubit_cmp s (cmp_swap c) y a]
  | UVec x, UInt _ => ufirst [fun _ => ucmp_forward s c x b]
  | UBit x, UVec y => ufirst [fun _ => ubit_cmp s c x b; fun _ => ucmp_forward s (cmp_swap c) y a]
  | UBit x, UBit y => ufirst [fun _ => ubit_cmp s c x b; fun _ => ubit_cmp s (cmp_swap c) y a]
  | UBit x, UInt _ => ufirst [fun _ => ubit_cmp s c x b]
  | UInt _, UVec y => ufirst [fun _ => ucmp_forward s (cmp_swap c) y a]
  | UInt _, UBit y => ufirst [fun _ => ubit_cmp s (cmp_swap c) y a]
  | UInt _, UInt _ => Raise EOutOfModel
  end.

(** __setitem__ with an int index, 231-241. *)
Definition ubit_like (v : uval) : bool := match v with UBit _ => true | UInt z => (z =? 0) || (z =? 1) | UVec _ => false end.
Definition usetitem (s : meta) (x : vobj) (index : Z) (v : uval) : res vobj :=
  if negb (ubit_like v) then Raise EValueError
  else
    let index := if index <? 0 then vsize s x + index else index in
    if negb ((0 <=? index) && (index <? vsize s x)) then Raise EIndexError
    else
      let mask := umk s (vcls x) (Z.shiftl 1 index) in
      t <- uor s x (UVec mask) ;;
      f <- uand s x (UVec (unot s mask)) ;;
      b <- ubit_init s v ;;
      Ok (VObj (vcls x) (vval (umk s (vcls x) (vval (if (b : bool) then t else f))))).

(** A program: the calls of ProgModel.v, with classes in place of the built-in ones. *)
Inductive vcall :=
| DLit (c : nat) (z : Z)
| DBit (b : bool)
| DConv (c : nat) (x : nat)
| DMeth (m : vmeth) (x : nat) (y : operand)
| DRel (m : rmeth) (x : nat) (y : operand)
| DInv (x : nat)
| DNeg (x : nat)
| DRol (x : nat) (k : Z)
| DRor (x : nat) (k : Z)
| DOp (op : binop) (x : nat) (y : operand)
| DCmp (c : cmpop) (x : nat) (y : operand)
| DCmpInt (c : cmpop) (z : Z) (y : nat)
| DItem (x : nat) (i : Z)
| DSlice (x : nat) (a b : option Z)
| DConcat (x y : nat)
| DZext (x : nat) (k : Z)
| DSext (x : nat) (k : Z)
| DExt (x : nat) (k : Z)
| DSet (x : nat) (i : Z) (b : operand)
| DAdc (x : nat) (y c : operand).

Definition uvec (v : uval) : res vobj := match v with UVec x => Ok x | _ => Raise EOutOfModel end.
Definition vec1 (r : res (meta * vobj)) : res (meta * list uval) := rmap (fun r => (fst r, [UVec (snd r)])) r.
Definition at1 (s : meta) (r : res uval) : res (meta * list uval) := rmap (fun v => (s, [v])) r.
Definition dcall (s : meta) (rs : list uval) (i : vcall) : res (meta * list uval) :=
  let op := opnd UInt rs in
  let vec x := v <- reg rs x ;; uvec v in
  match i with
  | DLit c z => Ok (s, [UVec (uinit s c (UInt z))])
  | DBit b => Ok (s, [UBit b])
  | DConv c x => v <- reg rs x ;; Ok (s, [UVec (uinit s c v)])
  | DMeth m x y => a <- vec x ;; w <- op y ;; vec1 (umeth s m a w)
  | DRel m x y => a <- vec x ;; w <- op y ;; at1 s (rmap UBit (urel s m a w))
  | DInv x =>
      v <- reg rs x ;;
      match v with
      | UVec a => Ok (s, [UVec (unot s a)])
      | UBit b => Ok (s, [UBit (negb b)])
      | UInt _ => Raise EOutOfModel
      end
  | DNeg x => a <- vec x ;; Ok (s, [UVec (uneg s a)])
  | DRol x k => a <- vec x ;; vec1 (urol s a (UInt k))
  | DRor x k => a <- vec x ;; vec1 (uror s a (UInt k))
  | DOp o x y => v <- reg rs x ;; w <- op y ;; at1 s (ubinop s o v w)
  | DCmp c x y => v <- reg rs x ;; w <- op y ;; at1 s (ucmp s c v w)
  | DCmpInt c z y => w <- reg rs y ;; at1 s (ucmp s c (UInt z) w)
  | DItem x i => a <- vec x ;; at1 s (rmap UBit (uitem s a i))
  | DSlice x lo hi => a <- vec x ;; vec1 (uslice s a lo hi None)
  | DConcat x y => a <- vec x ;; w <- reg rs y ;; vec1 (uconcat s a w)
  | DZext x k => a <- vec x ;; vec1 (uzext s a k)
  | DSext x k => a <- vec x ;; vec1 (usext s a k)
  | DExt x k => a <- vec x ;; vec1 (uext s a k)
  | DSet x i b => a <- vec x ;; w <- op b ;; at1 s (rmap UVec (usetitem s (uinit s (vcls a) (UVec a)) i w))
  | DAdc x y c =>
      a <- vec x ;; w <- op y ;; u <- op c ;;
      rmap (fun r => (fst r, [UVec (fst (snd r)); UBit (snd (snd r))])) (uadc s a w u)
  end.
Fixpoint drun (s : meta) (rs : list uval) (p : list vcall) : res (meta * list uval) :=
  match p with
  | [] => Ok (s, rs)
  | i :: p => r <- dcall s rs i ;; drun (fst r) (rs ++ snd r) p
  end.

(** M(T) for one modifier M, modifiers.py:39-58, on the classes of MetaModel.v: [done] is its cache, as pairs (T, M(T)). type(name,
    bases, ) runs the metaclass of the bases like a class statement. The fuel bounds the depth of the hierarchy. *)
Fixpoint vmodify (fuel : nat) (s : meta) (done : list (nat * nat)) (c : nat) : res (meta * list (nat * nat) * nat) :=
  match find (fun e => Nat.eqb (fst e) c) done with
  | Some e => Ok (s, done, snd e)
  | None =>
      match fuel with
      | O => Raise EOutOfModel
      | S f =>
          let fix go (s : meta) (done : list (nat * nat)) (bs : list nat) : res (meta * list (nat * nat) * list nat) :=
            match bs with
            | [] => Ok (s, done, [])
            | b :: bs =>
                r <- vmodify f s done b ;; q <- go (fst (fst r)) (snd (fst r)) bs ;; Ok (fst (fst q), snd (fst q), snd r :: snd q)
            end in
          r <- go s done (c_bases (get_cls s c)) ;;
          let s := fst (fst r) in
          let bases := c :: snd r in
          q <- new_class s (existsb (fun b => c_bv (get_cls s b)) bases) bases None None ;;
          Ok (fst q, (c, snd q) :: snd (fst r), snd q)
      end
  end.
Definition vmodified (s : meta) (done : list (nat * nat)) (c : nat) := vmodify (S c) s done c.
