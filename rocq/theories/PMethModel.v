(** Methods called by name on vectors of any class, polymorphic ones included: hwtypes/bit_vector.py:227-400, 472-496, 588-589 and
    hwtypes/bit_vector_util.py:82-92, 166-176. Definitions only. *)
From Verif Require Import PyBase BVModel OpModel IteModel SMTSpec.

(** x.m(y) for the methods of SMTSpec.vmeth and rmeth, rotations, signed division, ~x, -x, x[i], x[i:j:k], zext, sext, ext, repeat,
    concat, x[i] = b, adc, as_uint, as_sint. *)
Inductive pcall :=
| CMeth (m : vmeth) (a : parg) | CRel (m : rmeth) (a : parg)
| CRol (a : parg) | CRor (a : parg) | CSdiv (a : parg) | CSrem (a : parg) | CNot | CNeg
| CItem (i : Z) | CSlice (i j k : option Z) | CZext (e : Z) | CSext (e : Z) | CExt (e : Z) | CRepeat (r : Z)
| CConcat (y : pobj) | CSet (i : Z) (b : pyval) | CAdc (a c : parg) | CUint | CSint.

(** Results: vectors of the class of the receiver, Bits, ints. adc returns two; item assignment returns the new state of the receiver. *)
Inductive bitem := BVec (x : bv) | BBit (b : bool) | BNum (z : Z).
Inductive pitem := IVec (x : pobj) | IBit (b : bool) | INum (z : Z).

(** The calls on a built-in class, by the functions of BVModel.v; [arg] reads an operand. *)
Definition vec (r : res bv) : res (list bitem) := rmap (fun x => [BVec x]) r.
Definition vec' (x : bv) (r : res rv) : res (list bitem) := rmap (fun o => [BVec (rv_val x o)]) r.
Definition b_call (arg : parg -> pyval) (c : pcall) (x : bv) : res (list bitem) :=
  match c with
  | CMeth m a => vec' x (conc_meth m x (arg a))
  | CRel m a => rmap (fun b => [BBit b]) (conc_rel m x (arg a))
  | CRol a => vec' x (bvrol x (arg a))
  | CRor a => vec' x (bvror x (arg a))
  | CSdiv a => vec' x (bvsdiv x (arg a))
  | CSrem a => vec' x (bvsrem x (arg a))
  | CNot => Ok [BVec (bvnot x)]
  | CNeg => Ok [BVec (bvneg x)]
  | CItem i => rmap (fun b => [BBit b]) (getitem_int x i)
  | CSlice i j k => vec (getitem_slice x i j k)
  | CZext e => vec (zext x e)
  | CSext e => vec (sext x e)
  | CExt e => vec (ext x e)
  | CRepeat r => vec (bv_repeat x r)
  | CConcat y => vec (concat x (arg (AVec y)))
  | CSet i b => vec (setitem_int x i b)
  | CAdc a c => rmap (fun r => [BVec (fst r); BBit (snd r)]) (adc x (arg a) (arg c))
  | CUint => Ok [BNum (as_uint x)]
  | CSint => rmap (fun z => [BNum z]) (as_sint x)
  end.

(** Result objects have the class type(self), or type(self).unsized_t at another size. *)
Definition pitem_of (x : pobj) (i : bitem) : pitem :=
  match i with BVec b => IVec (like x b) | BBit b => IBit b | BNum z => INum z end.
(** isinstance(other, type(self).unsized_t), bit_vector.py:264-265: a polymorphic class has no subclasses but its own sized ones. *)
Definition concat_accepts (x y : pobj) : bool :=
  pcls_eqb (pc y) (pc x) || match pc x with PBase k => kind_le (base_kind (pc y)) k | _ => false end.
(** ext is the one method SIntVector overrides (588-589): a polymorphic class chooses by VCall. *)
Definition leaf_ext (s : bool) (x : pobj) (a : parg) : res pret :=
  match a with
  | AOther (VInt e) => rmap (fun b => PVec (like x b)) (if s then sext (as_bv x) e else zext (as_bv x) e)
  | _ => Raise EOutOfModel
  end.
Definition ret_item (r : pret) : list pitem := match r with PVec x => [IVec x] | PBit b => [IBit b] | PNotImpl => [] end.
(** x.m(...); the nat is the supply of class identities. *)
Definition p_call (id : nat) (c : pcall) (x : pobj) : res (list pitem * nat) :=
  match c with
  | CExt e => r <- run_meth leaf_ext (resolve true (pc x)) id x (AOther (VInt e)) ;; Ok (ret_item (fst r), snd r)
  | CConcat y =>
      if concat_accepts x y then rmap (fun l => (map (pitem_of x) l, id)) (b_call arg_val c (as_bv x)) else Raise ETypeError
  | _ => rmap (fun l => (map (pitem_of x) l, id)) (b_call arg_val c (as_bv x))
  end.
