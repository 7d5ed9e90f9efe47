(** Methods called by name on symbolic vectors of any class, polymorphic ones included: hwtypes/smt_bit_vector.py:314-520, 561-602,
    677-678 and hwtypes/bit_vector_util.py:82-92, 166-176. Follows PMethModel.v. Definitions only. *)
From Verif Require Import PyBase BVModel OpModel IteModel SMTTerm SMTModel SMTSpec SIteModel.

(** x.m(y) for the methods of SMTSpec.vmeth and rmeth, rotations, signed division, ~x, -x, x[i], x[i:j:k], zext, sext, ext, repeat,
    concat, x[i] = b, adc, as_uint, as_sint. *)
Inductive spcall :=
| QMeth (m : vmeth) (a : sarg) | QRel (m : rmeth) (a : sarg)
| QRol (a : sarg) | QRor (a : sarg) | QSdiv (a : sarg) | QSrem (a : sarg) | QNot | QNeg
| QItem (i : Z) | QSlice (i j k : option Z) | QZext (e : Z) | QSext (e : Z) | QExt (e : Z) | QRepeat (r : Z)
| QConcat (y : spobj) | QSet (i : Z) (b : sval) | QAdc (a c : sarg) | QUint | QSint.

(** Results: vectors of the class of the receiver, SMTBits, SMTInts. adc returns two; item assignment returns the new state of the
    receiver. *)
Inductive sbitem := SBVec (x : svec) | SBBit (t : bterm) | SBNum (t : iterm).
Inductive spitem := SIVec (x : spobj) | SIBit (t : bterm) | SINum (t : iterm).

Section Call.
Variable S : simplifier.
Definition svecs (r : res svec) : res (list sbitem) := rmap (fun x => [SBVec x]) r.
(** The calls on a built-in class, by the functions of SMTModel.v. *)
Definition sb_call (c : spcall) (x : svec) : res (list sbitem) :=
  match c with
  | QMeth m a => svecs (smt_meth S m x (sarg_val a))
  | QRel m a => rmap (fun b => [SBBit b]) (smt_rel S m x (sarg_val a))
  | QRol a => svecs (s_bvrol S x (sarg_val a))
  | QRor a => svecs (s_bvror S x (sarg_val a))
  | QSdiv a => svecs (s_bvsdiv S x (sarg_val a))
  | QSrem a => svecs (s_bvsrem S x (sarg_val a))
  | QNot => svecs (s_bvnot S x)
  | QNeg => svecs (s_bvneg S x)
  | QItem i => rmap (fun b => [SBBit b]) (s_getitem_int S x i)
  | QSlice i j k => svecs (s_getitem_slice S x i j k)
  | QZext e => svecs (s_zext S x e)
  | QSext e => svecs (s_sext S x e)
  | QExt e => svecs (s_ext S x e)
  | QRepeat r => svecs (s_repeat S x (SInt r))
  | QConcat y => svecs (s_concat S x (sarg_val (SAVec y)))
  | QSet i b => svecs (s_setitem_int S x i b)
  | QAdc a c => rmap (fun r => [SBVec (fst r); SBBit (snd r)]) (s_adc S x (sarg_val a) (sarg_val c))
  | QUint => rmap (fun z => [SBNum z]) (s_as_uint S x)
  | QSint => rmap (fun z => [SBNum z]) (s_as_sint S x)
  end.

(** Result objects have the class type(self), or type(self).unsized_t at another size. *)
Definition spitem_of (x : spobj) (i : sbitem) : spitem :=
  match i with SBVec b => SIVec (slike x b) | SBBit t => SIBit t | SBNum t => SINum t end.
(** isinstance(other, type(self).unsized_t), smt_bit_vector.py:372-373. *)
Definition s_concat_accepts (x y : spobj) : bool :=
  spcls_eqb (spc y) (spc x) || match spc x with SPBase k => kind_le (sbase_kind (spc y)) k | _ => false end.
(** ext is the one method SMTSIntVector overrides (677-678): a polymorphic class chooses by VCall. *)
Definition s_leaf_ext (s : bool) (x : spobj) (a : sarg) : res spret :=
  match a with
  | SAOther (SInt e) => rmap (fun b => SPVec (slike x b)) (if s then s_sext S (as_svec x) e else s_zext S (as_svec x) e)
  | _ => Raise EOutOfModel
  end.
Definition sret_item (r : spret) : list spitem :=
  match r with SPVec x => [SIVec x] | SPBit b => [SIBit b] | SPNotImpl => [] end.
(** x.m(...); the nat is the supply of class identities. *)
Definition sp_call (id : nat) (c : spcall) (x : spobj) : res (list spitem * nat) :=
  match c with
  | QExt e => r <- s_run_meth S s_leaf_ext (s_resolve true (spc x)) id x (SAOther (SInt e)) ;; Ok (sret_item (fst r), snd r)
  | QConcat y =>
      if s_concat_accepts x y then rmap (fun l => (map (spitem_of x) l, id)) (sb_call c (as_svec x)) else Raise ETypeError
  | _ => rmap (fun l => (map (spitem_of x) l, id)) (sb_call c (as_svec x))
  end.
End Call.
