(** Printing of symbolic values: __repr__ of SMTBit, SMTBitVector, SMTInt, z3Bit and z3BitVector; and of FPVectors. Definitions only. *)
From Coq Require Import String.
From Verif Require Import PyBase BVModel OpModel SMTTerm.
From Verif Require FPModel SMTFPModel.
Local Open Scope string_scope.

(** The classes of the library whose values are symbolic: smt_bit_vector.py:59, 223, 608-614, smt_int.py:26,
    z3_bit_vector.py:53, 178, 532-539. User-defined subclasses are left out. *)
Inductive pfam := FSMT | FZ3.
Inductive pcls := PBit (f : pfam) | PInt | PVec (f : pfam) (c : bvcls).
(** f'{type(self)}': a vector class prints its __name__ (bit_vector_abc.py:93, 121-122), the other classes have the repr of
    type: their metaclass is ABCMeta or type. *)
Definition pcls_text (c : pcls) : string :=
  match c with
  | PBit FSMT => "<class 'hwtypes.smt_bit_vector.SMTBit'>"
  | PBit FZ3 => "<class 'hwtypes.z3_bit_vector.z3Bit'>"
  | PInt => "<class 'hwtypes.smt_int.SMTInt'>"
  | PVec FSMT c => "SMT" ++ cls_name c
  | PVec FZ3 c => "z3" ++ cls_name c
  end.

(** A formula of pySMT or z3. *)
Inductive formula := FB (p : bterm) | FV (t : vterm) | FI (i : iterm).
(** A symbolic value: its class, _name (None: AUTOMATIC) and _value. *)
Record pobj := PObj { p_cls : pcls; p_name : option string; p_term : formula }.

(** smt.Symbol(name, T), z3.Bool(name), z3.BitVec(name, T): smt_bit_vector.py:88, 258, smt_int.py:51, z3_bit_vector.py:74, 202. *)
Definition symbol (c : pcls) (n : string) : formula :=
  match c with
  | PBit _ => FB (BVar n)
  | PInt => FI (IVar n)
  | PVec _ c => FV (VVar n (csize c))
  end.
(** A new variable: a symbol simplifies to itself. *)
Definition new_variable (c : pcls) (n : string) : pobj := PObj c (Some n) (symbol c n).
(** Any other value. *)
Definition new_value (c : pcls) (t : formula) : pobj := PObj c None t.

(** __repr__: smt_bit_vector.py:109-113, 308-312, smt_int.py:72-76, z3_bit_vector.py:95-99, 259-263. show: str of a formula,
    which is the library's. *)
Definition srepr (show : formula -> string) (x : pobj) : string :=
  match p_name x with
  | Some n => pcls_text (p_cls x) ++ "(" ++ n ++ ")"
  | None => pcls_text (p_cls x) ++ "(" ++ show (p_term x) ++ ")"
  end.

(** FPVector.__repr__, fp_vector.py:137-138, for a class made by indexing FPVector (its name: fp_vector_abc.py:67); the metaclass
    has the repr of type. show: str of an mpfr, which is gmpy2's. *)
Definition fp_repr (show : FPModel.mpfr -> string) (x : FPModel.fpv) : string :=
  ("<class 'hwtypes.fp_vector." ++ SMTFPModel.bound_name "FPVector" (FPModel.fv_fmt x) ++ "'>") ++ "(" ++ show (FPModel.fv_val x) ++ ")".
