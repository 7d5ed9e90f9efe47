(** Arguments of the z3 classes and tables of their methods; the meaning of terms is that of SMTSpec.v. *)
From Verif Require Import PyBase BVModel BVSpec OpModel IteModel SMTTerm SMTModel SMTSpec Z3Model.

(** Arguments K[n] converts: those of the pySMT family, objects with any __int__, and BoolRefs. *)
Inductive zconvertible (n : Z) : sval -> Prop :=
| Z_same v : convertible n v -> zconvertible n v
| Z_obj z b : zconvertible n (SOther (Some (Ok z)) b)
| Z_bool t : bwf t = true -> zconvertible n (SNodeB t).
(** Second operands of an n-bit operation: vectors must have n bits. *)
Definition zaccepted (n : Z) (v : sval) : Prop :=
  zconvertible n v /\ match v with SVec x => csize (scls x) = n | _ => True end.
(** Arguments z3Bit(v) takes. *)
Inductive zbit_arg : sval -> Prop :=
| ZB_same v : bit_arg v -> zbit_arg v
| ZB_bool t : bwf t = true -> zbit_arg (SNodeB t).

Definition z3_meth (S : simplifier) (m : vmeth) : svec -> sval -> res svec :=
  match m with
  | MAnd => z_bvand S | MNand => z_bvnand S | MOr => z_bvor S | MNor => z_bvnor S | MXor => z_bvxor S
  | MXnor => z_bvxnor S | MShl => z_bvshl S | MLshr => z_bvlshr S | MAshr => z_bvashr S | MAdd => z_bvadd S
  | MSub => z_bvsub S | MMul => z_bvmul S | MUdiv => z_bvudiv S | MUrem => z_bvurem S | MComp => z_bvcomp S
  end.
Definition z3_rel (S : simplifier) (m : rmeth) : svec -> sval -> res bterm :=
  match m with
  | REq => z_bveq S | RNe => z_bvne S | RUlt => z_bvult S | RUle => z_bvule S | RUgt => z_bvugt S
  | RUge => z_bvuge S | RSlt => z_bvslt S | RSle => z_bvsle S | RSgt => z_bvsgt S | RSge => z_bvsge S
  end.

(** Signed // : its symbolic form is the truncating division. *)
Definition signed_floordiv (op : binop) (k : kind) : bool :=
  match op, k with OFloorDiv, KSInt => true | _, _ => false end.
(** Operators the signed class redefines. *)
Definition redefined (op : binop) : bool := match op with OShr | OFloorDiv | OMod => true | _ => false end.
(** The classes of which the signed class is a proper subclass. *)
Definition above_signed (k : kind) : bool := match k with KBV | KNum => true | _ => false end.

(** A concrete vector as an argument of the concrete ite. *)
Definition vec_branch (x : bv) : branch := BrVec (PObj (PBase (bkind x)) (bsize x) (bval x)).
(** Values that are not vectors and stand for a number that is not negative. *)
Inductive small (e : env) : sval -> Z -> Prop :=
| N_int z : 0 <= z -> small e (SInt z) z
| N_bool b : small e (SBool b) (if b then 1 else 0)
| N_bit t : bwf t = true -> small e (SBit t) (if evalb e t then 1 else 0).
