(** Vocabulary for methods of polymorphic values. *)
From Verif Require Import PyBase BVModel BVSpec OpModel IteModel SMTSpec PMethModel.

(** The same Bits and ints, and vectors of the same size and value (their classes may differ). *)
Inductive same_item : pitem -> pitem -> Prop :=
| SI_vec x y : pn x = pn y -> pv x = pv y -> same_item (IVec x) (IVec y)
| SI_bit b : same_item (IBit b) (IBit b)
| SI_num z : same_item (INum z) (INum z).
(** The same result or the same exception. *)
Definition same_outcome (r q : res (list pitem * nat)) : Prop :=
  match r, q with
  | Ok (l, _), Ok (m, _) => Forall2 same_item l m
  | Raise e, Raise f => e = f
  | _, _ => False
  end.
(** Neither ext nor concat. *)
Definition plain_call (c : pcall) : Prop := match c with CExt _ | CConcat _ => False | _ => True end.

(** A vector of a built-in class as an object of the concrete model. *)
Definition builtin_arg (a : parg) : Prop := match a with AVec (PObj (PBase _) _ _) => True | AVec _ => False | AOther _ => True end.
Definition builtin_call (c : pcall) : Prop :=
  match c with
  | CMeth _ a | CRel _ a | CRol a | CRor a | CSdiv a | CSrem a => builtin_arg a
  | CAdc a b => builtin_arg a /\ builtin_arg b
  | CConcat y => builtin_arg (AVec y)
  | _ => True
  end.
Definition real_arg (a : parg) : pyval :=
  match a with AVec (PObj (PBase k) n v) => VBV (BV (BVC k n) v) | AVec y => VBV (as_bv y) | AOther v => v end.
Definition of_builtin (i : bitem) : pitem :=
  match i with BVec (BV (BVC k n) v) => IVec (PObj (PBase k) n v) | BBit b => IBit b | BNum z => INum z end.
