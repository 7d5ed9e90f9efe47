(** What symbolic branches and classes stand for under an assignment. *)
From Verif Require Import PyBase BVModel BVSpec OpModel IteModel IteSpec SMTTerm SMTModel SMTSpec SIteModel.

(** A polymorphic class stands for the polymorphic class with the selector's value. *)
Fixpoint cls_meaning (e : env) (c : spcls) : pcls :=
  match c with
  | SPBase k => PBase k
  | SPPoly id t0 t1 sel => PPoly id (cls_meaning e t0) (cls_meaning e t1) (evalb e sel)
  end.
Definition obj_meaning (e : env) (x : spobj) : pobj := PObj (cls_meaning e (spc x)) (spn x) (evalv e (spt x)).
Fixpoint branch_meaning (e : env) (b : sbranch) : branch :=
  match b with
  | SBrTuple l => BrTuple (map (branch_meaning e) l)
  | SBrBit t => BrBit (evalb e t)
  | SBrVec x => BrVec (obj_meaning e x)
  | SBrProto i z => BrProto i z
  | SBrOther => BrOther
  end.
Definition ret_meaning (e : env) (r : spret) : pret :=
  match r with SPNotImpl => PNotImpl | SPVec x => PVec (obj_meaning e x) | SPBit t => PBit (evalb e t) end.
Definition arg_meaning (e : env) (a : sarg) : parg :=
  match a with SAVec y => AVec (obj_meaning e y) | SAOther v => AOther (vmeaning e v) end.

(** Well-formed symbolic objects: at least one bit, well-sorted terms, also in the selectors of the class. *)
Fixpoint cls_ok (c : spcls) : Prop :=
  match c with SPBase _ => True | SPPoly _ t0 t1 sel => cls_ok t0 /\ cls_ok t1 /\ bwf sel = true end.
Definition obj_ok (x : spobj) : Prop := cls_ok (spc x) /\ swf (as_svec x).
Fixpoint sbranch_ok (b : sbranch) : Prop :=
  match b with
  | SBrTuple l => (fix all (l : list sbranch) : Prop := match l with [] => True | b :: l => sbranch_ok b /\ all l end) l
  | SBrBit t => bwf t = true
  | SBrVec x => obj_ok x
  | _ => True
  end.
(** No protocol objects inside. *)
Fixpoint no_proto (b : sbranch) : Prop :=
  match b with
  | SBrTuple l => (fix all (l : list sbranch) : Prop := match l with [] => True | b :: l => no_proto b /\ all l end) l
  | SBrProto _ _ => False
  | _ => True
  end.
Definition arg_ok (x : spobj) (a : sarg) : Prop :=
  match a with
  | SAVec y => obj_ok y /\ spn y = spn x
  | SAOther v => accepted (spn x) v /\ (forall y, v <> SVec y)
  end.

(** A class one of whose variants is the signed class. *)
Fixpoint has_signed (c : spcls) : bool :=
  match c with SPBase k => kind_eqb k KSInt | SPPoly _ t0 t1 _ => has_signed t0 || has_signed t1 end.
(** // and % that may run the signed division (property C31). *)
Definition may_divide_signed (op : binop) (c : spcls) : bool :=
  match op with OFloorDiv | OMod => has_signed c | _ => false end.
