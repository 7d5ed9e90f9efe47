(** What calls on symbolic vectors and their results stand for under an assignment. *)
From Verif Require Import PyBase BVModel BVSpec OpModel IteModel IteSpec SMTTerm SMTModel SMTSpec SIteModel SIteSpec.
From Verif Require Import PMethModel PMethSpec SPMethModel.

Definition item_meaning (e : env) (i : spitem) : pitem :=
  match i with SIVec x => IVec (obj_meaning e x) | SIBit t => IBit (evalb e t) | SINum t => INum (evali e t) end.
Definition result_meaning (e : env) (r : res (list spitem * nat)) : res (list pitem * nat) :=
  rmap (fun p => (map (item_meaning e) (fst p), snd p)) r.
Definition item_ok (i : spitem) : Prop :=
  match i with SIVec x => obj_ok x | SIBit t => bwf t = true | SINum t => iwf t = true end.
(** The same call on concrete values. *)
Definition call_meaning (e : env) (c : spcall) : pcall :=
  match c with
  | QMeth m a => CMeth m (arg_meaning e a) | QRel m a => CRel m (arg_meaning e a)
  | QRol a => CRol (arg_meaning e a) | QRor a => CRor (arg_meaning e a)
  | QSdiv a => CSdiv (arg_meaning e a) | QSrem a => CSrem (arg_meaning e a) | QNot => CNot | QNeg => CNeg
  | QItem i => CItem i | QSlice i j k => CSlice i j k | QZext k => CZext k | QSext k => CSext k | QExt k => CExt k
  | QRepeat r => CRepeat r | QConcat y => CConcat (obj_meaning e y) | QSet i b => CSet i (vmeaning e b)
  | QAdc a c => CAdc (arg_meaning e a) (arg_meaning e c) | QUint => CUint | QSint => CSint
  end.
(** Neither ext nor concat. *)
Definition splain_call (c : spcall) : Prop := match c with QExt _ | QConcat _ => False | _ => True end.
(** Calls on which the symbolic family follows the concrete one (the rest is the subject of C30-C33 and C37): operands the method
    takes, rotations by an int up to the width, slices that are not empty, extensions by at least one bit, one repetition. *)
Definition operand_ok (n : Z) (a : sarg) : Prop :=
  match a with SAVec y => obj_ok y /\ spn y = n | SAOther v => accepted n v end.
Definition call_ok (x : spobj) (c : spcall) : Prop :=
  let n := spn x in
  match c with
  | QMeth _ a | QRel _ a => operand_ok n a
  | QRol a | QRor a => exists k, a = SAOther (SInt k) /\ 0 <= k <= n
  | QSdiv _ | QSrem _ => False
  | QNot | QNeg | QUint => True
  | QSint => 2 <= n
  | QItem i => - n <= i < n
  | QSlice a b k =>
      let lo := match a with None => 0 | Some i => if i <? 0 then n + i else i end in
      let hi := Z.min (match b with None => n | Some i => if i <? 0 then n + i else i end) n in
      (k = None \/ k = Some 1) /\ 0 <= lo < hi
  | QZext k => 0 <= k
  | QSext k | QExt k => 1 <= k
  | QRepeat r => r = 1
  | QConcat y => obj_ok y /\ spc y = spc x
  | QSet i b => - n <= i < n /\ s_bit_like b = true /\ match b with SBit t => bwf t = true | _ => True end
  | QAdc a c => operand_ok n a /\ operand_ok 1 c
  end.
