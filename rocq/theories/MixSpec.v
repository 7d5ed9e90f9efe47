(** Specification for MixModel.v: what a concrete operand stands for, and when two ADT instances have the same value. *)
From Verif Require Import PyBase BVModel BVSpec OpModel SMTTerm SMTModel SMTSpec MixModel.

(** The concrete operand converted to the class of the symbolic one. *)
Definition converted (x : svec) (c : bv) : bv := BV (scls x) (bval c).
(** int(c) is not negative. *)
Definition not_negative (c : bv) : Prop := bkind c = KSInt -> 2 * bval c < 2 ^ bsize c.

(** The number of a leaf under an assignment. *)
Definition leaf_num (e : env) (v : sval) : Z :=
  match v with SBit t => if evalb e t then 1 else 0 | SVec x => evalv e (sterm x) | _ => 0 end.
Definition leaf_ok (v : sval) : Prop :=
  match v with SBit t => bwf t = true | SVec x => swf x | _ => False end.
(** Two instances have the same value under an assignment: related classes, same tag, same numbers at the leaves. *)
Inductive same (le : nat -> nat -> bool) (e : env) : inst -> inst -> Prop :=
| Same_leaf i j x y : leaf_num e x = leaf_num e y -> same le e (ILeaf i x) (ILeaf j y)
| Same_tup i j c d l m : le c d = true \/ le d c = true -> Forall2 (same le e) l m -> same le e (ITup i c l) (ITup j d m)
| Same_sum i j c d x y : le c d = true \/ le d c = true -> same le e x y -> same le e (ISum i c x) (ISum j d y)
| Same_tag i j c d k x y : le c d = true \/ le d c = true -> same le e x y -> same le e (ITag i c k x) (ITag j d k y)
| Same_sum_tag i j c d k x y : le c d = true \/ le d c = true -> same le e x y -> same le e (ISum i c x) (ITag j d k y)
| Same_tag_sum i j c d k x y : le c d = true \/ le d c = true -> same le e x y -> same le e (ITag i c k x) (ISum j d y).

(** All instances inside an instance, itself included. *)
Fixpoint inside (a : inst) : list inst :=
  a :: match a with
       | ILeaf _ _ => []
       | ITup _ _ l => flat_map inside l
       | ISum _ _ x | ITag _ _ _ x => inside x
       end.
(** Leaves are well-formed Bits and vectors; an identity belongs to one object. *)
Definition leaves_ok (a : inst) : Prop := forall i v, In (ILeaf i v) (inside a) -> leaf_ok v.
Definition coherent (a b : inst) : Prop := forall x y, In x (inside a) -> In y (inside b) -> iid x = iid y -> x = y.
Definition no_tuples (a : inst) : Prop := forall i c l, ~ In (ITup i c l) (inside a).

(** What an answer r of a == b means: a Bit that is true exactly when the values are the same; a bool that says so for all
    assignments. *)
Definition answer_right (le : nat -> nat -> bool) (a b : inst) (r : sval) : Prop :=
  match r with
  | SBool true => forall e, same le e a b
  | SBool false => forall e, ~ same le e a b
  | SBit t => bwf t = true /\ forall e, evalb e t = true <-> same le e a b
  | _ => False
  end.
