(** Vocabulary for statements about ite. *)
From Verif Require Import PyBase BVModel BVSpec IteModel.

Definition pwf (x : pobj) : Prop := 0 <= pn x /\ 0 <= pv x < 2 ^ pn x.

Fixpoint branch_ok (b : branch) : Prop :=
  match b with
  | BrTuple l => (fix all (l : list branch) : Prop := match l with [] => True | b :: l => branch_ok b /\ all l end) l
  | BrVec x => pwf x
  | _ => True
  end.

(** Same shape, and same class at every leaf; no protocol objects. *)
Inductive same_type : branch -> branch -> Prop :=
| ST_tuple l m : Forall2 same_type l m -> same_type (BrTuple l) (BrTuple m)
| ST_bit a b : same_type (BrBit a) (BrBit b)
| ST_vec c n v w : same_type (BrVec (PObj c n v)) (BrVec (PObj c n w)).

(** Same shape, vectors of the same size (any classes) against each other, protocol objects of one type. *)
Inductive compatible : branch -> branch -> Prop :=
| C_tuple l m : Forall2 compatible l m -> compatible (BrTuple l) (BrTuple m)
| C_bit a b : compatible (BrBit a) (BrBit b)
| C_vec x y : pn x = pn y -> compatible (BrVec x) (BrVec y)
| C_proto i a b : compatible (BrProto i a) (BrProto i b).

(** r has the shape of b, equal Bits, and vectors of equal size and value (possibly another class); a
    protocol object is rebuilt from its bit-vector. *)
Inductive carries (tab : ptypes) : branch -> branch -> Prop :=
| V_tuple l m : Forall2 (carries tab) l m -> carries tab (BrTuple l) (BrTuple m)
| V_bit b : carries tab (BrBit b) (BrBit b)
| V_vec x y : pn x = pn y -> pv x = pv y -> carries tab (BrVec x) (BrVec y)
| V_proto i a b : p_from (tab i) (BV (p_cls (tab i)) (bval (p_to (tab i) a) mod 2 ^ csize (p_cls (tab i)))) = Ok b ->
    carries tab (BrProto i a) (BrProto i b).

(** Protocol types whose class has a size and whose _from_bitvector_ never raises. *)
Definition total_protocols (tab : ptypes) : Prop :=
  forall i, 0 <= csize (p_cls (tab i)) /\ forall b, exists z, p_from (tab i) b = Ok z.

(** The built-in class of the value a polymorphic object stands for. *)
Fixpoint selected_kind (c : pcls) : kind :=
  match c with
  | PBase k => k
  | PPoly _ t0 t1 sel => if sel then selected_kind t0 else selected_kind t1
  end.
