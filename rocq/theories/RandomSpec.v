(** Specification vocabulary for C69: the number an object denotes and the numbers of a class. *)
From Verif Require Import PyBase BVModel BVSpec.

Definition number (x : bv) : Z := match ck (bcls x) with KSInt => signed (csize (bcls x)) (bval x) | _ => bval x end.
Definition in_range (k : kind) (w z : Z) : Prop := match k with KSInt => - 2 ^ (w - 1) <= z < 2 ^ (w - 1) | _ => 0 <= z < 2 ^ w end.
(** NumVector inherits BitVector.random, a static method that names BitVector (bit_vector.py:498-500). *)
Definition random_kind (k : kind) : kind := match k with KNum => KBV | _ => k end.
