(** Vocabulary for statements about heap programs. *)
From Verif Require Import PyBase BVModel BVSpec OpModel HeapModel.

(** Every object the value refers to is numbered n or above. *)
Fixpoint fresh_from (n : nat) (v : hval) : Prop :=
  match v with
  | HRef r => (n <= r)%nat
  | HList l => (fix all (l : list hval) : Prop := match l with [] => True | v :: l => fresh_from n v /\ all l end) l
  | HImm _ => True
  end.

(** The call is x % d, x.bvurem(d) or x.bvsrem(d). *)
Definition remainder_of (c : call) : option (nat * nat) :=
  match c with
  | KOp OMod x d => Some (x, d)
  | KMeth MUrem x d | KMeth MSrem x d => Some (x, d)
  | _ => None
  end.

(** In state s, c is the remainder of a bit-vector by a divisor that stands for 0 at its size. *)
Definition zero_remainder (s : state) (c : call) : Prop :=
  exists x d b, remainder_of c = Some (x, d) /\ deref (st_heap s) (var (st_env s) x) = VBV b /\
    operand (bsize b) (deref (st_heap s) (var (st_env s) d)) 0.

(** Not a list display, element access or assignment. *)
Definition expression (c : call) : Prop :=
  match c with KList _ | KItem _ _ | KSet _ _ _ => False | _ => True end.

