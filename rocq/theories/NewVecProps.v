(** new(klass) and new(klass, n) of bit-vector classes (C94), after every history of class statements, indexing, dropped
    references and garbage collection. *)
From Coq Require Import Lia.
From Verif Require Import PyBase BVFacts MetaModel MetaSpec MergeFacts MetaFacts NewModel NewSpec NewVecFacts.
From Verif Require Import NewVecProofs.

(** * C94: new types from bit-vector classes *)

(** new(K) always succeeds. The result is a class that did not exist, of the size of K, and its superclasses are itself and those
    of K. *)
Theorem C94_vector : forall h k, is_bv (mrun h) k ->
  exists s t, new_vec (mrun h) k None = Ok (s, t) /\ unseen (mrun h) t /\ is_bv s t /\ c_size (get_cls s t) = c_size (get_cls (mrun h) k) /\
    forall x, issub s t x = true <-> x = t \/ issub (mrun h) k x = true.
Proof. exact C94_vector_pf. Qed.
Print Assumptions C94_vector.
(** new(K, n), when it returns a class: n is not negative, K has no size, the class did not exist and has size n, it is below K and
    below K[n], its unsized class is a new one as well, and it has no other superclasses than these and those of K[n]. *)
Theorem C94_vector_index : forall h k n s t, is_bv (mrun h) k -> new_vec (mrun h) k (Some (XInt n)) = Ok (s, t) ->
  0 <= n /\ unsized (mrun h) k /\ unseen (mrun h) t /\ is_bv s t /\ c_size (get_cls s t) = Some n /\ issub s t k = true /\
  exists u tk, c_unsized (get_cls s t) = Some u /\ unseen (mrun h) u /\ u <> t /\
    getitem_cls s k (XInt n) = Ok (s, tk) /\ (forall x, issub s t x = true <-> x = t \/ x = u \/ issub s tk x = true) /\
    getitem_cls s u (XInt n) = Ok (s, t).
Proof. exact C94_vector_index_pf. Qed.
Print Assumptions C94_vector_index.
(** new(K, n) succeeds when K[n] is there already, and when mixins come last above the unsized K. *)
Theorem C94_vector_total : forall h k n, is_bv (mrun h) k ->
  (exists tk, getitem_cls (mrun h) k (XInt n) = Ok (mrun h, tk)) \/ 0 <= n /\ unsized (mrun h) k /\ mixins_last (mrun h) k ->
  exists s t, new_vec (mrun h) k (Some (XInt n)) = Ok (s, t).
Proof. exact C94_vector_total_pf. Qed.
Print Assumptions C94_vector_total.
(** Which binds are rejected: negative sizes with ValueError, sizes for a class that has one with TypeError, and everything that is
    not an int with TypeError, a float included even when K[8.0] would give K[8]. *)
Theorem C94_vector_raises : forall h k, is_bv (mrun h) k ->
  (forall n, n < 0 -> new_vec (mrun h) k (Some (XInt n)) = Raise EValueError) /\
  (forall n m, 0 <= n -> c_size (get_cls (mrun h) k) = Some m -> new_vec (mrun h) k (Some (XInt n)) = Raise ETypeError) /\
  (forall n, new_vec (mrun h) k (Some (XFloat n)) = Raise ETypeError) /\
  new_vec (mrun h) k (Some XOther) = Raise ETypeError.
Proof. exact C94_vector_raises_pf. Qed.
Print Assumptions C94_vector_raises.
(** Two calls never give the same class. *)
Theorem C94_vector_distinct : forall h k l i j s1 t1 s2 t2, is_bv (mrun h) k -> is_bv (mrun h) l ->
  new_vec (mrun h) k i = Ok (s1, t1) -> new_vec s1 l j = Ok (s2, t2) -> t1 <> t2.
Proof. exact C94_vector_distinct_pf. Qed.
Print Assumptions C94_vector_distinct.
(** UIntVector (4), new(UIntVector), new(UIntVector, 8) and new(UIntVector[8]); new(UIntVector, 8) is below UIntVector[8] and
    UIntVector and is neither; new(UIntVector[8], 4) is a TypeError. *)
Example C94_vector_ex : let s := mrun (builtin ++ [MIndex 4 (XInt 8)])%nat in
  is_bv s 4 /\ getitem_cls s 4 (XInt 8) = Ok (s, 9%nat) /\
  match new_vec s 4 (Some (XInt 8)) with
  | Ok (s1, t1) => Nat.eqb t1 9 = false /\ issub s1 t1 9 = true /\ issub s1 9 t1 = false /\ issub s1 t1 2 = true /\
      c_size (get_cls s1 t1) = Some 8 /\ new_vec s1 9 (Some (XInt 4)) = Raise ETypeError /\
      match new_vec s1 9 None with Ok (s2, t2) => issub s2 t2 9 = true /\ c_size (get_cls s2 t2) = Some 8 | Raise _ => False end
  | Raise _ => False
  end.
Proof. vm_compute. repeat split. Qed.
(** No mixins at all above AbstractBitVector (1). *)
Example C94_mixins_ex : is_bv (mrun []) 1 /\ unsized (mrun []) 1 /\ mixins_last (mrun []) 1.
Proof.
  split; [vm_compute; auto|]. split; [reflexivity|]. change (mrun []) with meta0. intros x Hs Hb.
  assert (E : x = 1%nat \/ x = 0%nat).
  { inversion Hs as [|a b c Hb1 Hs1]; subst; auto. destruct Hb1 as [<-|[]]. inversion Hs1 as [|a b c Hb2 _]; subst; auto. destruct Hb2. }
  destruct E as [->| ->]; [|discriminate]. exists [], [0%nat]. split; [reflexivity|]. split; [constructor|]. constructor; [reflexivity|constructor].
Qed.
