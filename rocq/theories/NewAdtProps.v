(** new(klass) and new(klass, bind) of algebraic data types and ordinary classes (C94), after every history of class statements,
    indexing, dropped references and garbage collection. *)
From Coq Require Import Lia.
From Verif Require Import PyBase BVFacts MetaModel HierModel HierSpec MergeFacts HierFacts NewModel NewSpec NewAdtFacts.
From Verif Require Import NewAdtProofs.

(** * C94: new types from algebraic data types *)

(** new(K) always succeeds. The result is a class that did not exist, of the same kind as K, with the fields of K and every attribute
    that K has, and its superclasses are itself and those of K. *)
Theorem C94_adt : forall h k, usable (hrun h) k ->
  exists s t, new_adt_type (hrun h) k None = Ok (s, t) /\ hunseen (hrun h) t /\ usable s t /\ hkind s t = hkind (hrun h) k /\
    fields_of s t = fields_of (hrun h) k /\ field_dict s t = field_dict (hrun h) k /\ (forall m, getattr s t m = getattr (hrun h) k m) /\
    forall x, hissub s t x = true <-> x = t \/ hissub (hrun h) k x = true.
Proof. exact C94_adt_pf. Qed.
Print Assumptions C94_adt.
(** new(K, i) for an unbound K, when it returns a class: the class did not exist, its fields are those of the index, its unbound
    class is a new one as well, it is below K and below K[i], and it has no other superclasses than these and those of K[i]. *)
Theorem C94_adt_index : forall h k i s t, usable (hrun h) k -> unbound (hrun h) k -> (forall x, In x (idx_refs i) -> usable (hrun h) x) ->
  new_adt_type (hrun h) k (Some i) = Ok (s, t) ->
  hunseen (hrun h) t /\ usable s t /\ hissub s t k = true /\
  (exists fs, fields_of s t = Some fs /\ fields_say (hkind (hrun h) k) i fs) /\
  exists u tk, unbound_t s t = Ok u /\ hunseen (hrun h) u /\ u <> t /\ getitem s k i = Ok (s, tk) /\
    (forall x, hissub s t x = true <-> x = t \/ x = u \/ hissub s tk x = true).
Proof. exact C94_adt_index_pf. Qed.
Print Assumptions C94_adt_index.
(** new(K, i) succeeds when K[i] is there already; what it raises is always a TypeError. *)
Theorem C94_adt_total : forall h k i, usable (hrun h) k -> unbound (hrun h) k -> (forall x, In x (idx_refs i) -> usable (hrun h) x) ->
  (forall tk, getitem (hrun h) k i = Ok (hrun h, tk) -> exists s t, new_adt_type (hrun h) k (Some i) = Ok (s, t)) /\
  (forall e, new_adt_type (hrun h) k (Some i) = Raise e -> e = ETypeError).
Proof. exact C94_adt_total_pf. Qed.
Print Assumptions C94_adt_total.
(** Product and TaggedUnion and their subclasses take no index, an anonymous product takes names, tuples and sums take none. *)
Theorem C94_adt_raises : forall h k i, usable (hrun h) k ->
  match hkind (hrun h) k, i with
  | KTuple, IdxTypes _ | KSum, IdxTypes _ | KAnon, IdxNames _ => False
  | _, _ => True
  end -> new_adt_type (hrun h) k (Some i) = Raise ETypeError.
Proof. exact C94_adt_raises_pf. Qed.
Print Assumptions C94_adt_raises.
(** Two calls never give the same class. *)
Theorem C94_adt_distinct : forall h k l i j s1 t1 s2 t2, usable (hrun h) k -> unbound (hrun h) k -> usable (hrun h) l -> unbound (hrun h) l ->
  (forall x a, (i = Some a \/ j = Some a) -> In x (idx_refs a) -> usable (hrun h) x) ->
  new_adt_type (hrun h) k i = Ok (s1, t1) -> new_adt_type s1 l j = Ok (s2, t2) -> t1 <> t2.
Proof. exact C94_adt_distinct_pf. Qed.
Print Assumptions C94_adt_distinct.
(** With a bound K there is no new type: new(K, i) looks up the field i of K, and what it returns is a type of one of the fields. *)
Theorem C94_bound_refuted : forall h k i l, usable (hrun h) k -> fields_of (hrun h) k = Some l ->
  (exists s, new_bound (hrun h) k i = rmap (fun t => (s, t)) (bound_item (hrun h) k i)) /\
  forall s t, new_bound (hrun h) k i = Ok (s, t) ->
    (hkind (hrun h) k = KProd -> (forall n, i = BStr n -> exists d, field_dict (hrun h) k = Some d /\ In (n, t) d)) /\
    ((forall n, i <> BStr n) -> In t l).
Proof. exact C94_bound_refuted_pf. Qed.
Print Assumptions C94_bound_refuted.
(** Tuple[0, 1][1] is 1, and so is new(Tuple[0, 1], 1). *)
Example C94_bound_ex : let s := hrun [HIndex 1 (IdxTypes [0%nat; 1%nat])] in
  usable s 6 /\ fields_of s 6 = Some [0%nat; 1%nat] /\ bound_item s 6 (BPos (-1)) = Ok 1%nat /\ bound_item s 6 (BPos 2) = Raise EIndexError /\
  match new_bound s 6 (BPos 1) with Ok (_, t) => t = 1%nat | Raise _ => False end.
Proof. vm_compute. repeat split. Qed.
(** An anonymous product (2) with the field x of type 0 exists; new(AnonymousProduct, x of 0) is a class below it that is not it, and
    below Tuple[0]; new(Product, ...) is a TypeError. A subclass made from the bound type has its fields, and no unbound_t. *)
Example C94_adt_ex : let i := IdxNames [("x"%string, 0%nat)] in let s := hrun [HIndex 2 i] in
  usable s 2 /\ unbound s 2 /\ (forall x, In x (idx_refs i) -> usable s x) /\ getitem s 2 i = Ok (s, 7%nat) /\
  match new_adt_type s 2 (Some i), getitem s 1 (IdxTypes [0%nat]) with
  | Ok (s1, t1), Ok (_, tu) =>
      Nat.eqb t1 7 = false /\ hissub s1 t1 7 = true /\ hissub s1 7 t1 = false /\ field_dict s1 t1 = Some [("x"%string, 0%nat)] /\
      hissub s1 t1 tu = true /\ new_adt_type s1 3 (Some i) = Raise ETypeError /\
      match new_adt_type s1 7 None with
      | Ok (s2, t2) => fields_of s2 t2 = Some [0%nat] /\ unbound_t s2 t2 = Raise EAttributeError
      | Raise _ => False
      end
  | _, _ => False
  end.
Proof.
  split; [reflexivity|]. split; [reflexivity|]. split; [intros x [<-|[]]; reflexivity|]. vm_compute. repeat split.
Qed.
