(** C54: FrozenDict and OrderedFrozenDict. *)
From Coq Require Import Lia Permutation.
From Verif Require Import PyBase BVFacts UtilModel UtilSpec.
From Verif Require Import UtilProofs.

(** d[k], len(d) and iteration: the last value given for k, and the keys in the order they first appear. *)
Theorem C54_mapping : forall K V keq veq (l : list (K * V)), equivalence keq -> @equivalence V veq ->
  forall x, In x [Frozen (of_pairs keq l); Ordered (of_pairs keq l)] ->
  iter x = first_keys keq l /\ len x = length (first_keys keq l) /\
  forall k, match getitem keq x k with
            | Ok v => last_value keq l k (Some v)
            | Raise e => e = EKeyError /\ last_value keq l k None
            end.
Proof. exact C54_mapping_pf. Qed.
Print Assumptions C54_mapping.
(** FrozenDict equality is equality as mappings; so is equality with an OrderedFrozenDict. *)
Theorem C54_equal : forall K V keq veq (l l' : list (K * V)), equivalence keq -> equivalence veq ->
  let F := Frozen (of_pairs keq l) in let F' := Frozen (of_pairs keq l') in
  let O := Ordered (of_pairs keq l) in let O' := Ordered (of_pairs keq l') in
  (frozen_eqb keq veq F F' = true <-> same_mapping keq veq l l') /\
  (frozen_eqb keq veq F O' = true <-> same_mapping keq veq l l') /\
  (frozen_eqb keq veq O F' = true <-> same_mapping keq veq l' l) /\
  forall x y, frozen_neb keq veq x y = negb (frozen_eqb keq veq x y).
Proof. exact C54_equal_pf. Qed.
Print Assumptions C54_equal.
(** OrderedFrozenDict equality is equality of the item sequences. *)
Theorem C54_order_sensitive : forall K V keq veq (l l' : list (K * V)), equivalence keq -> equivalence veq ->
  (frozen_eqb keq veq (Ordered (of_pairs keq l)) (Ordered (of_pairs keq l')) = true <->
   same_items keq veq (of_pairs keq l) (of_pairs keq l')).
Proof. exact C54_order_sensitive_pf. Qed.
Print Assumptions C54_order_sensitive.
(** Equal FrozenDicts, and equal OrderedFrozenDicts, have equal hashes. *)
Theorem C54_hash_partial : forall K V keq veq (l l' : list (K * V)) item fset tup, equivalence keq -> equivalence veq ->
  respects keq veq item -> unordered fset ->
  forall wrap, In wrap [Frozen; Ordered] ->
  frozen_eqb keq veq (wrap (of_pairs keq l)) (wrap (of_pairs keq l')) = true ->
  frozen_hash item fset tup (wrap (of_pairs keq l)) = frozen_hash item fset tup (wrap (of_pairs keq l')).
Proof. exact C54_hash_partial_pf. Qed.
Print Assumptions C54_hash_partial.
(** Equality is an equivalence on each of the two classes. *)
Theorem C54_equivalence : forall K V keq veq, equivalence keq -> equivalence veq ->
  forall wrap, In wrap [Frozen; Ordered] ->
  equivalence (fun l l' : list (K * V) => frozen_eqb keq veq (wrap (of_pairs keq l)) (wrap (of_pairs keq l'))).
Proof. exact C54_equivalence_pf. Qed.
Print Assumptions C54_equivalence.
(** Between the two classes == does not agree with hash(): whatever the hash functions are, if two orders of the same items
    give tuples with different hashes, some FrozenDict equals some OrderedFrozenDict with another hash. *)
Theorem C54_cross_refuted : forall item fset tup (p q : Z * Z), fst p <> fst q ->
  tup [item p; item q] <> tup [item q; item p] ->
  exists x y : frozen Z Z, frozen_eqb Z.eqb Z.eqb x y = true /\ frozen_hash item fset tup x <> frozen_hash item fset tup y.
Proof. exact C54_cross_refuted_pf. Qed.
Print Assumptions C54_cross_refuted.
(** Nor is == transitive across the classes. *)
Theorem C54_transitive_refuted : exists x y z : frozen Z Z,
  frozen_eqb Z.eqb Z.eqb x y = true /\ frozen_eqb Z.eqb Z.eqb y z = true /\ frozen_eqb Z.eqb Z.eqb x z = false.
Proof. exact C54_transitive_refuted_pf. Qed.
Print Assumptions C54_transitive_refuted.
Example C54_ex :
  let l := [(1, 2); (3, 4); (1, 5)] in let l' := [(3, 4); (1, 5)] in
  let item := fun p : Z * Z => fst p + 7 * snd p in
  equivalence Z.eqb /\ respects Z.eqb Z.eqb item /\ unordered (fold_right Z.add 0) /\
  of_pairs Z.eqb l = [(1, 5); (3, 4)] /\ same_mapping Z.eqb Z.eqb l l' /\
  frozen_eqb Z.eqb Z.eqb (Frozen (of_pairs Z.eqb l)) (Frozen (of_pairs Z.eqb l')) = true /\
  frozen_eqb Z.eqb Z.eqb (Ordered (of_pairs Z.eqb l)) (Ordered (of_pairs Z.eqb l')) = false /\
  first_keys Z.eqb l = [1; 3].
Proof.
  cbv zeta. split; [exact Zeqb_equivalence|]. split.
  { intros k v k' v' A B. apply Z.eqb_eq in A, B. now subst. }
  split. { intros a b P. induction P; cbn in *; lia. }
  split; [reflexivity|]. split.
  { apply (C54_equal Z Z Z.eqb Z.eqb); auto using Zeqb_equivalence. }
  vm_compute. auto.
Qed.
