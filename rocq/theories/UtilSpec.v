(** Specification of frozen dictionaries. *)
From Coq Require Import Permutation.
From Verif Require Import PyBase UtilModel.

(** == of a Python type is an equivalence. *)
Record equivalence {A} (eqb : A -> A -> bool) : Prop := {
  eqv_refl : forall a, eqb a a = true;
  eqv_sym : forall a b, eqb a b = true -> eqb b a = true;
  eqv_trans : forall a b c, eqb a b = true -> eqb b c = true -> eqb a c = true
}.
(** Pairs with equal parts have equal hashes. *)
Definition respects {K V} (keq : K -> K -> bool) (veq : V -> V -> bool) (item : K * V -> Z) : Prop :=
  forall k v k' v', keq k k' = true -> veq v v' = true -> item (k, v) = item (k', v').
(** The hash of a frozenset does not depend on an order of the members. *)
Definition unordered (fset : list Z -> Z) : Prop := forall l l', Permutation l l' -> fset l = fset l'.

(** The value of the last pair with that key. *)
Definition last_value {K V} (keq : K -> K -> bool) (l : list (K * V)) (k : K) (r : option V) : Prop :=
  match r with
  | None => forall p, In p l -> keq (fst p) k = false
  | Some v => exists l1 k' l2, l = l1 ++ (k', v) :: l2 /\ keq k' k = true /\ forall p, In p l2 -> keq (fst p) k = false
  end.
(** The first pair of each key. *)
Fixpoint first_keys {K V} (keq : K -> K -> bool) (l : list (K * V)) : list K :=
  match l with
  | [] => []
  | p :: l => fst p :: filter (fun k => negb (keq (fst p) k)) (first_keys keq l)
  end.
(** Two lists of pairs give the same mapping. *)
Definition same_mapping {K V} (keq : K -> K -> bool) (veq : V -> V -> bool) (l l' : list (K * V)) : Prop :=
  forall k, match lookup keq (of_pairs keq l) k, lookup keq (of_pairs keq l') k with
            | Some v, Some v' => veq v v' = true
            | None, None => True
            | _, _ => False
            end.
(** Every pair of the mappings, in order. *)
Definition same_items {K V} (keq : K -> K -> bool) (veq : V -> V -> bool) : list (K * V) -> list (K * V) -> Prop :=
  Forall2 (fun p q => keq (fst p) (fst q) = true /\ veq (snd p) (snd q) = true).
