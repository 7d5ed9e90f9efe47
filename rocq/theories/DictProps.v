(** Property theorems about bit vectors, Bits and ints as keys of dictionaries. *)
From Coq Require Import Lia ZifyBool Permutation.
From Verif Require Import PyBase BVModel BVSpec BVFacts OpModel OpFacts HeapModel HeapSpec HeapFacts DictModel DictSpec DictFacts.
From Verif Require Import DictProofs.


(** * C97: a dictionary is a map from values *)
(** Every operation answers as the map from (class, value) to items does, and the entries are those of the map, in the same
    order, as long as no key is assigned to while it is in the dictionary and keys of different classes do not have the
    same 64-bit hash. *)
Theorem C97_dictionary_partial : forall K l, probes_all K -> no_collision K (keys_used start l) -> keys_kept K dstart l ->
  let s := fst (drun K dstart l) in
  let m := fst (arun start [] l) in
  snd (drun K dstart l) = snd (arun start [] l) /\
  map (fun e => (key_of (deref (st_heap (d_state s)) (e_key e)), e_item e)) (d_dict s) = map (fun q => (Some (fst q), snd q)) m /\
  NoDup (map fst m).
Proof. exact C97_dictionary_partial_pf. Qed.
Print Assumptions C97_dictionary_partial.

(** With keys of one class there is nothing to assume about the hashes. *)
Theorem C97_one_class_partial : forall K l, probes_all K ->
  (forall a b, In a (keys_used start l) -> In b (keys_used start l) -> same_class a b) -> keys_kept K dstart l ->
  snd (drun K dstart l) = snd (arun start [] l).
Proof. exact C97_one_class_partial_pf. Qed.
Print Assumptions C97_one_class_partial.

(** The map does what maps do. *)
Theorem C97_map : forall m k k' i, NoDup (map fst m) ->
  aget (aset m k i) k' = (if akey_eq k k' then Some i else aget m k') /\
  aget (adel m k) k' = (if akey_eq k k' then None else aget m k').
Proof. exact C97_map_pf. Qed.
Print Assumptions C97_map.


(** An assignment to a key loses it: neither the object itself, nor its old value, nor its new value finds the entry. *)
Theorem C97_assigned_refuted : exists K l, probes_all K /\ no_collision K (keys_used start l) /\
  snd (drun K dstart l) <> snd (arun start [] l) /\
  skipn 5 (snd (drun K dstart l)) = [Exc EKeyError; Done; Exc EKeyError; Done; Done; Exc EKeyError] /\
  length (d_dict (fst (drun K dstart l))) = 1%nat.
Proof. exact C97_assigned_refuted_pf. Qed.
Print Assumptions C97_assigned_refuted.
(** Equal keys of different classes are different keys. *)
Theorem C97_class_refuted : exists K l, probes_all K /\ keys_kept K dstart l /\
  nth_error (snd (drun K dstart l)) 4 = Some (Exc EKeyError) /\
  nth_error (st_env (d_state (fst (drun K dstart l)))) 3 = Some (HImm (LBit true)).
Proof. exact C97_class_refuted_pf. Qed.
Print Assumptions C97_class_refuted.
(** When the hashes of two keys of different sizes collide, looking one up raises InconsistentSizeError. *)
Theorem C97_collision_refuted : exists K l, probes_all K /\ keys_kept K dstart l /\
  nth_error (snd (drun K dstart l)) 4 = Some (Exc EInconsistentSize).
Proof. exact C97_collision_refuted_pf. Qed.
Print Assumptions C97_collision_refuted.

Example C97_ex : probes_all plain_hashes /\ keys_kept plain_hashes dstart mixed /\
  snd (drun plain_hashes dstart mixed) = snd (arun start [] mixed) /\
  skipn 10 (snd (drun plain_hashes dstart mixed)) =
    [Item 11; Item 20; Item 30; Done; Exc EKeyError; Done; Done; Exc EKeyError; Item 40].
Proof.
  split; [intros z d; apply Permutation_refl|]. split.
  - vm_compute. repeat split; try tauto. intros H. repeat destruct H as [H|H]; congruence.
  - vm_compute. split; reflexivity.
Qed.
(** All keys of [mixed] satisfy the hypothesis about hashes. *)
Example C97_ex_hashes : no_collision plain_hashes (keys_used start mixed).
Proof.
  intros a b Ha Hb. set (L := keys_used start mixed) in Ha, Hb. vm_compute in L. subst L. cbn [In] in Ha, Hb.
  repeat destruct Ha as [Ha|Ha]; repeat destruct Hb as [Hb|Hb]; subst; try (destruct Ha; fail); try (destruct Hb; fail); intros H;
    try exact I; try reflexivity; vm_compute in H; discriminate.
Qed.
