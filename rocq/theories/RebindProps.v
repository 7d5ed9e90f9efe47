(** C47-C49, C51, C52: rebinding types, stripping and pushing modifiers. *)
From Coq Require Import Permutation Sorted.
From Verif Require Import PyBase BVModel ADTTy ADTModel ADTSpec RebindModel RebindSpec.
(*P*)
From Verif Require Import ADTTyFacts ADTFacts RebindFacts RebindBVFacts RebindTypeFacts StripFacts RebindCheck RebindKeepFacts.
(*/P*)
From Verif Require Import RebindProofs.


(** ** C47: T.rebind(A, B) *)
(** On types without AnonymousProduct whose modifiers are on leaves, Enums or unbound classes only: exactly the components
    equal to A (with rebind_sub_types: subclasses of A) are replaced, at every depth. Missing: AnonymousProducts and
    modified ADTs, see the refutations below. *)
Theorem C47_rebind_partial : forall H mn A B st t, twf t -> plain t -> node_of t <> None ->
  exists t', rebind H mn A B st true t = Ok t' /\ replaced_below (to_type (matches H A st) B) t t'.
Proof. exact C47_rebind_partial_pf. Qed.
Print Assumptions C47_rebind_partial.
(** rebind_recursive=False: the fields themselves only. *)
Theorem C47_shallow_partial : forall H mn A B k u fs, twf (TNode k u fs) -> k <> KAnon ->
  exists gs t', rebind H mn A B false false (TNode k u fs) = Ok t' /\ refielded k u fs gs t' /\
    Forall2 (fun a b => fst a = fst b /\ (snd a = A /\ snd b = B \/ snd a <> A /\ snd b = snd a)) fs gs.
Proof. exact C47_shallow_partial_pf. Qed.
Print Assumptions C47_shallow_partial.
Theorem C47_same_partial : forall H mn A t, twf t -> plain t -> node_of t <> None -> rebind H mn A A false true t = Ok t.
Proof. exact C47_same_partial_pf. Qed.
Print Assumptions C47_same_partial.
Theorem C47_absent_partial : forall H mn A B st t, twf t -> plain t -> node_of t <> None -> ~ occurs (matches H A st) t ->
  rebind H mn A B st true t = Ok t.
Proof. exact C47_absent_partial_pf. Qed.
Print Assumptions C47_absent_partial.
(** When A is a leaf, an Enum or a modification of one, and is not object, no A is left unless B brings it in. *)
Theorem C47_gone_partial : forall H mn A B st t t', twf t -> plain t -> node_of A = None -> A <> TLeaf LObject ->
  ~ matches H A st B -> ~ occurs (matches H A st) B -> rebind H mn A B st true t = Ok t' -> ~ occurs (matches H A st) t'.
Proof. exact C47_gone_partial_pf. Qed.
Print Assumptions C47_gone_partial.
(** Modified Tuples and Sums: even rebind(A, A) gives another type. *)
Theorem C47_modified_refuted : ~ (forall H mn A t, twf t -> node_of t <> None -> rebind H mn A A false true t = Ok t).
Proof. exact C47_modified_refuted_pf. Qed.
Print Assumptions C47_modified_refuted.
(** Any type with an AnonymousProduct among its components cannot be rebound at all. *)
Theorem C47_anonymous_refuted : ~ (forall H mn A t, twf t -> node_of t <> None -> exists t', rebind H mn A A false true t = Ok t').
Proof. exact C47_anonymous_refuted_pf. Qed.
Print Assumptions C47_anonymous_refuted.
(** Methods of a Product are lost when a field changes. *)
Theorem C47_methods_refuted : ~ (forall H mn A B k u fs, twf (TNode k u fs) -> exists gs, rebind H mn A B false true (TNode k u fs) = Ok (TNode k u gs)).
Proof. exact C47_methods_refuted_pf. Qed.
Print Assumptions C47_methods_refuted.

(** A Product of a Tuple, a Sum and a TaggedUnion. *)
Example C47_ex : twf nested /\ plain nested /\ node_of nested <> None /\
  rebind nosub mname bv4 bv8 false true nested =
    Ok (TNode (KProd "N" 0) [] [("a"%string, TNode KTuple [] (unnamed [bv8; bv8]));
                                ("b"%string, TNode KSum [] (unnamed (type_set [bv8; bit; col])));
                                ("c"%string, TNode (KTag "U" 0) [] [("s"%string, bv8); ("t"%string, TMod 1 bit)])]) /\
  ~ matches nosub bv4 false bv8 /\ ~ occurs (matches nosub bv4 false) bv8 /\ ~ occurs (matches nosub none_t true) nested.
Proof.
  destruct C47_ex_lemma as (A & B & C & D & E). split; [exact A|]. split; [exact B|]. split; [discriminate|].
  split; [vm_compute; reflexivity|]. auto.
Qed.
(** Subclasses are replaced with rebind_sub_types only. *)
Example C47_ex_sub : rebind nosub mname (TLeaf LAbsBit) none_t true true nested =
    Ok (TNode (KProd "N" 0) [] [("a"%string, pair4); ("b"%string, TNode KSum [] (unnamed (type_set [bv4; none_t; col])));
                                ("c"%string, TNode (KTag "U" 0) [] [("s"%string, bv4); ("t"%string, none_t)])]) /\
  rebind nosub mname (TLeaf LAbsBit) none_t false true nested = Ok nested.
Proof. split; vm_compute; reflexivity. Qed.

(** ** C48: rebind_bitvector(T, X, Y), X a bit-vector class *)
(** Every component that is a subclass of X becomes Y[n], or Y if it has no size, and nothing else changes; in whatever
    order the alternatives of Sums are listed. *)
Theorem C48_rebind_bitvector_partial : forall H mn iter X f k t, vector_class X -> (forall l, Permutation (iter l) l) ->
  twf t -> plain t ->
  exists t', rebind_bitvector H mn iter X f k false t = Ok t' /\ replaced (to_vector H X f k) false t t'.
Proof. exact C48_rebind_bitvector_partial_pf. Qed.
Print Assumptions C48_rebind_bitvector_partial.
(** keep_modifiers=True: modified types of any kind keep their modifiers. *)
Theorem C48_keep_modifiers_partial : forall H mn iter X f k t, vector_class X -> (forall l, Permutation (iter l) l) ->
  twf t -> plain_mod t ->
  exists t', rebind_bitvector H mn iter X f k true t = Ok t' /\ replaced (to_vector H X f k) true t t'.
Proof. exact C48_keep_modifiers_partial_pf. Qed.
Print Assumptions C48_keep_modifiers_partial.
(** The modifiers of a modified type are taken off, the type is rebound, and the modifiers are put on again. *)
Theorem C48_unwrap : forall H mn iter X f k t, rebind_bitvector H mn iter X f k true t =
  let '(s, ms) := unwrap t in r <- rebind_bitvector H mn iter X f k true s ;; wrap r ms.
Proof. exact C48_unwrap_pf. Qed.
Print Assumptions C48_unwrap.
Theorem C48_order_partial : forall H mn iter iter' X f k (keep : bool) t, vector_class X -> (forall l, Permutation (iter l) l) ->
  (forall l, Permutation (iter' l) l) -> twf t -> (if keep then plain_mod t else plain t) ->
  rebind_bitvector H mn iter X f k keep t = rebind_bitvector H mn iter' X f k keep t.
Proof. exact C48_order_partial_pf. Qed.
Print Assumptions C48_order_partial.
Theorem C48_idempotent_partial : forall H mn iter X f k t t', vector_class X -> (forall l, Permutation (iter l) l) ->
  twf t -> plain t -> rebind_bitvector H mn iter X f k false t = Ok t' -> rebind_bitvector H mn iter X f k false t' = Ok t'.
Proof. exact C48_idempotent_partial_pf. Qed.
Print Assumptions C48_idempotent_partial.
(** Without keep_modifiers the modifiers of bit-vectors are dropped, and m(Tuple[X]) becomes m(Tuple)[X']. *)
Theorem C48_modified_refuted : ~ (forall H mn iter X f k t, vector_class X -> (forall l, Permutation (iter l) l) -> twf t ->
  plain_mod t -> exists t', rebind_bitvector H mn iter X f k false t = Ok t' /\ replaced (to_vector H X f k) true t t').
Proof. exact C48_modified_refuted_pf. Qed.
Print Assumptions C48_modified_refuted.
Theorem C48_anonymous_refuted : ~ (forall H mn iter X f k t, vector_class X -> (forall l, Permutation (iter l) l) -> twf t ->
  exists t', rebind_bitvector H mn iter X f k false t = Ok t').
Proof. exact C48_anonymous_refuted_pf. Qed.
Print Assumptions C48_anonymous_refuted.

Example C48_ex : twf nested /\ plain nested /\ vector_class (TLeaf LAbsVec) /\ (forall l : list ty, Permutation (rev l) l) /\
  rebind_bitvector nosub mname (@rev ty) (TLeaf LAbsVec) 1 KSInt false nested =
    Ok (TNode (KProd "N" 0) [] [("a"%string, TNode KTuple [] (unnamed [TLeaf (LVec 1 KSInt (Some 4)); TLeaf (LVec 1 KSInt (Some 4))]));
                                ("b"%string, TNode KSum [] (unnamed (type_set [TLeaf (LVec 1 KSInt (Some 4)); bit; col])));
                                ("c"%string, TNode (KTag "U" 0) [] [("s"%string, TLeaf (LVec 1 KSInt (Some 4))); ("t"%string, TMod 1 bit)])]).
Proof.
  destruct C48_ex_lemma as (A & B & _). do 2 (split; [assumption|]). split; [now left|].
  split; [intros l; apply Permutation_sym, Permutation_rev|vm_compute; reflexivity].
Qed.
Example C48_ex_keep : twf nested_mod /\ plain_mod nested_mod /\
  rebind_bitvector nosub mname (fun l => l) (TLeaf (LVec 0 KBV None)) 1 KBV true nested_mod =
    Ok (TMod 2 (TNode KTuple [] (unnamed [TMod 1 (TLeaf (LVec 1 KBV (Some 4)));
         TMod 3 (TNode (KProd "P" 0) [] [("x"%string, TLeaf (LVec 1 KBV (Some 4))); ("e"%string, col)])]))).
Proof. destruct C48_ex_lemma as (_ & _ & A & B). do 2 (split; [assumption|]). vm_compute; reflexivity. Qed.

(** ** C49: rebind_type(T, family) *)
(** Bit-vectors and Bits of T, at every depth, become those of the family. *)
Theorem C49_rebind_type_partial : forall H mn iter f t, (forall l, Permutation (iter l) l) -> twf t -> plain t -> bare t ->
  (forall m s, t <> TMod m s) ->
  exists t', rebind_type H mn iter f t = Ok t' /\ replaced (to_family H f) false t t'.
Proof. exact C49_rebind_type_partial_pf. Qed.
Print Assumptions C49_rebind_type_partial.
(** From one family to another and back. *)
Theorem C49_round_trip_partial : forall H mn iter f g t, (forall l, Permutation (iter l) l) -> twf t -> over f t ->
  exists t', rebind_type H mn iter g t = Ok t' /\ over g t' /\ rebind_type H mn iter f t' = Ok t.
Proof. exact C49_round_trip_partial_pf. Qed.
Print Assumptions C49_round_trip_partial.
(** A modified type raises NameError. *)
Theorem C49_modified_refuted : forall H mn iter f m t, rebind_type H mn iter f (TMod m t) = Raise ENameError.
Proof. exact C49_modified_refuted_pf. Qed.
Print Assumptions C49_modified_refuted.
(** A modified component loses its modifiers. *)
Theorem C49_nested_modifier_refuted : ~ (forall H mn iter f g t t', (forall l, Permutation (iter l) l) -> twf t ->
  rebind_type H mn iter g t = Ok t' -> over g t' -> rebind_type H mn iter f t' = Ok t).
Proof. exact C49_nested_modifier_refuted_pf. Qed.
Print Assumptions C49_nested_modifier_refuted.
(** SIntVector[n], UIntVector[n] become BitVector[n]: signedness is lost even within one family. *)
Theorem C49_signed_refuted : forall H mn iter, rebind_type H mn iter 0 (TLeaf (LVec 0 KSInt (Some 4))) = Ok bv4.
Proof. exact C49_signed_refuted_pf. Qed.
Print Assumptions C49_signed_refuted.

Example C49_ex : let t := TNode (KProd "N" 0) [] [("a"%string, pair4); ("b"%string, TNode KSum [] (unnamed (type_set [bv4; bit; col])))] in
  twf t /\ over 0 t /\ rebind_type nosub mname (fun l => l) 3 t =
    Ok (TNode (KProd "N" 0) [] [("a"%string, TNode KTuple [] (unnamed [TLeaf (LVec 3 KBV (Some 4)); TLeaf (LVec 3 KBV (Some 4))]));
          ("b"%string, TNode KSum [] (unnamed (type_set [TLeaf (LVec 3 KBV (Some 4)); TLeaf (LBit 3); col])))]).
Proof. destruct C49_ex_lemma as [A B]. do 2 (split; [assumption|]). vm_compute; reflexivity. Qed.

(** ** C51: strip_modifiers *)
(** Types whose modifiers are on bound types, without AnonymousProducts and attributes besides fields. *)
Theorem C51_strip_partial : forall mn t, twf t -> bound_only t ->
  exists t', strip mn t = Ok t' /\ modifier_free t' /\ erased t t' /\ strip mn t' = Ok t'.
Proof. exact C51_strip_partial_pf. Qed.
Print Assumptions C51_strip_partial.
Theorem C51_unwrap : forall mn t, strip mn t = strip mn (fst (unwrap t)).
Proof. exact C51_unwrap_pf. Qed.
Print Assumptions C51_unwrap.
Theorem C51_unmodified_partial : forall mn t, twf t -> bound_only t -> modifier_free t -> strip mn t = Ok t.
Proof. exact C51_unmodified_partial_pf. Qed.
Print Assumptions C51_unmodified_partial.
(** m(Tuple)[X] keeps its modifier: it is not a modified type but a Tuple bound from a modified class. *)
Theorem C51_unbound_refuted : strip mname (TNode KTuple [1] (unnamed [bv4])) = Ok (TNode KTuple [1] (unnamed [bv4])) /\
  sub nosub (TNode KTuple [1] (unnamed [bv4])) (TNode KTuple [] (unnamed [bv4])) = true /\ ~ modifier_free (TNode KTuple [1] (unnamed [bv4])).
Proof. exact C51_unbound_refuted_pf. Qed.
Print Assumptions C51_unbound_refuted.
Theorem C51_anonymous_refuted : modifier_free anon4 /\ strip mname anon4 = Raise ETypeError.
Proof. exact C51_anonymous_refuted_pf. Qed.
Print Assumptions C51_anonymous_refuted.
(** A modifier-free Product with methods is replaced by one without. *)
Theorem C51_methods_refuted : modifier_free with_method /\ exists t', strip mname with_method = Ok t' /\ t' <> with_method.
Proof. exact C51_methods_refuted_pf. Qed.
Print Assumptions C51_methods_refuted.

Example C51_ex : twf nested_mod /\ bound_only nested_mod /\
  strip mname nested_mod = Ok (TNode KTuple [] (unnamed [bv4; TNode (KProd "P" 0) [] [("x"%string, bv4); ("e"%string, col)]])).
Proof. destruct C51_ex_lemma as [A B]. do 2 (split; [assumption|]). reflexivity. Qed.

(** ** C52: push_modifiers *)
(** Every leaf keeps its position, and its own modifiers followed by those of its ancestors, which are now all on it. *)
Theorem C52_push_partial : forall mn t, bound_only t -> (forall p l ms, leaf_at t p l ms -> NoDup ms) ->
  exists t', push mn t [] = Ok t' /\ mods_on_leaves t' /\ (forall p l ms, leaf_at t' p l ms <-> leaf_at t p l ms).
Proof. exact C52_push_partial_pf. Qed.
Print Assumptions C52_push_partial.
(** A leaf below the same modifier twice: TypeError. *)
Theorem C52_repeated : forall mn t p l ms, bound_only t -> leaf_at t p l ms -> ~ NoDup ms -> push mn t [] = Raise ETypeError.
Proof. exact C52_repeated_pf. Qed.
Print Assumptions C52_repeated.
(** push_modifiers(T, mods): T's own modifiers come before the given ones. *)
Theorem C52_unwrap : forall mn t mods, push mn t mods = let '(s, ms) := unwrap t in push mn s (ms ++ mods).
Proof. exact C52_unwrap_pf. Qed.
Print Assumptions C52_unwrap.
Theorem C52_strip_partial : forall mn t t', bound_only t -> push mn t [] = Ok t' -> strip mn t' = strip mn t.
Proof. exact C52_strip_partial_pf. Qed.
Print Assumptions C52_strip_partial.
Theorem C52_anonymous_refuted : push mname anon4 [] = Raise ETypeError.
Proof. exact C52_anonymous_refuted_pf. Qed.
Print Assumptions C52_anonymous_refuted.

Example C52_ex : bound_only nested_mod /\ (forall p l ms, leaf_at nested_mod p l ms -> NoDup ms) /\
  leaf_at nested_mod [(1%nat, EmptyString); (0%nat, "x"%string)] bv4 [3; 2] /\
  push mname nested_mod [] = Ok (TNode KTuple [] (unnamed [TMod 2 (TMod 1 bv4);
    TNode (KProd "P" 0) [] [("x"%string, TMod 2 (TMod 3 bv4)); ("e"%string, TMod 2 (TMod 3 col))]])).
Proof.
  destruct C52_ex_lemma as [A B]. do 2 (split; [assumption|]). split; [|reflexivity].
  apply (la_mod 2 _ _ _ [3]). eapply (la_node KTuple _ _ 1%nat EmptyString); [reflexivity|]. apply (la_mod 3 _ _ _ []).
  eapply (la_node (KProd "P" 0) _ _ 0%nat "x"%string); [reflexivity|]. constructor.
Qed.
Example C52_ex_repeated : leaf_at (TMod 1 (TNode KTuple [] (unnamed [TMod 1 bv4]))) [(0%nat, EmptyString)] bv4 [1; 1] /\ ~ NoDup [1; 1].
Proof.
  split; [|intros N; inversion N as [|? ? X]; apply X; now left]. apply (la_mod 1 _ _ _ [1]).
  eapply (la_node KTuple _ _ 0%nat EmptyString); [reflexivity|]. apply (la_mod 1 _ _ _ []). constructor.
Qed.

(** ** C84: rebind_keep_modifiers(T, A, B) *)
(** Every component that is a subclass of A becomes B under its modifiers, and nothing else changes; for A and B without fields,
    types whose modifiers are on leaves and Enums, and if no component that changes occurs inside another component of the same type. *)
Theorem C84_keep_partial : forall H mn iter A B t, (forall l, Permutation (iter l) l) -> node_of A = None -> A <> TLeaf LObject ->
  node_of B = None -> (forall m s, B <> TMod m s) -> twf B -> twf t -> plain t -> plain_mod t ->
  apart (to_type (fun s => sub H s A = true) B) t ->
  exists t', rebind_keep_modifiers H mn iter A B t = Ok t' /\ replaced (to_type (fun s => sub H s A = true) B) true t t'.
Proof. exact C84_keep_partial_pf. Qed.
Print Assumptions C84_keep_partial.
(** A subclass of A becomes B, whatever A, B and the type are (Tuples, Products, ...). *)
Theorem C84_here : forall H mn iter A B t, (forall m s, t <> TMod m s) -> sub H t A = true -> rebind_keep_modifiers H mn iter A B t = Ok B.
Proof. exact C84_here_pf. Qed.
Print Assumptions C84_here.
(** A type in which no type, under its modifiers, is a subclass of A is left alone, whatever A and B are. *)
Theorem C84_absent_partial : forall H mn iter A B t, (forall l, Permutation (iter l) l) -> twf t -> plain t -> plain_mod t ->
  sub H (fst (unwrap t)) A = false -> ~ occurs (fun s => sub H (fst (unwrap s)) A = true) t ->
  rebind_keep_modifiers H mn iter A B t = Ok t.
Proof. exact C84_absent_partial_pf. Qed.
Print Assumptions C84_absent_partial.

Example C84_absent_ex : rebind_keep_modifiers nosub mname (@rev ty) mtuple bv8 nested = Ok nested /\
  rebind_keep_modifiers nosub mname (@rev ty) pair4 bv8 pair4 = Ok bv8.
Proof.
  split; [|apply C84_here; [discriminate|reflexivity]]. destruct C84_absent_ex_lemma as (A & B & C & D & E).
  apply C84_absent_partial; auto. intros l. apply Permutation_sym, Permutation_rev.
Qed.
(** The modifiers of the type itself are kept always. *)
Theorem C84_unwrap : forall H mn iter A B t, rebind_keep_modifiers H mn iter A B t =
  let '(s, ms) := unwrap t in r <- rebind_keep_modifiers H mn iter A B s ;; wrap r ms.
Proof. exact C84_unwrap_pf. Qed.
Print Assumptions C84_unwrap.
(** Missing: subclasses that occur in a component and beside it. rebind_keep_modifiers(Tuple[UInt[4], Tuple[UInt[4], SInt[4]]], BitVector[4], Bit)
    leaves SInt[4]: the inner tuple has already been rebound when its turn comes. *)
Theorem C84_subclass_refuted : forall H mn iter, (forall l, Permutation (iter l) l) ->
  let u4 := TLeaf (LVec 0 KUInt (Some 4)) in let s4 := TLeaf (LVec 0 KSInt (Some 4)) in
  rebind_keep_modifiers H mn iter bv4 bit (TNode KTuple [] (unnamed [u4; TNode KTuple [] (unnamed [u4; s4])])) =
    Ok (TNode KTuple [] (unnamed [bit; TNode KTuple [] (unnamed [bit; s4])])) /\ sub H s4 bv4 = true.
Proof. exact C84_subclass_refuted_pf. Qed.
Print Assumptions C84_subclass_refuted.
(** The same for a modified leaf: Tuple[BitVector[4], Tuple[BitVector[4], m(BitVector[4])]]. *)
Theorem C84_modified_leaf_refuted : forall H mn iter,
  rebind_keep_modifiers H mn iter bv4 bit (TNode KTuple [] (unnamed [bv4; TNode KTuple [] (unnamed [bv4; TMod 1 bv4])])) =
    Ok (TNode KTuple [] (unnamed [bit; TNode KTuple [] (unnamed [bit; TMod 1 bv4])])).
Proof. exact C84_modified_leaf_refuted_pf. Qed.
Print Assumptions C84_modified_leaf_refuted.
(** Modified Tuples inside the type: m(Tuple[Bit]) becomes m(Tuple)[Bit], although nothing in it is replaced. *)
Theorem C84_modified_tuple_refuted : forall H mn iter,
  rebind_keep_modifiers H mn iter bv4 bv8 (TNode KTuple [] (unnamed [bv4; TMod 1 (TNode KTuple [] (unnamed [bit]))])) =
    Ok (TNode KTuple [] (unnamed [bv8; TNode KTuple [1] (unnamed [bit])])).
Proof. exact C84_modified_tuple_refuted_pf. Qed.
Print Assumptions C84_modified_tuple_refuted.
(** A replacement that contains A: a type that occurs twice is replaced twice. *)
Theorem C84_twice_refuted : forall H mn iter, let b := TNode KTuple [] (unnamed [bv4]) in
  rebind_keep_modifiers H mn iter bv4 b (TNode KTuple [] (unnamed [bv4; bv4])) =
    Ok (TNode KTuple [] (unnamed [TNode KTuple [] (unnamed [b]); TNode KTuple [] (unnamed [b])])).
Proof. exact C84_twice_refuted_pf. Qed.
Print Assumptions C84_twice_refuted.

Example C84_ex : twf nested /\ plain nested /\ plain_mod nested /\ apart (to_type (fun s => sub nosub s bv4 = true) bv8) nested /\ node_of bv4 = None /\
  rebind_keep_modifiers nosub mname (@rev ty) bv4 bv8 nested =
    Ok (TNode (KProd "N" 0) [] [("a"%string, TNode KTuple [] (unnamed [bv8; bv8]));
                                ("b"%string, TNode KSum [] (unnamed (type_set [bv8; bit; col])));
                                ("c"%string, TNode (KTag "U" 0) [] [("s"%string, bv8); ("t"%string, TMod 1 bit)])]) /\
  rebind_keep_modifiers nosub mname (@rev ty) (TLeaf LAbsBit) bv8 (TMod 2 nested) =
    Ok (TMod 2 (TNode (KProd "N" 0) [] [("a"%string, pair4);
                                ("b"%string, TNode KSum [] (unnamed (type_set [bv4; bv8; col])));
                                ("c"%string, TNode (KTag "U" 0) [] [("s"%string, bv4); ("t"%string, TMod 1 bv8)])])).
Proof. destruct C84_ex_lemma as (A & B & C & D). do 4 (split; [assumption|]). split; [reflexivity|]. split; vm_compute; reflexivity. Qed.
