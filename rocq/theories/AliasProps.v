(** ADT instances that share components (C107): an instance holds the objects it was given, so an assignment is seen through
    every object that holds the assigned one, and through no other; what copy.copy and copy.deepcopy share.
    [arun H [] l] is the heap after the calls [l]; [reads h r v]: object [r], read to the leaves, is [v]. *)
From Coq Require Import Lia.
From Verif Require Import PyBase BVModel BVSpec BVFacts BVProofs ADTTy ADTTyFacts ADTModel ADTSpec ADTFacts AliasModel AliasSpec AliasFacts.
From Verif Require Import AliasProofs.

(** Every object has exactly one reading: reading always ends. *)
Theorem C107_reads : forall H l r, Forall plain_call l -> (r < length (arun H [] l))%nat -> exists! v, reads (arun H [] l) r v.
Proof. exact C107_reads_pf. Qed.
Print Assumptions C107_reads.
(** No object is held by one of its own components. *)
Theorem C107_acyclic : forall H l r o x, Forall plain_call l -> nth_error (arun H [] l) r = Some o -> In x (refs o) -> ~ reach (arun H [] l) x r.
Proof. exact C107_acyclic_pf. Qed.
Print Assumptions C107_acyclic.
(** With a field of class object this fails: t = Tuple[object](5); t[0] = t makes an object that holds itself and cannot be
    read to the leaves. *)
Theorem C107_cycle_refuted : forall H, let t := TNode KTuple [] (unnamed [TLeaf LObject]) in
  let h := arun H [] [ANode (OpAtom (TLeaf (LOther 1)) 5); ANode (OpCall t [0%nat] [])] in
  snd (astep H h (ANode (OpSetItem 1 (IxInt 0) 1))) = Ok 1%nat /\
  let h' := fst (astep H h (ANode (OpSetItem 1 (IxInt 0) 1))) in nth_error h' 1 = Some (ONode t (STup false [1%nat])) /\ forall v, ~ reads h' 1 v.
Proof. exact C107_cycle_refuted_pf. Qed.
Print Assumptions C107_cycle_refuted.
(** A call that raises changes nothing. *)
Theorem C107_failed : forall H h c h' e, astep H h c = (h', Raise e) -> h' = h.
Proof. exact C107_failed_pf. Qed.
Print Assumptions C107_failed.
(** An assignment to [r] (x[k] = v, x[a:b] = v, x.n = v, and v[i] = bit for a vector, which may be a component of many
    objects) is seen by every object: each reads as before with the new contents of [r] in every place where [r] occurs. *)
Theorem C107_assign : forall H l c r h', Forall plain_call l -> target c = Some r -> astep H (arun H [] l) c = (h', Ok r) ->
  exists v, reads h' r v /\ forall q u, (q < length (arun H [] l))%nat -> reads h' q u <-> reads_with (arun H [] l) r v q u.
Proof. exact C107_assign_pf. Qed.
Print Assumptions C107_assign.
(** Objects that do not hold [r] read as before. *)
Theorem C107_frame : forall H l c r h' q u, Forall plain_call l -> target c = Some r -> astep H (arun H [] l) c = (h', Ok r) ->
  (q < length (arun H [] l))%nat -> ~ reach (arun H [] l) q r -> reads h' q u <-> reads (arun H [] l) q u.
Proof. exact C107_frame_pf. Qed.
Print Assumptions C107_frame.
(** The new contents: item assignment acts on the contents of the objects as [vsetitem] (C40). *)
Theorem C107_setitem : forall H l r k v x w, Forall plain_call l -> let h := arun H [] l in reads h r x -> reads h v w ->
  snd (astep H h (ANode (OpSetItem r k v))) = rmap (fun _ => r) (vsetitem H x k w) /\
  (forall y, vsetitem H x k w = Ok y -> reads (fst (astep H h (ANode (OpSetItem r k v)))) r y).
Proof. exact C107_setitem_pf. Qed.
Print Assumptions C107_setitem.
(** The same for attributes. *)
Theorem C107_setattr : forall H l r n v x w, Forall plain_call l -> let h := arun H [] l in reads h r x -> reads h v w ->
  snd (astep H h (ANode (OpSetAttr r n v))) = rmap (fun _ => r) (vsetattr H x n w) /\
  (forall y, vsetattr H x n w = Ok y -> reads (fst (astep H h (ANode (OpSetAttr r n v)))) r y).
Proof. exact C107_setattr_pf. Qed.
Print Assumptions C107_setattr.
(** Item assignment on a concrete vector: one bit of it changes, in all the objects that hold it. *)
Theorem C107_setbit : forall H l r i b t n z, Forall plain_call l -> let h := arun H [] l in reads h r (VAtom t z) -> vec_leaf t = Some (0, n) -> 0 <= z < 2 ^ n -> 0 <= n ->
  (- n <= i < n -> exists z', astep H h (ASetBit r i b) = (update r (OAtom t z') h, Ok r) /\ reads (fst (astep H h (ASetBit r i b))) r (VAtom t z') /\
     0 <= z' < 2 ^ n /\ forall j, 0 <= j < n -> Z.testbit z' j = if j =? i mod n then b else Z.testbit z j) /\
  (~ (- n <= i < n) -> astep H h (ASetBit r i b) = (h, Raise EIndexError)).
Proof. exact C107_setbit_pf. Qed.
Print Assumptions C107_setbit.
(** Construction: the new instance reads as its type applied to the readings of the arguments, the old objects read as before. *)
Theorem C107_new : forall H l t pos kw vs ks, Forall plain_call l -> let h := arun H [] l in
  Forall2 (reads h) pos vs -> map fst kw = map fst ks -> Forall2 (reads h) (map snd kw) (map snd ks) ->
  snd (astep H h (ANode (OpCall t pos kw))) = rmap (fun _ => length h) (vcall H t vs ks) /\
  (forall y, vcall H t vs ks = Ok y -> reads (fst (astep H h (ANode (OpCall t pos kw)))) (length h) y) /\
  (forall q u, (q < length h)%nat -> reads (fst (astep H h (ANode (OpCall t pos kw)))) q u <-> reads h q u).
Proof. exact C107_new_pf. Qed.
Print Assumptions C107_new.
(** Tuple(a, b, ...) on the unbound class: always succeeds, with the classes of the arguments as fields. *)
Theorem C107_tuple : forall H l pos vs, Forall plain_call l -> let h := arun H [] l in Forall2 (reads h) pos vs ->
  let h' := fst (astep H h (ANode (OpTuple pos))) in
  snd (astep H h (ANode (OpTuple pos))) = Ok (length h) /\ reads h' (length h) (VTup (TNode KTuple [] (unnamed (map vtype vs))) true vs) /\
  (forall q u, (q < length h)%nat -> reads h' q u <-> reads h q u).
Proof. exact C107_tuple_pf. Qed.
Print Assumptions C107_tuple.
(** copy.copy: the copy reads as the original and has the same components; neither holds the other, so an assignment to one
    is not seen through the other, but an assignment to a component of one is seen through both. *)
Theorem C107_copy : forall H l r v, Forall plain_call l -> let h := arun H [] l in reads h r v -> let h' := fst (astep H h (ACopy r)) in
  snd (astep H h (ACopy r)) = Ok (length h) /\ reads h' (length h) v /\ (forall q u, (q < length h)%nat -> reads h' q u <-> reads h q u) /\
  ~ reach h' r (length h) /\ ~ reach h' (length h) r /\ (forall x, x <> r -> x <> length h -> reach h' (length h) x <-> reach h' r x).
Proof. exact C107_copy_pf. Qed.
Print Assumptions C107_copy.
(** copy.deepcopy: with enough recursion depth it ends; the copy reads as the original, holds no object that existed before,
    and no object that existed before holds a part of it; the old objects are untouched. *)
Theorem C107_deep : forall H l r v, Forall plain_call l -> let h := arun H [] l in reads h r v ->
  exists d0, forall d, (d0 <= d)%nat -> exists k x, astep H h (ADeep d r) = (h ++ k, Ok x) /\ reads (h ++ k) x v /\
    (forall q u, (q < length h)%nat -> reads (h ++ k) q u <-> reads h q u) /\
    (forall y, reach (h ++ k) x y -> (length h <= y)%nat) /\ (forall q y, (q < length h)%nat -> reach (h ++ k) q y -> (y < length h)%nat).
Proof. exact C107_deep_pf. Qed.
Print Assumptions C107_deep.
(** The copy has the sharing of the original: a component that occurs twice in the original is copied once. *)
Theorem C107_deep_sharing : forall H l d r x, Forall plain_call l -> let h := arun H [] l in
  snd (astep H h (ADeep d r)) = Ok x -> same_graph h (fst (astep H h (ADeep d r))) r x.
Proof. exact C107_deep_sharing_pf. Qed.
Print Assumptions C107_deep_sharing.
(** So an assignment to an object that existed before the deep copy is not seen through the copy, and an assignment to a part
    of the copy is not seen through the objects that existed before. *)
Theorem C107_deep_independent : forall H l d r x c q h' u, Forall plain_call l -> let h := arun H [] l in let h1 := fst (astep H h (ADeep d r)) in
  snd (astep H h (ADeep d r)) = Ok x -> target c = Some q -> astep H h1 c = (h', Ok q) ->
  ((q < length h)%nat -> reads h' x u <-> reads h1 x u) /\
  ((length h <= q)%nat -> forall y, (y < length h)%nat -> reads h' y u <-> reads h1 y u).
Proof. exact C107_deep_independent_pf. Qed.
Print Assumptions C107_deep_independent.
(** b = BitVector[4](5); p = Tuple[BitVector[4], BitVector[4]](b, b); s = Sum[...](p); t = copy.deepcopy(p); b[1] = 1: p and s
    see the new value twice, t the old one. *)
Example C107_ex : let l := [ANode (OpAtom bv4 5); ANode (OpCall pair4 [0; 0]%nat []); ANode (OpCall sum_pp [1]%nat []); ADeep 9 1] in
  let c := ASetBit 0 1 true in
  Forall plain_call l /\ snd (astep nosub (arun nosub [] l) c) = Ok 0%nat /\ target c = Some 0%nat /\
  let h := arun nosub [] (l ++ [c]) in
  reads h 2 (VSum sum_pp (VTup pair4 true [VAtom bv4 7; VAtom bv4 7])) /\ reads h 4 (VTup pair4 true [VAtom bv4 5; VAtom bv4 5]).
Proof.
  split; [repeat constructor|]. split; [vm_compute; reflexivity|]. split; [reflexivity|]. cbv zeta.
  assert (E : arun nosub [] ([ANode (OpAtom bv4 5); ANode (OpCall pair4 [0; 0]%nat []); ANode (OpCall sum_pp [1]%nat []); ADeep 9 1] ++ [ASetBit 0 1 true]) =
    [OAtom bv4 7; ONode pair4 (STup true [0; 0]); ONode sum_pp (SSum 1); OAtom bv4 5; ONode pair4 (STup true [3; 3])]%nat) by (vm_compute; reflexivity).
  rewrite E. split.
  - apply reads_sum with (x := 1%nat); [reflexivity|]. apply reads_tup with (xs := [0; 0]%nat); [reflexivity|]. repeat constructor.
  - apply reads_tup with (xs := [3; 3]%nat); [reflexivity|]. repeat constructor.
Qed.
