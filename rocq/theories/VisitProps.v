(** Visitors of types and of instances (C53). *)
From Coq Require Import Permutation.
From Verif Require Import PyBase BVModel ADTTy ADTModel ADTSpec VisitModel VisitSpec.
(*P*)From Coq Require Import Lia.
From Verif Require Import ADTTyFacts ADTFacts ADTMoreFacts ADTEqFacts RebindFacts.
(*/P*)
From Verif Require Import VisitProofs.


(** With a visit_leaf method: every component is dispatched to the handler of its own kind. *)
Theorem C53_dispatch : forall order t es, visit true order t = Ok es -> forall h s, In (h, s) es -> handles s h.
Proof. exact C53_dispatch_pf. Qed.
Print Assumptions C53_dispatch.

(** Every component is visited exactly once per occurrence, beginning with the type itself. *)
Theorem C53_once : forall order t, is_order order -> exists es, visit true order t = Ok es /\
  hd_error (map snd es) = Some t /\ Permutation (map snd es) (t :: inside t).
Proof. exact C53_once_pf. Qed.
Print Assumptions C53_once.
(** The leaves and Enums are visited in field order. *)
Theorem C53_leaves : forall order t, is_order order -> exists es, visit true order t = Ok es /\
  leaves t (map snd (filter (fun e => atomic (fst e)) es)).
Proof. exact C53_leaves_pf. Qed.
Print Assumptions C53_leaves.
(** The visitor as shipped has no visit_leaf method (its default is misspelt visit_Leaf): AttributeError on every type with a
    leaf that is no Enum. *)
Theorem C53_no_visit_leaf_refuted : forall order t, is_order order -> reaches_leaf t -> visit false order t = Raise EAttributeError.
Proof. exact C53_no_visit_leaf_refuted_pf. Qed.
Print Assumptions C53_no_visit_leaf_refuted.

(** ** Instances *)
(** One step: the entries of value_dict that are not None, in order. *)

Theorem C53_inst_step : forall leaf H x, node_of (vtype x) <> None -> vvisit leaf H x =
  (d <- value_dict H x ;; rs <- mapM (fun e => match snd e with Some v => if is_none v then Ok [] else vvisit leaf H v | None => Ok [] end) d ;;
   Ok ((dispatch (vtype x), x) :: List.concat rs)).
Proof. exact C53_inst_step_pf. Qed.
Print Assumptions C53_inst_step.
(** On well-typed instances whose Sums hold instances of one alternative only, exactly the components present are visited,
    once each, outermost first, each by the handler of its class. *)
Theorem C53_instances_partial : forall H x, deep H x -> vvisit true H x = Ok (map (fun v => (dispatch (vtype v), v)) (parts x)).
Proof. exact C53_instances_partial_pf. Qed.
Print Assumptions C53_instances_partial.
(** The value of a Sum that is an instance of two alternatives is visited twice. *)
Theorem C53_sum_refuted : ~ (forall H x, vok H x -> exists es, vvisit true H x = Ok es /\ map snd es = parts x).
Proof. exact C53_sum_refuted_pf. Qed.
Print Assumptions C53_sum_refuted.
(** A component that is the object None is skipped. *)
Theorem C53_none_refuted : vvisit true nosub (VTup (TNode KTuple [] (unnamed [none_t])) true [VAtom none_t 0]) =
  Ok [(VTuple, VTup (TNode KTuple [] (unnamed [none_t])) true [VAtom none_t 0])].
Proof. exact C53_none_refuted_pf. Qed.
Print Assumptions C53_none_refuted.
Definition visit_t : ty := TNode (KProd "N" 0) [] [("a"%string, pair4); ("b"%string, TMod 1 sum_cb); ("c"%string, tagged)].
Definition rev_order (t : ty) : list nat := match node_of t with Some (_, fs) => rev (seq 0 (length fs)) | None => [] end.
Example C53_ex : is_order rev_order /\
  (exists es, visit true rev_order visit_t = Ok es /\
     map fst es = [VProduct; VTuple; VLeaf; VLeaf; VSumH; VEnum; VLeaf; VTagged; VEnum; VLeaf; VLeaf]) /\ reaches_leaf visit_t.
Proof.
  split; [|split].
  - intros t k fs E. unfold rev_order. rewrite E. apply Permutation_sym, Permutation_rev.
  - eexists. split; [vm_compute; reflexivity|reflexivity].
  - eapply rl_node; [left; reflexivity|]. eapply rl_node; [left; reflexivity|]. constructor.
Qed.
Example C53_ex_inst : let x := VTup (TNode KTuple [] (unnamed [sum_cb; tagged])) true [VSum sum_cb (VAtom bit 1); VTag tagged 1 (VAtom bv4 3)] in
  deep nosub x /\ vvisit true nosub x = Ok [(VTuple, x); (VSumH, VSum sum_cb (VAtom bit 1)); (VLeaf, VAtom bit 1); (VTagged, VTag tagged 1 (VAtom bv4 3)); (VLeaf, VAtom bv4 3)].
Proof.
  split; [|vm_compute; reflexivity]. eapply deep_tup; [reflexivity|exact I|reflexivity|]. constructor; [|constructor; [|constructor]].
  - eapply (deep_sum _ _ _ (EmptyString, bit) [] [(EmptyString, col)]); [reflexivity|vm_compute; reflexivity|reflexivity| |now apply deep_atom].
    intros g [<-|[]]. reflexivity.
  - eapply deep_tag; [reflexivity|cbn; auto|now apply deep_atom].
Qed.
