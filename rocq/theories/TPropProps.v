(** C85: TypedProperty; C86: Method. *)
From Coq Require Import Lia.
From Verif Require Import PyBase BVFacts MetaModel MergeFacts TPropModel TPropSpec.
From Verif Require Import TPropProofs.


(** Reading: the last getter of the declaration is called once, on the object; without one, AttributeError. *)
Theorem C85_get : forall inst s c n T g st d o,
  declared inst s c n T g st d -> reaches s (po_cls (poget s o)) n c ->
  obj_get s o n = match g with Some f => (Ok (RRet f), [Call f o None]) | None => (Raise EAttributeError, []) end.
Proof. exact C85_get_pf. Qed.
Print Assumptions C85_get.
Example C85_get_ex : obj_get ex_state 1 "x" = (Ok (RRet 1), [Call 1 1 None]).
Proof. apply (C85_get ex_inst _ 1 _ 7 (Some 1%nat) (Some 2%nat) None); [exact ex_declared|exact ex_reaches]. Qed.

(** Assigning: without a setter AttributeError, whatever the value; a value that is no instance of T is a TypeError and no function is
    called; otherwise the last setter is called once. *)
Theorem C85_set : forall inst s c n T g st d o v,
  declared inst s c n T g st d -> reaches s (po_cls (poget s o)) n c ->
  obj_set inst s o n v =
    (s, match st with
        | None => (Raise EAttributeError, [])
        | Some f => if inst v T then (Ok RNone, [Call f o (Some v)]) else (Raise ETypeError, [])
        end).
Proof. exact C85_set_pf. Qed.
Print Assumptions C85_set.
Example C85_set_ex : snd (obj_set ex_inst ex_state 1 "x" 3) = (Ok RNone, [Call 2 1 (Some 3%nat)])
  /\ snd (obj_set ex_inst ex_state 1 "x" 30) = (Raise ETypeError, []).
Proof.
  split; rewrite (C85_set ex_inst _ 1 _ 7 (Some 1%nat) (Some 2%nat) None _ _ ex_declared ex_reaches); reflexivity.
Qed.

(** Deleting: the last deleter, or AttributeError. *)
Theorem C85_delete : forall inst s c n T g st d o,
  declared inst s c n T g st d -> reaches s (po_cls (poget s o)) n c ->
  obj_del s o n = (s, match d with Some f => (Ok RNone, [Call f o None]) | None => (Raise EAttributeError, []) end).
Proof. exact C85_delete_pf. Qed.
Print Assumptions C85_delete.
Example C85_delete_ex : snd (obj_del ex_state 1 "x") = (Raise EAttributeError, []).
Proof. now rewrite (C85_delete ex_inst _ 1 _ 7 (Some 1%nat) (Some 2%nat) None _ ex_declared ex_reaches). Qed.

(** C.n is T, so decorating C.n outside the class raises AttributeError; the class itself reaches its own definition. *)
Theorem C85_class : forall inst s c n T g st d x dd,
  declared inst s c n T g st d -> reaches s x n c ->
  cls_get s x n = Ok (RType T) /\ cls_decorate s x n dd = Raise EAttributeError.
Proof. exact C85_class_pf. Qed.
Print Assumptions C85_class.
Example C85_class_ex : cls_get ex_state 2 "x" = Ok (RType 7) /\ cls_decorate ex_state 2 "x" (DSet 5) = Raise EAttributeError.
Proof. apply (C85_class ex_inst _ 1 _ 7 (Some 1%nat) (Some 2%nat) None); [exact ex_declared|exact ex_reaches]. Qed.
Theorem C85_own : forall inst s c n T g st d, declared inst s c n T g st d -> reaches s c n c.
Proof. exact C85_own_pf. Qed.
Print Assumptions C85_own.
Example C85_own_ex : reaches ex_state 1 "x" 1.
Proof. exact (C85_own _ _ _ _ _ _ _ _ ex_declared). Qed.

(** Inheritance. A name that the body of a class statement does not define is looked up in the base: objects of the new class reach
    exactly what objects of the base reach. *)
Theorem C85_inherited : forall inst h qual b body s' c n d, let s := prun inst pst0 h in
  (b < length (pclasses s))%nat -> pclass_stmt s qual [b] body = Ok (s', c) -> ~ defines s' c n ->
  (reaches s' c n d <-> reaches s b n d).
Proof. exact C85_inherited_pf. Qed.
Print Assumptions C85_inherited.
(** Several bases: if two of them, or two classes in the method resolution order of one of them, define the name, objects of the new
    class never reach the later one; and they reach some definition if a base does. *)
Theorem C85_base_order : forall inst h qual bases body s' c q q1 a q2 b n, let s := prun inst pst0 h in
  (forall x, In x bases -> (x < length (pclasses s))%nat) -> pclass_stmt s qual bases body = Ok (s', c) ->
  q = bases \/ (exists x, In x bases /\ q = pc_mro (pcget s x)) -> q = q1 ++ a :: q2 -> In b q2 -> defines s a n ->
  ~ reaches s' c n b /\ exists d, reaches s' c n d.
Proof. exact C85_base_order_pf. Qed.
Print Assumptions C85_base_order.
(** class C(A, B) with x in both A and B: A.x is found; class C(B, A): B.x. *)
Definition two_bases : list pop := [OClass "A" [] [("x", AMeth 1)]; OClass "B" [] [("x", AMeth 2)]]%string.
Example C85_base_order_ex : let s := prun ex_inst pst0 two_bases in defines s 1 "x" /\ defines s 2 "x" /\
  (exists s' c, pclass_stmt s "C" [1; 2]%nat [] = Ok (s', c) /\ cls_get s' c "x" = Ok (RFun 1)) /\
  (exists s' c, pclass_stmt s "D" [2; 1]%nat [] = Ok (s', c) /\ cls_get s' c "x" = Ok (RFun 2)).
Proof.
  split; [eexists; left; reflexivity|]. split; [eexists; left; reflexivity|].
  split; eexists; eexists; split; vm_compute; reflexivity.
Qed.

(** Decorators make new objects: the property they are applied to, and every other property of the program, stay as they are. *)
Theorem C85_decorators_pure : forall s p dd q, (q < length (tprops s))%nat ->
  let s' := fst (decorate s p dd) in
  snd (decorate s p dd) <> q /\ tp_get_cls s' q = tp_get_cls s q /\
  (forall o, tp_get_obj s' q o = tp_get_obj s q o /\ tp_del_obj s' q o = tp_del_obj s q o) /\
  forall inst o v, tp_set_obj inst s' q o v = tp_set_obj inst s q o v.
Proof. exact C85_decorators_pure_pf. Qed.
Print Assumptions C85_decorators_pure.
Example C85_decorators_pure_ex : tp_get_obj (fst (decorate ex_state 1 (DGet 9))) 1 0 = (Ok (RRet 1), [Call 1 0 None]).
Proof.
  assert (H : (1 < length (tprops ex_state))%nat) by (vm_compute; lia).
  destruct (C85_decorators_pure ex_state 1 (DGet 9) 1 H) as (_ & _ & K & _). destruct (K 0%nat) as [-> _]. reflexivity.
Qed.

(** Using one TypedProperty(T) object as the decorator of two functions makes both names use the second function. *)
Theorem C85_shared_refuted : ~ (forall inst T f g s1 p s2 a s3 b s4 c o,
  tp_new pst0 T = (s1, p) -> tp_call s1 p (Some f) None None = (s2, a) -> tp_call s2 p (Some g) None None = (s3, b) ->
  pclass_stmt s3 "A" [] [("a", AProp a); ("b", AProp b)]%string = Ok (s4, c) ->
  po_cls (poget (prun inst s4 [OObj c]) o) = c ->
  obj_get (prun inst s4 [OObj c]) o "a" = (Ok (RRet f), [Call f o None])).
Proof. exact C85_shared_refuted_pf. Qed.
Print Assumptions C85_shared_refuted.
(** A property that is assigned to a class after the class statement does not turn into T. *)
Theorem C85_assigned_refuted : ~ (forall s T f p s2 c n,
  declare s T (Some f) None None [] = (s2, p) -> (c < length (pclasses s))%nat -> cls_get (cls_set s2 c n (AProp p)) c n = Ok (RType T)).
Proof. exact C85_assigned_refuted_pf. Qed.
Print Assumptions C85_assigned_refuted.

(** A Method is found on the class as the function itself and on an object as the function bound to it (unless the object has an attribute of
    that name), and the function carries the name of the attribute and of the class. *)
Theorem C86_method_partial : forall inst s c n qual f x o,
  method_of inst s c n qual f -> reaches s x n c -> po_cls (poget s o) = x -> (forall v, ~ In (n, v) (po_dict (poget s o))) ->
  cls_get s x n = Ok (RFun f) /\ obj_get s o n = (Ok (RBound f o), []) /\ fname s f = Some (n, (qual ++ "." ++ n)%string).
Proof. exact C86_method_partial_pf. Qed.
Print Assumptions C86_method_partial.
Example C86_method_partial_ex : cls_get ex_meth 1 "__and__" = Ok (RFun 4) /\ obj_get ex_meth 0 "__and__" = (Ok (RBound 4 0), [])
  /\ fname ex_meth 4 = Some ("__and__", "V.__and__")%string.
Proof.
  apply (C86_method_partial ex_inst ex_meth 1 "__and__" "V" 4 1 0).
  - refine (Method_of ex_inst [] [OObj 1] "V" [] [] "__and__" 4 [] _ 1 _ _ _ _ _).
    + repeat constructor. cbn. tauto.
    + intros m [].
    + reflexivity.
    + repeat constructor.
    + repeat constructor.
  - exists [], [0%nat]. split; [reflexivity|]. split; [intros x []|]. exists (AMeth 4). left. reflexivity.
  - reflexivity.
  - intros v [].
Qed.
(** Without the condition that the function is in one Method only, the name is that of the last class statement. *)
Theorem C86_alias_refuted : ~ (forall s qual n m f s' c,
  n <> m -> pclass_stmt s qual [] [(n, AMeth f); (m, AMeth f)] = Ok (s', c) -> fname s' f = Some (n, (qual ++ "." ++ n)%string)).
Proof. exact C86_alias_refuted_pf. Qed.
Print Assumptions C86_alias_refuted.
