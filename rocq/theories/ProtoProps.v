(** Types that implement the bit-vector protocol (C102), after every sequence of class statements (any bases, any
    metaclasses, any bodies) and calls of classes. *)
From Coq Require Import Lia.
From Verif Require Import PyBase BVFacts MetaModel MergeFacts ProtoModel ProtoSpec ProtoFacts.
From Verif Require Import ProtoProofs.


(** * C102: isinstance and issubclass for the bit-vector protocol *)
(** issubclass(C, BitVectorProtocol) exactly if C's metaclass provides _bitvector_t_ and C the two conversions, inherited
    or not. *)
Theorem C102_issubclass : forall h c, let w := prun h in class_in w c -> plain_meta w c ->
  (issubclass w c w_protocol = true <-> implements w c).
Proof. exact C102_issubclass_pf. Qed.
Print Assumptions C102_issubclass.
(** isinstance(x, BitVectorProtocol) is issubclass(type(x), BitVectorProtocol), for every object. *)
Theorem C102_isinstance : forall h x, let w := prun h in exists_in w x ->
  isinstance w x w_protocol = issubclass w (typeof w x) w_protocol.
Proof. exact C102_isinstance_pf. Qed.
Print Assumptions C102_isinstance.
(** isinstance(C, BitVectorProtocolMeta) exactly if C's metaclass provides _bitvector_t_. *)
Theorem C102_meta : forall h c, let w := prun h in class_in w c -> plain_meta w c ->
  (isinstance w c w_meta = true <-> provides w (typeof w c) ABvT).
Proof. exact C102_meta_pf. Qed.
Print Assumptions C102_meta.
(** Objects of protocol types are not themselves protocol types. *)
Theorem C102_objects : forall h x, let w := prun h in exists_in w x ->
  isinstance w (typeof w x) w_meta = true -> typeof w x <> w_meta -> isinstance w x w_meta = false.
Proof. exact C102_objects_pf. Qed.
Print Assumptions C102_objects.
(** Subclasses of a class that implements the protocol implement it, whatever their bodies, other bases and metaclasses. *)
Theorem C102_inherited : forall h c d, let w := prun h in class_in w d -> plain_meta w d -> In c (mro w d) ->
  issubclass w c w_protocol = true -> issubclass w d w_protocol = true.
Proof. exact C102_inherited_pf. Qed.
Print Assumptions C102_inherited.
(** In particular those of BitVectorProtocol, even if they define none of the methods (nothing enforces abstractmethod
    here). *)
Theorem C102_derived : forall h c, let w := prun h in class_in w c -> plain_meta w c -> In w_protocol (mro w c) ->
  issubclass w c w_protocol = true.
Proof. exact C102_derived_pf. Qed.
Print Assumptions C102_derived.
(** The two places of ite that ask agree: objects accepted as protocol objects are converted as such, and two protocol
    objects of one type are accepted. *)
Theorem C102_ite : forall h x y, let w := prun h in exists_in w x -> exists_in w y ->
  (ite_accepts w x y = true <-> typeof w x = typeof w y /\ ite_converts w x = true /\ ite_converts w y = true).
Proof. exact C102_ite_pf. Qed.
Print Assumptions C102_ite.
(** Later class statements and calls change no answer. *)
Theorem C102_stable : forall h h' x c, exists_in (prun h) x -> exists_in (prun h) c ->
  isinstance (prun (h ++ h')) x c = isinstance (prun h) x c /\ issubclass (prun (h ++ h')) x c = issubclass (prun h) x c.
Proof. exact C102_stable_pf. Qed.
Print Assumptions C102_stable.

(** What does not hold. The comment says that any type that has _bitvector_t_ is an instance of BitVectorProtocolMeta: a
    class that defines it itself, as a classmethod, is not, and its instances, which are not types, are. *)
Theorem C102_any_type_refuted : exists h c x, let w := prun h in
  class_in w c /\ hasattr w c ABvT = true /\ hasattr w c AFrom = true /\ hasattr w c ATo = true /\
  isinstance w c w_meta = false /\ issubclass w c w_protocol = false /\
  exists_in w x /\ is_class w x = false /\ isinstance w x w_meta = true.
Proof. exact C102_any_type_refuted_pf. Qed.
Print Assumptions C102_any_type_refuted.
(** Nor are classes whose metaclass has a metaclass with _bitvector_t_. *)
Theorem C102_metameta_refuted : exists h c, let w := prun h in
  class_in w c /\ implements w c /\ issubclass w c w_protocol = false.
Proof. exact C102_metameta_refuted_pf. Qed.
Print Assumptions C102_metameta_refuted.
(** The check is structural for the subclasses of BitVectorProtocol too: two unrelated ones are subclasses of each
    other. *)
Theorem C102_unrelated_refuted : exists h c d x, let w := prun h in
  class_in w c /\ class_in w d /\ ~ In d (mro w c) /\ ~ In c (mro w d) /\ typeof w x = c /\
  issubclass w c d = true /\ issubclass w d c = true /\ isinstance w x d = true.
Proof. exact C102_unrelated_refuted_pf. Qed.
Print Assumptions C102_unrelated_refuted.

(** The counter of the tests (metaclass 5, class 6, a counter 7), a subclass of it with another base (9), a bare subclass
    of BitVectorProtocol (10). *)
Definition pdemo : list pop := [PClass [1%nat] None [ABvT]; PClass [] (Some 5%nat) [AFrom; ATo]; PInst 6; PClass [] None [];
  PClass [8%nat; 6%nat] None []; PClass [4%nat] None []; PInst 9].
Example C102_ex : let w := prun pdemo in
  class_in w 6 /\ plain_meta w 6 /\ implements w 6 /\ class_in w 9 /\ plain_meta w 9 /\ In 6%nat (mro w 9) /\
  class_in w 10 /\ plain_meta w 10 /\ In w_protocol (mro w 10) /\ exists_in w 7 /\ isinstance w (typeof w 7) w_meta = true /\
  ite_accepts w 7 7 = true /\ ite_accepts w 7 11 = false /\ ite_converts w 11 = true /\ issubclass w 8 w_protocol = false.
Proof.
  assert (PM : forall c, (typeof (prun pdemo) (typeof (prun pdemo) c) = 1 \/ typeof (prun pdemo) (typeof (prun pdemo) c) = 2)%nat ->
    plain_meta (prun pdemo) c).
  { intros c [E|E]; split; rewrite E; intros (k & K & H); vm_compute in K; repeat (destruct K as [<-|K]; [vm_compute in H; tauto|]); tauto. }
  cbv zeta. split; [split; [vm_compute; lia|reflexivity]|]. split; [apply PM; vm_compute; auto|].
  split. { split; [exists 5%nat; split; vm_compute; auto|]. split; left; exists 6%nat; split; vm_compute; auto. }
  split; [split; [vm_compute; lia|reflexivity]|]. split; [apply PM; vm_compute; auto|]. split; [vm_compute; auto|].
  split; [split; [vm_compute; lia|reflexivity]|]. split; [apply PM; vm_compute; auto|]. split; [vm_compute; auto|].
  split; [vm_compute; lia|]. repeat split.
Qed.
