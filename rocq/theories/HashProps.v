(** C118: which values have a hash. The vocabulary is in HashSpec.v: [made o] (o is an object of the library's classes, or of
    subclasses that define neither __eq__ nor __hash__), [inside p o] (p is o or is somewhere inside o), [spoils p] (p is a
    symbolic or floating-point value, or a tuple one of whose components has been assigned). *)
From Verif Require Import PyBase BVModel HashModel HashSpec HashFacts.
From Verif Require Import HashProofs.


(** hash(o) works, however deep o is nested, unless something in it spoils it; then it raises TypeError. *)
Theorem C118_hashable : forall K o, made o ->
  ((forall p, inside p o -> ~ spoils p) -> exists z, hash K o = Ok z) /\
  ((exists p, inside p o /\ spoils p) -> hash K o = Raise ETypeError).
Proof. exact C118_hashable_pf. Qed.
Print Assumptions C118_hashable.
(** A Tuple of a BitVector and of a Sum holding a BitVector has a hash; one of a UIntVector and a Sum holding an SMTBit does not. *)
Example C118_hashable_ex :
  let vec k := OLeaf (CVec k) (neither :: lib_mro (CVec k)) 5 in
  let sum x := OOne CSum (neither :: lib_mro CSum) 0 x in
  let tup xs := OTuple CTuple (neither :: lib_mro CTuple) false xs in
  let good := tup [vec KBV; sum (vec KSInt)] in let bad := tup [vec KUInt; sum (OLeaf CSMTBit (lib_mro CSMTBit) 0)] in
  made good /\ (forall p, inside p good -> ~ spoils p) /\ made bad /\ (exists p, inside p bad /\ spoils p).
Proof.
  cbn zeta. split; [|split; [|split]].
  - apply made_tuple; [cbn; tauto|reflexivity|]. intros x [<-|[<-|[]]]; [|apply made_one; [cbn; tauto|reflexivity|]]; (apply made_leaf; [cbn; intuition discriminate|reflexivity]).
  - intros p H. inversion H as [|? ? ? ? ? x I IX|]; subst; [cbn; discriminate|]. destruct I as [<-|[<-|[]]].
    + inversion IX; subst; cbn; tauto.
    + inversion IX as [| |? ? ? ? ? IY]; subst; [cbn; tauto|]. inversion IY; subst; cbn; tauto.
  - apply made_tuple; [cbn; tauto|reflexivity|]. intros x [<-|[<-|[]]]; [|apply made_one; [cbn; tauto|reflexivity|]]; (apply made_leaf; [cbn; intuition discriminate|reflexivity]).
  - eexists. split; [eapply in_tuple; [right; left; reflexivity|apply in_one, in_self]|exact I].
Qed.

(** A class that defines __eq__ and not __hash__ takes the hash away from its instances, whatever it derives from, also for classes
    derived from it that say nothing; one that defines __hash__ decides alone. *)
Theorem C118_subclass : forall K c u b r, forallb silent u = true ->
  (b_eq b = true -> b_hash b = None -> forall o, (exists x, o = OLeaf c (u ++ b :: r) x) \/ (exists a xs, o = OTuple c (u ++ b :: r) a xs) \/ (exists t x, o = OOne c (u ++ b :: r) t x) ->
     hash K o = Raise ETypeError) /\
  (forall f, b_hash b = Some (HUser f) -> forall o, (exists x, o = OLeaf c (u ++ b :: r) x) \/ (exists a xs, o = OTuple c (u ++ b :: r) a xs) \/ (exists t x, o = OOne c (u ++ b :: r) t x) ->
     hash K o = h_user K f o).
Proof. exact C118_subclass_pf. Qed.
Print Assumptions C118_subclass.
(** class B(BitVector[8]): def __eq__ ...; class C(B): pass *)
Example C118_subclass_ex : let u := [neither] in let b := Body true None in
  forallb silent u = true /\ b_eq b = true /\ b_hash b = None /\ slot (lib_mro (CVec KBV)) <> None.
Proof. repeat split. discriminate. Qed.

(** Classes that define neither change nothing, at any depth. *)
Theorem C118_silent : forall K o o', alike o o' -> hash K o = hash K o'.
Proof. exact C118_silent_pf. Qed.
Print Assumptions C118_silent.
(** A Tuple holding a BitVector[8], and a subclass holding an instance of a subclass. *)
Example C118_silent_ex : alike
  (OTuple CTuple (neither :: lib_mro CTuple) false [OLeaf (CVec KBV) (neither :: lib_mro (CVec KBV)) 5])
  (OTuple CTuple (neither :: neither :: lib_mro CTuple) false [OLeaf (CVec KBV) (neither :: neither :: lib_mro (CVec KBV)) 5]).
Proof.
  apply alike_tuple; [cbn; tauto|reflexivity|reflexivity|]. constructor; [|constructor]. apply alike_leaf; [cbn; intuition discriminate|reflexivity|reflexivity].
Qed.
