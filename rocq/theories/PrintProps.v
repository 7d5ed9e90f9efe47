(** C92: names of classes and printed values. *)
From Coq Require Import Lia ZifyBool String Ascii Decimal DecimalString DecimalFacts DecimalPos DecimalN DecimalZ.
From Verif Require Import PyBase BVModel BVSpec BVFacts OpModel OpFacts ADTTy ADTTyFacts ADTModel ADTSpec ADTFacts ADTValFacts PrintModel PrintSpec.
Local Open Scope string_scope. Local Open Scope Z_scope.
From Verif Require Import PrintProofs.

(** The names of Bit, the vector classes, and the Tuples and AnonymousProducts made of them identify the class. *)
Theorem C92_class_names : forall E t u, anon_type t -> anon_type u -> tname E t = tname E u -> t = u.
Proof. exact C92_class_names_pf. Qed.
Print Assumptions C92_class_names.
(** Missing: types made by class statements have the name of the statement. *)
Theorem C92_class_names_refuted : forall E, exists t u, t <> u /\ tname E t = tname E u.
Proof. exact C92_class_names_refuted_pf. Qed.
Print Assumptions C92_class_names_refuted.
Example C92_class_names_ex : forall E,
  anon_type (TNode KTuple [] (unnamed [TLeaf (LVec 0 KSInt (Some 12)); TNode KAnon [] [("a", TLeaf (LBit 0)); ("b", TLeaf (LVec 0 KBV (Some 4)))]])) /\
  tname E (TNode KTuple [] (unnamed [TLeaf (LVec 0 KSInt (Some 12)); TNode KAnon [] [("a", TLeaf (LBit 0)); ("b", TLeaf (LVec 0 KBV (Some 4)))]]))
  = "Tuple[SIntVector[12], AnonymousProduct[{'a': Bit, 'b': BitVector[4]}]]".
Proof.
  intros E. split; [|vm_compute; reflexivity].
  repeat first [constructor | lia | split | discriminate | reflexivity].
Qed.
(** Two values made of Bits, bit-vectors, Tuples and AnonymousProducts that print alike are the same value of the same class. *)
Theorem C92_repr : forall E v w s, shown v -> shown w -> vrepr E v = Ok s -> vrepr E w = Ok s -> v = w.
Proof. exact C92_repr_pf. Qed.
Print Assumptions C92_repr.
(** Two values of one type, Products, TaggedUnions and Enums among them, that print alike are the same; repr and str. *)
Theorem C92_typed_partial : forall E t v w s, sound_type E t -> holds t v -> holds t w ->
  (vrepr E v = Ok s -> vrepr E w = Ok s -> v = w) /\ (vstr E v = Ok s -> vstr E w = Ok s -> v = w).
Proof. exact C92_typed_partial_pf. Qed.
Print Assumptions C92_typed_partial.
(** Missing: Sums; Products and TaggedUnions whose components are instances of subclasses of the declared types; values to
    which an item was assigned. *)
Theorem C92_sum_refuted : forall E, exists t v w s, v <> w /\ vcall (fun _ _ => false) t [v] [] = Ok (VSum t v) /\ vcall (fun _ _ => false) t [w] [] = Ok (VSum t w) /\
  vrepr E (VSum t v) = Ok s /\ vrepr E (VSum t w) = Ok s.
Proof. exact C92_sum_refuted_pf. Qed.
Print Assumptions C92_sum_refuted.
Theorem C92_subclass_refuted : forall E, exists t v w s, v <> w /\ vcall (fun _ _ => false) t [v] [] = Ok (VTup t true [v]) /\ vcall (fun _ _ => false) t [w] [] = Ok (VTup t true [w]) /\
  vrepr E (VTup t true [v]) = Ok s /\ vrepr E (VTup t true [w]) = Ok s.
Proof. exact C92_subclass_refuted_pf. Qed.
Print Assumptions C92_subclass_refuted.

Definition e0 : env := {| e_mod := fun _ => "M"; e_leaf := fun _ => "X"; e_sum := fun _ _ => "Sum"; e_atom := fun _ _ => Raise EOutOfModel |}.
Definition tv0 : val := VTup (TNode KTuple [] (unnamed [TLeaf (LBit 0); TNode KAnon [] [("a", TLeaf (LVec 0 KSInt (Some 4)))]])) true
  [VAtom (TLeaf (LBit 0)) 1; VTup (TNode KAnon [] [("a", TLeaf (LVec 0 KSInt (Some 4)))]) true [VAtom (TLeaf (LVec 0 KSInt (Some 4))) 13]].
Example C92_repr_ex : shown tv0 /\ vrepr e0 tv0 = Ok "Tuple[Bit, AnonymousProduct[{'a': SIntVector[4]}]](Bit(True), AnonymousProduct[{'a': SIntVector[4]}](a=-3))".
Proof.
  split; [|vm_compute; reflexivity]. unfold tv0. apply sh_tuple; [|reflexivity|].
  - repeat first [constructor | lia | split | discriminate | reflexivity].
  - constructor; [exact (sh_bit true)|]. constructor; [|constructor]. apply sh_anon; repeat first [constructor | lia | split | discriminate | reflexivity].
Qed.
Definition tt0 : ty := TNode (KTag "U" 0) [] [("c", TEnum "Color" [("blue", EInt 1); ("red", EInt 0)]); ("p", TNode (KProd "P" 0) [] [("x", TMod 2 (TLeaf (LVec 0 KBV (Some 4))))])].
Example C92_typed_ex : sound_type e0 tt0 /\ holds tt0 (VTag tt0 0 (VAtom (TEnum "Color" [("blue", EInt 1); ("red", EInt 0)]) 1)) /\
  vstr e0 (VTag tt0 0 (VAtom (TEnum "Color" [("blue", EInt 1); ("red", EInt 0)]) 1)) = Ok "U(c=Color.red, p=None)" /\
  holds tt0 (VTag tt0 1 (VTup (TNode (KProd "P" 0) [] [("x", TMod 2 (TLeaf (LVec 0 KBV (Some 4))))]) true [VAtom (TMod 2 (TLeaf (LVec 0 KBV (Some 4)))) 7])) /\
  vrepr e0 (VTag tt0 1 (VTup (TNode (KProd "P" 0) [] [("x", TMod 2 (TLeaf (LVec 0 KBV (Some 4))))]) true [VAtom (TMod 2 (TLeaf (LVec 0 KBV (Some 4)))) 7])) = Ok "U(c=None, p=P(x=7))".
Proof.
  split; [|split; [|split; [vm_compute; reflexivity|split; [|vm_compute; reflexivity]]]].
  - unfold tt0. constructor; [constructor| |split; [discriminate|reflexivity]]. constructor; [|constructor; [|constructor]].
    + constructor; [split; [discriminate|reflexivity]|repeat constructor; discriminate|]. constructor; [|repeat constructor; auto]. intros [Q|[]]. discriminate.
    + constructor; [constructor| |split; [discriminate|reflexivity]]. constructor; [|constructor]. cbn [snd]. constructor; [split; [discriminate|reflexivity]|constructor; lia].
  - eapply ho_tag; [reflexivity|reflexivity|]. cbn [snd]. apply ho_enum. cbn. lia.
  - eapply ho_tag; [reflexivity|reflexivity|]. cbn [snd]. eapply ho_tup; [reflexivity|exact I|]. constructor; [|constructor]. cbn [snd]. eapply ho_vec; [reflexivity|lia|lia].
Qed.

(** str of a bit-vector is the decimal numeral of its number: signed for SIntVector, unsigned for the others. *)
Theorem C92_str_number : forall E t k n z, strip t = TLeaf (LVec 0 k (Some n)) -> 0 <= n -> 0 <= z < 2 ^ n -> (k = KSInt -> 1 <= n) ->
  exists s, vstr E (VAtom t z) = Ok s /\ reads s (match k with KSInt => signed n z | _ => z end).
Proof. exact C92_str_number_pf. Qed.
Print Assumptions C92_str_number.
(** The text of repr names the class and the unsigned number. *)
Theorem C92_repr_vector : forall E k n z, vrepr E (VAtom (TLeaf (LVec 0 k (Some n))) z) = Ok (cls_name (BVC k n) ++ "(" ++ int_str z ++ ")").
Proof. exact C92_repr_vector_pf. Qed.
Print Assumptions C92_repr_vector.
(** C92: a Bit prints as Bit(True) or Bit(False), by repr and by str; a member of an Enum prints as Class.member *)
Theorem C92_repr_bit : forall E, vrepr E (VAtom (TLeaf (LBit 0)) 1) = Ok "Bit(True)" /\ vrepr E (VAtom (TLeaf (LBit 0)) 0) = Ok "Bit(False)" /\
  vstr E (VAtom (TLeaf (LBit 0)) 1) = Ok "Bit(True)" /\ vstr E (VAtom (TLeaf (LBit 0)) 0) = Ok "Bit(False)" /\
  forall c ms i m v, nth_error ms i = Some (m, v) -> vrepr E (VAtom (TEnum c ms) (Z.of_nat i)) = Ok (c ++ "." ++ m) /\ vstr E (VAtom (TEnum c ms) (Z.of_nat i)) = Ok (c ++ "." ++ m).
Proof. exact C92_repr_bit_pf. Qed.
Print Assumptions C92_repr_bit.
(** Missing: an SIntVector of width 0 has a repr, but str raises IndexError, and so does repr of what contains it by name. *)
Theorem C92_sint0_refuted : forall E, vrepr E (VAtom (TLeaf (LVec 0 KSInt (Some 0))) 0) = Ok "SIntVector[0](0)" /\ vstr E (VAtom (TLeaf (LVec 0 KSInt (Some 0))) 0) = Raise EIndexError /\
  vrepr E (VTup (TNode (KProd "P" 0) [] [("x", TLeaf (LVec 0 KSInt (Some 0)))]) true [VAtom (TLeaf (LVec 0 KSInt (Some 0))) 0]) = Raise EIndexError.
Proof. exact C92_sint0_refuted_pf. Qed.
Print Assumptions C92_sint0_refuted.
(** Everything else can be printed. *)
Theorem C92_prints : forall E t v, sound_type E t -> holds t v -> no_sint0 t = true -> (exists s, vrepr E v = Ok s) /\ (exists s, vstr E v = Ok s).
Proof. exact C92_prints_pf. Qed.
Print Assumptions C92_prints.
Example C92_prints_ex : no_sint0 tt0 = true /\ reads "-3" (-3) /\ vstr e0 (VAtom (TLeaf (LVec 0 KSInt (Some 4))) 13) = Ok "-3".
Proof. split; [reflexivity|]. split; [eexists; split; reflexivity|reflexivity]. Qed.

(** The text of an expression determines the expression. *)
Theorem C92_text_determines : forall e e', expr_ok e -> expr_ok e' -> unparse e = unparse e' -> e = e'.
Proof. exact C92_text_determines_pf. Qed.
Print Assumptions C92_text_determines.
(** The name of such a class, evaluated as Python, gives the class back, and the repr of a value gives an equal value of the
    same class (Bit, the vector classes, and non-empty Tuples of them). *)
Theorem C92_name_evaluates : forall E H t e, tuple_type t -> expr_ok e -> unparse e = tname E t -> eval H e = Ok (PType t).
Proof. exact C92_name_evaluates_pf. Qed.
Print Assumptions C92_name_evaluates.
Theorem C92_repr_evaluates : forall E H v s, tuple_value H v -> vrepr E v = Ok s ->
  (exists e, expr_ok e /\ unparse e = s) /\ forall e, expr_ok e -> unparse e = s -> eval H e = Ok (PVal v).
Proof. exact C92_repr_evaluates_pf. Qed.
Print Assumptions C92_repr_evaluates.
(** Missing: the repr of an empty Tuple, whose class prints as "Tuple[]"; it evaluates to no value, Python rejects the text. *)
Theorem C92_empty_refuted : forall E H, vrepr E (VTup (TNode KTuple [] []) true []) = Ok "Tuple[]()" /\
  forall e, expr_ok e -> unparse e = "Tuple[]()" -> eval H e = Raise ESyntaxError.
Proof. exact C92_empty_refuted_pf. Qed.
Print Assumptions C92_empty_refuted.
Definition tw0 : val := VTup (TNode KTuple [] (unnamed [TLeaf (LVec 0 KBV (Some 4)); TNode KTuple [] (unnamed [TLeaf (LBit 0)])])) true
  [VAtom (TLeaf (LVec 0 KSInt (Some 4))) 13; VTup (TNode KTuple [] (unnamed [TLeaf (LBit 0)])) true [VAtom (TLeaf (LBit 0)) 1]].
Example C92_evaluates_ex : forall E, tuple_value (fun _ _ => false) tw0 /\ vrepr E tw0 = Ok "Tuple[BitVector[4], Tuple[Bit]](SIntVector[4](13), Tuple[Bit](Bit(True)))".
Proof.
  intros E. split; [|vm_compute; reflexivity]. unfold tw0. apply tv_tuple.
  - repeat first [constructor | lia | discriminate].
  - constructor; [vm_compute; reflexivity|]. constructor; [vm_compute; reflexivity|constructor].
  - constructor; [apply tv_vec; lia|]. constructor; [|constructor]. apply (tv_tuple _ [_]).
    + repeat first [constructor | lia | discriminate].
    + constructor; [vm_compute; reflexivity|constructor].
    + constructor; [exact (tv_bit _ true)|constructor].
Qed.
