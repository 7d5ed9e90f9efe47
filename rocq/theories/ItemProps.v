(** Subscripts of bound types (C98), after every history of class statements, indexing, dropped references and garbage collection. *)
From Coq Require Import Lia ZifyBool.
From Verif Require Import PyBase BVModel BVSpec BVFacts SliceFacts MetaModel HierModel HierSpec MergeFacts HierFacts HierProofs NewModel NewAdtFacts.
From Verif Require Import ItemProofs.


(** * C98: subscripts of bound types *)
(** T[z] of a Tuple, AnonymousProduct or Product counts from the front or, negative, from the end. *)
Theorem C98_position : forall h c l z, hkind (hrun h) c = KTuple \/ hkind (hrun h) c = KAnon \/ hkind (hrun h) c = KProd ->
  fields_of (hrun h) c = Some l -> let n := Z.of_nat (length l) in
  bound_item (hrun h) c (BPos z) =
    (if ((- n <=? z) && (z <? n))%Z then match nth_error l (Z.to_nat (z mod n)) with Some t => Ok t | None => Raise EOutOfModel end
     else Raise EIndexError) /\
  ((- n <= z < n)%Z -> exists t, nth_error l (Z.to_nat (z mod n)) = Some t).
Proof. exact C98_position_pf. Qed.
Print Assumptions C98_position.
(** T[a:b:st] is the tuple of the types at the positions of the slice. *)
Theorem C98_slice : forall h c l a b st, hkind (hrun h) c = KTuple \/ hkind (hrun h) c = KAnon \/ hkind (hrun h) c = KProd ->
  fields_of (hrun h) c = Some l -> st <> Some 0%Z ->
  bound_slice (hrun h) c a b st = Ok (map (fun i => nth (Z.to_nat i) l 0%nat) (slice_positions (Z.of_nat (length l)) a b st)).
Proof. exact C98_slice_pf. Qed.
Print Assumptions C98_slice.
(** The type of a field of a Product, by name and by position; other names raise KeyError. *)
Theorem C98_product_partial : forall h bs n fs o s t, plain_bases (hrun h) KProd bs -> fs <> [] -> NoDup (map fst fs) ->
  (forall x, In x (map snd fs) -> usable (hrun h) x) -> class_stmt (hrun h) bs n fs o = Ok (s, t) ->
  (forall i f ty, nth_error fs i = Some (f, ty) -> bound_item s t (BStr f) = Ok ty /\ bound_item s t (BPos (Z.of_nat i)) = Ok ty) /\
  (forall f, ~ In f (map fst fs) -> bound_item s t (BStr f) = Raise EKeyError).
Proof. exact C98_product_partial_pf. Qed.
Print Assumptions C98_product_partial.
(** A subclass without fields answers as its base does. *)
Theorem C98_inherit : forall h a n o s t i l, usable (hrun h) a -> fields_of (hrun h) a = Some l -> class_stmt (hrun h) [a] n [] o = Ok (s, t) ->
  bound_item s t i = bound_item (hrun h) a i.
Proof. exact C98_inherit_pf. Qed.
Print Assumptions C98_inherit.
(** S[T] is T for the alternatives of a Sum or a TaggedUnion, and KeyError for everything else. *)
Theorem C98_sum : forall h c l t, hkind (hrun h) c = KSum \/ hkind (hrun h) c = KTag -> fields_of (hrun h) c = Some l ->
  (In t l -> bound_item (hrun h) c (BTy t) = Ok t) /\ (~ In t l -> bound_item (hrun h) c (BTy t) = Raise EKeyError) /\
  (forall i, (forall u, i <> BTy u) -> bound_item (hrun h) c i = Raise EKeyError).
Proof. exact C98_sum_pf. Qed.
Print Assumptions C98_sum.
(** The types of an anonymous product cannot be found by name. *)
Theorem C98_anonymous_refuted : forall h k m s t f, usable (hrun h) k -> hkind (hrun h) k = KAnon -> NoDup (map fst m) ->
  (forall x, In x (map snd m) -> usable (hrun h) x) -> getitem (hrun h) k (IdxNames m) = Ok (s, t) ->
  field_dict s t = Some m /\ bound_item s t (BStr f) = Raise ETypeError.
Proof. exact C98_anonymous_refuted_pf. Qed.
Print Assumptions C98_anonymous_refuted.
(** A class statement that adds fields to a bound product makes a type whose added field cannot be found by name. *)
Theorem C98_added_refuted : exists h a s t ty, class_stmt (hrun h) [a] "B"%string [("y"%string, ty)] [] = Ok (s, t) /\
  getattr s t "y" = Some (AField ty 0) /\ bound_item s t (BStr "y") = Raise EKeyError /\ bound_item s t (BPos 0) = Ok ty.
Proof. exact C98_added_refuted_pf. Qed.
Print Assumptions C98_added_refuted.

(** class P(Product): x = T; y = object; class S(TaggedUnion): a = T. *)
Example C98_ex :
  let h := [HClass [] "T" [] []; HClass [3] "P" [("x"%string, 6); ("y"%string, 0)] []; HClass [5] "U" [("a"%string, 6)] []]%nat in
  let s := hrun h in
  match class_stmt s [3%nat] "P" [("x"%string, 6%nat); ("y"%string, 0%nat)] [], class_stmt s [5%nat] "U" [("a"%string, 6%nat)] [] with
  | Ok (_, p), Ok (_, u) =>
      bound_item s p (BStr "x") = Ok 6%nat /\ bound_item s p (BStr "y") = Ok 0%nat /\ bound_item s p (BStr "z") = Raise EKeyError /\
      bound_item s p (BPos (-1)) = Ok 0%nat /\ bound_item s p (BPos (-2)) = Ok 6%nat /\ bound_item s p (BPos (-3)) = Raise EIndexError /\
      bound_slice s p None None (Some (-1)) = Ok [0%nat; 6%nat] /\
      bound_item s u (BTy 6) = Ok 6%nat /\ bound_item s u (BTy 0) = Raise EKeyError /\ fields_of s p = Some [6; 0]%nat /\ hkind s u = KTag
  | _, _ => False
  end.
Proof. vm_compute. repeat split. Qed.
