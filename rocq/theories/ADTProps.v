(** Instances of algebraic data types (C39-C45). *)
From Coq Require Import Lia Sorted Permutation.
From Verif Require Import PyBase BVModel ADTTy ADTTyFacts ADTModel ADTSpec ADTFacts ADTValFacts ADTEqFacts ADTMoreFacts.
From Verif Require Import ADTProofs.


(** * C39: instances are well typed forever *)
(** l is any history of object creations, constructor calls (positional, keyword, on the unbound Tuple), item and
    attribute assignments on any objects, successful or raising. H is the class hierarchy outside hwtypes. *)
Theorem C39_well_typed_partial : forall H l, Forall no_slice l -> well_typed H (run H [] l).
Proof. exact C39_well_typed_partial_pf. Qed.
Print Assumptions C39_well_typed_partial.
(** Missing: assignment to slices, t[a:b] = v. It accepts a value that is an instance of any one of the selected field
    types and splices the elements of v into the components: after t[0:1] = BitVector[4](5) a Tuple[BitVector[4],
    BitVector[4]] holds four Bits and a bit-vector. *)
Theorem C39_slice_refuted : exists l, ~ well_typed nosub (run nosub [] l).
Proof. exact C39_slice_refuted_pf. Qed.
Print Assumptions C39_slice_refuted.
(** A call that raises changes no object (slices included). *)
Theorem C39_raise : forall H h o e, snd (step H h o) = Raise e -> fst (step H h o) = h.
Proof. exact C39_raise_pf. Qed.
Print Assumptions C39_raise.
(** The class of an object never changes, and a call changes no object but the one assigned to. *)
Theorem C39_class_stable : forall H h l r o, nth_error h r = Some o ->
  exists o', nth_error (run H h l) r = Some o' /\ otype o' = otype o.
Proof. exact C39_class_stable_pf. Qed.
Print Assumptions C39_class_stable.
Theorem C39_frame : forall H h o r x, nth_error h r = Some x ->
  (forall k v, o <> OpSetItem r k v) -> (forall a b v, o <> OpSetSlice r a b v) -> (forall n v, o <> OpSetAttr r n v) ->
  nth_error (fst (step H h o)) r = Some x.
Proof. exact C39_frame_pf. Qed.
Print Assumptions C39_frame.
(** Constructors accept exactly the well-typed arguments, and keep them. *)
Theorem C39_tuple_call : forall H t k fs vs, node_of t = Some (k, fs) -> tuple_like k ->
  (Forall2 (fun f v => sub H (vtype v) (snd f) = true) fs vs -> vcall H t vs [] = Ok (VTup t true vs)) /\
  (~ Forall2 (fun f v => sub H (vtype v) (snd f) = true) fs vs -> exists e, vcall H t vs [] = Raise e /\ (e = ETypeError \/ e = EValueError)).
Proof. exact C39_tuple_call_pf. Qed.
Print Assumptions C39_tuple_call.
Theorem C39_sum_call : forall H t fs v, node_of t = Some (KSum, fs) ->
  (In (vtype v) (types fs) -> vcall H t [v] [] = Ok (VSum t v)) /\
  (~ In (vtype v) (types fs) -> vcall H t [v] [] = Raise ETypeError).
Proof. exact C39_sum_call_pf. Qed.
Print Assumptions C39_sum_call.
Theorem C39_tag_call : forall H t n x fs m v, node_of t = Some (KTag n x, fs) -> twf t ->
  (forall i u, nth_error fs i = Some (m, u) -> sub H (vtype v) u = true -> vcall H t [] [(m, v)] = Ok (VTag t i v)) /\
  (forall i u, nth_error fs i = Some (m, u) -> sub H (vtype v) u = false -> vcall H t [] [(m, v)] = Raise ETypeError) /\
  (~ In m (names fs) -> vcall H t [] [(m, v)] = Raise EValueError).
Proof. exact C39_tag_call_pf. Qed.
Print Assumptions C39_tag_call.
(** Any other number of arguments of a Sum or a TaggedUnion, and an unknown keyword of a Sum, is rejected. *)
Theorem C39_union_arguments : forall H t k fs, node_of t = Some (k, fs) ->
  (k = KSum -> forall vs kw, (length vs + length kw <> 1)%nat \/ (exists n v, kw = [(n, v)] /\ n <> "value"%string) -> vcall H t vs kw = Raise ETypeError) /\
  (forall n x, k = KTag n x ->
    (forall v vs kw, vcall H t (v :: vs) kw = Raise ETypeError) /\
    (forall kw, length kw <> 1%nat -> vcall H t [] kw = Raise EValueError)).
Proof. exact C39_union_arguments_pf. Qed.
Print Assumptions C39_union_arguments.
Example C39_union_arguments_ex : (exists fs, node_of sum_pp = Some (KSum, fs)) /\ (exists n x fs, node_of tagged = Some (KTag n x, fs)) /\
  vcall nosub tagged [] [("a"%string, VAtom bit 1); ("b"%string, VAtom bv4 5)] = Raise EValueError /\
  vcall nosub sum_pp [] [] = Raise ETypeError.
Proof. split; [eexists; reflexivity|]. split; [do 3 eexists; reflexivity|]. split; vm_compute; reflexivity. Qed.
(** Keyword arguments in any order build the same Product as positional ones. *)
Theorem C39_keywords : forall H t k fs vs kw, node_of t = Some (k, fs) -> tuple_like k -> k <> KTuple -> twf t ->
  Forall2 (fun f v => sub H (vtype v) (snd f) = true) fs vs -> Permutation kw (combine (names fs) vs) ->
  vcall H t [] kw = vcall H t vs [].
Proof. exact C39_keywords_pf. Qed.
Print Assumptions C39_keywords.
(** Concrete histories with successful and raising calls: a Tuple, a Product used as the component of a Tuple, a Sum and a
    TaggedUnion. *)
Example C39_ex : let l := [OpAtom bv4 5; OpAtom bit 1; OpCall pair4 [0; 0]%nat []; OpSetItem 2 (IxInt (-1)) 1; OpSetItem 2 (IxInt 1) 0;
                           OpCall point [] [("y"%string, 0%nat); ("x"%string, 0%nat)]; OpTuple [3; 1]%nat; OpCall sum_pp [3%nat] [];
                           OpSetItem 5 (IxTy pair4) 3; OpCall tagged [] [("b"%string, 0%nat)]; OpSetAttr 6 "c" 0; OpSetAttr 3 "y" 0] in
  Forall no_slice l /\
  run nosub [] l = [OAtom bv4 5; OAtom bit 1; ONode pair4 (STup false [0; 0]%nat); ONode point (STup false [0; 0]%nat);
                    ONode (TNode KTuple [] (unnamed [point; bit])) (STup true [3; 1]%nat); ONode sum_pp (SSum 3%nat); ONode tagged (STag 1 0%nat)] /\
  snd (step nosub (run nosub [] (firstn 3 l)) (OpSetItem 2 (IxInt (-1)) 1)) = Raise ETypeError.
Proof. cbn zeta. split; [repeat constructor|]. split; vm_compute; reflexivity. Qed.

(** * C40: item assignment on a Tuple *)
(** t[i] = v for a well-typed Tuple or Product instance t and a valid index i (counted from the end when negative). The
    components are those of the tuple freshly built with component p replaced by v. *)
Theorem C40_components_partial : forall H t b vs i p v k fs, vok H (VTup t b vs) -> node_of t = Some (k, fs) ->
  (p < length vs)%nat -> i = Z.of_nat p \/ i = Z.of_nat p - Z.of_nat (length vs) ->
  (forall f, nth_error fs p = Some f -> sub H (vtype v) (snd f) = true) ->
  exists b' b'' ws, vsetitem H (VTup t b vs) (IxInt i) v = Ok (VTup t b' ws) /\ vcall H t ws [] = Ok (VTup t b'' ws) /\
    length ws = length vs /\ nth_error ws p = Some v /\ forall q, q <> p -> nth_error ws q = nth_error vs q.
Proof. exact C40_components_partial_pf. Qed.
Print Assumptions C40_components_partial.
(** An invalid index or value raises and (C39_raise) changes nothing. *)
Theorem C40_rejected : forall H t b vs i v k fs, vok H (VTup t b vs) -> node_of t = Some (k, fs) ->
  (i < - Z.of_nat (length vs) \/ Z.of_nat (length vs) <= i -> vsetitem H (VTup t b vs) (IxInt i) v = Raise EIndexError) /\
  (forall p f, i = Z.of_nat p -> nth_error fs p = Some f -> sub H (vtype v) (snd f) = false -> vsetitem H (VTup t b vs) (IxInt i) v = Raise ETypeError).
Proof. exact C40_rejected_pf. Qed.
Print Assumptions C40_rejected.
(** The rest of the property fails for every successful assignment: the instance is never equal to the freshly built tuple,
    not even after t[i] = t[i], and it cannot be hashed any more. *)
Theorem C40_refuted : forall H L K t b vs i v x y, vok H (VTup t b vs) -> vsetitem H (VTup t b vs) (IxInt i) v = Ok x ->
  (exists ws, x = VTup t false ws /\ vcall H t ws [] = Ok y) ->
  py_eq H L x y = Ok false /\ py_eq H L y x = Ok false /\ py_hash K x = Raise ETypeError.
Proof. exact C40_refuted_pf. Qed.
Print Assumptions C40_refuted.
Example C40_ex : let t := VTup pair4 true [VAtom bv4 1; VAtom bv4 2] in
  vok nosub t /\
  vsetitem nosub t (IxInt (-1)) (VAtom bv4 7) = Ok (VTup pair4 false [VAtom bv4 1; VAtom bv4 7]) /\
  vsetitem nosub t (IxInt 1) (VAtom bv4 2) = Ok (VTup pair4 false [VAtom bv4 1; VAtom bv4 2]) /\
  vsetitem nosub t (IxInt 2) (VAtom bv4 2) = Raise EIndexError /\ vsetitem nosub t (IxInt 1) (VAtom bit 1) = Raise ETypeError.
Proof. cbn zeta. split; [|vm_compute; auto]. econstructor; [reflexivity|exact I|]. repeat constructor. Qed.
(** t[a:b] = v on a Tuple t with one component for each field. The class of v must be one of the classes of the fields in the
    slice (or a subclass); then v is iterated and its items replace the components of the slice. A Tuple gives its
    components, a bit-vector new Bits, least significant first; any other value raises TypeError. *)
Theorem C40_slice : forall H h r v t k fs b xs a c lo hi, nth_error h r = Some (ONode t (STup b xs)) -> (v < length h)%nat ->
  node_of t = Some (k, fs) -> length xs = length fs -> slice_part (length fs) a c lo hi ->
  ((forall p m u, (lo <= p < hi)%nat -> nth_error fs p = Some (m, u) -> sub H (rtype h v) u = false) ->
     step H h (OpSetSlice r a c v) = (h, Raise ETypeError)) /\
  ((exists p m u, (lo <= p < hi)%nat /\ nth_error fs p = Some (m, u) /\ sub H (rtype h v) u = true) ->
     (forall t' b' ys, nth_error h v = Some (ONode t' (STup b' ys)) ->
        step H h (OpSetSlice r a c v) = (update r (ONode t (STup false (firstn lo xs ++ ys ++ skipn hi xs))) h, Ok r)) /\
     (forall f k' n z, nth_error h v = Some (OAtom (TLeaf (LVec f k' (Some n))) z) ->
        step H h (OpSetSlice r a c v) =
          (update r (ONode t (STup false (firstn lo xs ++ seq (length h) (length (zrange n)) ++ skipn hi xs)))
             (h ++ map (fun i => OAtom (TLeaf (LBit f)) (b2z (Z.testbit z i))) (zrange n)), Ok r)) /\
     ((exists f z, nth_error h v = Some (OAtom (TLeaf (LBit f)) z)) \/ (exists n ms z, nth_error h v = Some (OAtom (TEnum n ms) z)) \/
      (exists t' x, nth_error h v = Some (ONode t' (SSum x))) \/ (exists t' i x, nth_error h v = Some (ONode t' (STag i x))) ->
        step H h (OpSetSlice r a c v) = (h, Raise ETypeError))).
Proof. exact C40_slice_pf. Qed.
Print Assumptions C40_slice.
(** A 2-tuple of 4-bit vectors: t[0:1] = a 4-bit vector leaves five components (a use C39 excludes); t[0:0] = v raises. *)
Example C40_slice_ex :
  let h := [OAtom bv4 5; ONode pair4 (STup true [0; 0]%nat)] in
  slice_part 2 (Some 0) (Some 1) 0 1 /\
  snd (step nosub h (OpSetSlice 1 (Some 0) (Some 1) 0)) = Ok 1%nat /\
  nth_error (fst (step nosub h (OpSetSlice 1 (Some 0) (Some 1) 0))) 1 = Some (ONode pair4 (STup false [2; 3; 4; 5; 0]%nat)) /\
  step nosub h (OpSetSlice 1 (Some 0) (Some 0) 0) = (h, Raise ETypeError).
Proof. cbv zeta. split; [split; reflexivity|]. vm_compute; auto. Qed.
(** p.x = v on a Product is p[i] = v for the position i of x. *)
Theorem C40_attribute : forall (X : Type) H (typ : X -> ty) t k fs b xs i m u x, node_of t = Some (k, fs) -> tuple_like k -> k <> KTuple ->
  twf t -> length xs = length fs -> nth_error fs i = Some (m, u) ->
  setattr H typ t (STup b xs) m x = setitem H typ t (STup b xs) (IxInt (Z.of_nat i)) x.
Proof. exact C40_attribute_pf. Qed.
Print Assumptions C40_attribute.

(** * C41: value_dict and from_values *)
(** What value_dict contains: position or name i of a Tuple or Product with component i; each alternative of a Sum with the
    value or None; each name of a TaggedUnion with the value or None. *)
Theorem C41_value_dict : forall H x k fs, vok H x -> node_of (vtype x) = Some (k, fs) ->
  exists d, value_dict H x = Ok d /\ length d = length fs /\ forall i key o, nth_error d i = Some (key, o) ->
    exists f, nth_error fs i = Some f /\
    key = match k with KTuple => VkPos i | KSum => VkTy (snd f) | _ => VkName (fst f) end /\
    match x with
    | VTup _ _ vs => o = nth_error vs i
    | VSum _ v => o = if sub H (vtype v) (snd f) then Some v else None
    | VTag _ j v => o = if Nat.eqb j i then Some v else None
    | VAtom _ _ => False
    end.
Proof. exact C41_value_dict_pf. Qed.
Print Assumptions C41_value_dict.
(** Tuples and Products that have not been assigned to. *)
Theorem C41_tuple_partial : forall H L t vs, twf t -> vok H (VTup t true vs) -> leaf_refl L ->
  exists y, (d <- value_dict H (VTup t true vs) ;; from_values H t d) = Ok y /\ y = VTup t true vs /\ py_eq H L y (VTup t true vs) = Ok true.
Proof. exact C41_tuple_partial_pf. Qed.
Print Assumptions C41_tuple_partial.
(** Missing: after an item assignment the rebuilt value is a tuple again, different from the instance (C40). *)
Theorem C41_assigned_refuted : forall H L t vs, twf t -> vok H (VTup t false vs) ->
  exists y, (d <- value_dict H (VTup t false vs) ;; from_values H t d) = Ok y /\ py_eq H L y (VTup t false vs) = Ok false.
Proof. exact C41_assigned_refuted_pf. Qed.
Print Assumptions C41_assigned_refuted.
(** Sums: the round trip succeeds exactly when the class of the value is an alternative, the value is an instance of no
    other alternative, and it is not None. *)
Theorem C41_sum_partial : forall H t fs v, twf t -> node_of t = Some (KSum, fs) -> vok H (VSum t v) ->
  ((d <- value_dict H (VSum t v) ;; from_values H t d) = Ok (VSum t v) <->
   In (vtype v) (types fs) /\ is_none v = false /\ forall u, In u (types fs) -> sub H (vtype v) u = true -> u = vtype v) /\
  ((d <- value_dict H (VSum t v) ;; from_values H t d) <> Ok (VSum t v) ->
   exists e, (d <- value_dict H (VSum t v) ;; from_values H t d) = Raise e).
Proof. exact C41_sum_partial_pf. Qed.
Print Assumptions C41_sum_partial.
(** Missing: a Sum with a Product and the Tuple class above it. *)
Theorem C41_sum_refuted : exists t v, twf t /\ vok nosub (VSum t v) /\ vcall nosub t [v] [] = Ok (VSum t v) /\
  (d <- value_dict nosub (VSum t v) ;; from_values nosub t d) = Raise EValueError.
Proof. exact C41_sum_refuted_pf. Qed.
Print Assumptions C41_sum_refuted.
(** Tagged unions: exactly the values other than None. *)
Theorem C41_tag_partial : forall H t i v, twf t -> vok H (VTag t i v) ->
  (is_none v = false -> (d <- value_dict H (VTag t i v) ;; from_values H t d) = Ok (VTag t i v)) /\
  (is_none v = true -> (d <- value_dict H (VTag t i v) ;; from_values H t d) = Raise EValueError).
Proof. exact C41_tag_partial_pf. Qed.
Print Assumptions C41_tag_partial.
Theorem C41_tag_refuted : exists t i v, twf t /\ vok nosub (VTag t i v) /\ vcall nosub t [] [("a"%string, v)] = Ok (VTag t i v) /\
  (d <- value_dict nosub (VTag t i v) ;; from_values nosub t d) = Raise EValueError.
Proof. exact C41_tag_refuted_pf. Qed.
Print Assumptions C41_tag_refuted.
Example C41_ex : twf point /\ vok nosub (VTup point true [VAtom bv4 1; VAtom bv4 2]) /\
  value_dict nosub (VTup point true [VAtom bv4 1; VAtom bv4 2]) = Ok [(VkName "x", Some (VAtom bv4 1)); (VkName "y", Some (VAtom bv4 2))] /\
  (d <- value_dict nosub (VSum sum_cb (VAtom bit 1)) ;; from_values nosub sum_cb d) = Ok (VSum sum_cb (VAtom bit 1)) /\
  (d <- value_dict nosub (VTag tagged 1 (VAtom bv4 1)) ;; from_values nosub tagged d) = Ok (VTag tagged 1 (VAtom bv4 1)).
Proof.
  split; [|split; [|vm_compute; auto]].
  - constructor; [|repeat constructor]. cbn. split; [|discriminate]. constructor; [|repeat constructor; auto]. intros [Q|[]]. discriminate.
  - econstructor; [reflexivity|exact I|]. repeat constructor.
Qed.

(** * C42: enumerate *)
(** For a type built from Enums: every value of exactly the class, each exactly once, and nothing else; their number. *)
Theorem C42_enumerate_partial : forall H t, twf t -> enum_based t = true ->
  exists l, enumerate H t = Ok l /\ NoDup l /\ length l = cardinal t /\ forall v, In v l <-> exact t v.
Proof. exact C42_enumerate_partial_pf. Qed.
Print Assumptions C42_enumerate_partial.
(** Missing: an Enum with a modifier M. M(E).enumerate() yields members of E, which are not instances of M(E), and a Tuple of
    M(E) cannot be enumerated. Types with bit-vector fields are outside the property, see the next two theorems. *)
Theorem C42_modified_refuted : exists m n ms, enumerate nosub (TMod m (TEnum n ms)) = Ok (map (VAtom (TEnum n ms)) [0; 1]) /\
  (forall v, In v (map (VAtom (TEnum n ms)) [0; 1]) -> sub nosub (vtype v) (TMod m (TEnum n ms)) = false) /\
  enumerate nosub (TNode KTuple [] (unnamed [TMod m (TEnum n ms)])) = Raise ETypeError.
Proof. exact C42_modified_refuted_pf. Qed.
Print Assumptions C42_modified_refuted.
(** A Tuple or Product of bits and bit-vectors enumerates the single value with 0 in every field. *)
Theorem C42_tuple_of_vectors : forall H k u fs, tuple_like k -> (forall f, In f fs -> plain_leaf (snd f) = true) ->
  enumerate H (TNode k u fs) = Ok [VTup (TNode k u fs) true (map (fun f => VAtom (snd f) 0) fs)].
Proof. exact C42_tuple_of_vectors_pf. Qed.
Print Assumptions C42_tuple_of_vectors.
(** A Sum or TaggedUnion with such a field, the others being built from Enums, cannot be enumerated. *)
Theorem C42_union_of_vectors : forall H k u fs, k = KSum \/ (exists n x, k = KTag n x) ->
  (forall f, In f fs -> plain_leaf (snd f) = true \/ (twf (snd f) /\ enum_based (snd f) = true)) ->
  (exists f, In f fs /\ plain_leaf (snd f) = true) ->
  enumerate H (TNode k u fs) = Raise ETypeError.
Proof. exact C42_union_of_vectors_pf. Qed.
Print Assumptions C42_union_of_vectors.
Example C42_vectors_ex :
  enumerate nosub (TNode KTuple [] (unnamed [bit; bv4; TMod 2 bv4])) = Ok [VTup (TNode KTuple [] (unnamed [bit; bv4; TMod 2 bv4])) true [VAtom bit 0; VAtom bv4 0; VAtom (TMod 2 bv4) 0]] /\
  enumerate nosub (TNode KSum [] (unnamed [col; bv4])) = Raise ETypeError /\ enumerate nosub (TNode (KTag "U" 0) [] [("a"%string, col); ("b"%string, bit)]) = Raise ETypeError.
Proof. vm_compute; auto. Qed.
Definition nest : ty := TMod 3 (TNode (KTag "U" 0) [] [("p"%string, TNode KTuple [] (unnamed [col; col])); ("s"%string, TNode KSum [] (unnamed (type_set [col; TNode KTuple [] (unnamed [col])])))]).
Example C42_ex : twf nest /\ enum_based nest = true /\ cardinal nest = 8%nat.
Proof.
  assert (Wc : twf col). { constructor; [|discriminate|repeat constructor]. constructor; [|repeat constructor; auto]. intros [Q|[]]. discriminate. }
  split; [|split; vm_compute; reflexivity]. constructor. constructor.
  - split; [|split; [discriminate|repeat constructor]]. constructor; [|repeat constructor; auto]. intros [Q|[]]. discriminate.
  - assert (Tu : forall l, Forall twf l -> twf (TNode KTuple [] (unnamed l))).
    { intros l F. constructor; apply Forall_forall; intros f Hf; unfold unnamed in Hf; apply in_map_iff in Hf as (u & <- & Hu); auto. rewrite Forall_forall in F. now apply F. }
    constructor; [apply Tu; auto|]. constructor; auto. constructor.
    + split. { apply Forall_forall. intros f Hf. unfold unnamed in Hf. apply in_map_iff in Hf as (u & <- & Hu). reflexivity. } rewrite types_unnamed. apply type_set_sorted.
    + apply Forall_forall. intros f Hf. unfold unnamed in Hf. apply in_map_iff in Hf as (u & <- & Hu). apply type_set_In in Hu. cbn [snd]. destruct Hu as [<-|[<-|[]]]; auto.
Qed.

(** * C43: matching a Sum *)
(** s[T] for an alternative T: match tells whether the value is an instance of T; value returns it if so, and raises
    TypeError otherwise. Other types raise TypeError. *)
Theorem C43_match : forall (X : Type) H (typ : X -> ty) t fs x u, node_of t = Some (KSum, fs) ->
  (In u (types fs) -> exists b, sum_get H typ t (SSum x) u = Ok (b, x) /\ (b = true <-> sub H (typ x) u = true) /\
    match_value (b, x) = if b then Ok x else Raise ETypeError) /\
  (~ In u (types fs) -> sum_get H typ t (SSum x) u = Raise ETypeError).
Proof. exact C43_match_pf. Qed.
Print Assumptions C43_match.
(** When no alternative is a subclass of another, a Sum built by its constructor matches exactly the class of its value. *)
Theorem C43_one_partial : forall H t fs v u, node_of t = Some (KSum, fs) -> vcall H t [v] [] = Ok (VSum t v) ->
  (forall f g, In f fs -> In g fs -> sub H (snd f) (snd g) = true -> snd f = snd g) -> In u (types fs) ->
  (sum_get H vtype t (SSum v) u = Ok (true, v) <-> u = vtype v).
Proof. exact C43_one_partial_pf. Qed.
Print Assumptions C43_one_partial.
(** Missing: a Product value matches its own class and the Tuple class above it. *)
Theorem C43_refuted : exists t v, vcall nosub t [v] [] = Ok (VSum t v) /\
  exists u w, u <> w /\ sum_get nosub vtype t (SSum v) u = Ok (true, v) /\ sum_get nosub vtype t (SSum v) w = Ok (true, v).
Proof. exact C43_refuted_pf. Qed.
Print Assumptions C43_refuted.
Example C43_ex : vcall nosub sum_cb [VAtom bit 1] [] = Ok (VSum sum_cb (VAtom bit 1)) /\
  sum_get nosub vtype sum_cb (SSum (VAtom bit 1)) col = Ok (false, VAtom bit 1) /\
  forall f g, In f (unnamed (type_set [col; bit])) -> In g (unnamed (type_set [col; bit])) -> sub nosub (snd f) (snd g) = true -> snd f = snd g.
Proof.
  split; [vm_compute; reflexivity|]. split; [vm_compute; reflexivity|]. intros f g. cbn. intros [<-|[<-|[]]] [<-|[<-|[]]]; auto; vm_compute; discriminate.
Qed.

(** * C44: tagged unions *)
(** Object r is a TaggedUnion at some point of a history; after any further history l (slices included) exactly one field
    matches: the one last assigned successfully, with the value assigned, or the one that matched before. *)
Theorem C44_last_assigned : forall H l0 l r t n x fs s, let h := run H [] l0 in
  nth_error h r = Some (ONode t s) -> node_of t = Some (KTag n x, fs) -> twf t ->
  exists s' m v, nth_error (run H h l) r = Some (ONode t s') /\ In m (names fs) /\
    (forall m', In m' (names fs) -> tag_get t s' m' = Ok (String.eqb m' m, v)) /\
    match last_set H h l r with
    | Some p => p = (m, v)
    | None => forall m', tag_get t s' m' = tag_get t s m'
    end.
Proof. exact C44_last_assigned_pf. Qed.
Print Assumptions C44_last_assigned.
(** The constructor T(m=v) makes field m match. *)
Theorem C44_constructed : forall (X : Type) H (typ : X -> ty) t n x fs m v s, node_of t = Some (KTag n x, fs) -> twf t ->
  call H typ t [] [(m, v)] = Ok s -> forall m', In m' (names fs) -> tag_get t s m' = Ok (String.eqb m' m, v).
Proof. exact C44_constructed_pf. Qed.
Print Assumptions C44_constructed.
(** Fields a and b share a type; assigning b and then failing to assign c. *)
Example C44_ex : let h := run nosub [] [OpAtom bv4 5; OpAtom bv4 6; OpCall tagged [] [("a"%string, 0%nat)]] in
  let l := [OpSetAttr 2 "b" 1; OpSetAttr 2 "c" 0] in
  nth_error h 2 = Some (ONode tagged (STag 0 0%nat)) /\ last_set nosub h l 2 = Some ("b"%string, 1%nat) /\
  nth_error (run nosub h l) 2 = Some (ONode tagged (STag 1 1%nat)) /\ twf tagged.
Proof.
  cbn zeta. do 3 (split; [vm_compute; reflexivity|]). constructor.
  - cbn. split; [|split; [discriminate|repeat constructor]]. repeat (constructor; [cbn; intuition discriminate|]). constructor.
  - repeat constructor; try discriminate. + cbn. intuition discriminate. + auto.
Qed.

(** * C45: equality *)
(** L is == on objects that are no ADT instances. *)
Theorem C45_reflexive : forall H L, leaf_refl L -> forall a, py_eq H L a a = Ok true.
Proof. exact C45_reflexive_pf. Qed.
Print Assumptions C45_reflexive.
(** a == b and b == a give the same result or raise the same exception. *)
Theorem C45_symmetric : forall H L, leaf_sym L -> forall a b, py_eq H L a b = py_eq H L b a.
Proof. exact C45_symmetric_pf. Qed.
Print Assumptions C45_symmetric.
(** Transitivity on the values of one type, when different alternatives of a Sum are unrelated. *)
Theorem C45_transitive_partial : forall H L, leaf_trans L -> forall t a b c, flat H L t -> exact t a -> exact t b -> exact t c ->
  py_eq H L a b = Ok true -> py_eq H L b c = Ok true -> py_eq H L a c = Ok true.
Proof. exact C45_transitive_partial_pf. Qed.
Print Assumptions C45_transitive_partial.
(** Missing: values of different types. A Product instance equals a Tuple instance with the same components, two different
    Products with the same field types are different. *)
Theorem C45_transitive_refuted : forall L, leaf_refl L -> exists a b c, vok nosub a /\ vok nosub b /\ vok nosub c /\
  py_eq nosub L a b = Ok true /\ py_eq nosub L b c = Ok true /\ py_eq nosub L a c = Ok false.
Proof. exact C45_transitive_refuted_pf. Qed.
Print Assumptions C45_transitive_refuted.
(** Equal values of one type have the same hash or are both unhashable. *)
Theorem C45_hash_partial : forall H L K, leaf_hash L K -> leaf_sym L -> forall t a b, flat H L t -> exact t a -> exact t b ->
  py_eq H L a b = Ok true -> py_hash K a = py_hash K b.
Proof. exact C45_hash_partial_pf. Qed.
Print Assumptions C45_hash_partial.
(** Missing: a Sum instance equals a TaggedUnion instance with the same value, and their hashes differ (the tag is added). *)
Theorem C45_hash_refuted : forall L K, leaf_refl L -> h_int K 1 = 1 -> (forall z, h_int K (h_int K z) = h_int K z) -> forall z, h_atom K bv4 5 = Ok z -> h_int K z <> h_int K (1 + z) ->
  exists a b p q, vok nosub a /\ vok nosub b /\ py_eq nosub L a b = Ok true /\ py_hash K a = Ok p /\ py_hash K b = Ok q /\ p <> q.
Proof. exact C45_hash_refuted_pf. Qed.
Print Assumptions C45_hash_refuted.
(** Bit-vectors of equal size compare by value, other sizes raise; Bits and None: the laws hold and the type of Colors or
    Bits is flat. *)
Definition L_ex (t : ty) (x : Z) (u : ty) (y : Z) : res bool :=
  match t, u with
  | TLeaf (LVec _ _ (Some n)), TLeaf (LVec _ _ (Some m)) => if n =? m then Ok (x =? y) else Raise EInconsistentSize
  | _, _ => Ok (ty_eqb t u && (x =? y))
  end.
Definition K_ex : hashing := {| h_atom := fun _ x => Ok x; h_auto := fun z => z; h_int := fun z => z; h_tuple := fun l => fold_right (fun a b => 31 * b + a) 7 l |}.
Example C45_ex : leaf_refl L_ex /\ leaf_sym L_ex /\ leaf_trans L_ex /\ leaf_hash L_ex K_ex /\ flat nosub L_ex sum_cb /\
  exact sum_cb (VSum sum_cb (VAtom bit 1)) /\ py_eq nosub L_ex (VSum sum_cb (VAtom bit 1)) (VSum sum_cb (VAtom bit 1)) = Ok true /\
  py_eq nosub L_ex (VSum sum_48 (VAtom bv4 1)) (VSum sum_48 (VAtom bv8 1)) = Raise EInconsistentSize /\
  py_hash K_ex (VSum sum_cb (VAtom col 1)) = Ok 0 /\ h_int K_ex 5 <> h_int K_ex (1 + 5).
Proof.
  split; [|split; [|split; [|split; [|split; [|split; [|split; [|split; [|split]]]]]]]].
  - intros t x. unfold L_ex. destruct t as [[f k [n|]| | | | |]| | |]; rewrite ?ty_eqb_refl, ?Z.eqb_refl; reflexivity.
  - intros t x u y. unfold L_ex. destruct t as [[f k [n|]| | | | |]| | |], u as [[g j [q|]| | | | |]| | |]; try (rewrite ty_eqb_sym, (Z.eqb_sym x); reflexivity); try (rewrite (Z.eqb_sym x); reflexivity).
    rewrite (Z.eqb_sym n), (Z.eqb_sym x). reflexivity.
  - intros t x y z. unfold L_ex. destruct t as [[f k [n|]| | | | |]| | |]; rewrite ?ty_eqb_refl, ?Z.eqb_refl; cbn [andb]; intros A B; injection A as A; injection B as B; apply Z.eqb_eq in A, B; f_equal; apply Z.eqb_eq; congruence.
  - intros t x y. unfold L_ex. destruct t as [[f k [n|]| | | | |]| | |]; rewrite ?ty_eqb_refl, ?Z.eqb_refl; cbn [andb]; intros A; injection A as A; apply Z.eqb_eq in A; now subst.
  - eapply flat_node; [reflexivity| |].
    + intros _ f g. cbn. intros [<-|[<-|[]]] [<-|[<-|[]]] Nq; try congruence; split; try (vm_compute; reflexivity); intros x y; cbn; discriminate.
    + cbn. repeat constructor.
  - eapply ex_sum; [reflexivity|left; reflexivity|]. constructor. reflexivity.
  - vm_compute. reflexivity.
  - vm_compute. reflexivity.
  - vm_compute. reflexivity.
  - discriminate.
Qed.
