(** Bit.ite: componentwise selection (C23), polymorphic results (C24), the bit-vector protocol (C25). *)
From Coq Require Import Lia ZifyBool.
From Verif Require Import PyBase BVModel BVSpec BVFacts BVPropFacts OpModel OpSpec OpFacts OpProofs IteModel IteSpec IteFacts.
From Verif Require Import IteProofs.


(** * C23: ite selects componentwise *)
(** Same shape and same classes: the result is exactly the selected branch (and no class is created). *)
Theorem C23_same_types : forall tab id c t f, branch_ok t -> branch_ok f -> total_protocols tab -> same_type t f ->
  ite tab id c t f = Ok (if c then t else f, id).
Proof. exact C23_same_types_pf. Qed.
Print Assumptions C23_same_types.
(** Same shape, equal sizes, any classes: same shape, and equal leaves. *)
Theorem C23_compatible : forall tab id c t f, branch_ok t -> branch_ok f -> total_protocols tab -> compatible t f ->
  exists r id', ite tab id c t f = Ok (r, id') /\ carries tab (if c then t else f) r.
Proof. exact C23_compatible_pf. Qed.
Print Assumptions C23_compatible.
(** Anything else raises TypeError (InconsistentSizeError is one). *)
Theorem C23_incompatible : forall tab id c t f, ~ compatible t f ->
  exists e, ite tab id c t f = Raise e /\ (e = ETypeError \/ e = EInconsistentSize).
Proof. exact C23_incompatible_pf. Qed.
Print Assumptions C23_incompatible.
Definition demo_tab : ptypes := fun _ => Proto (BVC KBV 4) (fun b => Ok (bval b)) (fun z => BV (BVC KBV 4) (z mod 16)).
Example C23_ex :
  let x k v := BrVec (PObj (PBase k) 4 v) in
  ite demo_tab 0 false (BrTuple [x KBV 1; BrTuple [BrBit true; x KSInt 2]])
    (BrTuple [x KBV 3; BrTuple [BrBit false; x KSInt 4]]) =
    Ok (BrTuple [x KBV 3; BrTuple [BrBit false; x KSInt 4]], 0%nat) /\
  same_type (BrTuple [x KBV 1; BrTuple [BrBit true; x KSInt 2]]) (BrTuple [x KBV 3; BrTuple [BrBit false; x KSInt 4]]) /\
  total_protocols demo_tab /\
  ite demo_tab 0 true (BrTuple [x KBV 1]) (x KBV 1) = Raise ETypeError.
Proof.
  cbv zeta. split; [reflexivity|]. split; [repeat constructor|]. split; [|reflexivity].
  intros i. split; [cbn; lia|]. intros b. eexists; reflexivity.
Qed.

(** * C25: protocol objects *)
(** c.ite(p, q) is _from_bitvector_ of the selected _to_bitvector_ read back in _bitvector_t_. *)
Theorem C25_protocol : forall (tab : ptypes) id (c : bool) i p q, 0 <= csize (p_cls (tab i)) ->
  ite tab id c (BrProto i p) (BrProto i q) =
  match p_from (tab i) (BV (p_cls (tab i)) (bval (p_to (tab i) (if c then p else q)) mod 2 ^ csize (p_cls (tab i)))) with
  | Ok z => Ok (BrProto i z, id)
  | Raise e => Raise e
  end.
Proof. exact C25_protocol_pf. Qed.
Print Assumptions C25_protocol.
(** When _to_bitvector_ returns an object of _bitvector_t_, nothing is lost on the way. *)
Theorem C25_exact : forall (tab : ptypes) id (c : bool) i p q,
  wf (p_to (tab i) (if c then p else q)) -> bcls (p_to (tab i) (if c then p else q)) = p_cls (tab i) ->
  ite tab id c (BrProto i p) (BrProto i q) =
  match p_from (tab i) (p_to (tab i) (if c then p else q)) with
  | Ok z => Ok (BrProto i z, id)
  | Raise e => Raise e
  end.
Proof. exact C25_exact_pf. Qed.
Print Assumptions C25_exact.
(** A pair of round-tripping conversions makes ite return a value equal to the selected one. *)
Theorem C25_round_trip : forall (tab : ptypes) id (c : bool) i p q,
  (forall z, wf (p_to (tab i) z) /\ bcls (p_to (tab i) z) = p_cls (tab i) /\ p_from (tab i) (p_to (tab i) z) = Ok z) ->
  ite tab id c (BrProto i p) (BrProto i q) = Ok (BrProto i (if c then p else q), id).
Proof. exact C25_round_trip_pf. Qed.
Print Assumptions C25_round_trip.
Theorem C25_type_mismatch : forall (tab : ptypes) id c i j p q, i <> j ->
  ite tab id c (BrProto i p) (BrProto j q) = Raise ETypeError.
Proof. exact C25_type_mismatch_pf. Qed.
Print Assumptions C25_type_mismatch.
Example C25_ex : ite demo_tab 0 false (BrProto 3%nat 1) (BrProto 3%nat 9) = Ok (BrProto 3%nat 9, 0%nat) /\
  0 <= csize (p_cls (demo_tab 3%nat)).
Proof. split; [reflexivity|cbn; lia]. Qed.

(** * C24: operators on a polymorphic value. a and b are any two vectors reachable by constructing vectors and
    applying ite and operators (so their own classes may be polymorphic, nested to any depth), v = c.ite(a, b).
    Full claim: every operator on v computes what it computes on the selected one. *)
(** Right operand any Python value that is not a vector: proved for every operator. *)
Theorem C24_operators : forall h tab c i j a b v id' op w u n,
  nth_error (objs (hrun h)) i = Some a -> nth_error (objs (hrun h)) j = Some b ->
  ite tab (next_id (hrun h)) c (BrVec a) (BrVec b) = Ok (BrVec v, id') ->
  1 <= pn a -> plain_operand w -> converts (pn a) w u ->
  let s := if c then a else b in
  exists r r', p_binop op n v (AOther w) = Ok (PVec r, n) /\ p_binop op n s (AOther w) = Ok (PVec r', n) /\
    pn r = pn a /\ pn r' = pn a /\ pv r = pv r' /\
    pv r = op_value op (is_signed (selected_kind (pc s))) (pn s) (pv s) u.
Proof. exact C24_operators_pf. Qed.
Print Assumptions C24_operators.
Theorem C24_comparisons : forall h tab c i j a b v id' op w u n,
  nth_error (objs (hrun h)) i = Some a -> nth_error (objs (hrun h)) j = Some b ->
  ite tab (next_id (hrun h)) c (BrVec a) (BrVec b) = Ok (BrVec v, id') ->
  1 <= pn a -> plain_operand w -> converts (pn a) w u ->
  let s := if c then a else b in
  p_compare op n v (AOther w) = p_compare op n s (AOther w) /\
  p_compare op n v (AOther w) = Ok (PBit (cmp_value op (is_signed (selected_kind (pc s))) (pn s) (pv s) u), n).
Proof. exact C24_comparisons_pf. Qed.
Print Assumptions C24_comparisons.
Theorem C24_unsupported : forall h tab c i j a b v id' op w n,
  nth_error (objs (hrun h)) i = Some a -> nth_error (objs (hrun h)) j = Some b ->
  ite tab (next_id (hrun h)) c (BrVec a) (BrVec b) = Ok (BrVec v, id') -> unsupported w ->
  p_binop op n v (AOther w) = Raise ETypeError /\ p_binop op n (if c then a else b) (AOther w) = Raise ETypeError.
Proof. exact C24_unsupported_pf. Qed.
Print Assumptions C24_unsupported.

(** Right operand a vector y: the left class decides, provided y's class is not below the selected operand's. *)

Theorem C24_vector_operand_partial : forall h tab c i j k a b y v id' op n,
  nth_error (objs (hrun h)) i = Some a -> nth_error (objs (hrun h)) j = Some b ->
  nth_error (objs (hrun h)) k = Some y ->
  ite tab (next_id (hrun h)) c (BrVec a) (BrVec b) = Ok (BrVec v, id') ->
  1 <= pn a -> pn y = pn a ->
  let s := if c then a else b in
  same_cls s y = true \/ sub_cls y s = false ->
  exists r r', p_binop op n v (AVec y) = Ok (PVec r, n) /\ p_binop op n s (AVec y) = Ok (PVec r', n) /\
    pv r = pv r' /\ pv r = op_value op (is_signed (selected_kind (pc s))) (pn s) (pv s) (pv y).
Proof. exact C24_vector_operand_partial_pf. Qed.
Print Assumptions C24_vector_operand_partial.

(** The polymorphic model agrees with OpModel.py_binop on the built-in classes. *)
Theorem C24_builtin_agree : forall op id k l n a b, 1 <= n -> 0 <= a < 2 ^ n -> 0 <= b < 2 ^ n ->
  p_binop op id (PObj (PBase k) n a) (AVec (PObj (PBase l) n b)) =
    Ok (PVec (PObj (PBase k) n (op_value op (signed_pair k l) n a b)), id) /\
  py_binop_val op (VBV (BV (BVC k n) a)) (VBV (BV (BVC l n) b)) =
    Ok (VBV (BV (BVC k n) (op_value op (signed_pair k l) n a b))).
Proof. exact C24_builtin_agree_pf. Qed.
Print Assumptions C24_builtin_agree.

(** Not true in general: int(v) reads the common base's __int__, so a selected SIntVector loses its sign. *)
Theorem C24_int_refuted : exists h tab c a b v id',
  nth_error (objs (hrun h)) 0 = Some a /\ nth_error (objs (hrun h)) 1 = Some b /\
  ite tab (next_id (hrun h)) c (BrVec a) (BrVec b) = Ok (BrVec v, id') /\
  p_int v = Ok 15 /\ p_int (if c then a else b) = Ok (-1).
Proof. exact C24_int_refuted_pf. Qed.
Print Assumptions C24_int_refuted.
(** Nor as a right operand: with v = Bit(1).ite(BitVector[4](1), SIntVector[4](0)), BitVector[4](8) >> v computes
    v >> 8 = 0 where BitVector[4](8) >> BitVector[4](1) is 4. *)
Theorem C24_right_shift_refuted : exists h tab c x a b v id' r r',
  nth_error (objs (hrun h)) 0 = Some a /\ nth_error (objs (hrun h)) 1 = Some b /\
  nth_error (objs (hrun h)) 2 = Some x /\
  ite tab (next_id (hrun h)) c (BrVec a) (BrVec b) = Ok (BrVec v, id') /\
  p_binop OShr id' x (AVec v) = Ok (PVec r, S id') /\
  p_binop OShr id' x (AVec (if c then a else b)) = Ok (PVec r', id') /\
  pv r = 0 /\ pv r' = 4.
Proof. exact C24_right_shift_refuted_pf. Qed.
Print Assumptions C24_right_shift_refuted.
(** Nor with a right operand of a class below the selected one: BitVector[4](8) >> SIntVector[4](1) is signed (12)
    but the same shift of Bit(1).ite(BitVector[4](8), UIntVector[4](0)) is unsigned (4). *)
Theorem C24_mixed_right_refuted : exists h tab c y a b v id' r r',
  nth_error (objs (hrun h)) 0 = Some a /\ nth_error (objs (hrun h)) 1 = Some b /\
  nth_error (objs (hrun h)) 2 = Some y /\
  ite tab (next_id (hrun h)) c (BrVec a) (BrVec b) = Ok (BrVec v, id') /\
  p_binop OShr id' v (AVec y) = Ok (PVec r, id') /\ p_binop OShr id' (if c then a else b) (AVec y) = Ok (PVec r', id') /\
  pv r = 4 /\ pv r' = 12.
Proof. exact C24_mixed_right_refuted_pf. Qed.
Print Assumptions C24_mixed_right_refuted.
(** A nested polymorphic value: Bit(0).ite(BitVector, Bit(1).ite(SIntVector, UIntVector)), shifted by 1. *)
Example C24_ex :
  let h := [HNew KBV 4 3; HNew KSInt 4 (-8); HNew KUInt 4 5; HIte true 1 2; HIte false 0 3; HOp OShr 4 (VInt 1)] in
  nth_error (map pv (objs (hrun h))) 5 = Some 12 /\ next_id (hrun h) = 2%nat /\ converts 4 (VInt 1) 1.
Proof. cbv zeta. split; [|split]; [vm_compute; reflexivity|vm_compute; reflexivity|exact (Cv_int 4 1)]. Qed.
(** The side condition of C24_vector_operand_partial: an SIntVector selected over a BitVector, shifted by a BitVector. *)
Example C24_vector_ex :
  let a := PObj (PBase KBV) 4 3 in let b := PObj (PBase KSInt) 4 8 in
  nth_error (objs (hrun [HNew KBV 4 3; HNew KSInt 4 8])) 0 = Some a /\ sub_cls a b = false /\
  p_binop OShr 1 (PObj (PPoly 0 (PBase KBV) (PBase KSInt) false) 4 8) (AVec a) =
    Ok (PVec (PObj (PPoly 0 (PBase KBV) (PBase KSInt) false) 4 15), 1%nat) /\
  p_compare CLt 1 (PObj (PPoly 0 (PBase KBV) (PBase KSInt) false) 4 8) (AOther (VInt 3)) = Ok (PBit true, 1%nat).
Proof. vm_compute. auto. Qed.
