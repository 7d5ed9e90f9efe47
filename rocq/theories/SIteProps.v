(** SMTBit.ite and the operators of symbolic polymorphic values (C65). *)
From Coq Require Import Lia ZifyBool.
From Verif Require Import PyBase BVModel BVSpec BVFacts OpModel OpSpec IteModel IteSpec IteFacts IteProofs.
From Verif Require Import SMTTerm SMTModel SMTSpec SMTFacts SMTOps SMTInfix SMTProofs SIteModel SIteSpec SIteFacts.
From Verif Require Import SIteProofs.


(** * C65: SMTBit.ite *)
(** c.ite(t, f) on tuples of vectors and bits, nested to any depth: when the branches are compatible it succeeds, and
    under every assignment each leaf of the result has the size and value of the leaf c selects; the result stands for
    what Bit.ite returns on the branches' values. *)
Theorem C65_ite : forall S, faithful S -> forall tab id sel t f e0,
  bwf sel = true -> sbranch_ok t -> sbranch_ok f -> no_proto t ->
  compatible (branch_meaning e0 t) (branch_meaning e0 f) ->
  exists r id', s_ite S tab id sel t f = Ok (r, id') /\ sbranch_ok r /\
    forall e ct, carries ct (branch_meaning e (if evalb e sel then t else f)) (branch_meaning e r) /\
      ite ct id (evalb e sel) (branch_meaning e t) (branch_meaning e f) = Ok (branch_meaning e r, id').
Proof. exact C65_ite_pf. Qed.
Print Assumptions C65_ite.
(** Incompatible branches raise what Bit.ite raises on them: TypeError or InconsistentSizeError. *)
Theorem C65_ite_incompatible : forall S, faithful S -> forall tab id sel t f e0,
  bwf sel = true -> sbranch_ok t -> sbranch_ok f -> no_proto t ->
  ~ compatible (branch_meaning e0 t) (branch_meaning e0 f) ->
  exists err, s_ite S tab id sel t f = Raise err /\ (err = ETypeError \/ err = EInconsistentSize).
Proof. exact C65_ite_incompatible_pf. Qed.
Print Assumptions C65_ite_incompatible.
(** Protocol objects: _from_bitvector_ receives a vector of _bitvector_t_ that evaluates to the selected
    _to_bitvector_ under every assignment. *)
Theorem C65_protocol : forall S, faithful S -> forall (tab : sptypes) id sel i p q, bwf sel = true ->
  (forall z, swf (sp_to (tab i) z) /\ csize (scls (sp_to (tab i) z)) = csize (sp_cls (tab i))) ->
  exists b, scls b = sp_cls (tab i) /\ swf b /\
    s_ite S tab id sel (SBrProto i p) (SBrProto i q) =
      match sp_from (tab i) b with Ok z => Ok (SBrProto i z, id) | Raise err => Raise err end /\
    forall e, evalv e (sterm b) = evalv e (sterm (sp_to (tab i) (if evalb e sel then p else q))).
Proof. exact C65_protocol_pf. Qed.
Print Assumptions C65_protocol.
Theorem C65_protocol_mismatch : forall S tab id sel i j p q, i <> j ->
  s_ite S tab id sel (SBrProto i p) (SBrProto j q) = Raise ETypeError.
Proof. exact C65_protocol_mismatch_pf. Qed.
Print Assumptions C65_protocol_mismatch.

(** (SMTBitVector[4] x, p) against (SMTSIntVector[4] y, q): the second component selected, the first polymorphic. *)
Example C65_ite_ex :
  let t := SBrTuple [SBrVec (SPObj (SPBase KBV) 4 (VVar "x" 4)); SBrBit (BVar "p")] in
  let f := SBrTuple [SBrVec (SPObj (SPBase KSInt) 4 (VVar "y" 4)); SBrBit (BVar "q")] in
  bwf (BVar "q") = true /\ sbranch_ok t /\ sbranch_ok f /\ no_proto t /\
  compatible (branch_meaning env0 t) (branch_meaning env0 f) /\
  exists r, s_ite no_simp s_no_protocols 7 (BVar "q") t f = Ok (r, 8%nat) /\
    branch_meaning env0 r = BrTuple [BrVec (PObj (PPoly 7 (PBase KBV) (PBase KSInt) false) 4 6); BrBit false].
Proof.
  cbv zeta. split; [reflexivity|]. split; [cbn; unfold obj_ok, swf; cbn; lia|]. split; [cbn; unfold obj_ok, swf; cbn; lia|].
  split; [cbn; auto|]. split; [repeat constructor|]. eexists. split; [reflexivity|]. vm_compute. reflexivity.
Qed.
Example C65_protocol_ex :
  let tab : sptypes := fun _ => SProto (BVC KBV 4) (fun b => Ok (if width (sterm b) =? 4 then 1 else 0)) (fun z => SV (BVC KBV 4) (VConst (z mod 16) 4)) in
  s_ite no_simp tab 0 (BVar "p") (SBrProto 2%nat 5) (SBrProto 2%nat 9) = Ok (SBrProto 2%nat 1, 0%nat) /\
  swf (sp_to (tab 2%nat) 5).
Proof. cbv zeta. split; [reflexivity|unfold swf; cbn; lia]. Qed.

(** * C65: operators. x is a symbolic vector of any class, in particular polymorphic to any depth. *)
(** For a right operand that is not a vector, x op v evaluates, under every assignment e, to what the operator of the
    class selected under e gives on the same value. *)
Theorem C65_operators : forall S, faithful S -> forall op id x v, obj_ok x -> arg_ok x (SAOther v) ->
  exists r id', sp_binop S op id x (SAOther v) = Ok (SPVec r, id') /\ obj_ok r /\ spn r = spn x /\
    forall e, let k := selected_kind (cls_meaning e (spc x)) in
      exists r', s_binop S op (SVec (SV (BVC k (spn x)) (spt x))) v = Ok (SVec r') /\
        evalv e (spt r) = evalv e (sterm r').
Proof. exact C65_operators_pf. Qed.
Print Assumptions C65_operators.
(** The same as an integer formula: the operator of the selected class applied to the values, for every operator except
    a // or % that may run the signed division (there C31 says which quotient is meant). *)
Theorem C65_operator_values : forall S, faithful S -> forall op id x v, obj_ok x -> arg_ok x (SAOther v) ->
  may_divide_signed op (spc x) = false ->
  exists r id', sp_binop S op id x (SAOther v) = Ok (SPVec r, id') /\ spn r = spn x /\
    forall e u, converts (spn x) (vmeaning e v) u ->
      evalv e (spt r) = op_value op (is_signed (selected_kind (cls_meaning e (spc x)))) (spn x) (evalv e (spt x)) u.
Proof. exact C65_operator_values_pf. Qed.
Print Assumptions C65_operator_values.
Theorem C65_comparisons : forall S, faithful S -> forall c id x v, obj_ok x -> arg_ok x (SAOther v) ->
  exists r id', sp_compare S c id x (SAOther v) = Ok (SPBit r, id') /\ bwf r = true /\
    forall e u, converts (spn x) (vmeaning e v) u ->
      evalb e r = cmp_value c (is_signed (selected_kind (cls_meaning e (spc x)))) (spn x) (evalv e (spt x)) u.
Proof. exact C65_comparisons_pf. Qed.
Print Assumptions C65_comparisons.
(** With a vector on the right the operators follow the concrete polymorphic operators of property C24 on the values,
    and with them the cases C24 refutes. Missing: // and % that may run the signed division. *)
Theorem C65_vector_operand_partial : forall S, faithful S -> forall op id x y, obj_ok x -> obj_ok y -> spn y = spn x ->
  may_divide_signed op (spc x) = false -> may_divide_signed op (spc y) = false ->
  exists r id', sp_binop S op id x (SAVec y) = Ok (SPVec r, id') /\ obj_ok r /\ spn r = spn x /\
    forall e, p_binop op id (obj_meaning e x) (AVec (obj_meaning e y)) = Ok (PVec (obj_meaning e r), id').
Proof. exact C65_vector_operand_partial_pf. Qed.
Print Assumptions C65_vector_operand_partial.
Theorem C65_vector_comparisons : forall S, faithful S -> forall c id x y, obj_ok x -> obj_ok y -> spn y = spn x ->
  exists r id', sp_compare S c id x (SAVec y) = Ok (SPBit r, id') /\ bwf r = true /\
    forall e, p_compare c id (obj_meaning e x) (AVec (obj_meaning e y)) = Ok (PBit (evalb e r), id').
Proof. exact C65_vector_comparisons_pf. Qed.
Print Assumptions C65_vector_comparisons.
(** An object on the right that no vector can be made of raises TypeError, and a vector of another size
    InconsistentSizeError, for every class of x; comparisons reject the size in the same way. *)
Theorem C65_rejected : forall S id x,
  (forall op w, sp_binop S op id x (SAOther (SOther None w)) = Raise ETypeError) /\
  (forall y, spn y <> spn x ->
     (forall op, sp_binop S op id x (SAVec y) = Raise EInconsistentSize) /\
     (forall c, sp_compare S c id x (SAVec y) = Raise EInconsistentSize)).
Proof. exact C65_rejected_pf. Qed.
Print Assumptions C65_rejected.
Example C65_rejected_ex :
  let c := SPPoly 1 (SPBase KBV) (SPPoly 0 (SPBase KSInt) (SPBase KUInt) (BVar "p")) (BVar "q") in
  sp_binop no_simp OShr 2 (SPObj c 4 (VVar "x" 4)) (SAOther (SOther None None)) = Raise ETypeError /\
  sp_binop no_simp OShr 2 (SPObj c 4 (VVar "x" 4)) (SAVec (SPObj (SPBase KSInt) 5 (VVar "y" 5))) = Raise EInconsistentSize.
Proof. split; reflexivity. Qed.
(** False for vectors on the right in general: with v = p.ite(x, SMTUIntVector y), v >> s for an SMTSIntVector s is
    unsigned although x >> s is signed. *)
Theorem C65_mixed_right_refuted : exists x y s v r r',
  s_ite no_simp s_no_protocols 0 (BVar "p") (SBrVec x) (SBrVec y) = Ok (SBrVec v, 1%nat) /\ evalb env0 (BVar "p") = true /\
  sp_binop no_simp OShr 1 v (SAVec s) = Ok (SPVec r, 1%nat) /\ sp_binop no_simp OShr 1 x (SAVec s) = Ok (SPVec r', 1%nat) /\
  evalv env0 (spt r) = 5 /\ evalv env0 (spt r') = 13.
Proof. exact C65_mixed_right_refuted_pf. Qed.
Print Assumptions C65_mixed_right_refuted.
(** v = q.ite(SMTBitVector x, p.ite(SMTSIntVector x, SMTUIntVector x)) >> 1 under env0 (p true, q false, x = 11). *)
Example C65_operators_ex :
  let c := SPPoly 1 (SPBase KBV) (SPPoly 0 (SPBase KSInt) (SPBase KUInt) (BVar "p")) (BVar "q") in
  let x := SPObj c 4 (VVar "x" 4) in
  obj_ok x /\ arg_ok x (SAOther (SInt 1)) /\ may_divide_signed OShr c = false /\ converts 4 (vmeaning env0 (SInt 1)) (1 mod 2 ^ 4) /\
  selected_kind (cls_meaning env0 c) = KSInt /\
  exists r id', sp_binop no_simp OShr 2 x (SAOther (SInt 1)) = Ok (SPVec r, id') /\ evalv env0 (spt r) = 13 /\
  exists b, sp_compare no_simp CLt 2 x (SAOther (SInt 1)) = Ok (SPBit b, 2%nat) /\ evalb env0 b = true.
Proof.
  cbv zeta. split; [unfold obj_ok, swf; cbn; lia|]. split; [split; [split; [constructor|exact I]|discriminate]|].
  split; [reflexivity|]. split; [exact (Cv_int 4 1)|]. split; [reflexivity|].
  do 2 eexists. split; [vm_compute; reflexivity|]. split; [vm_compute; reflexivity|].
  eexists. split; [vm_compute; reflexivity|]. vm_compute; reflexivity.
Qed.
