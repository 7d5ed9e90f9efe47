(** The z3 classes mean what the concrete bit-vectors compute, under every assignment (C38, and the z3 part of C33).
    z3.simplify, which every constructor runs, is any faithful simplifier. *)
From Coq Require Import Lia ZifyBool.
From Verif Require Import PyBase BVModel BVSpec BVFacts BVOps OpModel OpSpec OpFacts IteModel IteSpec SMTTerm SMTModel SMTSpec SMTFacts SMTOps SMTInfix SMTMore
  Z3Model Z3Spec Z3Facts BVProofs OpProofs IteProofs SMTProofs.
From Verif Require Import Z3Proofs.


(** * Named methods *)
Theorem C38_methods : forall S, faithful S -> forall m x v, swf x -> zaccepted (csize (scls x)) v ->
  exists r, z3_meth S m x v = Ok r /\ scls r = (match m with MComp => BVC (skind x) 1 | _ => scls x end) /\ swf r /\
    forall e, exists o, conc_meth m (meaning e x) (vmeaning e v) = Ok o /\ rv_val (meaning e x) o = meaning e r.
Proof. exact C38_methods_pf. Qed.
Print Assumptions C38_methods.
Example C38_methods_ex : let x := sx KUInt 8 in let y := sy KSInt 8 in
  swf x /\ zaccepted (csize (scls x)) (SVec y) /\ zaccepted (csize (scls x)) (SOther (Some (Ok 999)) None) /\
  exists r, z3_meth no_simp MUdiv x (SVec y) = Ok r /\ meaning env0 r = BV (BVC KUInt 8) 1.
Proof.
  cbv zeta. unfold zaccepted. repeat split; try (constructor; try constructor; repeat split; cbn; lia); cbn; try lia.
  eexists. split; [reflexivity|]. vm_compute. reflexivity.
Qed.
Theorem C38_comparisons : forall S, faithful S -> forall m x v, swf x -> zaccepted (csize (scls x)) v ->
  exists r, z3_rel S m x v = Ok r /\ bwf r = true /\
    forall e, conc_rel m (meaning e x) (vmeaning e v) = Ok (evalb e r).
Proof. exact C38_comparisons_pf. Qed.
Print Assumptions C38_comparisons.
Theorem C38_unary : forall S, faithful S -> forall x, swf x ->
  (exists r, z_bvnot S x = Ok r /\ scls r = scls x /\ swf r /\ forall e, bvnot (meaning e x) = meaning e r) /\
  (exists r, z_bvneg S x = Ok r /\ scls r = scls x /\ swf r /\ forall e, bvneg (meaning e x) = meaning e r).
Proof. exact C38_unary_pf. Qed.
Print Assumptions C38_unary.
Example C38_comparisons_ex :
  exists r, z3_rel no_simp RSgt (sx KBV 4) (SVec (sy KBV 4)) = Ok r /\ evalb env0 r = false /\
  exists r, z3_rel no_simp RUgt (sx KBV 4) (SVec (sy KBV 4)) = Ok r /\ evalb env0 r = true.
Proof. eexists. split; [reflexivity|]. split; [reflexivity|]. eexists. split; reflexivity. Qed.

(** Rotations, by any amount either family takes. *)
Theorem C38_rotate : forall S, faithful S -> forall x v, swf x -> zaccepted (csize (scls x)) v ->
  (exists r, z_bvrol S x v = Ok r /\ scls r = scls x /\ swf r /\
     forall e, bvrol (meaning e x) (vmeaning e v) = Ok (New (meaning e r))) /\
  (exists r, z_bvror S x v = Ok r /\ scls r = scls x /\ swf r /\
     forall e, bvror (meaning e x) (vmeaning e v) = Ok (New (meaning e r))).
Proof. exact C38_rotate_pf. Qed.
Print Assumptions C38_rotate.
Example C38_rotate_ex : exists r, z_bvrol no_simp (sx KBV 4) (SInt 7) = Ok r /\ bval (meaning env0 r) = 13.
Proof. eexists. split; [reflexivity|]. vm_compute. reflexivity. Qed.

(** The signed remainder rounds down in both families, and by zero both give the dividend. *)
Theorem C38_bvsrem : forall S, faithful S -> forall x v, swf x -> zaccepted (csize (scls x)) v ->
  exists r, z_bvsrem S x v = Ok r /\ scls r = scls x /\ swf r /\
    forall e, exists o, bvsrem (meaning e x) (vmeaning e v) = Ok o /\ rv_val (meaning e x) o = meaning e r.
Proof. exact C38_bvsrem_pf. Qed.
Print Assumptions C38_bvsrem.
(** The signed quotient truncates in z3 and rounds down concretely: equal exactly when the division is exact or the
    signs agree (by zero: dividend not negative, or width 1). *)
Theorem C38_bvsdiv_partial : forall S, faithful S -> forall x v, swf x -> zaccepted (csize (scls x)) v ->
  exists r, z_bvsdiv S x v = Ok r /\ scls r = scls x /\ swf r /\
    forall e b, coerce (scls x) (vmeaning e v) = Ok b ->
      let n := csize (scls x) in let sa := signed n (evalv e (sterm x)) in let sb := signed n (bval b) in
      (bvsdiv (meaning e x) (vmeaning e v) = Ok (New (meaning e r)) <->
       if bval b =? 0 then 0 <= sa \/ n = 1 else Z.rem sa sb = 0 \/ 0 <= sa * sb).
Proof. exact C38_bvsdiv_partial_pf. Qed.
Print Assumptions C38_bvsdiv_partial.
(** Missing: the other operands, where it is false. The quotient and remainder of z3 do not even fit together:
    -5 // 6 is 0 and -5 % 6 is 1. *)
Theorem C38_bvsdiv_refuted : exists x y r q, swf x /\ swf y /\
  z_bvsdiv no_simp x (SVec y) = Ok r /\ meaning env0 r = BV (BVC KSInt 4) 0 /\
  bvsdiv (meaning env0 x) (VBV (meaning env0 y)) = Ok (New (BV (BVC KSInt 4) 15)) /\
  z_bvsrem no_simp x (SVec y) = Ok q /\ meaning env0 q = BV (BVC KSInt 4) 1 /\
  bvsrem (meaning env0 x) (VBV (meaning env0 y)) = Ok (New (BV (BVC KSInt 4) 1)).
Proof. exact C38_bvsdiv_refuted_pf. Qed.
Print Assumptions C38_bvsdiv_refuted.

(** * Operators *)
(** A symbolic left operand. Left out: signed //, and a signed right operand of >>, //, % when the left operand has one
    of the two superclasses of the signed class. *)
Theorem C38_infix_partial : forall S, faithful S -> forall op x v, swf x -> zaccepted (csize (scls x)) v ->
  signed_floordiv op (skind x) = false ->
  (forall y, v = SVec y -> redefined op = true -> skind y = KSInt -> above_signed (skind x) = false) ->
  exists r, z_binop S op (SVec x) v = Ok (SVec r) /\ scls r = scls x /\ swf r /\
    forall e, py_binop_val op (VBV (meaning e x)) (vmeaning e v) = Ok (VBV (meaning e r)).
Proof. exact C38_infix_partial_pf. Qed.
Print Assumptions C38_infix_partial.
Example C38_infix_ex : let x := sx KSInt 4 in swf x /\ zaccepted (csize (scls x)) (SVec (sy KSInt 4)) /\
  above_signed (skind x) = false /\
  exists r, z_binop no_simp OMod (SVec x) (SVec (sy KSInt 4)) = Ok (SVec r) /\ bval (meaning env0 r) = 1.
Proof.
  cbv zeta. split; [unfold swf; cbn; lia|]. split; [split; [apply Z_same; constructor; unfold swf; cbn; lia|reflexivity]|].
  split; [reflexivity|]. eexists. split; [reflexivity|]. vm_compute. reflexivity.
Qed.
(** In the case left out the concrete operator calls the signed method of the right operand; z3 has no reflected methods. *)
Theorem C38_infix_refuted : exists x y r, swf x /\ swf y /\ csize (scls x) = csize (scls y) /\
  z_binop no_simp OShr (SVec x) (SVec y) = Ok (SVec r) /\ meaning env0 r = BV (BVC KBV 4) 0 /\
  py_binop_val OShr (VBV (meaning env0 x)) (VBV (meaning env0 y)) = Ok (VBV (BV (BVC KBV 4) 15)).
Proof. exact C38_infix_refuted_pf. Qed.
Print Assumptions C38_infix_refuted.
(** A plain left operand: the concrete family computes, z3 raises TypeError for every operator. *)
Theorem C38_reflected_refuted : forall S op v y, swf y -> plain v ->
  z_binop S op v (SVec y) = Raise ETypeError /\
  forall e z, v = SInt z -> op <> OShr -> exists r, py_binop_val op (VInt z) (VBV (meaning e y)) = Ok r.
Proof. exact C38_reflected_refuted_pf. Qed.
Print Assumptions C38_reflected_refuted.

Theorem C38_infix_comparisons : forall S, faithful S -> forall c x v, swf x -> zaccepted (csize (scls x)) v ->
  (exists r, z_compare S c (SVec x) v = Ok (SBit r) /\ bwf r = true /\
     forall e, py_cmp c (VBV (meaning e x)) (vmeaning e v) = Ok (ONew (VBit (evalb e r)))) /\
  (plain v -> exists r, z_compare S c v (SVec x) = Ok (SBit r) /\ bwf r = true /\
     forall e, py_cmp c (vmeaning e v) (VBV (meaning e x)) = Ok (ONew (VBit (evalb e r)))).
Proof. exact C38_infix_comparisons_pf. Qed.
Print Assumptions C38_infix_comparisons.
Example C38_infix_comparisons_ex : exists r, z_compare no_simp CLt (SInt 3) (SVec (sx KSInt 4)) = Ok (SBit r) /\ evalb env0 r = false.
Proof. eexists. split; reflexivity. Qed.

(** Bits. *)
Theorem C38_bits : forall S, faithful S -> forall p v, bwf p = true -> zbit_arg v ->
  (exists t, z_bit_init S v = Ok t /\ bwf t = true /\ forall e, bit_init (vmeaning e v) = Ok (evalb e t)) /\
  (forall op, op = OAnd \/ op = OOr \/ op = OXor ->
     exists r, z_binop S op (SBit p) v = Ok (SBit r) /\ bwf r = true /\
       forall e, py_binop_val op (VBit (evalb e p)) (vmeaning e v) = Ok (VBit (evalb e r))) /\
  (forall c, c = CEq \/ c = CNe ->
     (exists r, z_compare S c (SBit p) v = Ok (SBit r) /\ bwf r = true /\
       forall e, py_cmp c (VBit (evalb e p)) (vmeaning e v) = Ok (ONew (VBit (evalb e r)))) /\
     (plain v -> exists r, z_compare S c v (SBit p) = Ok (SBit r) /\ bwf r = true /\
       forall e, py_cmp c (vmeaning e v) (VBit (evalb e p)) = Ok (ONew (VBit (evalb e r))))) /\
  (exists r, z_bit_invert S p = Ok r /\ bwf r = true /\ forall e, evalb e r = bit_invert (evalb e p)).
Proof. exact C38_bits_pf. Qed.
Print Assumptions C38_bits.
Example C38_bits_ex : zbit_arg (SNodeB (BVar "q")) /\
  exists r, z_binop no_simp OXor (SBit (BVar "p")) (SNodeB (BVar "q")) = Ok (SBit r) /\ evalb env0 r = true.
Proof. split; [now constructor|]. eexists. split; reflexivity. Qed.

(** What z3Bit rejects: a vector, a sequence, any object without a truth value (TypeError) and other integers (ValueError). *)
Theorem C38_bit_rejects : forall S v,
  ((exists x, v = SVec x) \/ (exists l, v = SSeq l) \/ (exists i, v = SOther i None) -> z_bit_init S v = Raise ETypeError) /\
  (forall z, v = SInt z -> z <> 0 -> z <> 1 -> z_bit_init S v = Raise EValueError).
Proof. exact C38_bit_rejects_pf. Qed.
Print Assumptions C38_bit_rejects.
Example C38_bit_rejects_ex : z_bit_init no_simp (SVec (sx KSInt 4)) = Raise ETypeError /\ z_bit_init no_simp (SInt 2) = Raise EValueError.
Proof. split; reflexivity. Qed.

(** Operands of different widths: both families raise a TypeError, z3 the plain one. *)
Theorem C38_size_mismatch : forall S e x y, csize (scls y) <> csize (scls x) ->
  (forall m, z3_meth S m x (SVec y) = Raise ETypeError /\
             conc_meth m (meaning e x) (VBV (meaning e y)) = Raise EInconsistentSize) /\
  (forall m, z3_rel S m x (SVec y) = Raise ETypeError /\
             conc_rel m (meaning e x) (VBV (meaning e y)) = Raise EInconsistentSize) /\
  z_bvsdiv S x (SVec y) = Raise ETypeError /\ z_bvsrem S x (SVec y) = Raise ETypeError /\
  z_bvrol S x (SVec y) = Raise ETypeError /\ z_bvror S x (SVec y) = Raise ETypeError.
Proof. exact C38_size_mismatch_pf. Qed.
Print Assumptions C38_size_mismatch.
Example C38_size_mismatch_ex : csize (scls (sy KBV 3)) <> csize (scls (sx KBV 4)). Proof. cbn. lia. Qed.

(** * Construction, indexing, extension, assignment *)
Theorem C38_construct : forall S, faithful S -> forall c v, 1 <= csize c -> zconvertible (csize c) v ->
  exists r, z_init S c v = Ok r /\ scls r = c /\ swf r /\ forall e, bv_init c (vmeaning e v) = Ok (meaning e r).
Proof. exact C38_construct_pf. Qed.
Print Assumptions C38_construct.
Example C38_construct_ex : zconvertible 3 (SSeq [SBit (BVar "p"); SInt 0; SBool true]) /\
  exists r, z_init no_simp (BVC KBV 3) (SSeq [SBit (BVar "p"); SInt 0; SBool true]) = Ok r /\ bval (meaning env0 r) = 5.
Proof.
  split; [constructor; constructor; [reflexivity|]; repeat constructor|]. eexists. split; [reflexivity|]. vm_compute. reflexivity.
Qed.
(** A sequence of another length is rejected; the concrete family packs it. *)
Theorem C38_construct_refuted : forall S c l, Z.of_nat (length l) <> csize c -> z_init S c (SSeq l) = Raise EValueError.
Proof. exact C38_construct_refuted_pf. Qed.
Print Assumptions C38_construct_refuted.

Theorem C38_getitem : forall S, faithful S -> forall x i, swf x ->
  (- csize (scls x) <= i < csize (scls x) ->
   exists r, z_index S x i = Ok r /\ bwf r = true /\ forall e, getitem_int (meaning e x) i = Ok (evalb e r)) /\
  (~ (- csize (scls x) <= i < csize (scls x)) ->
   z_index S x i = Raise EIndexError /\ forall e, getitem_int (meaning e x) i = Raise EIndexError).
Proof. exact C38_getitem_pf. Qed.
Print Assumptions C38_getitem.
Example C38_getitem_ex : exists r, z_index no_simp (sx KBV 4) (-1) = Ok r /\ evalb env0 r = true.
Proof. eexists. split; reflexivity. Qed.
Theorem C38_slice_partial : forall S, faithful S -> forall x a b s, swf x -> s = None \/ s = Some 1 ->
  let n := csize (scls x) in
  let lo := match a with None => 0 | Some i => if i <? 0 then n + i else i end in
  let hi := Z.min (match b with None => n | Some i => if i <? 0 then n + i else i end) n in
  0 <= lo < hi ->
  exists r, z_slice S x a b s = Ok r /\ scls r = BVC (skind x) (hi - lo) /\ swf r /\
    forall e, getitem_slice (meaning e x) a b s = Ok (meaning e r).
Proof. exact C38_slice_partial_pf. Qed.
Print Assumptions C38_slice_partial.
Example C38_slice_ex : exists r, z_slice no_simp (sx KBV 4) (Some (-3)) None None = Ok r /\ meaning env0 r = BV (BVC KBV 3) 5.
Proof. eexists. split; [reflexivity|]. vm_compute. reflexivity. Qed.
(** Missing: empty slices, a start below the first bit, a step other than 1. *)
Theorem C38_slice_refuted : let x := sx KBV 4 in
  z_slice no_simp x (Some 2) (Some 2) None = Raise EZ3 /\
  getitem_slice (meaning env0 x) (Some 2) (Some 2) None = Ok (BV (BVC KBV 0) 0) /\
  z_slice no_simp x (Some (-9)) None None = Raise EZ3 /\
  getitem_slice (meaning env0 x) (Some (-9)) None None = Ok (BV (BVC KBV 4) 11) /\
  z_slice no_simp x None None (Some 2) = Raise EIndexError /\
  getitem_slice (meaning env0 x) None None (Some 2) = Ok (BV (BVC KBV 2) 1).
Proof. exact C38_slice_refuted_pf. Qed.
Print Assumptions C38_slice_refuted.

Theorem C38_concat : forall S, faithful S -> forall x y, swf x -> swf y -> kind_le (skind y) (skind x) = true ->
  exists r, z_concat S x (SVec y) = Ok r /\ scls r = BVC (skind x) (csize (scls x) + csize (scls y)) /\ swf r /\
    forall e, concat (meaning e x) (VBV (meaning e y)) = Ok (meaning e r).
Proof. exact C38_concat_pf. Qed.
Print Assumptions C38_concat.
Theorem C38_zext : forall S, faithful S -> forall x k, swf x -> 0 <= k ->
  exists r, z_zext S x k = Ok r /\ scls r = BVC (skind x) (csize (scls x) + k) /\ swf r /\
    forall e, zext (meaning e x) k = Ok (meaning e r).
Proof. exact C38_zext_pf. Qed.
Print Assumptions C38_zext.
Theorem C38_sext_partial : forall S, faithful S -> forall x k, swf x -> 1 <= k ->
  exists r, z_sext S x k = Ok r /\ scls r = BVC (skind x) (csize (scls x) + k) /\ swf r /\
    forall e, sext (meaning e x) k = Ok (meaning e r).
Proof. exact C38_sext_partial_pf. Qed.
Print Assumptions C38_sext_partial.
(** Missing: k = 0, where z3 returns x and the concrete family raises (property C66). *)
Theorem C38_sext_refuted : forall S, faithful S -> forall x, swf x ->
  (exists r, z_sext S x 0 = Ok r /\ scls r = scls x /\ swf r /\ forall e, meaning e r = meaning e x) /\
  forall e, sext (meaning e x) 0 = Raise EValueError.
Proof. exact C38_sext_refuted_pf. Qed.
Print Assumptions C38_sext_refuted.
(** ext of the classes that are not signed. *)
Theorem C38_ext_partial : forall S, faithful S -> forall x k, swf x -> 0 <= k -> skind x <> KSInt ->
  exists r, z_ext S x k = Ok r /\ scls r = BVC (skind x) (csize (scls x) + k) /\ swf r /\
    forall e, ext (meaning e x) k = Ok (meaning e r).
Proof. exact C38_ext_partial_pf. Qed.
Print Assumptions C38_ext_partial.
(** Missing: the signed class, whose ext extends with zeros in z3 and with the sign concretely. *)
Theorem C38_ext_refuted : exists x r, swf x /\ skind x = KSInt /\ z_ext no_simp x 2 = Ok r /\
  meaning env0 r = BV (BVC KSInt 6) 11 /\ ext (meaning env0 x) 2 = Ok (BV (BVC KSInt 6) 59).
Proof. exact C38_ext_refuted_pf. Qed.
Print Assumptions C38_ext_refuted.
Example C38_ext_ex : exists r, z_sext no_simp (sx KSInt 4) 2 = Ok r /\ meaning env0 r = BV (BVC KSInt 6) 59 /\
  exists r, z_concat no_simp (sx KBV 4) (SVec (sy KBV 3)) = Ok r /\ meaning env0 r = BV (BVC KBV 7) 107.
Proof. eexists. split; [reflexivity|]. split; [vm_compute; reflexivity|]. eexists. split; [reflexivity|]. vm_compute. reflexivity. Qed.

Theorem C38_setitem : forall S, faithful S -> forall x i v, swf x -> - csize (scls x) <= i < csize (scls x) ->
  s_bit_like v = true -> (match v with SBit t => bwf t = true | _ => True end) ->
  exists r, z_setitem_int S x i v = Ok r /\ scls r = scls x /\ swf r /\
    forall e, setitem_int (meaning e x) i (vmeaning e v) = Ok (meaning e r).
Proof. exact C38_setitem_pf. Qed.
Print Assumptions C38_setitem.
Example C38_setitem_ex : exists r, z_setitem_int no_simp (sx KBV 4) 2 (SBit (BVar "p")) = Ok r /\ bval (meaning env0 r) = 15.
Proof. eexists. split; [reflexivity|]. vm_compute. reflexivity. Qed.
(** Item assignment raises exactly what it raises on the concrete values. *)
Theorem C38_setitem_raises : forall S, faithful S -> forall e x i v r, swf x ->
  (forall t, v <> SNodeB t) -> (match v with SBit t => bwf t = true | _ => True end) ->
  (z_setitem_int S x i v = Raise r <-> setitem_int (meaning e x) i (vmeaning e v) = Raise r).
Proof. exact C38_setitem_raises_pf. Qed.
Print Assumptions C38_setitem_raises.
Example C38_setitem_raises_ex : z_setitem_int no_simp (sx KBV 4) (-5) (SInt 1) = Raise EIndexError /\ z_setitem_int no_simp (sx KBV 4) 0 (SInt 2) = Raise EValueError.
Proof. split; reflexivity. Qed.
Theorem C38_adc : forall S, faithful S -> forall x v cv, swf x -> zaccepted (csize (scls x)) v -> zaccepted 1 cv ->
  exists r c, z_adc S x v cv = Ok (r, c) /\ scls r = scls x /\ swf r /\ bwf c = true /\
    forall e, adc (meaning e x) (vmeaning e v) (vmeaning e cv) = Ok (meaning e r, evalb e c).
Proof. exact C38_adc_pf. Qed.
Print Assumptions C38_adc.
Example C38_adc_ex : zaccepted 1 (SNodeB (BVar "p")) /\
  exists r c, z_adc no_simp (sx KBV 4) (SVec (sy KBV 4)) (SNodeB (BVar "p")) = Ok (r, c) /\ bval (meaning env0 r) = 2 /\ evalb env0 c = true.
Proof. split; [split; [now constructor|exact I]|]. do 2 eexists. split; [reflexivity|]. split; vm_compute; reflexivity. Qed.

(** * ite *)
(** Two vectors of one class: the selected one, as the concrete ite. *)
Theorem C38_ite_same : forall S, faithful S -> forall c x y, bwf c = true -> swf x -> swf y -> scls y = scls x ->
  exists r, z_ite S c (SVec x) (SVec y) = Ok r /\ scls r = scls x /\ swf r /\
    forall e, meaning e r = (if evalb e c then meaning e x else meaning e y) /\
      forall tab id, total_protocols tab ->
        ite tab id (evalb e c) (vec_branch (meaning e x)) (vec_branch (meaning e y)) = Ok (vec_branch (meaning e r), id).
Proof. exact C38_ite_same_pf. Qed.
Print Assumptions C38_ite_same.
(** A vector and a value it converts. *)
Theorem C38_ite_convert : forall S, faithful S -> forall c x v, bwf c = true -> swf x -> zconvertible (csize (scls x)) v -> (forall y, v <> SVec y) ->
  (exists r w, z_ite S c (SVec x) v = Ok r /\ scls r = scls x /\ swf r /\
     forall e, bv_init (scls x) (vmeaning e v) = Ok (w e) /\ meaning e r = if evalb e c then meaning e x else w e) /\
  (exists r w, z_ite S c v (SVec x) = Ok r /\ scls r = scls x /\ swf r /\
     forall e, bv_init (scls x) (vmeaning e v) = Ok (w e) /\ meaning e r = if evalb e c then w e else meaning e x).
Proof. exact C38_ite_convert_pf. Qed.
Print Assumptions C38_ite_convert.
(** Neither branch a vector: a z3BitVector of the selected number. *)
Theorem C38_ite_plain : forall S, faithful S -> forall c t f e0 z0 z1, bwf c = true -> small e0 t z0 -> small e0 f z1 ->
  exists r, z_ite S c t f = Ok r /\ skind r = KBV /\ swf r /\
    forall e zt zf, small e t zt -> small e f zf -> evalv e (sterm r) = if evalb e c then zt else zf.
Proof. exact C38_ite_plain_pf. Qed.
Print Assumptions C38_ite_plain.
Example C38_ite_ex : small env0 (SInt 9) 9 /\ small env0 (SBit (BVar "p")) 1 /\
  exists r, z_ite no_simp (BVar "q") (SInt 9) (SBit (BVar "p")) = Ok r /\ meaning env0 r = BV (BVC KBV 4) 1 /\
  exists r, z_ite no_simp (BVar "p") (SVec (sx KBV 4)) (SInt 3) = Ok r /\ meaning env0 r = BV (BVC KBV 4) 11.
Proof.
  split; [constructor; lia|]. split; [exact (N_bit env0 (BVar "p") eq_refl)|]. eexists. split; [reflexivity|]. split; [vm_compute; reflexivity|].
  eexists. split; [reflexivity|]. vm_compute. reflexivity.
Qed.
(** Its width is the larger of those of the two values: 1 for bits and bools, the length of a sequence, the least width
    of a number. *)
Theorem C38_ite_width : forall S c t f e n m r,
  (forall v, v = t \/ v = f -> (forall x, v <> SVec x) /\ (forall x, v <> SNodeV x) /\ (forall x, v <> SNodeB x)) ->
  implied_width (vmeaning e t) n -> implied_width (vmeaning e f) m ->
  z_ite S c t f = Ok r -> scls r = BVC KBV (Z.max n m).
Proof. exact C38_ite_width_pf. Qed.
Print Assumptions C38_ite_width.
Example C38_ite_width_ex : exists r, z_ite no_simp (BVar "p") (SSeq [SBit (BVar "p"); SBool true; SInt 0]) (SInt 1) = Ok r /\ scls r = BVC KBV 3.
Proof. eexists. split; reflexivity. Qed.
(** Two bits: the concrete ite gives a Bit, z3 a one-bit vector. Two vectors of one width and different classes: the
    concrete ite gives a polymorphic vector, z3 raises. *)
Theorem C38_ite_refuted :
  (exists r, z_ite no_simp (BVar "p") (SBit (BVar "p")) (SBit (BVar "q")) = Ok r /\ meaning env0 r = BV (BVC KBV 1) 1 /\
     forall tab, ite tab 0 true (BrBit true) (BrBit false) = Ok (BrBit true, 0%nat)) /\
  z_ite no_simp (BVar "p") (SVec (sx KBV 4)) (SVec (sy KUInt 4)) = Raise ETypeError /\
  forall tab, exists r id, ite tab 0 true (vec_branch (meaning env0 (sx KBV 4))) (vec_branch (meaning env0 (sy KUInt 4))) = Ok (r, id).
Proof. exact C38_ite_refuted_pf. Qed.
Print Assumptions C38_ite_refuted.
(** A vector as the condition: it is true when it is not zero. *)
Theorem C38_vec_ite : forall S, faithful S -> forall x t f, swf x ->
  exists c, bwf c = true /\ z_vec_ite S x t f = z_ite S c t f /\ forall e, evalb e c = negb (bval (meaning e x) =? 0).
Proof. exact C38_vec_ite_pf. Qed.
Print Assumptions C38_vec_ite.

(** * C33: repetition *)
Theorem C33_z3_partial : forall S, faithful S -> forall x, swf x ->
  exists q, z_repeat S x 1 = Ok q /\ swf q /\ forall e, bv_repeat (meaning e x) 1 = Ok (meaning e q).
Proof. exact C33_z3_partial_pf. Qed.
Print Assumptions C33_z3_partial.
(** For every larger count the call raises, because the result is built in the class of x. *)
Theorem C33_z3_refuted : forall S x r, swf x -> 2 <= r ->
  z_repeat S x r = Raise ETypeError /\ forall e, exists y, bv_repeat (meaning e x) r = Ok y.
Proof. exact C33_z3_refuted_pf. Qed.
Print Assumptions C33_z3_refuted.
Example C33_z3_ex : swf (sx KBV 4) /\ exists q, z_repeat no_simp (sx KBV 4) 1 = Ok q /\ meaning env0 q = BV (BVC KBV 4) 11.
Proof. split; [unfold swf; cbn; lia|]. eexists. split; [reflexivity|]. vm_compute. reflexivity. Qed.
