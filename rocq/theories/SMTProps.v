(** Symbolic bit-vectors (pySMT backend) mean what the concrete ones compute, under every assignment: operators
    (C30), signed division (C31), construction, indexing and extension (C32), repetition (C33), formulas (C36),
    integers (C37) and substitution (C64). The simplifier pySMT runs in every constructor is any faithful one. *)
From Coq Require Import Lia.
From Verif Require Import PyBase BVModel BVSpec BVFacts BVOps OpModel OpSpec OpFacts SMTTerm SMTModel SMTSpec SMTFacts SMTOps SMTInfix SMTMore BVProofs.
From Verif Require Import SMTProofs.


(** The assumption on the simplifier is satisfiable. *)

(** * C30: symbolic operators mean the concrete operators *)
(** Named methods: the symbolic call succeeds, keeps the class, and under every assignment the concrete call on the
    evaluated operands returns the evaluated result. *)
Theorem C30_methods : forall S, faithful S -> forall m x v, swf x -> accepted (csize (scls x)) v ->
  exists r, smt_meth S m x v = Ok r /\ scls r = (match m with MComp => BVC (skind x) 1 | _ => scls x end) /\ swf r /\
    forall e, exists o, conc_meth m (meaning e x) (vmeaning e v) = Ok o /\ rv_val (meaning e x) o = meaning e r.
Proof. exact C30_methods_pf. Qed.
Print Assumptions C30_methods.
Example C30_methods_ex :
  let x := sx KUInt 8 in let y := sy KSInt 8 in
  swf x /\ accepted (csize (scls x)) (SVec y) /\ accepted (csize (scls x)) (SInt (-1)) /\
  exists r, smt_meth no_simp MUdiv x (SVec y) = Ok r /\ meaning env0 r = BV (BVC KUInt 8) 1.
Proof.
  cbv zeta. unfold swf, accepted. repeat split; try (constructor; repeat split; cbn; lia); cbn; try lia.
  eexists. split; [reflexivity|]. vm_compute. reflexivity.
Qed.

Theorem C30_comparisons : forall S, faithful S -> forall m x v, swf x -> accepted (csize (scls x)) v ->
  exists r, smt_rel S m x v = Ok r /\ bwf r = true /\
    forall e, conc_rel m (meaning e x) (vmeaning e v) = Ok (evalb e r).
Proof. exact C30_comparisons_pf. Qed.
Print Assumptions C30_comparisons.
Example C30_comparisons_ex :
  exists r, smt_rel no_simp RSgt (sx KBV 4) (SVec (sy KBV 4)) = Ok r /\ evalb env0 r = false /\
  exists r, smt_rel no_simp RUgt (sx KBV 4) (SVec (sy KBV 4)) = Ok r /\ evalb env0 r = true.
Proof. eexists. split; [reflexivity|]. split; [reflexivity|]. eexists. split; reflexivity. Qed.

Theorem C30_unary : forall S, faithful S -> forall x, swf x ->
  (exists r, s_bvnot S x = Ok r /\ scls r = scls x /\ swf r /\ forall e, bvnot (meaning e x) = meaning e r) /\
  (exists r, s_bvneg S x = Ok r /\ scls r = scls x /\ swf r /\ forall e, bvneg (meaning e x) = meaning e r).
Proof. exact C30_unary_pf. Qed.
Print Assumptions C30_unary.

(** Rotations: by an int from 0 to the width. *)
Theorem C30_rotate_partial : forall S, faithful S -> forall x k, swf x -> 0 <= k <= csize (scls x) ->
  (exists r, s_bvrol S x (SInt k) = Ok r /\ scls r = scls x /\ swf r /\
     forall e, bvrol (meaning e x) (VInt k) = Ok (New (meaning e r))) /\
  (exists r, s_bvror S x (SInt k) = Ok r /\ scls r = scls x /\ swf r /\
     forall e, bvror (meaning e x) (VInt k) = Ok (New (meaning e r))).
Proof. exact C30_rotate_partial_pf. Qed.
Print Assumptions C30_rotate_partial.
(** Missing: every other amount. A vector amount, which the concrete family takes, raises TypeError; an int outside
    the range raises ValueError while the concrete family rotates by the amount modulo the width. *)
Theorem C30_rotate_refuted : forall S x, swf x ->
  (forall y, swf y -> csize (scls y) = csize (scls x) ->
     s_bvrol S x (SVec y) = Raise ETypeError /\ s_bvror S x (SVec y) = Raise ETypeError /\
     forall e, (exists r, bvrol (meaning e x) (VBV (meaning e y)) = Ok r) /\ (exists r, bvror (meaning e x) (VBV (meaning e y)) = Ok r)) /\
  (forall k, k < 0 \/ csize (scls x) < k ->
     s_bvrol S x (SInt k) = Raise EValueError /\ s_bvror S x (SInt k) = Raise EValueError /\
     forall e, (exists r, bvrol (meaning e x) (VInt k) = Ok r) /\ (exists r, bvror (meaning e x) (VInt k) = Ok r)).
Proof. exact C30_rotate_refuted_pf. Qed.
Print Assumptions C30_rotate_refuted.
(** Rotations, repetitions and extensions take int() of the amount: an object with __int__ counts as that int, True and
    False as 1 and 0, what __int__ raises comes through, and an object without __int__ raises TypeError. *)
Theorem C30_amounts : forall S x,
  (forall k b w, s_bvrol S x (SOther (Some (Ok k)) w) = s_bvrol S x (SInt k) /\ s_bvror S x (SOther (Some (Ok k)) w) = s_bvror S x (SInt k) /\
     s_repeat S x (SOther (Some (Ok k)) w) = s_repeat S x (SInt k) /\
     s_zext_of S x (SOther (Some (Ok k)) w) = s_zext S x k /\ s_sext_of S x (SOther (Some (Ok k)) w) = s_sext S x k /\
     s_ext_of S x (SOther (Some (Ok k)) w) = s_ext S x k /\
     s_bvrol S x (SBool b) = s_bvrol S x (SInt (if b then 1 else 0)) /\ s_bvror S x (SBool b) = s_bvror S x (SInt (if b then 1 else 0)) /\
     s_repeat S x (SBool b) = s_repeat S x (SInt (if b then 1 else 0)) /\
     s_zext_of S x (SBool b) = s_zext S x (if b then 1 else 0) /\ s_sext_of S x (SBool b) = s_sext S x (if b then 1 else 0) /\
     s_zext_of S x (SInt k) = s_zext S x k /\ s_sext_of S x (SInt k) = s_sext S x k /\ s_ext_of S x (SInt k) = s_ext S x k) /\
  (forall v exn,
     (exists w, v = SOther (Some (Raise exn)) w) \/
     (exn = ETypeError /\ ((exists t, v = SBit t) \/ (exists y, v = SVec y) \/ (exists l, v = SSeq l) \/ (exists w, v = SOther None w))) ->
     s_bvrol S x v = Raise exn /\ s_bvror S x v = Raise exn /\ s_repeat S x v = Raise exn /\
     s_zext_of S x v = Raise exn /\ s_sext_of S x v = Raise exn /\ s_ext_of S x v = Raise exn).
Proof. exact C30_amounts_pf. Qed.
Print Assumptions C30_amounts.
Example C30_amounts_ex : s_bvrol no_simp (sx KBV 4) (SOther (Some (Ok 3)) None) = Ok (SV (BVC KBV 4) (VRol 3 (VVar "x" 4)))
  /\ s_sext_of no_simp (sx KSInt 4) (SOther (Some (Raise EAttributeError)) None) = Raise EAttributeError
  /\ s_zext_of no_simp (sx KSInt 4) (SVec (sy KBV 4)) = Raise ETypeError.
Proof. repeat split; reflexivity. Qed.
Example C30_rotate_ex :
  swf (sx KBV 4) /\ exists r, s_bvrol no_simp (sx KBV 4) (SInt 3) = Ok r /\ bval (meaning env0 r) = 13.
Proof. split; [unfold swf; cbn; lia|]. eexists. split; [reflexivity|]. vm_compute. reflexivity. Qed.

(** Operators with a symbolic left operand, and with a plain value on the left (reflected methods). Signed // and %
    are property C31. *)
Theorem C30_infix : forall S, faithful S -> forall op x v, swf x -> accepted (csize (scls x)) v ->
  signed_division op (skind x) = false -> (forall y, v = SVec y -> signed_division op (skind y) = false) ->
  exists r, s_binop S op (SVec x) v = Ok (SVec r) /\ swf r /\
    forall e, py_binop_val op (VBV (meaning e x)) (vmeaning e v) = Ok (VBV (meaning e r)).
Proof. exact C30_infix_pf. Qed.
Print Assumptions C30_infix.
Theorem C30_infix_reflected : forall S, faithful S -> forall op v y, swf y -> accepted (csize (scls y)) v -> plain v ->
  signed_division op (skind y) = false ->
  exists r, s_binop S op v (SVec y) = Ok (SVec r) /\ swf r /\
    forall e, py_binop_val op (vmeaning e v) (VBV (meaning e y)) = Ok (VBV (meaning e r)).
Proof. exact C30_infix_reflected_pf. Qed.
Print Assumptions C30_infix_reflected.
Theorem C30_infix_comparisons : forall S, faithful S -> forall c x v, swf x -> accepted (csize (scls x)) v ->
  (exists r, s_compare S c (SVec x) v = Ok (SBit r) /\ bwf r = true /\
     forall e, py_cmp c (VBV (meaning e x)) (vmeaning e v) = Ok (ONew (VBit (evalb e r)))) /\
  (plain v -> exists r, s_compare S c v (SVec x) = Ok (SBit r) /\ bwf r = true /\
     forall e, py_cmp c (vmeaning e v) (VBV (meaning e x)) = Ok (ONew (VBit (evalb e r)))).
Proof. exact C30_infix_comparisons_pf. Qed.
Print Assumptions C30_infix_comparisons.
Example C30_infix_ex :
  exists r, s_binop no_simp OShr (SVec (sx KSInt 4)) (SInt 1) = Ok (SVec r) /\ bval (meaning env0 r) = 13 /\
  exists r, s_binop no_simp OSub (SInt 1) (SVec (sx KUInt 4)) = Ok (SVec r) /\ bval (meaning env0 r) = 6 /\
  exists r, s_compare no_simp CLt (SInt 3) (SVec (sx KSInt 4)) = Ok (SBit r) /\ evalb env0 r = false.
Proof.
  eexists. split; [reflexivity|]. split; [vm_compute; reflexivity|]. eexists. split; [reflexivity|]. split; [vm_compute; reflexivity|].
  eexists. split; reflexivity.
Qed.

(** Bits. *)
Theorem C30_bits : forall S, faithful S -> forall p v, bwf p = true -> bit_arg v ->
  (forall op, op = OAnd \/ op = OOr \/ op = OXor ->
     exists r, s_binop S op (SBit p) v = Ok (SBit r) /\ bwf r = true /\
       forall e, py_binop_val op (VBit (evalb e p)) (vmeaning e v) = Ok (VBit (evalb e r))) /\
  (forall op, plain v -> op = OAnd \/ op = OOr ->
     exists r, s_binop S op v (SBit p) = Ok (SBit r) /\ bwf r = true /\
       forall e, py_binop_val op (vmeaning e v) (VBit (evalb e p)) = Ok (VBit (evalb e r))) /\
  (forall c, c = CEq \/ c = CNe ->
     exists r, s_compare S c (SBit p) v = Ok (SBit r) /\ bwf r = true /\
       forall e, py_cmp c (VBit (evalb e p)) (vmeaning e v) = Ok (ONew (VBit (evalb e r)))) /\
  (forall c, plain v -> c = CEq \/ c = CNe ->
     exists r, s_compare S c v (SBit p) = Ok (SBit r) /\ bwf r = true /\
       forall e, py_cmp c (vmeaning e v) (VBit (evalb e p)) = Ok (ONew (VBit (evalb e r)))) /\
  (exists r, sbit_invert S p = Ok r /\ bwf r = true /\ forall e, evalb e r = bit_invert (evalb e p)).
Proof. exact C30_bits_pf. Qed.
Print Assumptions C30_bits.
Example C30_bits_ex : exists r, s_binop no_simp OXor (SBit (BVar "p")) (SBit (BVar "q")) = Ok (SBit r) /\ evalb env0 r = true.
Proof. eexists. split; reflexivity. Qed.
(** 1 ^ b works for a Bit but SMTBit has no __rxor__. *)
Theorem C30_rxor_refuted : forall S q,
  s_binop S OXor (SInt 1) (SBit q) = Raise ETypeError /\ forall b, py_binop_val OXor (VInt 1) (VBit b) = Ok (VBit (negb b)).
Proof. exact C30_rxor_refuted_pf. Qed.
Print Assumptions C30_rxor_refuted.
(** Bit & BitVector is a Bit, SMTBit & SMTBitVector is a vector. *)
Theorem C30_bit_left_refuted : exists p x, swf x /\
  (exists r, s_binop no_simp OAnd (SBit p) (SVec x) = Ok (SVec r)) /\
  (exists b, py_binop_val OAnd (VBit (evalb env0 p)) (VBV (meaning env0 x)) = Ok (VBit b)).
Proof. exact C30_bit_left_refuted_pf. Qed.
Print Assumptions C30_bit_left_refuted.

(** Operands of different widths: both families raise InconsistentSizeError. *)
Theorem C30_size_mismatch : forall S e x y, csize (scls y) <> csize (scls x) ->
  (forall m, smt_meth S m x (SVec y) = Raise EInconsistentSize /\
             conc_meth m (meaning e x) (VBV (meaning e y)) = Raise EInconsistentSize) /\
  (forall m, smt_rel S m x (SVec y) = Raise EInconsistentSize /\
             conc_rel m (meaning e x) (VBV (meaning e y)) = Raise EInconsistentSize) /\
  s_bvsdiv S x (SVec y) = Raise EInconsistentSize /\ bvsdiv (meaning e x) (VBV (meaning e y)) = Raise EInconsistentSize /\
  s_bvsrem S x (SVec y) = Raise EInconsistentSize /\ bvsrem (meaning e x) (VBV (meaning e y)) = Raise EInconsistentSize.
Proof. exact C30_size_mismatch_pf. Qed.
Print Assumptions C30_size_mismatch.
Example C30_size_mismatch_ex : csize (scls (sy KBV 3)) <> csize (scls (sx KBV 4)). Proof. cbn. lia. Qed.

(** An object that is neither int nor bool (say a string), beside a vector or a bit: operators raise TypeError when it is on the right;
    == and != compare identities, so they are False and True on both sides; an ordering raises TypeError. *)
Theorem C30_unsupported_partial : forall S x p, let o := SOther None None in
  (forall op, s_binop S op (SVec x) o = Raise ETypeError) /\ (forall op, s_binop S op (SBit p) o = Raise ETypeError) /\
  (forall op, s_binop S op o (SBit p) = Raise ETypeError) /\
  Forall (fun q => s_compare S CEq (fst q) (snd q) = Ok (SBool false) /\ s_compare S CNe (fst q) (snd q) = Ok (SBool true) /\
                   forall c, c <> CEq -> c <> CNe -> s_compare S c (fst q) (snd q) = Raise ETypeError)
    [(SVec x, o); (o, SVec x); (SBit p, o); (o, SBit p)].
Proof. exact C30_unsupported_partial_pf. Qed.
Print Assumptions C30_unsupported_partial.
(** Missing: on the left of a vector the operator raises NameError, as for concrete vectors (C20): dispatch_roper names an undefined
    exception class. *)
Theorem C30_unsupported_left_refuted : forall S op x, op <> OShr \/ skind x = KSInt -> s_binop S op (SOther None None) (SVec x) = Raise ENameError.
Proof. exact C30_unsupported_left_refuted_pf. Qed.
Print Assumptions C30_unsupported_left_refuted.

(** * C31: symbolic signed division *)
(** The symbolic bvsdiv truncates (SMT-LIB), the concrete one rounds down. They agree exactly when the division is
    exact or the signs agree; by zero they agree exactly for dividends that are not negative, or at width 1. *)
Theorem C31_bvsdiv_partial : forall S, faithful S -> forall x v, swf x -> accepted (csize (scls x)) v ->
  exists r, s_bvsdiv S x v = Ok r /\ scls r = scls x /\ swf r /\
    forall e b, coerce (scls x) (vmeaning e v) = Ok b ->
      let n := csize (scls x) in let sa := signed n (evalv e (sterm x)) in let sb := signed n (bval b) in
      (bvsdiv (meaning e x) (vmeaning e v) = Ok (New (meaning e r)) <->
       if bval b =? 0 then 0 <= sa \/ n = 1 else Z.rem sa sb = 0 \/ 0 <= sa * sb).
Proof. exact C31_bvsdiv_partial_pf. Qed.
Print Assumptions C31_bvsdiv_partial.
Theorem C31_bvsrem_partial : forall S, faithful S -> forall x v, swf x -> accepted (csize (scls x)) v ->
  exists r, s_bvsrem S x v = Ok r /\ scls r = scls x /\ swf r /\
    forall e b, coerce (scls x) (vmeaning e v) = Ok b ->
      let n := csize (scls x) in let sa := signed n (evalv e (sterm x)) in let sb := signed n (bval b) in
      ((exists o, bvsrem (meaning e x) (vmeaning e v) = Ok o /\ rv_val (meaning e x) o = meaning e r) <->
       bval b = 0 \/ Z.rem sa sb = 0 \/ 0 <= sa * sb).
Proof. exact C31_bvsrem_partial_pf. Qed.
Print Assumptions C31_bvsrem_partial.
(** The operators // and % of SMTSIntVector, with any accepted operand on the right (vectors of the same class) and with a
    plain value on the left, are the signed operations of SMT-LIB: truncating quotient, remainder with the sign of the
    dividend. *)
Theorem C31_infix : forall S, faithful S -> forall x v, swf x -> skind x = KSInt -> accepted (csize (scls x)) v ->
  (forall y, v = SVec y -> scls y = scls x) ->
  let n := csize (scls x) in
  let quot a b := if b =? 0 then if a <? 0 then 1 else 2 ^ n - 1 else Z.quot a b mod 2 ^ n in
  let remd a b := if b =? 0 then a mod 2 ^ n else Z.rem a b mod 2 ^ n in
  (exists q r, s_binop S OFloorDiv (SVec x) v = Ok (SVec q) /\ s_binop S OMod (SVec x) v = Ok (SVec r) /\
     scls q = scls x /\ scls r = scls x /\ swf q /\ swf r /\
     forall e b, coerce (scls x) (vmeaning e v) = Ok b ->
       let sa := signed n (evalv e (sterm x)) in let sb := signed n (bval b) in
       evalv e (sterm q) = quot sa sb /\ evalv e (sterm r) = remd sa sb) /\
  (plain v -> exists q r, s_binop S OFloorDiv v (SVec x) = Ok (SVec q) /\ s_binop S OMod v (SVec x) = Ok (SVec r) /\
     scls q = scls x /\ scls r = scls x /\ swf q /\ swf r /\
     forall e b, coerce (scls x) (vmeaning e v) = Ok b ->
       let sa := signed n (evalv e (sterm x)) in let sb := signed n (bval b) in
       evalv e (sterm q) = quot sb sa /\ evalv e (sterm r) = remd sb sa).
Proof. exact C31_infix_pf. Qed.
Print Assumptions C31_infix.
Example C31_infix_ex : exists q r, s_binop no_simp OFloorDiv (SVec (sx KSInt 4)) (SInt 6) = Ok (SVec q) /\
  s_binop no_simp OMod (SInt 6) (SVec (sx KSInt 4)) = Ok (SVec r) /\
  evalv env0 (sterm (sx KSInt 4)) = 11 /\ evalv env0 (sterm q) = 0 /\ evalv env0 (sterm r) = 1.
Proof. do 2 eexists. do 2 (split; [reflexivity|]). repeat split; vm_compute; reflexivity. Qed.
(** Missing: the other operands, where the claim is false. -5 // 6 in four bits is -1, symbolically 0. *)
Theorem C31_refuted : exists x y r q, swf x /\ swf y /\
  s_bvsdiv no_simp x (SVec y) = Ok r /\ meaning env0 r = BV (BVC KSInt 4) 0 /\
  bvsdiv (meaning env0 x) (VBV (meaning env0 y)) = Ok (New (BV (BVC KSInt 4) 15)) /\
  s_bvsrem no_simp x (SVec y) = Ok q /\ meaning env0 q = BV (BVC KSInt 4) 11 /\
  bvsrem (meaning env0 x) (VBV (meaning env0 y)) = Ok (New (BV (BVC KSInt 4) 1)).
Proof. exact C31_refuted_pf. Qed.
Print Assumptions C31_refuted.
Example C31_ex : let x := sx KSInt 4 in
  swf x /\ accepted (csize (scls x)) (SInt (-2)) /\ coerce (scls x) (VInt (-2)) = Ok (BV (BVC KSInt 4) 14) /\
  (* -5 and -2 have the same sign *)
  0 <= signed 4 (evalv env0 (sterm x)) * signed 4 14.
Proof. cbv zeta. split; [unfold swf; cbn; lia|]. split; [split; [constructor|exact I]|]. split; vm_compute; [reflexivity|discriminate]. Qed.

(** * C32: construction, indexing, slicing, concatenation, extension, item assignment, adc *)
Theorem C32_construct : forall S, faithful S -> forall c v, 1 <= csize c -> convertible (csize c) v ->
  exists r, s_init S c v = Ok r /\ scls r = c /\ swf r /\ forall e, bv_init c (vmeaning e v) = Ok (meaning e r).
Proof. exact C32_construct_pf. Qed.
Print Assumptions C32_construct.
Example C32_construct_ex : convertible 3 (SSeq [SBit (BVar "p"); SInt 0; SBool true]) /\
  exists r, s_init no_simp (BVC KBV 3) (SSeq [SBit (BVar "p"); SInt 0; SBool true]) = Ok r /\ bval (meaning env0 r) = 5.
Proof.
  split; [constructor; [reflexivity|]; repeat constructor|]. eexists. split; [reflexivity|]. vm_compute. reflexivity.
Qed.
(** A sequence of another length is rejected (the concrete family packs it), and so is an object whose __int__ is out
    of range (the concrete family wraps it). *)
Theorem C32_construct_refuted : forall S c l z b, 1 <= csize c ->
  (Z.of_nat (length l) <> csize c -> s_init S c (SSeq l) = Raise EValueError) /\
  (2 ^ csize c <= z -> s_init S c (SOther (Some (Ok z)) b) = Raise EValueError /\ exists r, bv_init c (VOther (Some (Ok z)) b true) = Ok r).
Proof. exact C32_construct_refuted_pf. Qed.
Print Assumptions C32_construct_refuted.

Theorem C32_getitem : forall S, faithful S -> forall x i, swf x ->
  (- csize (scls x) <= i < csize (scls x) ->
   exists r, s_getitem_int S x i = Ok r /\ bwf r = true /\ forall e, getitem_int (meaning e x) i = Ok (evalb e r)) /\
  (~ (- csize (scls x) <= i < csize (scls x)) ->
   s_getitem_int S x i = Raise EIndexError /\ forall e, getitem_int (meaning e x) i = Raise EIndexError).
Proof. exact C32_getitem_pf. Qed.
Print Assumptions C32_getitem.
(** An index other than a slice raises exactly what it raises on the concrete values. *)
Theorem C32_getitem_raises : forall S, faithful S -> forall e x i r, swf x -> (forall a b s, i <> ISlice a b s) ->
  (s_getitem S x i = Raise r <-> getitem (meaning e x) i = Raise r).
Proof. exact C32_getitem_raises_pf. Qed.
Print Assumptions C32_getitem_raises.
Example C32_getitem_ex : exists r, s_getitem_int no_simp (sx KBV 4) (-1) = Ok r /\ evalb env0 r = true.
Proof. eexists. split; reflexivity. Qed.

(** Non-empty slices whose start is in range. *)
Theorem C32_slice_partial : forall S, faithful S -> forall x a b s, swf x -> s = None \/ s = Some 1 ->
  let n := csize (scls x) in
  let lo := match a with None => 0 | Some i => if i <? 0 then n + i else i end in
  let hi := Z.min (match b with None => n | Some i => if i <? 0 then n + i else i end) n in
  0 <= lo < hi ->
  exists r, s_getitem_slice S x a b s = Ok r /\ scls r = BVC (skind x) (hi - lo) /\ swf r /\
    forall e, getitem_slice (meaning e x) a b s = Ok (meaning e r).
Proof. exact C32_slice_partial_pf. Qed.
Print Assumptions C32_slice_partial.
Example C32_slice_ex : exists r, s_getitem_slice no_simp (sx KBV 4) (Some (-3)) None None = Ok r /\ meaning env0 r = BV (BVC KBV 3) 5.
Proof. eexists. split; [reflexivity|]. vm_compute. reflexivity. Qed.
(** Missing: empty slices, a start below the first bit, a step other than 1. The concrete family gives a vector in
    each case, the symbolic family raises AssertionError or IndexError. *)
Theorem C32_slice_refuted : let x := sx KBV 4 in
  s_getitem_slice no_simp x (Some 2) (Some 2) None = Raise EAssertion /\
  getitem_slice (meaning env0 x) (Some 2) (Some 2) None = Ok (BV (BVC KBV 0) 0) /\
  s_getitem_slice no_simp x (Some (-9)) None None = Raise EAssertion /\
  getitem_slice (meaning env0 x) (Some (-9)) None None = Ok (BV (BVC KBV 4) 11) /\
  s_getitem_slice no_simp x None None (Some 2) = Raise EIndexError /\
  getitem_slice (meaning env0 x) None None (Some 2) = Ok (BV (BVC KBV 2) 1).
Proof. exact C32_slice_refuted_pf. Qed.
Print Assumptions C32_slice_refuted.

Theorem C32_concat : forall S, faithful S -> forall x y, swf x -> swf y -> kind_le (skind y) (skind x) = true ->
  exists r, s_concat S x (SVec y) = Ok r /\ scls r = BVC (skind x) (csize (scls x) + csize (scls y)) /\ swf r /\
    forall e, concat (meaning e x) (VBV (meaning e y)) = Ok (meaning e r).
Proof. exact C32_concat_pf. Qed.
Print Assumptions C32_concat.
Theorem C32_zext : forall S, faithful S -> forall x k, swf x -> 0 <= k ->
  exists r, s_zext S x k = Ok r /\ scls r = BVC (skind x) (csize (scls x) + k) /\ swf r /\
    forall e, zext (meaning e x) k = Ok (meaning e r).
Proof. exact C32_zext_pf. Qed.
Print Assumptions C32_zext.
Theorem C32_sext_partial : forall S, faithful S -> forall x k, swf x -> 1 <= k ->
  exists r, s_sext S x k = Ok r /\ scls r = BVC (skind x) (csize (scls x) + k) /\ swf r /\
    forall e, sext (meaning e x) k = Ok (meaning e r).
Proof. exact C32_sext_partial_pf. Qed.
Print Assumptions C32_sext_partial.
(** ext follows the class: sign extension for the signed class, zero extension otherwise. *)
Theorem C32_ext_partial : forall S, faithful S -> forall x k, swf x -> 1 <= k ->
  exists r, s_ext S x k = Ok r /\ scls r = BVC (skind x) (csize (scls x) + k) /\ swf r /\
    forall e, ext (meaning e x) k = Ok (meaning e r).
Proof. exact C32_ext_partial_pf. Qed.
Print Assumptions C32_ext_partial.
(** Missing: k = 0, where the symbolic family returns x and the concrete one raises (property C66). *)
Theorem C32_sext_refuted : forall S, faithful S -> forall x, swf x ->
  (exists r, s_sext S x 0 = Ok r /\ scls r = scls x /\ swf r /\ forall e, meaning e r = meaning e x) /\
  forall e, sext (meaning e x) 0 = Raise EValueError.
Proof. exact C32_sext_refuted_pf. Qed.
Print Assumptions C32_sext_refuted.
Example C32_ext_ex : exists r, s_ext no_simp (sx KSInt 4) 2 = Ok r /\ meaning env0 r = BV (BVC KSInt 6) 59 /\
  exists r, s_concat no_simp (sx KBV 4) (SVec (sy KBV 3)) = Ok r /\ meaning env0 r = BV (BVC KBV 7) 107.
Proof. eexists. split; [reflexivity|]. split; [vm_compute; reflexivity|]. eexists. split; [reflexivity|]. vm_compute. reflexivity. Qed.

Theorem C32_setitem : forall S, faithful S -> forall x i v, swf x -> - csize (scls x) <= i < csize (scls x) ->
  s_bit_like v = true -> (match v with SBit t => bwf t = true | _ => True end) ->
  exists r, s_setitem_int S x i v = Ok r /\ scls r = scls x /\ swf r /\
    forall e, setitem_int (meaning e x) i (vmeaning e v) = Ok (meaning e r).
Proof. exact C32_setitem_pf. Qed.
Print Assumptions C32_setitem.
Example C32_setitem_ex : exists r, s_setitem_int no_simp (sx KBV 4) 2 (SBit (BVar "p")) = Ok r /\ bval (meaning env0 r) = 15.
Proof. eexists. split; [reflexivity|]. vm_compute. reflexivity. Qed.
(** Item assignment raises exactly what it raises on the concrete values, for every index and value (raw solver
    nodes aside, which have no concrete counterpart). *)
Theorem C32_setitem_raises : forall S, faithful S -> forall e x i v r, swf x ->
  (forall t, v <> SNodeB t) -> (match v with SBit t => bwf t = true | _ => True end) ->
  (s_setitem S x i v = Raise r <-> setitem (meaning e x) i (vmeaning e v) = Raise r).
Proof. exact C32_setitem_raises_pf. Qed.
Print Assumptions C32_setitem_raises.
Example C32_setitem_raises_ex : s_setitem no_simp (sx KBV 4) (IInt 4) (SBit (BVar "p")) = Raise EIndexError /\
  s_setitem no_simp (sx KBV 4) IOther (SInt 2) = Raise EValueError /\ s_setitem no_simp (sx KBV 4) IOther (SInt 1) = Raise ETypeError.
Proof. repeat split. Qed.

Theorem C32_adc : forall S, faithful S -> forall x v cv, swf x -> accepted (csize (scls x)) v -> accepted 1 cv ->
  exists r c, s_adc S x v cv = Ok (r, c) /\ scls r = scls x /\ swf r /\ bwf c = true /\
    forall e, adc (meaning e x) (vmeaning e v) (vmeaning e cv) = Ok (meaning e r, evalb e c).
Proof. exact C32_adc_pf. Qed.
Print Assumptions C32_adc.
Example C32_adc_ex : accepted 1 (SBit (BVar "p")) /\
  exists r c, s_adc no_simp (sx KBV 4) (SVec (sy KBV 4)) (SBit (BVar "p")) = Ok (r, c) /\ bval (meaning env0 r) = 2 /\ evalb env0 c = true.
Proof. split; [split; [now constructor|exact I]|]. do 2 eexists. split; [reflexivity|]. split; vm_compute; reflexivity. Qed.

(** * C33: repetition *)
(** repeat(1) is the identity in both families. *)
Theorem C33_smt_partial : forall S, faithful S -> forall x, swf x ->
  exists q, s_repeat S x (SInt 1) = Ok q /\ swf q /\ forall e, bv_repeat (meaning e x) 1 = Ok (meaning e q).
Proof. exact C33_smt_partial_pf. Qed.
Print Assumptions C33_smt_partial.
(** For every larger count the symbolic call raises, because the result is built in the class of x. *)
Theorem C33_smt_refuted : forall S x r, swf x -> 2 <= r ->
  s_repeat S x (SInt r) = Raise ETypeError /\ forall e, exists y, bv_repeat (meaning e x) r = Ok y.
Proof. exact C33_smt_refuted_pf. Qed.
Print Assumptions C33_smt_refuted.
(** Counts below 1 return x symbolically and raise ValueError concretely. *)
Theorem C33_smt_low_refuted : forall S, faithful S -> forall x r, swf x -> r <= 0 ->
  (exists q, s_repeat S x (SInt r) = Ok q /\ forall e, meaning e q = meaning e x) /\
  forall e, bv_repeat (meaning e x) r = Raise EValueError.
Proof. exact C33_smt_low_refuted_pf. Qed.
Print Assumptions C33_smt_low_refuted.
Example C33_smt_ex : swf (sx KBV 4) /\ exists q, s_repeat no_simp (sx KBV 4) (SInt 1) = Ok q /\ meaning env0 q = BV (BVC KBV 4) 11.
Proof. split; [unfold swf; cbn; lia|]. eexists. split; [reflexivity|]. vm_compute. reflexivity. Qed.

(** * C36: formula constructors *)
Theorem C36_formula : forall S, faithful S -> forall f, formula_wf f ->
  exists r, to_hwtypes S f = Ok r /\ bwf r = true /\ forall e, evalb e r = holds e f.
Proof. exact C36_formula_pf. Qed.
Print Assumptions C36_formula.
Theorem C36_empty : forall S, faithful S ->
  (exists r, to_hwtypes S (FAnd []) = Ok r /\ forall e, evalb e r = true) /\
  (exists r, to_hwtypes S (FOr []) = Ok r /\ forall e, evalb e r = false).
Proof. exact C36_empty_pf. Qed.
Print Assumptions C36_empty.
Example C36_ex : let f := FImplies (FAnd [FBit (BVar "p"); FOr [FBit (BVar "q"); FBit (BVar "p")]]) (FAnd [FBit (BVar "q")]) in
  formula_wf f /\ exists r, to_hwtypes no_simp f = Ok r /\ evalb env0 r = false.
Proof. cbv zeta. split; [cbn; tauto|]. eexists. split; [reflexivity|]. vm_compute. reflexivity. Qed.

(** * C37: integers *)
(** An operand that stands for an integer can stand on either side of an SMTInt. *)
Theorem C37_arithmetic : forall S, faithful S -> forall e0 op a b za zb, int_arg e0 a za -> int_arg e0 b zb ->
  (exists t, a = TInt t) \/ (exists t, b = TInt t) ->
  exists r, i_binop S op a b = Ok r /\ iwf r = true /\
    forall e za zb, int_arg e a za -> int_arg e b zb -> evali e r = iop_value op za zb.
Proof. exact C37_arithmetic_pf. Qed.
Print Assumptions C37_arithmetic.
Theorem C37_comparisons : forall S, faithful S -> forall e0 c a b za zb, int_arg e0 a za -> int_arg e0 b zb ->
  (exists t, a = TInt t) \/ (exists t, b = TInt t) ->
  exists r, i_compare S c a b = Ok r /\ bwf r = true /\
    forall e za zb, int_arg e a za -> int_arg e b zb -> evalb e r = icmp_value c za zb.
Proof. exact C37_comparisons_pf. Qed.
Print Assumptions C37_comparisons.
Theorem C37_neg : forall S, faithful S -> forall t, iwf t = true ->
  exists r, i_neg S t = Ok r /\ iwf r = true /\ forall e, evali e r = - evali e t.
Proof. exact C37_neg_pf. Qed.
Print Assumptions C37_neg.
Theorem C37_as_uint : forall S, faithful S -> forall x, swf x ->
  exists r, s_as_uint S x = Ok r /\ iwf r = true /\ forall e, evali e r = as_uint (meaning e x).
Proof. exact C37_as_uint_pf. Qed.
Print Assumptions C37_as_uint.
Theorem C37_as_sint_partial : forall S, faithful S -> forall x, swf x -> 2 <= csize (scls x) ->
  exists r, s_as_sint S x = Ok r /\ iwf r = true /\ forall e, as_sint (meaning e x) = Ok (evali e r).
Proof. exact C37_as_sint_partial_pf. Qed.
Print Assumptions C37_as_sint_partial.
(** Missing: width 1, where the symbolic as_sint asserts (empty slice). *)
Theorem C37_as_sint_refuted : forall S x, swf x -> csize (scls x) = 1 ->
  s_as_sint S x = Raise EAssertion /\ forall e, exists z, as_sint (meaning e x) = Ok z.
Proof. exact C37_as_sint_refuted_pf. Qed.
Print Assumptions C37_as_sint_refuted.
Example C37_ex : int_arg env0 (TInt (IVar "k")) (-3) /\
  exists r, i_binop no_simp JSub (TVal (SInt 10)) (TInt (IVar "k")) = Ok r /\ evali env0 r = 13 /\
  exists r, i_compare no_simp CGe (TVal (SInt 10)) (TInt (IVar "k")) = Ok r /\ evalb env0 r = true /\
  exists r, s_as_sint no_simp (sx KBV 4) = Ok r /\ evali env0 r = -5.
Proof.
  split; [now apply (J_term env0 (IVar "k"))|]. eexists. split; [reflexivity|]. split; [reflexivity|].
  eexists. split; [reflexivity|]. split; [reflexivity|]. eexists. split; [reflexivity|]. vm_compute. reflexivity.
Qed.

(** * C64: substitution *)
(** Simultaneous: the replacing terms are read under the original assignment. The result is always an
    SMTBitVector[n], whatever the class of x. *)
Theorem C64_vector : forall S, faithful S -> forall x l, swf x -> Forall good_pair l ->
  exists r, s_substitute S x l = Ok r /\ scls r = BVC KBV (csize (scls x)) /\ swf r /\
    forall e, evalv e (sterm r) = evalv (rebind e l) (sterm x).
Proof. exact C64_vector_pf. Qed.
Print Assumptions C64_vector.
Theorem C64_bit : forall S, faithful S -> forall p l, bwf p = true -> Forall good_pair l ->
  exists r, sbit_substitute S p l = Ok r /\ bwf r = true /\ forall e, evalb e r = evalb (rebind e l) p.
Proof. exact C64_bit_pf. Qed.
Print Assumptions C64_bit.
(** Exchanging two variables works. *)
Example C64_ex : let l := [PairV (VVar "x" 4) (VVar "y" 4); PairV (VVar "y" 4) (VVar "x" 4)] in
  Forall good_pair l /\
  exists d, s_bvsub no_simp (sx KBV 4) (SVec (sy KBV 4)) = Ok d /\ bval (meaning env0 d) = 5 /\
  exists r, s_substitute no_simp d l = Ok r /\ bval (meaning env0 r) = 11.
Proof.
  cbv zeta. split; [repeat constructor|]. eexists. split; [reflexivity|]. split; [vm_compute; reflexivity|].
  eexists. split; [reflexivity|]. vm_compute. reflexivity.
Qed.
