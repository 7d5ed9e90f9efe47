(** C90, C91: truth values and equality of symbolic values, operators between families. *)
From Coq Require Import Lia ZifyBool.
From Verif Require Import PyBase BVModel BVSpec BVFacts BVOps OpModel OpFacts SMTTerm SMTModel SMTSpec SMTFacts SMTOps SMTProofs Z3Model Z3Spec Z3Proofs MixModel MixSpec.
From Verif Require Import MixProofs.

(** * C90 *)
(** bool(x) of concrete values: whether the number is not 0 (vectors of at least one bit) *)
Theorem C90_concrete : forall x b, wf x -> 1 <= bsize x -> truth (VBit b) = Ok b /\ truth (VBV x) = Ok (negb (bval x =? 0)).
Proof. exact C90_concrete_pf. Qed.
Print Assumptions C90_concrete.
(** bool() of an SMTBit raises, so a branch on a symbolic Bit is never taken silently *)
Theorem C90_smt_bit : forall t, s_truth FSmt (SBit t) = Raise ETypeError.
Proof. exact C90_smt_bit_pf. Qed.
Print Assumptions C90_smt_bit.
(** A symbolic vector of at least one bit is true whatever its number, in both families, also the constant 0; a z3Bit is true even if
    it is the constant False *)
Theorem C90_truth_refuted : forall f x t, swf x -> s_truth f (SVec x) = Ok true /\ s_truth FZ3 (SBit t) = Ok true.
Proof. exact C90_truth_refuted_pf. Qed.
Print Assumptions C90_truth_refuted.
Example C90_truth_case : swf (SV (BVC KBV 4) (VConst 0 4)) /\ truth (VBV (meaning env0 (SV (BVC KBV 4) (VConst 0 4)))) = Ok false.
Proof. split; [unfold swf; cbn; lia|reflexivity]. Qed.


(** == of Tuples, Products, Sums and TaggedUnions whose leaves are pySMT values: an answer, when there is one, is right. (A Tuple with
    two different leaf objects has none: the truth of an SMTBit raises TypeError.) *)
Theorem C90_smt_answer : forall S le a b r, faithful S -> (forall c, le c c = true) -> leaves_ok a -> leaves_ok b -> coherent a b ->
  i_eq S FSmt le false a b = Ok r -> answer_right le a b r.
Proof. exact C90_smt_answer_pf. Qed.
Print Assumptions C90_smt_answer.
(** != : the same, and the answer is always a bool *)
Theorem C90_smt_ne : forall S le a b r, faithful S -> (forall c, le c c = true) -> leaves_ok a -> leaves_ok b -> coherent a b ->
  i_ne S FSmt le a b = Ok r -> (r = SBool true /\ forall e, ~ same le e a b) \/ (r = SBool false /\ forall e, same le e a b).
Proof. exact C90_smt_ne_pf. Qed.
Print Assumptions C90_smt_ne.
Example C90_smt_case :
  let a := ITup 9 0 [ILeaf 1 (SVec (sx KBV 4)); ISum 2 1 (ILeaf 3 (SBit (BVar "p")))] in
  let b := ITup 8 0 [ILeaf 1 (SVec (sx KBV 4)); ISum 2 1 (ILeaf 3 (SBit (BVar "p")))] in
  let c := ITup 7 0 [ILeaf 1 (SVec (sx KBV 4)); ITag 5 2 0 (ILeaf 3 (SBit (BVar "p")))] in
  let u := ISum 10 1 (ILeaf 11 (SVec (sx KBV 4))) in let v := ISum 12 1 (ILeaf 13 (SVec (sy KBV 4))) in
  let le := Nat.eqb in
  leaves_ok a /\ leaves_ok b /\ coherent a b /\ i_eq no_simp FSmt le false a b = Ok (SBool true) /\
  i_ne no_simp FSmt le a c = Ok (SBool true) /\
  leaves_ok u /\ leaves_ok v /\ coherent u v /\
  i_eq no_simp FSmt le false u v = Ok (SBit (BEq (VVar "x" 4) (VVar "y" 4))).
Proof.
  cbv zeta. repeat split; try reflexivity; intros x y; cbn [inside flat_map app In]; intros; 
    repeat match goal with H : _ \/ _ |- _ => destruct H end; subst; try contradiction; try discriminate; try congruence; cbn in *; try congruence;
    match goal with H : ILeaf _ _ = ILeaf _ _ |- _ => inv H end; cbn; unfold swf; cbn; lia.
Qed.
(** z3 values, without Tuples and Products: the same for == *)
Theorem C90_z3_answer_partial : forall S le a b r, faithful S -> (forall c, le c c = true) -> leaves_ok a -> leaves_ok b -> coherent a b ->
  no_tuples a -> i_eq S FZ3 le false a b = Ok r -> answer_right le a b r.
Proof. exact C90_z3_answer_partial_pf. Qed.
Print Assumptions C90_z3_answer_partial.
Example C90_z3_answer_case :
  let u := ISum 10 1 (ILeaf 11 (SVec (sx KBV 4))) in let v := ISum 12 1 (ILeaf 13 (SVec (sy KBV 4))) in
  no_tuples u /\ leaves_ok u /\ leaves_ok v /\ coherent u v /\
  i_eq no_simp FZ3 Nat.eqb false u v = Ok (SBit (BEq (VVar "x" 4) (VVar "y" 4))).
Proof.
  cbv zeta. repeat split; try reflexivity; intros x y; cbn [inside flat_map app In]; intros; 
    try intro; repeat match goal with H : _ \/ _ |- _ => destruct H end; subst; try contradiction; try discriminate; try congruence; cbn in *; try congruence;
    match goal with H : ILeaf _ _ = ILeaf _ _ |- _ => inv H end; cbn; unfold swf; cbn; lia.
Qed.

(** Tuples and Products of z3 vectors of the same widths: == is the bool True and != the bool False, whatever the values *)
Theorem C90_z3_tuple_refuted : forall S le i j c l m, faithful S -> le c c = true ->
  Forall2 (fun a b => exists i j x y, a = ILeaf i (SVec x) /\ b = ILeaf j (SVec y) /\ swf x /\ swf y /\ csize (scls x) = csize (scls y)) l m ->
  i_eq S FZ3 le false (ITup i c l) (ITup j c m) = Ok (SBool true) /\ i_ne S FZ3 le (ITup i c l) (ITup j c m) = Ok (SBool false).
Proof. exact C90_z3_tuple_refuted_pf. Qed.
Print Assumptions C90_z3_tuple_refuted.
Example C90_z3_tuple_case :
  let a := ITup 1 0 [ILeaf 2 (SVec (SV (BVC KBV 4) (VConst 1 4)))] in let b := ITup 3 0 [ILeaf 4 (SVec (SV (BVC KBV 4) (VConst 2 4)))] in
  i_eq no_simp FZ3 Nat.eqb false a b = Ok (SBool true) /\ forall e, ~ same Nat.eqb e a b.
Proof. cbv zeta. split; [reflexivity|]. intros e H. repeat match goal with H : same _ _ _ _ |- _ => inversion H; clear H; subst | H : Forall2 _ _ _ |- _ => inversion H; clear H; subst end; cbn in *; discriminate. Qed.
(** != of Sums and TaggedUnions around symbolic leaves: z3 always answers False, pySMT always raises TypeError *)
Theorem C90_ne_refuted : forall S f le i j c d a b t, i_eq S f le false (ISum i c a) (ISum j d b) = Ok (SBit t) ->
  i_ne S f le (ISum i c a) (ISum j d b) = match f with FSmt => Raise ETypeError | FZ3 => Ok (SBool false) end.
Proof. exact C90_ne_refuted_pf. Qed.
Print Assumptions C90_ne_refuted.
Example C90_ne_case : let u := ISum 10 1 (ILeaf 11 (SVec (sx KBV 4))) in let v := ISum 12 1 (ILeaf 13 (SVec (sy KBV 4))) in
  i_ne no_simp FZ3 Nat.eqb u v = Ok (SBool false) /\ i_ne no_simp FSmt Nat.eqb u v = Raise ETypeError /\ ~ same Nat.eqb env0 u v.
Proof. cbv zeta. split; [reflexivity|]. split; [reflexivity|]. intro H. repeat match goal with H : same _ _ _ _ |- _ => inversion H; clear H; subst | H : Forall2 _ _ _ |- _ => inversion H; clear H; subst end; cbn in *; discriminate. Qed.

(** * C91 *)

(** The English claim in all theorems: c is converted to the class of x. pySMT, x op c; c is not a negative SIntVector, and / and % of
    the signed class are left out as in C30 *)
Theorem C91_smt_right_partial : forall S op x c, faithful S -> swf x -> wf c -> bsize c = csize (scls x) -> not_negative c ->
  signed_division op (skind x) = false ->
  exists r, mixed_right S FSmt op (SVec x) (VBV c) = Ok (SVec r) /\ swf r /\
    forall e, py_binop_val op (VBV (meaning e x)) (VBV (converted x c)) = Ok (VBV (meaning e r)).
Proof. exact C91_smt_right_partial_pf. Qed.
Print Assumptions C91_smt_right_partial.
(** c op x; the unsigned >> is left out too *)
Theorem C91_smt_left_partial : forall S op x c, faithful S -> swf x -> wf c -> bsize c = csize (scls x) -> not_negative c ->
  signed_division op (skind x) = false -> (op = OShr -> skind x = KSInt) ->
  exists r, mixed_left S FSmt op (VBV c) (SVec x) = Ok (inr (SVec r)) /\ swf r /\
    forall e, py_binop_val op (VBV (converted x c)) (VBV (meaning e x)) = Ok (VBV (meaning e r)).
Proof. exact C91_smt_left_partial_pf. Qed.
Print Assumptions C91_smt_left_partial.
Example C91_smt_case : let x := sx KSInt 4 in let c := BV (BVC KUInt 4) 12 in
  swf x /\ wf c /\ bsize c = csize (scls x) /\ not_negative c /\
  exists r, mixed_right no_simp FSmt OShr (SVec x) (VBV (BV (BVC KUInt 4) 1)) = Ok (SVec r) /\ bval (meaning env0 r) = 13 /\
  exists q, mixed_left no_simp FSmt OSub (VBV c) (SVec x) = Ok (inr (SVec q)) /\ bval (meaning env0 q) = 1.
Proof.
  cbv zeta. split; [unfold swf; cbn; lia|]. split; [split; cbn; lia|]. split; [reflexivity|]. split; [intro H; discriminate H|].
  eexists. split; [reflexivity|]. split; [vm_compute; reflexivity|]. eexists. split; [reflexivity|]. vm_compute. reflexivity.
Qed.
(** c >> x for an unsigned x computes x >> c *)
Theorem C91_smt_shr_refuted : (forall S x c, faithful S -> swf x -> wf c -> bsize c = csize (scls x) -> not_negative c -> skind x <> KSInt ->
  exists r, mixed_left S FSmt OShr (VBV c) (SVec x) = Ok (inr (SVec r)) /\
    forall e, py_binop_val OShr (VBV (meaning e x)) (VBV (converted x c)) = Ok (VBV (meaning e r))) /\
  exists x c r, swf x /\ mixed_left no_simp FSmt OShr (VBV c) (SVec x) = Ok (inr (SVec r)) /\ bval (meaning env0 r) = 2 /\
    py_binop_val OShr (VBV (converted x c)) (VBV (meaning env0 x)) = Ok (VBV (BV (scls x) 0)).
Proof. exact C91_smt_shr_refuted_pf. Qed.
Print Assumptions C91_smt_shr_refuted.
(** Comparisons, both orders *)
Theorem C91_smt_compare_partial : forall S cm x c, faithful S -> swf x -> wf c -> bsize c = csize (scls x) -> not_negative c ->
  (exists r, mixed_cmp_right S FSmt cm (SVec x) (VBV c) = Ok (SBit r) /\ bwf r = true /\
    forall e, py_cmp cm (VBV (meaning e x)) (VBV (converted x c)) = Ok (ONew (VBit (evalb e r)))) /\
  (exists r, mixed_cmp_left S FSmt cm (VBV c) (SVec x) = Ok (inr (SBit r)) /\ bwf r = true /\
    forall e, py_cmp cm (VBV (converted x c)) (VBV (meaning e x)) = Ok (ONew (VBit (evalb e r)))).
Proof. exact C91_smt_compare_partial_pf. Qed.
Print Assumptions C91_smt_compare_partial.
Example C91_smt_compare_case : exists r, mixed_cmp_left no_simp FSmt CLt (VBV (BV (BVC KUInt 4) 12)) (SVec (sx KSInt 4)) = Ok (inr (SBit r)) /\ evalb env0 r = false.
Proof. eexists. split; [reflexivity|]. vm_compute. reflexivity. Qed.
(** A negative SIntVector: every operator and comparison raises, ValueError or (on the left) NameError *)
Theorem C91_smt_negative_refuted : forall S op cm x c, wf c -> bsize c = csize (scls x) -> 1 <= bsize c -> ~ not_negative c ->
  mixed_right S FSmt op (SVec x) (VBV c) = Raise EValueError /\ mixed_cmp_right S FSmt cm (SVec x) (VBV c) = Raise EValueError /\
  mixed_cmp_left S FSmt cm (VBV c) (SVec x) = Raise EValueError /\
  mixed_left S FSmt op (VBV c) (SVec x) = Raise (match op, skind x with OShr, KSInt => ENameError | OShr, _ => EValueError | _, _ => ENameError end).
Proof. exact C91_smt_negative_refuted_pf. Qed.
Print Assumptions C91_smt_negative_refuted.
Example C91_smt_negative_case : ~ not_negative (BV (BVC KSInt 4) 15).
Proof. intro H. specialize (H eq_refl). cbn in H. lia. Qed.
(** A concrete vector of another width is converted silently when its int fits; two symbolic (or two concrete) vectors of different
    widths raise InconsistentSizeError *)
Theorem C91_width_refuted : forall S op x c, faithful S -> swf x -> wf c -> 1 <= bsize c -> bsize c <> csize (scls x) ->
  bval c < 2 ^ csize (scls x) -> not_negative c -> signed_division op (skind x) = false ->
  (exists r, mixed_right S FSmt op (SVec x) (VBV c) = Ok (SVec r)) /\
  forall e, py_binop_val op (VBV (meaning e x)) (VBV c) = Raise EInconsistentSize.
Proof. exact C91_width_refuted_pf. Qed.
Print Assumptions C91_width_refuted.
Example C91_width_case : exists r, mixed_right no_simp FSmt OAdd (SVec (sx KBV 4)) (VBV (BV (BVC KBV 16) 9)) = Ok (SVec r) /\ bval (meaning env0 r) = 4.
Proof. eexists. split; [reflexivity|]. vm_compute. reflexivity. Qed.
(** SMTBit and Bit *)
Theorem C91_smt_bits_partial : forall S p b, faithful S -> bwf p = true ->
  (forall op, op = OAnd \/ op = OOr \/ op = OXor -> exists r, mixed_right S FSmt op (SBit p) (VBit b) = Ok (SBit r) /\ bwf r = true /\
     forall e, py_binop_val op (VBit (evalb e p)) (VBit b) = Ok (VBit (evalb e r))) /\
  (forall op, op = OAnd \/ op = OOr -> exists r, mixed_left S FSmt op (VBit b) (SBit p) = Ok (inr (SBit r)) /\ bwf r = true /\
     forall e, py_binop_val op (VBit b) (VBit (evalb e p)) = Ok (VBit (evalb e r))) /\
  (forall cm, cm = CEq \/ cm = CNe ->
     (exists r, mixed_cmp_right S FSmt cm (SBit p) (VBit b) = Ok (SBit r) /\ bwf r = true /\
        forall e, py_cmp cm (VBit (evalb e p)) (VBit b) = Ok (ONew (VBit (evalb e r)))) /\
     (exists r, mixed_cmp_left S FSmt cm (VBit b) (SBit p) = Ok (inr (SBit r)) /\ bwf r = true /\
        forall e, py_cmp cm (VBit b) (VBit (evalb e p)) = Ok (ONew (VBit (evalb e r))))).
Proof. exact C91_smt_bits_partial_pf. Qed.
Print Assumptions C91_smt_bits_partial.
Example C91_smt_bits_case : bwf (BVar "p") = true /\ exists r, mixed_left no_simp FSmt OOr (VBit false) (SBit (BVar "p")) = Ok (inr (SBit r)) /\ evalb env0 r = true.
Proof. split; [reflexivity|]. eexists. split; reflexivity. Qed.
(** Bit ^ SMTBit raises TypeError (SMTBit ^ Bit does not) *)
Theorem C91_smt_xor_refuted : forall S b p, mixed_left S FSmt OXor (VBit b) (SBit p) = Raise ETypeError.
Proof. exact C91_smt_xor_refuted_pf. Qed.
Print Assumptions C91_smt_xor_refuted.
(** z3, x op c, also for negative c; signed // is left out as in C38 *)
Theorem C91_z3_right_partial : forall S op x c, faithful S -> swf x -> wf c -> bsize c = csize (scls x) -> signed_floordiv op (skind x) = false ->
  exists r, mixed_right S FZ3 op (SVec x) (VBV c) = Ok (SVec r) /\ scls r = scls x /\ swf r /\
    forall e, py_binop_val op (VBV (meaning e x)) (VBV (converted x c)) = Ok (VBV (meaning e r)).
Proof. exact C91_z3_right_partial_pf. Qed.
Print Assumptions C91_z3_right_partial.
Example C91_z3_right_case : exists r, mixed_right no_simp FZ3 OAdd (SVec (sx KSInt 4)) (VBV (BV (BVC KSInt 4) 15)) = Ok (SVec r) /\ bval (meaning env0 r) = 10.
Proof. eexists. split; [reflexivity|]. vm_compute. reflexivity. Qed.
(** c op x: every operator raises TypeError, also for Bits *)
Theorem C91_z3_left_refuted : forall S op x c p b, mixed_left S FZ3 op (VBV c) (SVec x) = Raise ETypeError /\
  mixed_left S FZ3 op (VBit b) (SBit p) = Raise ETypeError.
Proof. exact C91_z3_left_refuted_pf. Qed.
Print Assumptions C91_z3_left_refuted.
Theorem C91_z3_compare : forall S cm x c, faithful S -> swf x -> wf c -> bsize c = csize (scls x) ->
  (exists r, mixed_cmp_right S FZ3 cm (SVec x) (VBV c) = Ok (SBit r) /\ bwf r = true /\
    forall e, py_cmp cm (VBV (meaning e x)) (VBV (converted x c)) = Ok (ONew (VBit (evalb e r)))) /\
  (exists r, mixed_cmp_left S FZ3 cm (VBV c) (SVec x) = Ok (inr (SBit r)) /\ bwf r = true /\
    forall e, py_cmp cm (VBV (converted x c)) (VBV (meaning e x)) = Ok (ONew (VBit (evalb e r)))).
Proof. exact C91_z3_compare_pf. Qed.
Print Assumptions C91_z3_compare.
Example C91_z3_compare_case : exists r, mixed_cmp_left no_simp FZ3 CLt (VBV (BV (BVC KSInt 4) 12)) (SVec (sx KSInt 4)) = Ok (inr (SBit r)) /\ evalb env0 r = false.
Proof. eexists. split; [reflexivity|]. vm_compute. reflexivity. Qed.
(** z3Bit and Bit *)
Theorem C91_z3_bits : forall S p b, faithful S -> bwf p = true ->
  (forall op, op = OAnd \/ op = OOr \/ op = OXor -> exists r, mixed_right S FZ3 op (SBit p) (VBit b) = Ok (SBit r) /\ bwf r = true /\
     forall e, py_binop_val op (VBit (evalb e p)) (VBit b) = Ok (VBit (evalb e r))) /\
  (forall cm, cm = CEq \/ cm = CNe ->
     (exists r, mixed_cmp_right S FZ3 cm (SBit p) (VBit b) = Ok (SBit r) /\ bwf r = true /\
        forall e, py_cmp cm (VBit (evalb e p)) (VBit b) = Ok (ONew (VBit (evalb e r)))) /\
     (exists r, mixed_cmp_left S FZ3 cm (VBit b) (SBit p) = Ok (inr (SBit r)) /\ bwf r = true /\
        forall e, py_cmp cm (VBit b) (VBit (evalb e p)) = Ok (ONew (VBit (evalb e r))))).
Proof. exact C91_z3_bits_pf. Qed.
Print Assumptions C91_z3_bits.
Example C91_z3_bits_case : exists r, mixed_right no_simp FZ3 OXor (SBit (BVar "p")) (VBit true) = Ok (SBit r) /\ evalb env0 r = false.
Proof. eexists. split; reflexivity. Qed.
