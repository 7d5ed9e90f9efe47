(** Property theorems for Python's operators on concrete bit-vectors and Bits.
    Statements use BVSpec.v and OpSpec.v only. *)
From Coq Require Import Lia ZifyBool.
From Verif Require Import PyBase BVModel BVSpec BVFacts BVOps BVPropFacts OpModel OpSpec OpFacts.
From Verif Require Import OpProofs.


(** * C05-C09: infix operators with any convertible or same-size right operand *)
Theorem C05_operators : forall op x v u, wf x -> plain_operand v -> converts (bsize x) v u ->
  (bkind x = KSInt -> 1 <= bsize x) ->
  py_binop_val op (VBV x) v =
    Ok (VBV (BV (bcls x) (op_value op (is_signed (bkind x)) (bsize x) (bval x) u))).
Proof. exact C05_operators_pf. Qed.
Print Assumptions C05_operators.
Example C05_operators_ex : py_binop_val OFloorDiv (VBV (s4 9)) (VInt 2) = Ok (VBV (s4 12)) /\
  converts 4 (VInt 2) 2.
Proof. split; [vm_compute; reflexivity|exact (Cv_int 4 2)]. Qed.

(** * C10: infix comparisons with any convertible operand *)
Theorem C10_operators : forall c x v u, wf x -> plain_operand v -> converts (bsize x) v u ->
  1 <= bsize x ->
  py_cmp c (VBV x) v = Ok (ONew (VBit (cmp_value c (is_signed (bkind x)) (bsize x) (bval x) u))).
Proof. exact C10_operators_pf. Qed.
Print Assumptions C10_operators.
Example C10_operators_ex : py_cmp CLt (VBV (s4 9)) (VInt 2) = Ok (ONew (VBit true)) /\
  py_cmp CLt (VBV (b8 9)) (VInt 2) = Ok (ONew (VBit false)).
Proof. vm_compute. auto. Qed.

(** * C18: size mismatch *)
Theorem C18_operators : forall op x y, bsize x <> bsize y ->
  py_binop op (VBV x) (VBV y) = Raise EInconsistentSize.
Proof. exact C18_operators_pf. Qed.
Print Assumptions C18_operators.
Theorem C18_comparisons : forall c x y, bsize x <> bsize y ->
  py_cmp c (VBV x) (VBV y) = Raise EInconsistentSize.
Proof. exact C18_comparisons_pf. Qed.
Print Assumptions C18_comparisons.
Theorem C18_methods : forall x y, bsize x <> bsize y ->
  Forall (fun m => m x (VBV y) = Raise EInconsistentSize)
    [bvand; bvor; bvxor; bvnand; bvnor; bvxnor; bvshl; bvlshr; bvashr; bvadd; bvsub; bvmul;
     bvudiv; bvurem; bvsdiv; bvsrem; bvcomp; bvrol; bvror] /\
  Forall (fun m => m x (VBV y) = Raise EInconsistentSize)
    [bveq; bvne; bvult; bvule; bvugt; bvuge; bvslt; bvsle; bvsgt; bvsge] /\
  (forall c, adc x (VBV y) c = Raise EInconsistentSize).
Proof. exact C18_methods_pf. Qed.
Print Assumptions C18_methods.
Example C18_ex : bsize (s4 3) <> bsize (b8 3) /\ bvadd (s4 3) (VBV (b8 3)) = Raise EInconsistentSize.
Proof. split; [discriminate|reflexivity]. Qed.

(** * C19: non-bit-vector left operands. Full claim: every operator. False for >> on unsigned classes. *)
Theorem C19_reflected_partial : forall op x v u, wf x -> plain_operand v -> converts (bsize x) v u ->
  (bkind x = KSInt -> 1 <= bsize x) -> (op <> OShr \/ bkind x = KSInt) ->
  py_binop_val op v (VBV x) =
    Ok (VBV (BV (bcls x) (op_value op (is_signed (bkind x)) (bsize x) u (bval x)))).
Proof. exact C19_reflected_partial_pf. Qed.
Print Assumptions C19_reflected_partial.
Theorem C19_reflected_comparisons : forall c x v u, wf x -> plain_operand v -> converts (bsize x) v u ->
  1 <= bsize x ->
  py_cmp c v (VBV x) = Ok (ONew (VBit (cmp_value c (is_signed (bkind x)) (bsize x) u (bval x)))).
Proof. exact C19_reflected_comparisons_pf. Qed.
Print Assumptions C19_reflected_comparisons.
Example C19_ex : py_binop_val OSub (VInt 20) (VBV (s4 5)) = Ok (VBV (s4 15)).
Proof. vm_compute. reflexivity. Qed.
(** 8 >> BitVector[4](1) evaluates to 1 >> 8 = 0, not 8 >> 1 = 4. *)
Theorem C19_rshift_refuted : exists x k y z, wf x /\ construct (bkind x) (bsize x) (VInt k) = Ok y /\
  py_binop_val OShr (VInt k) (VBV x) = Ok (VBV z) /\
  py_binop_val OShr (VBV y) (VBV x) <> Ok (VBV z).
Proof. exact C19_rshift_refuted_pf. Qed.
Print Assumptions C19_rshift_refuted.
(** What the unsigned classes compute instead, for every left operand: the operands swapped. *)
Theorem C19_rshift_swapped : forall x v u, wf x -> plain_operand v -> converts (bsize x) v u ->
  bkind x <> KSInt ->
  py_binop_val OShr v (VBV x) = Ok (VBV (BV (bcls x) (bval x / 2 ^ u))).
Proof. exact C19_rshift_swapped_pf. Qed.
Print Assumptions C19_rshift_swapped.

(** * C20: unsupported operands. Full claim: both sides raise TypeError. *)
Theorem C20_right_operand : forall op x v, unsupported v ->
  py_binop op (VBV x) v = Raise ETypeError.
Proof. exact C20_right_operand_pf. Qed.
Print Assumptions C20_right_operand.
Theorem C20_comparisons : forall x v, unsupported v ->
  py_cmp CEq (VBV x) v = Ok (ONew (VBool false)) /\ py_cmp CNe (VBV x) v = Ok (ONew (VBool true)) /\
  py_cmp CEq v (VBV x) = Ok (ONew (VBool false)) /\ py_cmp CNe v (VBV x) = Ok (ONew (VBool true)) /\
  forall c, c <> CEq -> c <> CNe ->
    py_cmp c (VBV x) v = Raise ETypeError /\ py_cmp c v (VBV x) = Raise ETypeError.
Proof. exact C20_comparisons_pf. Qed.
Print Assumptions C20_comparisons.
(** obj + x raises NameError: dispatch_roper names an undefined exception class. *)
Theorem C20_left_operand_refuted : forall op x v, unsupported v ->
  (op <> OShr \/ bkind x = KSInt) -> py_binop op v (VBV x) = Raise ENameError.
Proof. exact C20_left_operand_refuted_pf. Qed.
Print Assumptions C20_left_operand_refuted.
(** Strongest true part for the left side: it always raises, never returns a value. *)
Theorem C20_left_operand_partial : forall op x v, unsupported v ->
  py_binop op v (VBV x) = Raise ETypeError \/ py_binop op v (VBV x) = Raise ENameError.
Proof. exact C20_left_operand_partial_pf. Qed.
Print Assumptions C20_left_operand_partial.
Example C20_ex : unsupported (VOther None None true) /\
  py_binop OAdd (VOther None None true) (VBV (s4 1)) = Raise ENameError.
Proof. split; [constructor|reflexivity]. Qed.

(** * C21: hash and equality *)
Theorem C21_same_class : forall x y, wf x -> wf y -> bcls x = bcls y ->
  py_cmp CEq (VBV x) (VBV y) = Ok (ONew (VBit true)) -> hash_key x = hash_key y.
Proof. exact C21_same_class_pf. Qed.
Print Assumptions C21_same_class.
Theorem C21_key_determines : forall x y, wf x -> wf y -> hash_key x = hash_key y -> x = y.
Proof. exact C21_key_determines_pf. Qed.
Print Assumptions C21_key_determines.
Theorem C21_cross_class_refuted : exists x y, wf x /\ wf y /\
  py_cmp CEq (VBV x) (VBV y) = Ok (ONew (VBit true)) /\ hash_key x <> hash_key y.
Proof. exact C21_cross_class_refuted_pf. Qed.
Print Assumptions C21_cross_class_refuted.
Example C21_ex : hash_key (s4 13) = "SIntVector[4]13"%string.
Proof. vm_compute. reflexivity. Qed.

(** * C22: Bit *)
Theorem C22_left : forall a v b, bit_operand v b ->
  py_binop OAnd (VBit a) v = Ok (ONew (VBit (a && b))) /\
  py_binop OOr (VBit a) v = Ok (ONew (VBit (a || b))) /\
  py_binop OXor (VBit a) v = Ok (ONew (VBit (xorb a b))) /\
  py_cmp CEq (VBit a) v = Ok (ONew (VBit (Bool.eqb a b))) /\
  py_cmp CNe (VBit a) v = Ok (ONew (VBit (negb (Bool.eqb a b)))) /\
  bit_invert a = negb a.
Proof. exact C22_left_pf. Qed.
Print Assumptions C22_left.
Theorem C22_right : forall a v b, bit_operand v b -> (forall x, v <> VBV x) ->
  py_binop OAnd v (VBit a) = Ok (ONew (VBit (b && a))) /\
  py_binop OOr v (VBit a) = Ok (ONew (VBit (b || a))) /\
  py_binop OXor v (VBit a) = Ok (ONew (VBit (xorb b a))) /\
  py_cmp CEq v (VBit a) = Ok (ONew (VBit (Bool.eqb b a))) /\
  py_cmp CNe v (VBit a) = Ok (ONew (VBit (negb (Bool.eqb b a)))).
Proof. exact C22_right_pf. Qed.
Print Assumptions C22_right.
Theorem C22_bad_int : forall op a z, op = OAnd \/ op = OOr \/ op = OXor -> z <> 0 -> z <> 1 ->
  py_binop op (VBit a) (VInt z) = Raise EValueError /\ py_binop op (VInt z) (VBit a) = Raise EValueError.
Proof. exact C22_bad_int_pf. Qed.
Print Assumptions C22_bad_int.
Example C22_ex : py_binop OXor (VInt 1) (VBit true) = Ok (ONew (VBit false)) /\ bit_operand (VInt 1) true.
Proof. split; [reflexivity|constructor]. Qed.

(** * C28: two bit-vectors of possibly different classes *)
Theorem C28_operators : forall op x y, wf x -> wf y -> bsize x = bsize y ->
  (signed_pair (bkind x) (bkind y) = true -> 1 <= bsize x) ->
  py_binop_val op (VBV x) (VBV y) =
    Ok (VBV (BV (bcls x) (op_value op (signed_pair (bkind x) (bkind y)) (bsize x) (bval x) (bval y)))).
Proof. exact C28_operators_pf. Qed.
Print Assumptions C28_operators.
Theorem C28_comparisons : forall c x y, wf x -> wf y -> bsize x = bsize y -> 1 <= bsize x ->
  py_cmp c (VBV x) (VBV y) =
    Ok (ONew (VBit (cmp_value c (signed_pair (bkind x) (bkind y)) (bsize x) (bval x) (bval y)))).
Proof. exact C28_comparisons_pf. Qed.
Print Assumptions C28_comparisons.
Example C28_ex :
  py_binop_val OShr (VBV (BV (BVC KBV 4) 8)) (VBV (s4 1)) = Ok (VBV (BV (BVC KBV 4) 12)) /\
  py_binop_val OShr (VBV (BV (BVC KUInt 4) 8)) (VBV (s4 1)) = Ok (VBV (BV (BVC KUInt 4) 4)).
Proof. vm_compute. auto. Qed.
