(** Proofs of the theorems stated in OpProps.v. *)
From Coq Require Import Lia ZifyBool.
From Verif Require Import PyBase BVModel BVSpec BVFacts BVOps BVPropFacts OpModel OpSpec OpFacts.

Lemma op_method_value op k x v u : wf x -> operand (bsize x) v u -> (k = KSInt -> 1 <= bsize x) ->
  exists r, op_method op k x v = Ok r /\
    rv_val x r = BV (bcls x) (op_value op (is_signed k) (bsize x) (bval x) u).
Proof.
  intros Hw Ho Hk. destruct op; cbn [op_method op_value];
    try (eexists; split; [eauto using bvand_spec, bvor_spec, bvxor_spec, bvshl_spec, bvadd_spec, bvsub_spec, bvmul_spec|reflexivity]).
  - destruct (is_signed k) eqn:E.
    + destruct k; try discriminate. eexists; split; [apply bvashr_spec; eauto|reflexivity].
    + assert (match k with KSInt => bvashr | _ => bvlshr end = bvlshr) as -> by now destruct k.
      eexists; split; [apply bvlshr_spec; eauto|reflexivity].
  - destruct (is_signed k) eqn:E.
    + destruct k; try discriminate. eexists; split; [apply bvsdiv_spec; eauto|].
      reflexivity.
    + assert (match k with KSInt => bvsdiv | _ => bvudiv end = bvudiv) as -> by now destruct k.
      eexists; split; [apply bvudiv_spec; eauto|]. now destruct (u =? 0).
  - destruct (is_signed k) eqn:E.
    + destruct k; try discriminate. eexists; split; [apply bvsrem_spec; eauto|].
      destruct (u =? 0); [now destruct x|reflexivity].
    + assert (match k with KSInt => bvsrem | _ => bvurem end = bvurem) as -> by now destruct k.
      eexists; split; [apply bvurem_spec; eauto|]. destruct (u =? 0); [now destruct x|reflexivity].
Qed.

Lemma dispatch_value op k x v u : wf x -> operand (bsize x) v u -> (k = KSInt -> 1 <= bsize x) ->
  exists r, dispatch_oper (op_method op k) x v = Ok r /\ r <> NotImpl /\
    forall b, oret_val (VBV x) b r = Ok (VBV (BV (bcls x) (op_value op (is_signed k) (bsize x) (bval x) u))).
Proof.
  intros Hw Ho Hk. destruct (op_method_value op k x v u Hw Ho Hk) as (r & E & V).
  unfold dispatch_oper. rewrite E. rewrite <- V. destruct r; eexists; repeat split; discriminate.
Qed.

Lemma C05_operators_pf : forall op x v u, wf x -> plain_operand v -> converts (bsize x) v u ->
  (bkind x = KSInt -> 1 <= bsize x) ->
  py_binop_val op (VBV x) v =
    Ok (VBV (BV (bcls x) (op_value op (is_signed (bkind x)) (bsize x) (bval x) u))).
Proof.
  intros op x v u Hw Hp Hc Hk.
  assert (Ho : operand (bsize x) v u) by (apply Op_conv; [intros y ->; exact Hp|exact Hc]).
  destruct (dispatch_value op (bkind x) x v u Hw Ho Hk) as (r & E & N & V).
  unfold py_binop_val. rewrite (binop_forward op x v r); auto.
  - cbn [bind]. now rewrite V.
  - intros y ->. destruct Hp.
Qed.

Lemma C10_operators_pf : forall c x v u, wf x -> plain_operand v -> converts (bsize x) v u ->
  1 <= bsize x ->
  py_cmp c (VBV x) v = Ok (ONew (VBit (cmp_value c (is_signed (bkind x)) (bsize x) (bval x) u))).
Proof.
  intros c x v u Hw Hp Hc Hn.
  assert (Ho : operand (bsize x) v u) by (apply Op_conv; [intros y ->; exact Hp|exact Hc]).
  assert (Hb : not_bit_or_bv v) by (destruct v; cbn in *; tauto).
  rewrite (py_cmp_right_other c x v u Hw Ho Hb Hn).
  unfold cmp_value. destruct (bkind x); reflexivity.
Qed.

Lemma C18_operators_pf : forall op x y, bsize x <> bsize y ->
  py_binop op (VBV x) (VBV y) = Raise EInconsistentSize.
Proof. exact binop_mismatch. Qed.

Lemma C18_comparisons_pf : forall c x y, bsize x <> bsize y ->
  py_cmp c (VBV x) (VBV y) = Raise EInconsistentSize.
Proof. exact cmp_mismatch. Qed.

Lemma C18_methods_pf : forall x y, bsize x <> bsize y ->
  Forall (fun m => m x (VBV y) = Raise EInconsistentSize)
    [bvand; bvor; bvxor; bvnand; bvnor; bvxnor; bvshl; bvlshr; bvashr; bvadd; bvsub; bvmul;
     bvudiv; bvurem; bvsdiv; bvsrem; bvcomp; bvrol; bvror] /\
  Forall (fun m => m x (VBV y) = Raise EInconsistentSize)
    [bveq; bvne; bvult; bvule; bvugt; bvuge; bvslt; bvsle; bvsgt; bvsge] /\
  (forall c, adc x (VBV y) c = Raise EInconsistentSize).
Proof.
  intros x y H.
  assert (Q : forall A (fn : bv -> bv -> res A), bv_cast fn x (VBV y) = Raise EInconsistentSize)
    by (intros; now apply bv_cast_mismatch).
  repeat split.
  - repeat apply Forall_cons; try apply Forall_nil; unfold bvand, bvor, bvxor, bvnand, bvnor, bvxnor, bvshl, bvlshr, bvashr, bvadd,
      bvsub, bvmul, bvudiv, bvurem, bvsdiv, bvsrem, bvcomp, bvrol, bvror, bvand, bvor, bvxor; rewrite Q; reflexivity.
  - repeat apply Forall_cons; try apply Forall_nil; unfold bvsgt, bvsge, bvsle, bvugt, bvuge, bvule, bvne, bvult, bvslt, bveq; rewrite ?Q; reflexivity.
  - intros c. assert (E : coerce (bcls x) (VBV y) = Raise EInconsistentSize).
    { pose proof (Q bv (fun _ z => Ok z)) as E. unfold bv_cast in E. destruct (coerce (bcls x) (VBV y)); [discriminate|exact E]. }
    unfold adc. now rewrite E.
Qed.

Lemma C19_reflected_partial_pf : forall op x v u, wf x -> plain_operand v -> converts (bsize x) v u ->
  (bkind x = KSInt -> 1 <= bsize x) -> (op <> OShr \/ bkind x = KSInt) ->
  py_binop_val op v (VBV x) =
    Ok (VBV (BV (bcls x) (op_value op (is_signed (bkind x)) (bsize x) u (bval x)))).
Proof.
  intros op x v u Hw Hp Hc Hk Hop. pose proof Hw as [W1 W2].
  pose proof (bv_init_converts (bcls x) v u W1 Hc) as E.
  assert (Hu : 0 <= u < 2 ^ bsize x)
    by (refine (operand_range (bsize x) v u W1 _); apply Op_conv; [intros z ->; exact Hp|exact Hc]).
  assert (A : not_bit_or_bv v) by (destruct v; cbn in *; tauto).
  assert (B : not_str v) by (destruct v; cbn in *; tauto).
  rewrite (reflected_left op x v _ A B E Hop).
  set (y := BV (bcls x) u).
  assert (Hy : wf y) by (split; auto).
  assert (Ho : operand (bsize y) (VBV x) (bval x)) by (apply Op_bv; auto).
  destruct (dispatch_value op (bkind y) y (VBV x) _ Hy Ho Hk) as (r & F & N & V).
  unfold py_binop_val. rewrite (binop_forward op y (VBV x) r); auto.
  - cbn [bind]. now rewrite V.
  - intros z Hz. injection Hz as <-. left. cbn [y bkind bcls].
    destruct op; try reflexivity; cbn [reflected_overridden]; now destruct (kind_eqb (bkind y) KSInt) eqn:?E;
    unfold y, bkind in *; cbn [bcls] in *; rewrite E0.
Qed.

Lemma C19_reflected_comparisons_pf : forall c x v u, wf x -> plain_operand v -> converts (bsize x) v u ->
  1 <= bsize x ->
  py_cmp c v (VBV x) = Ok (ONew (VBit (cmp_value c (is_signed (bkind x)) (bsize x) u (bval x)))).
Proof.
  intros c x v u Hw Hp Hc Hn.
  assert (Ho : operand (bsize x) v u) by (apply Op_conv; [intros y ->; exact Hp|exact Hc]).
  assert (Hb : not_bit_or_bv v) by (destruct v; cbn in *; tauto).
  rewrite (py_cmp_left_other c x v u Hw Ho Hb Hn).
  unfold cmp_value. destruct (bkind x); reflexivity.
Qed.

Lemma C19_rshift_refuted_pf : exists x k y z, wf x /\ construct (bkind x) (bsize x) (VInt k) = Ok y /\
  py_binop_val OShr (VInt k) (VBV x) = Ok (VBV z) /\
  py_binop_val OShr (VBV y) (VBV x) <> Ok (VBV z).
Proof.
  exists (BV (BVC KBV 4) 1), 8, (BV (BVC KBV 4) 8), (BV (BVC KBV 4) 0).
  repeat split; try (vm_compute; congruence).
Qed.

Lemma C19_rshift_swapped_pf : forall x v u, wf x -> plain_operand v -> converts (bsize x) v u ->
  bkind x <> KSInt ->
  py_binop_val OShr v (VBV x) = Ok (VBV (BV (bcls x) (bval x / 2 ^ u))).
Proof.
  intros x v u Hw Hp Hc Hk.
  assert (Ho : operand (bsize x) v u) by (apply Op_conv; [intros y ->; exact Hp|exact Hc]).
  unfold py_binop_val. rewrite py_binop_left_other by (destruct v; cbn in *; tauto).
  unfold reflected. cbn [first_of].
  assert (E : dispatch_oper bvlshr x v = Ok (ONew (VBV (BV (bcls x) (bval x / 2 ^ u))))).
  { apply dispatch_oper_new. now apply bvlshr_spec. }
  rewrite E. destruct (bkind x); try congruence; reflexivity.
Qed.

Lemma C20_right_operand_pf : forall op x v, unsupported v ->
  py_binop op (VBV x) v = Raise ETypeError.
Proof.
  intros op x v Hv. apply forward_unsupported; [now apply unsupported_other|now apply unsupported_init].
Qed.

Lemma C20_comparisons_pf : forall x v, unsupported v ->
  py_cmp CEq (VBV x) v = Ok (ONew (VBool false)) /\ py_cmp CNe (VBV x) v = Ok (ONew (VBool true)) /\
  py_cmp CEq v (VBV x) = Ok (ONew (VBool false)) /\ py_cmp CNe v (VBV x) = Ok (ONew (VBool true)) /\
  forall c, c <> CEq -> c <> CNe ->
    py_cmp c (VBV x) v = Raise ETypeError /\ py_cmp c v (VBV x) = Raise ETypeError.
Proof.
  intros x v Hv.
  assert (Q : forall c, py_cmp c (VBV x) v = cmp_fallback c /\ py_cmp c v (VBV x) = cmp_fallback c)
    by (intros; apply cmp_unsupported; [now apply unsupported_other|now apply unsupported_init]).
  repeat split; try (intros; apply Q).
  - rewrite (proj1 (Q c)). destruct c; try reflexivity; congruence.
  - rewrite (proj2 (Q c)). destruct c; try reflexivity; congruence.
Qed.

Lemma C20_left_operand_refuted_pf : forall op x v, unsupported v ->
  (op <> OShr \/ bkind x = KSInt) -> py_binop op v (VBV x) = Raise ENameError.
Proof.
  intros op x v Hv Hop. destruct (unsupported_other v Hv) as [A B].
  rewrite (reflected_unsupported op x v A B (unsupported_init _ v Hv)).
  destruct op; try reflexivity. destruct Hop as [H| ->]; [congruence|reflexivity].
Qed.

Lemma C20_left_operand_partial_pf : forall op x v, unsupported v ->
  py_binop op v (VBV x) = Raise ETypeError \/ py_binop op v (VBV x) = Raise ENameError.
Proof.
  intros op x v Hv. destruct (unsupported_other v Hv) as [A B].
  rewrite (reflected_unsupported op x v A B (unsupported_init _ v Hv)).
  destruct op, (bkind x); auto.
Qed.

Lemma C21_same_class_pf : forall x y, wf x -> wf y -> bcls x = bcls y ->
  py_cmp CEq (VBV x) (VBV y) = Ok (ONew (VBit true)) -> hash_key x = hash_key y.
Proof.
  intros x y Hx Hy Hc He. unfold py_cmp in He. rewrite Hc, cls_eqb_refl in He. cbn [negb andb] in He.
  assert (E : cmp_forward CEq x (VBV y) = Ok (ONew (VBit (bval x =? bval y)))).
  { apply cmp_forward_ok. cbn [cmp_method]. destruct (bkind x); apply bveq_spec; auto; apply Op_bv; auto;
    unfold bsize; now rewrite Hc. }
  cbn [cmp_first_of] in He. rewrite E in He. injection He as He.
  unfold hash_key. rewrite Hc. do 2 f_equal. lia.
Qed.

Lemma C21_key_determines_pf : forall x y, wf x -> wf y -> hash_key x = hash_key y -> x = y.
Proof. exact hash_key_inj. Qed.

Lemma C21_cross_class_refuted_pf : exists x y, wf x /\ wf y /\
  py_cmp CEq (VBV x) (VBV y) = Ok (ONew (VBit true)) /\ hash_key x <> hash_key y.
Proof.
  exists (BV (BVC KUInt 4) 3), (BV (BVC KSInt 4) 3). repeat split; try (vm_compute; congruence).
Qed.

Lemma C22_left_pf : forall a v b, bit_operand v b ->
  py_binop OAnd (VBit a) v = Ok (ONew (VBit (a && b))) /\
  py_binop OOr (VBit a) v = Ok (ONew (VBit (a || b))) /\
  py_binop OXor (VBit a) v = Ok (ONew (VBit (xorb a b))) /\
  py_cmp CEq (VBit a) v = Ok (ONew (VBit (Bool.eqb a b))) /\
  py_cmp CNe (VBit a) v = Ok (ONew (VBit (negb (Bool.eqb a b)))) /\
  bit_invert a = negb a.
Proof.
  intros a v b Hb. repeat split; try (now apply bit_binop_left); try (apply bit_cmp_left; auto).
  rewrite (bit_cmp_left CNe xorb a v b); auto. now destruct a, b.
Qed.

Lemma C22_right_pf : forall a v b, bit_operand v b -> (forall x, v <> VBV x) ->
  py_binop OAnd v (VBit a) = Ok (ONew (VBit (b && a))) /\
  py_binop OOr v (VBit a) = Ok (ONew (VBit (b || a))) /\
  py_binop OXor v (VBit a) = Ok (ONew (VBit (xorb b a))) /\
  py_cmp CEq v (VBit a) = Ok (ONew (VBit (Bool.eqb b a))) /\
  py_cmp CNe v (VBit a) = Ok (ONew (VBit (negb (Bool.eqb b a)))).
Proof.
  intros a v b Hb Hv. repeat split; try (now apply bit_binop_right); try (apply bit_cmp_right; auto).
  rewrite (bit_cmp_right CNe xorb a v b); auto. now destruct a, b.
Qed.

Lemma C22_bad_int_pf : forall op a z, op = OAnd \/ op = OOr \/ op = OXor -> z <> 0 -> z <> 1 ->
  py_binop op (VBit a) (VInt z) = Raise EValueError /\ py_binop op (VInt z) (VBit a) = Raise EValueError.
Proof.
  intros op a z [->|[->| ->]] H0 H1; eapply bit_bad_int; eauto; reflexivity.
Qed.

Lemma C28_operators_pf : forall op x y, wf x -> wf y -> bsize x = bsize y ->
  (signed_pair (bkind x) (bkind y) = true -> 1 <= bsize x) ->
  py_binop_val op (VBV x) (VBV y) =
    Ok (VBV (BV (bcls x) (op_value op (signed_pair (bkind x) (bkind y)) (bsize x) (bval x) (bval y)))).
Proof.
  intros op x y Hx Hy Hs Hn. set (k := op_result_kind op (bkind x) (bkind y)).
  assert (Ho : operand (bsize x) (VBV y) (bval y)) by (apply Op_bv; auto).
  assert (Hk : k = KSInt -> 1 <= bsize x).
  { unfold k, op_result_kind, cmp_signed. unfold signed_pair in Hn.
    destruct (unsigned_op op); [discriminate|]. destruct (bkind x), (bkind y); auto; discriminate. }
  destruct (dispatch_value op k x (VBV y) _ Hx Ho Hk) as (r & E & N & V).
  unfold py_binop_val. rewrite (py_binop_mixed op x y r Hs E N). cbn [bind]. rewrite V.
  do 3 f_equal. unfold k, op_result_kind, cmp_signed, signed_pair.
  destruct op; try reflexivity; cbn [unsigned_op]; destruct (bkind x), (bkind y); reflexivity.
Qed.

Lemma C28_comparisons_pf : forall c x y, wf x -> wf y -> bsize x = bsize y -> 1 <= bsize x ->
  py_cmp c (VBV x) (VBV y) =
    Ok (ONew (VBit (cmp_value c (signed_pair (bkind x) (bkind y)) (bsize x) (bval x) (bval y)))).
Proof. exact py_cmp_spec. Qed.
