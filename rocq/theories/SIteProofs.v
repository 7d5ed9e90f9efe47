(** Proofs of the theorems stated in SIteProps.v. *)
From Coq Require Import Lia ZifyBool.
From Verif Require Import PyBase BVModel BVSpec BVFacts OpModel OpSpec IteModel IteSpec IteFacts IteProofs.
From Verif Require Import SMTTerm SMTModel SMTSpec SMTFacts SMTOps SMTInfix SMTProofs SIteModel SIteSpec SIteFacts.



Lemma C65_ite_pf : forall S, faithful S -> forall tab id sel t f e0,
  bwf sel = true -> sbranch_ok t -> sbranch_ok f -> no_proto t ->
  compatible (branch_meaning e0 t) (branch_meaning e0 f) ->
  exists r id', s_ite S tab id sel t f = Ok (r, id') /\ sbranch_ok r /\
    forall e ct, carries ct (branch_meaning e (if evalb e sel then t else f)) (branch_meaning e r) /\
      ite ct id (evalb e sel) (branch_meaning e t) (branch_meaning e f) = Ok (branch_meaning e r, id').
Proof.
  intros S FS tab id sel t f e0 Hs Ht Hf Hp Hc. pose proof (ite_sim S FS tab sel Hs id t f Ht Hf Hp) as Sm.
  destruct (s_ite S tab id sel t f) as [[r id']|err].
  - destruct Sm as (S1 & S2 & S3). exists r, id'. repeat (split; [now auto|]). intros e ct. destruct (S3 e ct); auto.
  - exfalso. pose (ct := fun _ : nat => Proto (BVC KBV 1) (fun _ => Ok 0) (fun _ => BV (BVC KBV 1) 0)).
    destruct (C23_compatible_pf ct id (evalb e0 sel) (branch_meaning e0 t) (branch_meaning e0 f)) as (r & id' & R & _); auto.
    + now apply branch_range.
    + now apply branch_range.
    + intros i. split; [cbn; lia|]. intros b. eexists; reflexivity.
    + rewrite Sm in R. discriminate.
Qed.

Lemma C65_ite_incompatible_pf : forall S, faithful S -> forall tab id sel t f e0,
  bwf sel = true -> sbranch_ok t -> sbranch_ok f -> no_proto t ->
  ~ compatible (branch_meaning e0 t) (branch_meaning e0 f) ->
  exists err, s_ite S tab id sel t f = Raise err /\ (err = ETypeError \/ err = EInconsistentSize).
Proof.
  intros S FS tab id sel t f e0 Hs Ht Hf Hp Hc. pose proof (ite_sim S FS tab sel Hs id t f Ht Hf Hp) as Sm.
  destruct (C23_incompatible_pf no_protocols id (evalb e0 sel) _ _ Hc) as (err & E1 & E2).
  destruct (s_ite S tab id sel t f) as [[r id']|err'].
  - destruct Sm as (S1 & S2 & S3). destruct (S3 e0 no_protocols). congruence.
  - exists err'. split; [reflexivity|]. specialize (Sm e0 no_protocols). congruence.
Qed.

Lemma C65_protocol_pf : forall S, faithful S -> forall (tab : sptypes) id sel i p q, bwf sel = true ->
  (forall z, swf (sp_to (tab i) z) /\ csize (scls (sp_to (tab i) z)) = csize (sp_cls (tab i))) ->
  exists b, scls b = sp_cls (tab i) /\ swf b /\
    s_ite S tab id sel (SBrProto i p) (SBrProto i q) =
      match sp_from (tab i) b with Ok z => Ok (SBrProto i z, id) | Raise err => Raise err end /\
    forall e, evalv e (sterm b) = evalv e (sterm (sp_to (tab i) (if evalb e sel then p else q))).
Proof. intros S FS. exact (proto_sim S FS). Qed.

Lemma C65_protocol_mismatch_pf : forall S tab id sel i j p q, i <> j ->
  s_ite S tab id sel (SBrProto i p) (SBrProto j q) = Raise ETypeError.
Proof. intros S tab id sel i j p q H. unfold s_ite. cbn [s_return_type]. destruct (Nat.eqb_spec i j); [congruence|reflexivity]. Qed.

Lemma C65_operators_pf : forall S, faithful S -> forall op id x v, obj_ok x -> arg_ok x (SAOther v) ->
  exists r id', sp_binop S op id x (SAOther v) = Ok (SPVec r, id') /\ obj_ok r /\ spn r = spn x /\
    forall e, let k := selected_kind (cls_meaning e (spc x)) in
      exists r', s_binop S op (SVec (SV (BVC k (spn x)) (spt x))) v = Ok (SVec r') /\
        evalv e (spt r) = evalv e (sterm r').
Proof.
  intros S FS op id x v Ox Oa. destruct (binop_selected S FS op id x v Ox Oa) as (r & id' & R1 & R2 & R3 & R4). exists r, id'.
  repeat (split; [now auto|]). intros e k. destruct (R4 e) as (r' & Q1 & Q2). exists r'. split; [|exact Q2]. fold k in Q1.
  destruct Oa as [[Oa _] Ob]. destruct v; try (exfalso; eapply Ob; reflexivity); cbn [s_binop s_first_of]; try (now rewrite Q1); inversion Oa.
Qed.

Lemma C65_operator_values_pf : forall S, faithful S -> forall op id x v, obj_ok x -> arg_ok x (SAOther v) ->
  may_divide_signed op (spc x) = false ->
  exists r id', sp_binop S op id x (SAOther v) = Ok (SPVec r, id') /\ spn r = spn x /\
    forall e u, converts (spn x) (vmeaning e v) u ->
      evalv e (spt r) = op_value op (is_signed (selected_kind (cls_meaning e (spc x)))) (spn x) (evalv e (spt x)) u.
Proof.
  intros S FS op id x v Ox Oa Hd. destruct (binop_sim S FS op id x (SAOther v) Ox Oa Hd) as (r & id' & R1 & R2 & R3 & R4); [discriminate|].
  exists r, id'. repeat (split; [now auto|]). intros e u Hu. specialize (R4 e). cbn [arg_meaning] in R4. unfold p_binop in R4. cbn [p_first] in R4.
  rewrite (p_forward_value op id (obj_meaning e x) (AOther (vmeaning e v)) u) in R4.
  - injection R4 as _ _ R4 _. symmetry. exact R4.
  - now apply obj_range.
  - destruct Ox as [_ (X & _)]. exact X.
  - apply Op_conv; [|exact Hu]. intros y. destruct v; try discriminate; exfalso; [eapply (proj2 Oa); reflexivity|destruct Oa as [[Oa _] _]; inversion Oa].
Qed.

Lemma C65_comparisons_pf : forall S, faithful S -> forall c id x v, obj_ok x -> arg_ok x (SAOther v) ->
  exists r id', sp_compare S c id x (SAOther v) = Ok (SPBit r, id') /\ bwf r = true /\
    forall e u, converts (spn x) (vmeaning e v) u ->
      evalb e r = cmp_value c (is_signed (selected_kind (cls_meaning e (spc x)))) (spn x) (evalv e (spt x)) u.
Proof.
  intros S FS c id x v Ox Oa. destruct (compare_sim S FS c id x (SAOther v) Ox Oa) as (r & id' & R1 & R2 & R3).
  exists r, id'. repeat (split; [now auto|]). intros e u Hu. specialize (R3 e). cbn [arg_meaning] in R3. unfold p_compare in R3. cbn [p_cmp_first] in R3.
  rewrite (p_cmp_value c id (obj_meaning e x) (AOther (vmeaning e v)) u) in R3.
  - injection R3 as R3 _. symmetry. exact R3.
  - now apply obj_range.
  - destruct Ox as [_ (X & _)]. exact X.
  - apply Op_conv; [|exact Hu]. intros y. destruct v; try discriminate; exfalso; [eapply (proj2 Oa); reflexivity|destruct Oa as [[Oa _] _]; inversion Oa].
Qed.

Lemma C65_vector_operand_partial_pf : forall S, faithful S -> forall op id x y, obj_ok x -> obj_ok y -> spn y = spn x ->
  may_divide_signed op (spc x) = false -> may_divide_signed op (spc y) = false ->
  exists r id', sp_binop S op id x (SAVec y) = Ok (SPVec r, id') /\ obj_ok r /\ spn r = spn x /\
    forall e, p_binop op id (obj_meaning e x) (AVec (obj_meaning e y)) = Ok (PVec (obj_meaning e r), id').
Proof.
  intros S FS op id x y Ox Oy Hn Dx Dy. apply (binop_sim S FS op id x (SAVec y) Ox); [split; auto|auto|].
  intros z Hz. congruence.
Qed.

Lemma C65_vector_comparisons_pf : forall S, faithful S -> forall c id x y, obj_ok x -> obj_ok y -> spn y = spn x ->
  exists r id', sp_compare S c id x (SAVec y) = Ok (SPBit r, id') /\ bwf r = true /\
    forall e, p_compare c id (obj_meaning e x) (AVec (obj_meaning e y)) = Ok (PBit (evalb e r), id').
Proof. intros S FS c id x y Ox Oy Hn. apply (compare_sim S FS c id x (SAVec y) Ox). split; auto. Qed.

Lemma notimpl_run S leaf m id x a : (forall s, leaf s x a = Ok SPNotImpl) -> s_run_meth S leaf m id x a = Ok (SPNotImpl, id).
Proof.
  intros H. revert id. induction m as [s|sel m0 IH0 m1 IH1]; intros id; cbn [s_run_meth].
  - now rewrite H.
  - rewrite IH0. cbn [bind fst snd]. rewrite IH1. reflexivity.
Qed.

Lemma raise_run S leaf x a e : (forall s, leaf s x a = Raise e) -> forall m id, s_run_meth S leaf m id x a = Raise e.
Proof.
  intros H m. induction m as [s|sel m0 IH0 m1 IH1]; intros id; cbn [s_run_meth].
  - now rewrite H.
  - now rewrite IH0.
Qed.

Lemma C65_rejected_pf : forall S id x,
  (forall op w, sp_binop S op id x (SAOther (SOther None w)) = Raise ETypeError) /\
  (forall y, spn y <> spn x ->
     (forall op, sp_binop S op id x (SAVec y) = Raise EInconsistentSize) /\
     (forall c, sp_compare S c id x (SAVec y) = Raise EInconsistentSize)).
Proof.
  intros S id x. split.
  - intros op w. cbn [sp_binop sp_first]. unfold sp_forward.
    assert (R : s_run_meth S (s_leaf_forward S op) (s_resolve (op_overridden op) (spc x)) id x (SAOther (SOther None w)) = Ok (SPNotImpl, id)).
    { apply notimpl_run. intros s. unfold s_leaf_forward. destruct op, s; reflexivity. }
    now rewrite R.
  - intros y Hn.
    assert (Q : forall k, negb (ssize (as_svec y) =? csize (BVC k (spn x))) = true)
      by (intros k; unfold ssize; cbn [as_svec scls csize]; apply Bool.negb_true_iff, Z.eqb_neq; exact Hn).
    assert (N1 : s_same_cls x y = false) by (unfold s_same_cls; rewrite (proj2 (Z.eqb_neq (spn x) (spn y))) by congruence; apply Bool.andb_false_r).
    assert (N2 : s_sub_cls y x = false) by (unfold s_sub_cls; now rewrite (proj2 (Z.eqb_neq (spn y) (spn x)) Hn)).
    split.
    + intros op. unfold sp_binop. rewrite N1, N2. cbn [andb sp_first]. unfold sp_forward.
      rewrite (raise_run S (s_leaf_forward S op) x (SAVec y) EInconsistentSize); [reflexivity|].
      intros s. unfold s_leaf_forward, s_op_method, sarg_val.
      destruct op, s; cbn [variant]; unfold s_bvand, s_bvor, s_bvxor, s_bvshl, s_bvashr, s_bvlshr, s_bvadd, s_bvsub, s_bvmul, s_bvsdiv, s_bvudiv, s_bvsrem, s_bvurem, s_bin, s_cast, s_coerce; cbn [as_svec scls];
        match goal with |- context [negb (?a =? ?b)] => replace (negb (a =? b)) with true by (symmetry; apply (Q KBV)) end; reflexivity.
    + intros c. unfold sp_compare. rewrite N1, N2. cbn [andb negb sp_cmp_first]. unfold sp_cmp.
      rewrite (raise_run S (s_leaf_cmp S c) x (SAVec y) EInconsistentSize); [reflexivity|].
      intros s. unfold s_leaf_cmp, s_cmp_method, sarg_val.
      destruct c, s; cbn [variant]; unfold s_bveq, s_bvne, s_bvslt, s_bvsle, s_bvsgt, s_bvsge, s_bvult, s_bvule, s_bvugt, s_bvuge, s_rel, s_cast, s_coerce; cbn [as_svec scls];
        match goal with |- context [negb (?a =? ?b)] => replace (negb (a =? b)) with true by (symmetry; apply (Q KBV)) end; reflexivity.
Qed.

Lemma C65_mixed_right_refuted_pf : exists x y s v r r',
  s_ite no_simp s_no_protocols 0 (BVar "p") (SBrVec x) (SBrVec y) = Ok (SBrVec v, 1%nat) /\ evalb env0 (BVar "p") = true /\
  sp_binop no_simp OShr 1 v (SAVec s) = Ok (SPVec r, 1%nat) /\ sp_binop no_simp OShr 1 x (SAVec s) = Ok (SPVec r', 1%nat) /\
  evalv env0 (spt r) = 5 /\ evalv env0 (spt r') = 13.
Proof.
  exists (SPObj (SPBase KBV) 4 (VVar "x" 4)), (SPObj (SPBase KUInt) 4 (VVar "y" 4)), (SPObj (SPBase KSInt) 4 (VConst 1 4)).
  do 3 eexists. repeat (split; [vm_compute; reflexivity|]). vm_compute. reflexivity.
Qed.
