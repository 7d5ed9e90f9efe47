(** Proofs of the theorems stated in SMTProps.v. *)
From Coq Require Import Lia.
From Verif Require Import PyBase BVModel BVSpec BVFacts BVOps OpModel OpSpec OpFacts SMTTerm SMTModel SMTSpec SMTFacts SMTOps SMTInfix SMTMore BVProofs.

Lemma no_simp_faithful : faithful no_simp.
Proof. repeat split; intros; auto. Qed.

Lemma C30_methods_pf : forall S, faithful S -> forall m x v, swf x -> accepted (csize (scls x)) v ->
  exists r, smt_meth S m x v = Ok r /\ scls r = (match m with MComp => BVC (skind x) 1 | _ => scls x end) /\ swf r /\
    forall e, exists o, conc_meth m (meaning e x) (vmeaning e v) = Ok o /\ rv_val (meaning e x) o = meaning e r.
Proof. exact meth_ok. Qed.

Lemma C30_comparisons_pf : forall S, faithful S -> forall m x v, swf x -> accepted (csize (scls x)) v ->
  exists r, smt_rel S m x v = Ok r /\ bwf r = true /\
    forall e, conc_rel m (meaning e x) (vmeaning e v) = Ok (evalb e r).
Proof. exact rel_ok. Qed.

Lemma C30_unary_pf : forall S, faithful S -> forall x, swf x ->
  (exists r, s_bvnot S x = Ok r /\ scls r = scls x /\ swf r /\ forall e, bvnot (meaning e x) = meaning e r) /\
  (exists r, s_bvneg S x = Ok r /\ scls r = scls x /\ swf r /\ forall e, bvneg (meaning e x) = meaning e r).
Proof. intros S FS x H. split; [now apply s_bvnot_ok|now apply s_bvneg_ok]. Qed.

Lemma C30_rotate_partial_pf : forall S, faithful S -> forall x k, swf x -> 0 <= k <= csize (scls x) ->
  (exists r, s_bvrol S x (SInt k) = Ok r /\ scls r = scls x /\ swf r /\
     forall e, bvrol (meaning e x) (VInt k) = Ok (New (meaning e r))) /\
  (exists r, s_bvror S x (SInt k) = Ok r /\ scls r = scls x /\ swf r /\
     forall e, bvror (meaning e x) (VInt k) = Ok (New (meaning e r))).
Proof. intros S FS x k H K. split; [now apply s_rol_ok|now apply s_ror_ok]. Qed.

Lemma C30_rotate_refuted_pf : forall S x, swf x ->
  (forall y, swf y -> csize (scls y) = csize (scls x) ->
     s_bvrol S x (SVec y) = Raise ETypeError /\ s_bvror S x (SVec y) = Raise ETypeError /\
     forall e, (exists r, bvrol (meaning e x) (VBV (meaning e y)) = Ok r) /\ (exists r, bvror (meaning e x) (VBV (meaning e y)) = Ok r)) /\
  (forall k, k < 0 \/ csize (scls x) < k ->
     s_bvrol S x (SInt k) = Raise EValueError /\ s_bvror S x (SInt k) = Raise EValueError /\
     forall e, (exists r, bvrol (meaning e x) (VInt k) = Ok r) /\ (exists r, bvror (meaning e x) (VInt k) = Ok r)).
Proof.
  intros S x Hx. assert (X1 := Hx). destruct X1 as (X1 & X2 & X3).
  assert (W : forall e, wf (meaning e x)) by (intros; now apply swf_meaning). split.
  - intros y Hy Hs. repeat (split; [reflexivity|]). intros e.
    assert (O : operand (bsize (meaning e x)) (VBV (meaning e y)) (bval (meaning e y))).
    { constructor; [now apply swf_meaning|exact Hs]. }
    split; [destruct (bvrol_spec _ _ _ (W e) X1 O) as (r & E & _)|destruct (bvror_spec _ _ _ (W e) X1 O) as (r & E & _)]; eauto.
  - intros k Hk. unfold s_bvrol, s_bvror. cbn [s_int bind]. rewrite X3.
    replace ((k <? 0) || (csize (scls x) <? k)) with true
      by (symmetry; apply orb_true_iff; destruct Hk; [left|right]; now apply Z.ltb_lt).
    repeat (split; [reflexivity|]). intros e.
    assert (O : operand (bsize (meaning e x)) (VInt k) (k mod 2 ^ bsize (meaning e x))).
    { constructor; [discriminate|constructor]. }
    split; [destruct (bvrol_spec _ _ _ (W e) X1 O) as (r & E & _)|destruct (bvror_spec _ _ _ (W e) X1 O) as (r & E & _)]; eauto.
Qed.

Lemma C30_amounts_pf : forall S x,
  (forall k b w, s_bvrol S x (SOther (Some (Ok k)) w) = s_bvrol S x (SInt k) /\ s_bvror S x (SOther (Some (Ok k)) w) = s_bvror S x (SInt k) /\
     s_repeat S x (SOther (Some (Ok k)) w) = s_repeat S x (SInt k) /\
     s_zext_of S x (SOther (Some (Ok k)) w) = s_zext S x k /\ s_sext_of S x (SOther (Some (Ok k)) w) = s_sext S x k /\
     s_ext_of S x (SOther (Some (Ok k)) w) = s_ext S x k /\
     s_bvrol S x (SBool b) = s_bvrol S x (SInt (if b then 1 else 0)) /\ s_bvror S x (SBool b) = s_bvror S x (SInt (if b then 1 else 0)) /\
     s_repeat S x (SBool b) = s_repeat S x (SInt (if b then 1 else 0)) /\
     s_zext_of S x (SBool b) = s_zext S x (if b then 1 else 0) /\ s_sext_of S x (SBool b) = s_sext S x (if b then 1 else 0) /\
     s_zext_of S x (SInt k) = s_zext S x k /\ s_sext_of S x (SInt k) = s_sext S x k /\ s_ext_of S x (SInt k) = s_ext S x k) /\
  (forall v exn,
     (exists w, v = SOther (Some (Raise exn)) w) \/
     (exn = ETypeError /\ ((exists t, v = SBit t) \/ (exists y, v = SVec y) \/ (exists l, v = SSeq l) \/ (exists w, v = SOther None w))) ->
     s_bvrol S x v = Raise exn /\ s_bvror S x v = Raise exn /\ s_repeat S x v = Raise exn /\
     s_zext_of S x v = Raise exn /\ s_sext_of S x v = Raise exn /\ s_ext_of S x v = Raise exn).
Proof.
  intros S x. split.
  - intros k b w. unfold s_ext_of, s_ext. repeat split; try reflexivity; destruct (skind x); reflexivity.
  - intros v exn H. unfold s_ext_of.
    destruct H as [(w & ->)|(-> & [(t & ->)|[(y & ->)|[(l & ->)|(w & ->)]]])]; repeat split; try reflexivity; destruct (skind x); reflexivity.
Qed.

Lemma C30_infix_pf : forall S, faithful S -> forall op x v, swf x -> accepted (csize (scls x)) v ->
  signed_division op (skind x) = false -> (forall y, v = SVec y -> signed_division op (skind y) = false) ->
  exists r, s_binop S op (SVec x) v = Ok (SVec r) /\ swf r /\
    forall e, py_binop_val op (VBV (meaning e x)) (vmeaning e v) = Ok (VBV (meaning e r)).
Proof. exact binop_left. Qed.

Lemma C30_infix_reflected_pf : forall S, faithful S -> forall op v y, swf y -> accepted (csize (scls y)) v -> plain v ->
  signed_division op (skind y) = false ->
  exists r, s_binop S op v (SVec y) = Ok (SVec r) /\ swf r /\
    forall e, py_binop_val op (vmeaning e v) (VBV (meaning e y)) = Ok (VBV (meaning e r)).
Proof. exact binop_right. Qed.

Lemma C30_infix_comparisons_pf : forall S, faithful S -> forall c x v, swf x -> accepted (csize (scls x)) v ->
  (exists r, s_compare S c (SVec x) v = Ok (SBit r) /\ bwf r = true /\
     forall e, py_cmp c (VBV (meaning e x)) (vmeaning e v) = Ok (ONew (VBit (evalb e r)))) /\
  (plain v -> exists r, s_compare S c v (SVec x) = Ok (SBit r) /\ bwf r = true /\
     forall e, py_cmp c (vmeaning e v) (VBV (meaning e x)) = Ok (ONew (VBit (evalb e r)))).
Proof. intros S FS c x v Hx Hv. split; [now apply compare_left|intros P; now apply compare_right]. Qed.

Lemma C30_bits_pf : forall S, faithful S -> forall p v, bwf p = true -> bit_arg v ->
  (forall op, op = OAnd \/ op = OOr \/ op = OXor ->
     exists r, s_binop S op (SBit p) v = Ok (SBit r) /\ bwf r = true /\
       forall e, py_binop_val op (VBit (evalb e p)) (vmeaning e v) = Ok (VBit (evalb e r))) /\
  (forall op, plain v -> op = OAnd \/ op = OOr ->
     exists r, s_binop S op v (SBit p) = Ok (SBit r) /\ bwf r = true /\
       forall e, py_binop_val op (vmeaning e v) (VBit (evalb e p)) = Ok (VBit (evalb e r))) /\
  (forall c, c = CEq \/ c = CNe ->
     exists r, s_compare S c (SBit p) v = Ok (SBit r) /\ bwf r = true /\
       forall e, py_cmp c (VBit (evalb e p)) (vmeaning e v) = Ok (ONew (VBit (evalb e r)))) /\
  (forall c, plain v -> c = CEq \/ c = CNe ->
     exists r, s_compare S c v (SBit p) = Ok (SBit r) /\ bwf r = true /\
       forall e, py_cmp c (vmeaning e v) (VBit (evalb e p)) = Ok (ONew (VBit (evalb e r)))) /\
  (exists r, sbit_invert S p = Ok r /\ bwf r = true /\ forall e, evalb e r = bit_invert (evalb e p)).
Proof.
  intros S FS p v Hp Hv. split; [intros; now apply bit_binop_left|]. split; [intros; now apply bit_binop_right|].
  split; [intros; now apply bit_compare_left|]. split; [intros; now apply bit_compare_right|]. now apply sbit_invert_ok.
Qed.

Lemma C30_rxor_refuted_pf : forall S q,
  s_binop S OXor (SInt 1) (SBit q) = Raise ETypeError /\ forall b, py_binop_val OXor (VInt 1) (VBit b) = Ok (VBit (negb b)).
Proof. intros S q. split; [reflexivity|]. now intros []. Qed.

Lemma C30_bit_left_refuted_pf : exists p x, swf x /\
  (exists r, s_binop no_simp OAnd (SBit p) (SVec x) = Ok (SVec r)) /\
  (exists b, py_binop_val OAnd (VBit (evalb env0 p)) (VBV (meaning env0 x)) = Ok (VBit b)).
Proof.
  exists (BVar "p"), (sx KBV 8). split; [unfold swf; cbn; lia|]. split; eexists; vm_compute; reflexivity.
Qed.

Lemma C30_size_mismatch_pf : forall S e x y, csize (scls y) <> csize (scls x) ->
  (forall m, smt_meth S m x (SVec y) = Raise EInconsistentSize /\
             conc_meth m (meaning e x) (VBV (meaning e y)) = Raise EInconsistentSize) /\
  (forall m, smt_rel S m x (SVec y) = Raise EInconsistentSize /\
             conc_rel m (meaning e x) (VBV (meaning e y)) = Raise EInconsistentSize) /\
  s_bvsdiv S x (SVec y) = Raise EInconsistentSize /\ bvsdiv (meaning e x) (VBV (meaning e y)) = Raise EInconsistentSize /\
  s_bvsrem S x (SVec y) = Raise EInconsistentSize /\ bvsrem (meaning e x) (VBV (meaning e y)) = Raise EInconsistentSize.
Proof.
  intros S e x y H.
  assert (A : forall A (f : svec -> svec -> res A), s_cast S f x (SVec y) = Raise EInconsistentSize).
  { intros A f. unfold s_cast, s_coerce. unfold ssize. apply Z.eqb_neq in H. now rewrite H. }
  assert (B : forall A (f : bv -> bv -> res A), bv_cast f (meaning e x) (VBV (meaning e y)) = Raise EInconsistentSize).
  { intros A0 f. unfold bv_cast. cbn [coerce]. unfold bsize. cbn [bcls meaning]. apply Z.eqb_neq in H. now rewrite H. }
  split; [|split; [|split; [apply A|split; [apply B|split; [apply A|apply B]]]]].
  - intros m; split; destruct m; cbn [smt_meth conc_meth]; try apply A; try apply B;
      unfold s_bvnand, s_bvnor, s_bvxnor, s_nbin, bvnand, bvnor, bvxnor, s_bvand, s_bvor, s_bvxor, s_bin, bvand, bvor, bvxor; rewrite ?A, ?B; reflexivity.
  - intros m; split; destruct m; cbn [smt_rel conc_rel]; try apply A; try apply B;
      unfold bvne, bvule, bvugt, bvuge, bvsle, bvsgt, bvsge, bvule, bvult, bveq, bvsle, bvslt; rewrite ?B; reflexivity.
Qed.

Lemma C30_unsupported_partial_pf : forall S x p, let o := SOther None None in
  (forall op, s_binop S op (SVec x) o = Raise ETypeError) /\ (forall op, s_binop S op (SBit p) o = Raise ETypeError) /\
  (forall op, s_binop S op o (SBit p) = Raise ETypeError) /\
  Forall (fun q => s_compare S CEq (fst q) (snd q) = Ok (SBool false) /\ s_compare S CNe (fst q) (snd q) = Ok (SBool true) /\
                   forall c, c <> CEq -> c <> CNe -> s_compare S c (fst q) (snd q) = Raise ETypeError)
    [(SVec x, o); (o, SVec x); (SBit p, o); (o, SBit p)].
Proof.
  intros S x p o. assert (F : forall op k, s_op_method S op k x o = Raise ETypeError) by (intros [] []; reflexivity).
  assert (G : forall c k, s_cmp_method S c k x o = Raise ETypeError) by (intros [] []; reflexivity).
  split; [|split; [|split]].
  - intros op. cbn [s_binop o s_first_of]. unfold s_forward. fold o. now rewrite F.
  - intros []; reflexivity.
  - intros []; reflexivity.
  - assert (A : forall c, s_cmp_forward S c x o = Ok SNotImpl) by (intros c; unfold s_cmp_forward; now rewrite G).
    assert (B : forall c, sbit_cmp S c p o = Ok SNotImpl) by (intros []; reflexivity).
    repeat constructor; cbn [fst snd]; try (intros c N1 N2); unfold s_compare; fold o; cbn [s_cmp_first_of o];
      change (SOther None None) with o; rewrite ?A, ?B; try reflexivity; destruct c; congruence || reflexivity.
Qed.

Lemma C30_unsupported_left_refuted_pf : forall S op x, op <> OShr \/ skind x = KSInt -> s_binop S op (SOther None None) (SVec x) = Raise ENameError.
Proof. intros S op x H. cbn [s_binop s_first_of]. unfold s_reflected. destruct op, (skind x) eqn:K; try reflexivity; destruct H; congruence. Qed.

Lemma C31_bvsdiv_partial_pf : forall S, faithful S -> forall x v, swf x -> accepted (csize (scls x)) v ->
  exists r, s_bvsdiv S x v = Ok r /\ scls r = scls x /\ swf r /\
    forall e b, coerce (scls x) (vmeaning e v) = Ok b ->
      let n := csize (scls x) in let sa := signed n (evalv e (sterm x)) in let sb := signed n (bval b) in
      (bvsdiv (meaning e x) (vmeaning e v) = Ok (New (meaning e r)) <->
       if bval b =? 0 then 0 <= sa \/ n = 1 else Z.rem sa sb = 0 \/ 0 <= sa * sb).
Proof. exact sdiv_iff. Qed.

Lemma C31_bvsrem_partial_pf : forall S, faithful S -> forall x v, swf x -> accepted (csize (scls x)) v ->
  exists r, s_bvsrem S x v = Ok r /\ scls r = scls x /\ swf r /\
    forall e b, coerce (scls x) (vmeaning e v) = Ok b ->
      let n := csize (scls x) in let sa := signed n (evalv e (sterm x)) in let sb := signed n (bval b) in
      ((exists o, bvsrem (meaning e x) (vmeaning e v) = Ok o /\ rv_val (meaning e x) o = meaning e r) <->
       bval b = 0 \/ Z.rem sa sb = 0 \/ 0 <= sa * sb).
Proof. exact srem_iff. Qed.

Lemma C31_infix_pf : forall S, faithful S -> forall x v, swf x -> skind x = KSInt -> accepted (csize (scls x)) v ->
  (forall y, v = SVec y -> scls y = scls x) ->
  let n := csize (scls x) in
  let quot a b := if b =? 0 then if a <? 0 then 1 else 2 ^ n - 1 else Z.quot a b mod 2 ^ n in
  let remd a b := if b =? 0 then a mod 2 ^ n else Z.rem a b mod 2 ^ n in
  (exists q r, s_binop S OFloorDiv (SVec x) v = Ok (SVec q) /\ s_binop S OMod (SVec x) v = Ok (SVec r) /\
     scls q = scls x /\ scls r = scls x /\ swf q /\ swf r /\
     forall e b, coerce (scls x) (vmeaning e v) = Ok b ->
       let sa := signed n (evalv e (sterm x)) in let sb := signed n (bval b) in
       evalv e (sterm q) = quot sa sb /\ evalv e (sterm r) = remd sa sb) /\
  (plain v -> exists q r, s_binop S OFloorDiv v (SVec x) = Ok (SVec q) /\ s_binop S OMod v (SVec x) = Ok (SVec r) /\
     scls q = scls x /\ scls r = scls x /\ swf q /\ swf r /\
     forall e b, coerce (scls x) (vmeaning e v) = Ok b ->
       let sa := signed n (evalv e (sterm x)) in let sb := signed n (bval b) in
       evalv e (sterm q) = quot sb sa /\ evalv e (sterm r) = remd sb sa).
Proof. exact infix_sdiv. Qed.

Lemma C31_refuted_pf : exists x y r q, swf x /\ swf y /\
  s_bvsdiv no_simp x (SVec y) = Ok r /\ meaning env0 r = BV (BVC KSInt 4) 0 /\
  bvsdiv (meaning env0 x) (VBV (meaning env0 y)) = Ok (New (BV (BVC KSInt 4) 15)) /\
  s_bvsrem no_simp x (SVec y) = Ok q /\ meaning env0 q = BV (BVC KSInt 4) 11 /\
  bvsrem (meaning env0 x) (VBV (meaning env0 y)) = Ok (New (BV (BVC KSInt 4) 1)).
Proof.
  exists (sx KSInt 4), (sy KSInt 4). do 2 eexists. do 2 (split; [unfold swf; cbn; lia|]).
  split; [reflexivity|]. split; [vm_compute; reflexivity|]. split; [vm_compute; reflexivity|].
  split; [reflexivity|]. split; vm_compute; reflexivity.
Qed.

Lemma C32_construct_pf : forall S, faithful S -> forall c v, 1 <= csize c -> convertible (csize c) v ->
  exists r, s_init S c v = Ok r /\ scls r = c /\ swf r /\ forall e, bv_init c (vmeaning e v) = Ok (meaning e r).
Proof. exact s_init_ok. Qed.

Lemma C32_construct_refuted_pf : forall S c l z b, 1 <= csize c ->
  (Z.of_nat (length l) <> csize c -> s_init S c (SSeq l) = Raise EValueError) /\
  (2 ^ csize c <= z -> s_init S c (SOther (Some (Ok z)) b) = Raise EValueError /\ exists r, bv_init c (VOther (Some (Ok z)) b true) = Ok r).
Proof.
  intros S c l z b Hc. split.
  - intros H. unfold s_init. apply Z.eqb_neq in H. now rewrite H.
  - intros H. split; [|eexists; reflexivity]. cbn. unfold vec_const.
    destruct (Z.leb_spec 0 z); [|reflexivity]. destruct (Z.ltb_spec z (2 ^ csize c)); [lia|reflexivity].
Qed.

Lemma C32_getitem_pf : forall S, faithful S -> forall x i, swf x ->
  (- csize (scls x) <= i < csize (scls x) ->
   exists r, s_getitem_int S x i = Ok r /\ bwf r = true /\ forall e, getitem_int (meaning e x) i = Ok (evalb e r)) /\
  (~ (- csize (scls x) <= i < csize (scls x)) ->
   s_getitem_int S x i = Raise EIndexError /\ forall e, getitem_int (meaning e x) i = Raise EIndexError).
Proof.
  intros S FS x i H. split; intros Hi; [now apply s_getitem_int_ok|]. split; [now apply s_getitem_int_out|].
  intros e. apply getitem_int_out. exact Hi.
Qed.

Lemma C32_getitem_raises_pf : forall S, faithful S -> forall e x i r, swf x -> (forall a b s, i <> ISlice a b s) ->
  (s_getitem S x i = Raise r <-> getitem (meaning e x) i = Raise r).
Proof.
  intros S FS e x i r H N. destruct i as [i|a b s|]; [|exfalso; eapply N; reflexivity|].
  - cbn [s_getitem getitem]. destruct (C32_getitem_pf S FS x i H) as [A B].
    destruct (Z_le_dec (- csize (scls x)) i) as [L|L]; [destruct (Z_lt_dec i (csize (scls x))) as [M|M]|].
    + destruct (A (conj L M)) as (q & -> & _ & ->). cbn. split; discriminate.
    + destruct B as [-> B]; [lia|]. rewrite B. cbn. split; intros X; injection X as <-; reflexivity.
    + destruct B as [-> B]; [lia|]. rewrite B. cbn. split; intros X; injection X as <-; reflexivity.
  - cbn. split; intros X; injection X as <-; reflexivity.
Qed.

Lemma C32_slice_partial_pf : forall S, faithful S -> forall x a b s, swf x -> s = None \/ s = Some 1 ->
  let n := csize (scls x) in
  let lo := match a with None => 0 | Some i => if i <? 0 then n + i else i end in
  let hi := Z.min (match b with None => n | Some i => if i <? 0 then n + i else i end) n in
  0 <= lo < hi ->
  exists r, s_getitem_slice S x a b s = Ok r /\ scls r = BVC (skind x) (hi - lo) /\ swf r /\
    forall e, getitem_slice (meaning e x) a b s = Ok (meaning e r).
Proof. exact s_getitem_slice_ok. Qed.

Lemma C32_slice_refuted_pf : let x := sx KBV 4 in
  s_getitem_slice no_simp x (Some 2) (Some 2) None = Raise EAssertion /\
  getitem_slice (meaning env0 x) (Some 2) (Some 2) None = Ok (BV (BVC KBV 0) 0) /\
  s_getitem_slice no_simp x (Some (-9)) None None = Raise EAssertion /\
  getitem_slice (meaning env0 x) (Some (-9)) None None = Ok (BV (BVC KBV 4) 11) /\
  s_getitem_slice no_simp x None None (Some 2) = Raise EIndexError /\
  getitem_slice (meaning env0 x) None None (Some 2) = Ok (BV (BVC KBV 2) 1).
Proof. vm_compute. repeat split. Qed.

Lemma C32_concat_pf : forall S, faithful S -> forall x y, swf x -> swf y -> kind_le (skind y) (skind x) = true ->
  exists r, s_concat S x (SVec y) = Ok r /\ scls r = BVC (skind x) (csize (scls x) + csize (scls y)) /\ swf r /\
    forall e, concat (meaning e x) (VBV (meaning e y)) = Ok (meaning e r).
Proof. exact s_concat_ok. Qed.

Lemma C32_zext_pf : forall S, faithful S -> forall x k, swf x -> 0 <= k ->
  exists r, s_zext S x k = Ok r /\ scls r = BVC (skind x) (csize (scls x) + k) /\ swf r /\
    forall e, zext (meaning e x) k = Ok (meaning e r).
Proof. exact s_zext_ok. Qed.

Lemma C32_sext_partial_pf : forall S, faithful S -> forall x k, swf x -> 1 <= k ->
  exists r, s_sext S x k = Ok r /\ scls r = BVC (skind x) (csize (scls x) + k) /\ swf r /\
    forall e, sext (meaning e x) k = Ok (meaning e r).
Proof. exact s_sext_ok. Qed.

Lemma C32_ext_partial_pf : forall S, faithful S -> forall x k, swf x -> 1 <= k ->
  exists r, s_ext S x k = Ok r /\ scls r = BVC (skind x) (csize (scls x) + k) /\ swf r /\
    forall e, ext (meaning e x) k = Ok (meaning e r).
Proof.
  intros S FS x k Hx Hk. unfold s_ext, ext.
  destruct (s_zext_ok S FS x k Hx) as (r & R1 & R2 & R3 & R4); [lia|].
  destruct (s_sext_ok S FS x k Hx Hk) as (q & Q1 & Q2 & Q3 & Q4).
  destruct (skind x) eqn:E; [exists r|exists r|exists r|exists q]; repeat (split; [now auto|]); intros e;
    change (bkind (meaning e x)) with (skind x); rewrite E; auto.
Qed.

Lemma C32_sext_refuted_pf : forall S, faithful S -> forall x, swf x ->
  (exists r, s_sext S x 0 = Ok r /\ scls r = scls x /\ swf r /\ forall e, meaning e r = meaning e x) /\
  forall e, sext (meaning e x) 0 = Raise EValueError.
Proof.
  intros S FS x H. split; [now apply s_sext_0|]. intros e. apply C66_sext_zero_always_pf; [now apply swf_meaning|]. now destruct H.
Qed.

Lemma C32_setitem_pf : forall S, faithful S -> forall x i v, swf x -> - csize (scls x) <= i < csize (scls x) ->
  s_bit_like v = true -> (match v with SBit t => bwf t = true | _ => True end) ->
  exists r, s_setitem_int S x i v = Ok r /\ scls r = scls x /\ swf r /\
    forall e, setitem_int (meaning e x) i (vmeaning e v) = Ok (meaning e r).
Proof. exact s_setitem_ok. Qed.

Lemma C32_setitem_raises_pf : forall S, faithful S -> forall e x i v r, swf x ->
  (forall t, v <> SNodeB t) -> (match v with SBit t => bwf t = true | _ => True end) ->
  (s_setitem S x i v = Raise r <-> setitem (meaning e x) i (vmeaning e v) = Raise r).
Proof.
  intros S FS e x i v r H N W.
  assert (R : forall q, (@Raise svec q = Raise r <-> @Raise bv q = Raise r)) by (intros q; split; intros X; injection X as <-; reflexivity).
  assert (L : bit_like (vmeaning e v) = s_bit_like v) by (destruct v; try reflexivity; exfalso; eapply N; reflexivity).
  destruct i as [i|a b s|]; cbn [s_setitem setitem]; [| |rewrite L; destruct (s_bit_like v); cbn; apply R].
  - destruct (s_bit_like v) eqn:B; [|unfold s_setitem_int, setitem_int; rewrite L, B; apply R].
    destruct (Z_le_dec (- csize (scls x)) i) as [P|P]; [destruct (Z_lt_dec i (csize (scls x))) as [Q|Q]|].
    + destruct (C32_setitem_pf S FS x i v H (conj P Q) B W) as (q & -> & _ & _ & ->). split; discriminate.
    + unfold s_setitem_int, setitem_int. rewrite L, B. unfold ssize, bsize. cbn [meaning bcls negb].
      replace (i <? 0) with false by (destruct H; lia). replace ((0 <=? i) && (i <? csize (scls x))) with false by lia. apply R.
    + unfold s_setitem_int, setitem_int. rewrite L, B. unfold ssize, bsize. cbn [meaning bcls negb].
      replace (i <? 0) with true by (destruct H; lia). replace ((0 <=? _ + i) && (_ + i <? csize (scls x))) with false by lia. apply R.
  - apply R.
Qed.

Lemma C32_adc_pf : forall S, faithful S -> forall x v cv, swf x -> accepted (csize (scls x)) v -> accepted 1 cv ->
  exists r c, s_adc S x v cv = Ok (r, c) /\ scls r = scls x /\ swf r /\ bwf c = true /\
    forall e, adc (meaning e x) (vmeaning e v) (vmeaning e cv) = Ok (meaning e r, evalb e c).
Proof. exact s_adc_ok. Qed.

Lemma C33_smt_partial_pf : forall S, faithful S -> forall x, swf x ->
  exists q, s_repeat S x (SInt 1) = Ok q /\ swf q /\ forall e, bv_repeat (meaning e x) 1 = Ok (meaning e q).
Proof.
  intros S FS x H. destruct (s_repeat_le1 S FS x 1 H) as (q & Q1 & Q2 & Q3); [lia|]. exists q. repeat (split; [now auto|]).
  intros e. rewrite Q3. apply bv_repeat_1. now apply swf_meaning.
Qed.

Lemma C33_smt_refuted_pf : forall S x r, swf x -> 2 <= r ->
  s_repeat S x (SInt r) = Raise ETypeError /\ forall e, exists y, bv_repeat (meaning e x) r = Ok y.
Proof.
  intros S x r H Hr. split; [now apply s_repeat_many|]. intros e.
  destruct (repeat_spec (meaning e x) r (swf_meaning e x H)) as (y & E & _); [lia|eauto].
Qed.

Lemma C33_smt_low_refuted_pf : forall S, faithful S -> forall x r, swf x -> r <= 0 ->
  (exists q, s_repeat S x (SInt r) = Ok q /\ forall e, meaning e q = meaning e x) /\
  forall e, bv_repeat (meaning e x) r = Raise EValueError.
Proof.
  intros S FS x r H Hr. split.
  - destruct (s_repeat_le1 S FS x r H) as (q & Q1 & Q2 & Q3); [lia|]. eauto.
  - intros e. now apply repeat_bad.
Qed.

Lemma C36_formula_pf : forall S, faithful S -> forall f, formula_wf f ->
  exists r, to_hwtypes S f = Ok r /\ bwf r = true /\ forall e, evalb e r = holds e f.
Proof. exact to_hwtypes_ok. Qed.

Lemma C36_empty_pf : forall S, faithful S ->
  (exists r, to_hwtypes S (FAnd []) = Ok r /\ forall e, evalb e r = true) /\
  (exists r, to_hwtypes S (FOr []) = Ok r /\ forall e, evalb e r = false).
Proof.
  intros S FS. split.
  - destruct (to_hwtypes_ok S FS (FAnd []) I) as (r & A & _ & B). eauto.
  - destruct (to_hwtypes_ok S FS (FOr []) I) as (r & A & _ & B). eauto.
Qed.

Lemma C37_arithmetic_pf : forall S, faithful S -> forall e0 op a b za zb, int_arg e0 a za -> int_arg e0 b zb ->
  (exists t, a = TInt t) \/ (exists t, b = TInt t) ->
  exists r, i_binop S op a b = Ok r /\ iwf r = true /\
    forall e za zb, int_arg e a za -> int_arg e b zb -> evali e r = iop_value op za zb.
Proof. intros S FS e0 op a b za zb Ha Hb H. apply i_binop_ok; eauto using int_arg_wf_of. Qed.

Lemma C37_comparisons_pf : forall S, faithful S -> forall e0 c a b za zb, int_arg e0 a za -> int_arg e0 b zb ->
  (exists t, a = TInt t) \/ (exists t, b = TInt t) ->
  exists r, i_compare S c a b = Ok r /\ bwf r = true /\
    forall e za zb, int_arg e a za -> int_arg e b zb -> evalb e r = icmp_value c za zb.
Proof. intros S FS e0 c a b za zb Ha Hb H. apply i_compare_ok; eauto using int_arg_wf_of. Qed.

Lemma C37_neg_pf : forall S, faithful S -> forall t, iwf t = true ->
  exists r, i_neg S t = Ok r /\ iwf r = true /\ forall e, evali e r = - evali e t.
Proof. exact i_neg_ok. Qed.

Lemma C37_as_uint_pf : forall S, faithful S -> forall x, swf x ->
  exists r, s_as_uint S x = Ok r /\ iwf r = true /\ forall e, evali e r = as_uint (meaning e x).
Proof. exact s_as_uint_ok. Qed.

Lemma C37_as_sint_partial_pf : forall S, faithful S -> forall x, swf x -> 2 <= csize (scls x) ->
  exists r, s_as_sint S x = Ok r /\ iwf r = true /\ forall e, as_sint (meaning e x) = Ok (evali e r).
Proof. exact s_as_sint_ok. Qed.

Lemma C37_as_sint_refuted_pf : forall S x, swf x -> csize (scls x) = 1 ->
  s_as_sint S x = Raise EAssertion /\ forall e, exists z, as_sint (meaning e x) = Ok z.
Proof.
  intros S x H H1. split; [now apply s_as_sint_1|]. intros e. eexists. apply as_sint_spec; [now apply swf_meaning|].
  unfold bsize. cbn [bcls meaning]. lia.
Qed.

Lemma C64_vector_pf : forall S, faithful S -> forall x l, swf x -> Forall good_pair l ->
  exists r, s_substitute S x l = Ok r /\ scls r = BVC KBV (csize (scls x)) /\ swf r /\
    forall e, evalv e (sterm r) = evalv (rebind e l) (sterm x).
Proof. exact s_substitute_ok. Qed.

Lemma C64_bit_pf : forall S, faithful S -> forall p l, bwf p = true -> Forall good_pair l ->
  exists r, sbit_substitute S p l = Ok r /\ bwf r = true /\ forall e, evalb e r = evalb (rebind e l) p.
Proof. exact sbit_substitute_ok. Qed.
