(** Proofs of the theorems stated in Z3Props.v. *)
From Coq Require Import Lia ZifyBool.
From Verif Require Import PyBase BVModel BVSpec BVFacts BVOps OpModel OpSpec OpFacts IteModel IteSpec SMTTerm SMTModel SMTSpec SMTFacts SMTOps SMTInfix SMTMore
  Z3Model Z3Spec Z3Facts BVProofs OpProofs IteProofs SMTProofs.



Lemma C38_methods_pf : forall S, faithful S -> forall m x v, swf x -> zaccepted (csize (scls x)) v ->
  exists r, z3_meth S m x v = Ok r /\ scls r = (match m with MComp => BVC (skind x) 1 | _ => scls x end) /\ swf r /\
    forall e, exists o, conc_meth m (meaning e x) (vmeaning e v) = Ok o /\ rv_val (meaning e x) o = meaning e r.
Proof. exact z_meth_ok. Qed.

Lemma C38_comparisons_pf : forall S, faithful S -> forall m x v, swf x -> zaccepted (csize (scls x)) v ->
  exists r, z3_rel S m x v = Ok r /\ bwf r = true /\
    forall e, conc_rel m (meaning e x) (vmeaning e v) = Ok (evalb e r).
Proof. exact z_rel_ok. Qed.

Lemma C38_unary_pf : forall S, faithful S -> forall x, swf x ->
  (exists r, z_bvnot S x = Ok r /\ scls r = scls x /\ swf r /\ forall e, bvnot (meaning e x) = meaning e r) /\
  (exists r, z_bvneg S x = Ok r /\ scls r = scls x /\ swf r /\ forall e, bvneg (meaning e x) = meaning e r).
Proof. intros S FS x H. split; [exact (s_bvnot_ok S FS x H)|exact (s_bvneg_ok S FS x H)]. Qed.

Lemma C38_rotate_pf : forall S, faithful S -> forall x v, swf x -> zaccepted (csize (scls x)) v ->
  (exists r, z_bvrol S x v = Ok r /\ scls r = scls x /\ swf r /\
     forall e, bvrol (meaning e x) (vmeaning e v) = Ok (New (meaning e r))) /\
  (exists r, z_bvror S x v = Ok r /\ scls r = scls x /\ swf r /\
     forall e, bvror (meaning e x) (vmeaning e v) = Ok (New (meaning e r))).
Proof. exact z_rotate_ok. Qed.

Lemma C38_bvsrem_pf : forall S, faithful S -> forall x v, swf x -> zaccepted (csize (scls x)) v ->
  exists r, z_bvsrem S x v = Ok r /\ scls r = scls x /\ swf r /\
    forall e, exists o, bvsrem (meaning e x) (vmeaning e v) = Ok o /\ rv_val (meaning e x) o = meaning e r.
Proof. exact z_srem_ok. Qed.

Lemma C38_bvsdiv_partial_pf : forall S, faithful S -> forall x v, swf x -> zaccepted (csize (scls x)) v ->
  exists r, z_bvsdiv S x v = Ok r /\ scls r = scls x /\ swf r /\
    forall e b, coerce (scls x) (vmeaning e v) = Ok b ->
      let n := csize (scls x) in let sa := signed n (evalv e (sterm x)) in let sb := signed n (bval b) in
      (bvsdiv (meaning e x) (vmeaning e v) = Ok (New (meaning e r)) <->
       if bval b =? 0 then 0 <= sa \/ n = 1 else Z.rem sa sb = 0 \/ 0 <= sa * sb).
Proof. exact z_sdiv_iff. Qed.

Lemma C38_bvsdiv_refuted_pf : exists x y r q, swf x /\ swf y /\
  z_bvsdiv no_simp x (SVec y) = Ok r /\ meaning env0 r = BV (BVC KSInt 4) 0 /\
  bvsdiv (meaning env0 x) (VBV (meaning env0 y)) = Ok (New (BV (BVC KSInt 4) 15)) /\
  z_bvsrem no_simp x (SVec y) = Ok q /\ meaning env0 q = BV (BVC KSInt 4) 1 /\
  bvsrem (meaning env0 x) (VBV (meaning env0 y)) = Ok (New (BV (BVC KSInt 4) 1)).
Proof.
  exists (sx KSInt 4), (sy KSInt 4). do 2 eexists. do 2 (split; [unfold swf; cbn; lia|]).
  split; [reflexivity|]. split; [vm_compute; reflexivity|]. split; [vm_compute; reflexivity|].
  split; [reflexivity|]. split; vm_compute; reflexivity.
Qed.

Lemma C38_infix_partial_pf : forall S, faithful S -> forall op x v, swf x -> zaccepted (csize (scls x)) v ->
  signed_floordiv op (skind x) = false ->
  (forall y, v = SVec y -> redefined op = true -> skind y = KSInt -> above_signed (skind x) = false) ->
  exists r, z_binop S op (SVec x) v = Ok (SVec r) /\ scls r = scls x /\ swf r /\
    forall e, py_binop_val op (VBV (meaning e x)) (vmeaning e v) = Ok (VBV (meaning e r)).
Proof. exact z_binop_left. Qed.

Lemma C38_infix_refuted_pf : exists x y r, swf x /\ swf y /\ csize (scls x) = csize (scls y) /\
  z_binop no_simp OShr (SVec x) (SVec y) = Ok (SVec r) /\ meaning env0 r = BV (BVC KBV 4) 0 /\
  py_binop_val OShr (VBV (meaning env0 x)) (VBV (meaning env0 y)) = Ok (VBV (BV (BVC KBV 4) 15)).
Proof.
  exists (sx KBV 4), (sy KSInt 4). eexists. do 2 (split; [unfold swf; cbn; lia|]). split; [reflexivity|].
  split; [reflexivity|]. split; vm_compute; reflexivity.
Qed.

Lemma C38_reflected_refuted_pf : forall S op v y, swf y -> plain v ->
  z_binop S op v (SVec y) = Raise ETypeError /\
  forall e z, v = SInt z -> op <> OShr -> exists r, py_binop_val op (VInt z) (VBV (meaning e y)) = Ok r.
Proof.
  intros S op v y Hy Hp. split; [destruct v; try (now elim Hp); reflexivity|]. intros e z -> Ho.
  eexists. eapply C19_reflected_partial_pf; [now apply swf_meaning|constructor|constructor|destruct Hy; auto|now left].
Qed.

Lemma C38_infix_comparisons_pf : forall S, faithful S -> forall c x v, swf x -> zaccepted (csize (scls x)) v ->
  (exists r, z_compare S c (SVec x) v = Ok (SBit r) /\ bwf r = true /\
     forall e, py_cmp c (VBV (meaning e x)) (vmeaning e v) = Ok (ONew (VBit (evalb e r)))) /\
  (plain v -> exists r, z_compare S c v (SVec x) = Ok (SBit r) /\ bwf r = true /\
     forall e, py_cmp c (vmeaning e v) (VBV (meaning e x)) = Ok (ONew (VBit (evalb e r)))).
Proof. intros S FS c x v Hx Hv. split; [now apply z_compare_left|intros P; now apply z_compare_right]. Qed.

Lemma C38_bits_pf : forall S, faithful S -> forall p v, bwf p = true -> zbit_arg v ->
  (exists t, z_bit_init S v = Ok t /\ bwf t = true /\ forall e, bit_init (vmeaning e v) = Ok (evalb e t)) /\
  (forall op, op = OAnd \/ op = OOr \/ op = OXor ->
     exists r, z_binop S op (SBit p) v = Ok (SBit r) /\ bwf r = true /\
       forall e, py_binop_val op (VBit (evalb e p)) (vmeaning e v) = Ok (VBit (evalb e r))) /\
  (forall c, c = CEq \/ c = CNe ->
     (exists r, z_compare S c (SBit p) v = Ok (SBit r) /\ bwf r = true /\
       forall e, py_cmp c (VBit (evalb e p)) (vmeaning e v) = Ok (ONew (VBit (evalb e r)))) /\
     (plain v -> exists r, z_compare S c v (SBit p) = Ok (SBit r) /\ bwf r = true /\
       forall e, py_cmp c (vmeaning e v) (VBit (evalb e p)) = Ok (ONew (VBit (evalb e r))))) /\
  (exists r, z_bit_invert S p = Ok r /\ bwf r = true /\ forall e, evalb e r = bit_invert (evalb e p)).
Proof.
  intros S FS p v Hp Hv. split; [now apply z_bit_init_ok|]. split; [intros; now apply z_bit_binop|].
  split; [intros; now apply z_bit_compare|]. exact (sbit_invert_ok S FS p Hp).
Qed.

Lemma C38_bit_rejects_pf : forall S v,
  ((exists x, v = SVec x) \/ (exists l, v = SSeq l) \/ (exists i, v = SOther i None) -> z_bit_init S v = Raise ETypeError) /\
  (forall z, v = SInt z -> z <> 0 -> z <> 1 -> z_bit_init S v = Raise EValueError).
Proof.
  intros S v. split.
  - intros [[x ->]|[[l ->]|[i ->]]]; reflexivity.
  - intros z -> A B. cbn [z_bit_init]. destruct (Z.eqb_spec z 0), (Z.eqb_spec z 1); cbn [orb]; congruence.
Qed.

Lemma C38_size_mismatch_pf : forall S e x y, csize (scls y) <> csize (scls x) ->
  (forall m, z3_meth S m x (SVec y) = Raise ETypeError /\
             conc_meth m (meaning e x) (VBV (meaning e y)) = Raise EInconsistentSize) /\
  (forall m, z3_rel S m x (SVec y) = Raise ETypeError /\
             conc_rel m (meaning e x) (VBV (meaning e y)) = Raise EInconsistentSize) /\
  z_bvsdiv S x (SVec y) = Raise ETypeError /\ z_bvsrem S x (SVec y) = Raise ETypeError /\
  z_bvrol S x (SVec y) = Raise ETypeError /\ z_bvror S x (SVec y) = Raise ETypeError.
Proof.
  intros S e x y H.
  assert (A : forall A (f : svec -> svec -> res A), z_cast S f x (SVec y) = Raise ETypeError).
  { intros A f. unfold z_cast, z_coerce. unfold ssize. apply Z.eqb_neq in H. now rewrite H. }
  destruct (C30_size_mismatch_pf S e x y H) as (B & C & _).
  split; [intros m; split; [destruct m; apply A|apply B]|]. split; [intros m; split; [destruct m; apply A|apply C]|].
  repeat split; apply A.
Qed.

Lemma C38_construct_pf : forall S, faithful S -> forall c v, 1 <= csize c -> zconvertible (csize c) v ->
  exists r, z_init S c v = Ok r /\ scls r = c /\ swf r /\ forall e, bv_init c (vmeaning e v) = Ok (meaning e r).
Proof. exact z_init_ok. Qed.

Lemma C38_construct_refuted_pf : forall S c l, Z.of_nat (length l) <> csize c -> z_init S c (SSeq l) = Raise EValueError.
Proof. intros S c l H. unfold z_init. apply Z.eqb_neq in H. now rewrite H. Qed.

Lemma C38_getitem_pf : forall S, faithful S -> forall x i, swf x ->
  (- csize (scls x) <= i < csize (scls x) ->
   exists r, z_index S x i = Ok r /\ bwf r = true /\ forall e, getitem_int (meaning e x) i = Ok (evalb e r)) /\
  (~ (- csize (scls x) <= i < csize (scls x)) ->
   z_index S x i = Raise EIndexError /\ forall e, getitem_int (meaning e x) i = Raise EIndexError).
Proof. intros S FS x i H. rewrite (z_index_eq S x i H). exact (C32_getitem_pf S FS x i H). Qed.

Lemma C38_slice_partial_pf : forall S, faithful S -> forall x a b s, swf x -> s = None \/ s = Some 1 ->
  let n := csize (scls x) in
  let lo := match a with None => 0 | Some i => if i <? 0 then n + i else i end in
  let hi := Z.min (match b with None => n | Some i => if i <? 0 then n + i else i end) n in
  0 <= lo < hi ->
  exists r, z_slice S x a b s = Ok r /\ scls r = BVC (skind x) (hi - lo) /\ swf r /\
    forall e, getitem_slice (meaning e x) a b s = Ok (meaning e r).
Proof. exact z_slice_ok. Qed.

Lemma C38_slice_refuted_pf : let x := sx KBV 4 in
  z_slice no_simp x (Some 2) (Some 2) None = Raise EZ3 /\
  getitem_slice (meaning env0 x) (Some 2) (Some 2) None = Ok (BV (BVC KBV 0) 0) /\
  z_slice no_simp x (Some (-9)) None None = Raise EZ3 /\
  getitem_slice (meaning env0 x) (Some (-9)) None None = Ok (BV (BVC KBV 4) 11) /\
  z_slice no_simp x None None (Some 2) = Raise EIndexError /\
  getitem_slice (meaning env0 x) None None (Some 2) = Ok (BV (BVC KBV 2) 1).
Proof. vm_compute. repeat split. Qed.

Lemma C38_concat_pf : forall S, faithful S -> forall x y, swf x -> swf y -> kind_le (skind y) (skind x) = true ->
  exists r, z_concat S x (SVec y) = Ok r /\ scls r = BVC (skind x) (csize (scls x) + csize (scls y)) /\ swf r /\
    forall e, concat (meaning e x) (VBV (meaning e y)) = Ok (meaning e r).
Proof. exact s_concat_ok. Qed.

Lemma C38_zext_pf : forall S, faithful S -> forall x k, swf x -> 0 <= k ->
  exists r, z_zext S x k = Ok r /\ scls r = BVC (skind x) (csize (scls x) + k) /\ swf r /\
    forall e, zext (meaning e x) k = Ok (meaning e r).
Proof. exact s_zext_ok. Qed.

Lemma C38_sext_partial_pf : forall S, faithful S -> forall x k, swf x -> 1 <= k ->
  exists r, z_sext S x k = Ok r /\ scls r = BVC (skind x) (csize (scls x) + k) /\ swf r /\
    forall e, sext (meaning e x) k = Ok (meaning e r).
Proof. exact s_sext_ok. Qed.

Lemma C38_sext_refuted_pf : forall S, faithful S -> forall x, swf x ->
  (exists r, z_sext S x 0 = Ok r /\ scls r = scls x /\ swf r /\ forall e, meaning e r = meaning e x) /\
  forall e, sext (meaning e x) 0 = Raise EValueError.
Proof. exact C32_sext_refuted_pf. Qed.

Lemma C38_ext_partial_pf : forall S, faithful S -> forall x k, swf x -> 0 <= k -> skind x <> KSInt ->
  exists r, z_ext S x k = Ok r /\ scls r = BVC (skind x) (csize (scls x) + k) /\ swf r /\
    forall e, ext (meaning e x) k = Ok (meaning e r).
Proof.
  intros S FS x k Hx Hk Hs. destruct (s_zext_ok S FS x k Hx Hk) as (r & R1 & R2 & R3 & R4).
  exists r. repeat (split; [now auto|]). intros e. unfold ext. change (bkind (meaning e x)) with (skind x).
  destruct (skind x); try congruence; apply R4.
Qed.

Lemma C38_ext_refuted_pf : exists x r, swf x /\ skind x = KSInt /\ z_ext no_simp x 2 = Ok r /\
  meaning env0 r = BV (BVC KSInt 6) 11 /\ ext (meaning env0 x) 2 = Ok (BV (BVC KSInt 6) 59).
Proof.
  exists (sx KSInt 4). eexists. split; [unfold swf; cbn; lia|]. split; [reflexivity|]. split; [reflexivity|]. split; vm_compute; reflexivity.
Qed.

Lemma C38_setitem_pf : forall S, faithful S -> forall x i v, swf x -> - csize (scls x) <= i < csize (scls x) ->
  s_bit_like v = true -> (match v with SBit t => bwf t = true | _ => True end) ->
  exists r, z_setitem_int S x i v = Ok r /\ scls r = scls x /\ swf r /\
    forall e, setitem_int (meaning e x) i (vmeaning e v) = Ok (meaning e r).
Proof. intros S FS x i v Hx Hi Hv Hw. rewrite (z_setitem_eq S FS x i v Hx Hi Hv Hw). exact (s_setitem_ok S FS x i v Hx Hi Hv Hw). Qed.

Lemma C38_setitem_raises_pf : forall S, faithful S -> forall e x i v r, swf x ->
  (forall t, v <> SNodeB t) -> (match v with SBit t => bwf t = true | _ => True end) ->
  (z_setitem_int S x i v = Raise r <-> setitem_int (meaning e x) i (vmeaning e v) = Raise r).
Proof.
  intros S FS e x i v r H N W.
  assert (R : forall q, (@Raise svec q = Raise r <-> @Raise bv q = Raise r)) by (intros q; split; intros X; injection X as <-; reflexivity).
  assert (L : bit_like (vmeaning e v) = s_bit_like v) by (destruct v; try reflexivity; exfalso; eapply N; reflexivity).
  destruct (s_bit_like v) eqn:B; [|unfold z_setitem_int, setitem_int; rewrite L, B; apply R].
  destruct (Z_le_dec (- csize (scls x)) i) as [P|P]; [destruct (Z_lt_dec i (csize (scls x))) as [Q|Q]|].
  + destruct (C38_setitem_pf S FS x i v H (conj P Q) B W) as (q & -> & _ & _ & ->). split; discriminate.
  + unfold z_setitem_int, setitem_int. rewrite L, B. unfold ssize, bsize. cbn [meaning bcls negb].
    replace (i <? 0) with false by (destruct H; lia). replace ((0 <=? i) && (i <? csize (scls x))) with false by lia. apply R.
  + unfold z_setitem_int, setitem_int. rewrite L, B. unfold ssize, bsize. cbn [meaning bcls negb].
    replace (i <? 0) with true by (destruct H; lia). replace ((0 <=? _ + i) && (_ + i <? csize (scls x))) with false by lia. apply R.
Qed.

Lemma C38_adc_pf : forall S, faithful S -> forall x v cv, swf x -> zaccepted (csize (scls x)) v -> zaccepted 1 cv ->
  exists r c, z_adc S x v cv = Ok (r, c) /\ scls r = scls x /\ swf r /\ bwf c = true /\
    forall e, adc (meaning e x) (vmeaning e v) (vmeaning e cv) = Ok (meaning e r, evalb e c).
Proof. exact z_adc_ok. Qed.

Lemma C38_ite_same_pf : forall S, faithful S -> forall c x y, bwf c = true -> swf x -> swf y -> scls y = scls x ->
  exists r, z_ite S c (SVec x) (SVec y) = Ok r /\ scls r = scls x /\ swf r /\
    forall e, meaning e r = (if evalb e c then meaning e x else meaning e y) /\
      forall tab id, total_protocols tab ->
        ite tab id (evalb e c) (vec_branch (meaning e x)) (vec_branch (meaning e y)) = Ok (vec_branch (meaning e r), id).
Proof.
  intros S FS c x y Hc Hx Hy Hs. destruct (z_ite_same S FS c x y Hc Hx Hy Hs) as (r & R1 & R2 & R3 & R4).
  exists r. do 2 (split; [now auto|]). split; [exact R3|]. intros e. split; [apply R4|]. intros tab id T.
  rewrite C23_same_types_pf; auto.
  - rewrite R4. now destruct (evalb e c).
  - unfold vec_branch. cbn [branch_ok]. unfold pwf. apply (swf_meaning e x Hx).
  - unfold vec_branch. cbn [branch_ok]. apply (swf_meaning e y Hy).
  - unfold vec_branch, bkind, bsize. cbn [meaning bcls]. rewrite Hs. constructor.
Qed.

Lemma C38_ite_convert_pf : forall S, faithful S -> forall c x v, bwf c = true -> swf x -> zconvertible (csize (scls x)) v -> (forall y, v <> SVec y) ->
  (exists r w, z_ite S c (SVec x) v = Ok r /\ scls r = scls x /\ swf r /\
     forall e, bv_init (scls x) (vmeaning e v) = Ok (w e) /\ meaning e r = if evalb e c then meaning e x else w e) /\
  (exists r w, z_ite S c v (SVec x) = Ok r /\ scls r = scls x /\ swf r /\
     forall e, bv_init (scls x) (vmeaning e v) = Ok (w e) /\ meaning e r = if evalb e c then w e else meaning e x).
Proof. intros S FS c x v Hc Hx Hv Hn. split; [now apply z_ite_left|now apply z_ite_right]. Qed.

Lemma C38_ite_plain_pf : forall S, faithful S -> forall c t f e0 z0 z1, bwf c = true -> small e0 t z0 -> small e0 f z1 ->
  exists r, z_ite S c t f = Ok r /\ skind r = KBV /\ swf r /\
    forall e zt zf, small e t zt -> small e f zf -> evalv e (sterm r) = if evalb e c then zt else zf.
Proof. exact z_ite_plain. Qed.

Lemma z_node_cls S c t r : z_node S c t = Ok r -> scls r = c.
Proof. unfold z_node. destruct (_ && _); [|discriminate]. intros X. injection X as <-. reflexivity. Qed.

Lemma z_init_cls S c v r : z_init S c v = Ok r -> scls r = c.
Proof.
  destruct v as [z|b|t|x|t|t|l|[[i|]|] b]; cbn [z_init bind]; try discriminate; try (apply z_node_cls).
  - destruct (_ <? 0); [|destruct (0 <? _)]; [destruct (z_slice _ _ _ _ _)|destruct (z_zext _ _ _)|]; cbn [bind]; try discriminate; apply z_node_cls.
  - destruct (negb _); [discriminate|]. destruct ((fix go (l : list sval) : res (list svec) := _) l) as [[|x xs]|]; cbn [bind]; try discriminate.
    destruct (z_concat_all _ _ _); cbn [bind]; [apply z_node_cls|discriminate].
Qed.

Lemma z_construct_cls S k n v r : z_construct S k n v = Ok r -> scls r = BVC k n.
Proof. unfold z_construct, sized. destruct (_ <? _); [discriminate|]. cbn [bind]. apply z_init_cls. Qed.

Lemma z_implicit_width e v n : (forall x, v <> SVec x) -> (forall t, v <> SNodeV t) -> (forall t, v <> SNodeB t) ->
  implied_width (vmeaning e v) n -> z_implicit_size v = Ok n.
Proof.
  intros N1 N2 N3 H. apply implicit_width in H.
  destruct v as [z|b|t|x|t|t|l|i b]; try (exfalso; (eapply N1 + eapply N2 + eapply N3); reflexivity); cbn [vmeaning implicit_size z_implicit_size] in *; auto.
  - now rewrite map_length in H.
  - destruct i as [i|]; [exact H|discriminate].
Qed.

Lemma C38_ite_width_pf : forall S c t f e n m r,
  (forall v, v = t \/ v = f -> (forall x, v <> SVec x) /\ (forall x, v <> SNodeV x) /\ (forall x, v <> SNodeB x)) ->
  implied_width (vmeaning e t) n -> implied_width (vmeaning e f) m ->
  z_ite S c t f = Ok r -> scls r = BVC KBV (Z.max n m).
Proof.
  intros S c t f e n m r P Ht Hf.
  destruct (P t (or_introl eq_refl)) as (P1 & P2 & P3). destruct (P f (or_intror eq_refl)) as (Q1 & Q2 & Q3).
  assert (E : z_ite S c t f = (x <- z_implicit S t ;; y <- z_implicit S f ;;
      let e := ssize x - ssize y in
      if 0 <? e then y <- z_zext S y e ;; z_if S c x y
      else if e <? 0 then x <- z_zext S x (- e) ;; z_if S c x y
      else z_if S c x y)).
  { destruct t; try (exfalso; eapply P1; reflexivity); destruct f; try (exfalso; eapply Q1; reflexivity); reflexivity. }
  rewrite E. unfold z_implicit. rewrite (z_implicit_width e t n), (z_implicit_width e f m) by auto. cbn [bind].
  destruct (z_construct S KBV n t) as [x|] eqn:X; [|discriminate]. destruct (z_construct S KBV m f) as [y|] eqn:Y; [|discriminate]. cbn [bind].
  apply z_construct_cls in X, Y. unfold ssize. rewrite X, Y. cbn [csize]. intros R.
  destruct (Z.ltb_spec 0 (n - m)); [|destruct (Z.ltb_spec (n - m) 0)].
  - destruct (z_zext S y (n - m)); [|discriminate]. cbn [bind] in R. apply z_node_cls in R. rewrite R, X. f_equal. lia.
  - destruct (z_zext S x (- (n - m))) as [x'|] eqn:Z; [|discriminate]. cbn [bind] in R. apply z_node_cls in R. rewrite R.
    unfold z_zext, sized in Z. destruct (_ <? 0) in Z; [discriminate|]. destruct (_ <? 0) in Z; [discriminate|]. cbn [bind] in Z. apply z_node_cls in Z.
    rewrite Z. unfold skind, ssize. rewrite X. cbn. f_equal. lia.
  - apply z_node_cls in R. rewrite R, X. f_equal. lia.
Qed.

Lemma C38_ite_refuted_pf :
  (exists r, z_ite no_simp (BVar "p") (SBit (BVar "p")) (SBit (BVar "q")) = Ok r /\ meaning env0 r = BV (BVC KBV 1) 1 /\
     forall tab, ite tab 0 true (BrBit true) (BrBit false) = Ok (BrBit true, 0%nat)) /\
  z_ite no_simp (BVar "p") (SVec (sx KBV 4)) (SVec (sy KUInt 4)) = Raise ETypeError /\
  forall tab, exists r id, ite tab 0 true (vec_branch (meaning env0 (sx KBV 4))) (vec_branch (meaning env0 (sy KUInt 4))) = Ok (r, id).
Proof.
  split; [eexists; split; [reflexivity|]; split; [vm_compute; reflexivity|reflexivity]|]. split; [reflexivity|].
  intros tab. do 2 eexists. vm_compute. reflexivity.
Qed.

Lemma C38_vec_ite_pf : forall S, faithful S -> forall x t f, swf x ->
  exists c, bwf c = true /\ z_vec_ite S x t f = z_ite S c t f /\ forall e, evalb e c = negb (bval (meaning e x) =? 0).
Proof.
  intros S FS x t f Hx. destruct (z_cond_ok S FS x Hx) as (c & C1 & C2 & C3). exists c. split; [exact C2|].
  split; [unfold z_vec_ite; now rewrite C1|exact C3].
Qed.

Lemma C33_z3_partial_pf : forall S, faithful S -> forall x, swf x ->
  exists q, z_repeat S x 1 = Ok q /\ swf q /\ forall e, bv_repeat (meaning e x) 1 = Ok (meaning e q).
Proof.
  intros S FS x H. destruct (z_repeat_1 S FS x H) as (q & Q1 & Q2 & Q3). exists q. repeat (split; [now auto|]).
  intros e. rewrite Q3. apply bv_repeat_1. now apply swf_meaning.
Qed.

Lemma C33_z3_refuted_pf : forall S x r, swf x -> 2 <= r ->
  z_repeat S x r = Raise ETypeError /\ forall e, exists y, bv_repeat (meaning e x) r = Ok y.
Proof.
  intros S x r H Hr. split; [now apply z_repeat_many|]. intros e.
  destruct (repeat_spec (meaning e x) r (swf_meaning e x H)) as (y & E & _); [lia|eauto].
Qed.
