(** Proofs of the theorems stated in FloatProps.v. *)
From Coq Require Import ZArith QArith Lia.
From Verif Require Import PyBase BVModel FPModel FPSpec FPRoundFacts FPPatFacts FPEncFacts FPDecFacts FPBracket FPInst FPArith FPMore MetaModel FMetaModel FMetaSpec FloatModel FloatSpec.
From Verif Require FMetaFacts.
Open Scope Z_scope.


(** Widening the significand keeps the number. *)






Lemma widen_wf f g s m E : okf f -> okf g -> fits f g -> wfv f (MFin s m E) -> wfv g (MFin s (m * 2 ^ (f_mb g - f_mb f)) E).
Proof.
  intros O O' (F1 & F2 & F3) W. unfold wfv in *. rewrite fctx_eq in * by auto. cbn [wfm c_prec c_emin c_emax] in *.
  destruct O as [O1 O2], O' as [O1' O2']. destruct W as (W1 & W2 & W3).
  assert (P : 2 ^ (f_eb f - 1) <= 2 ^ (f_eb g - 1)) by (apply Z.pow_le_mono_r; lia).
  assert (D : 0 < 2 ^ (f_mb g - f_mb f)) by (apply pow2_pos; lia).
  replace (f_mb f + 1 - 1) with (f_mb f) in W1 by lia. replace (f_mb g + 1 - 1) with (f_mb g) by lia.
  assert (E1 : 2 ^ f_mb g = 2 ^ f_mb f * 2 ^ (f_mb g - f_mb f)) by (rewrite <- Z.pow_add_r by lia; f_equal; lia).
  assert (E2 : 2 ^ (f_mb g + 1) = 2 ^ (f_mb f + 1) * 2 ^ (f_mb g - f_mb f)) by (rewrite <- Z.pow_add_r by lia; f_equal; lia).
  assert (T : top g <= top f) by (unfold top; lia).
  assert (Em : (if f_ieee g then top g - f_mb g else top g) <= E).
  { destruct (f_ieee f) eqn:If; [rewrite F3 by auto; lia|]. destruct (f_ieee g); lia. }
  split; [nia|]. split; [lia|]. intros L. destruct (f_ieee f) eqn:If.
  - assert (L' : E < top f) by lia. specialize (W3 L').
    apply Z.mod_divide in W3; [|pose proof (pow2_pos (top f - E) ltac:(lia)); lia]. destruct W3 as [k ->].
    destruct (Z.le_gt_cases (top g - E) (top f - E + (f_mb g - f_mb f))) as [Q|Q]; [|lia].
    apply Z.mod_divide; [pose proof (pow2_pos (top g - E) ltac:(lia)); lia|].
    exists (k * 2 ^ (top f - E + (f_mb g - f_mb f) - (top g - E))).
    rewrite <- !Z.mul_assoc, <- !Z.pow_add_r by lia. do 2 f_equal. lia.
  - exfalso. destruct (f_ieee g); lia.
Qed.

Lemma widen_round f g s m E : okf f -> okf g -> fits f g -> wfv f (MFin s m E) ->
  mpfr_round (fctx g) (mnum (f_mb f + 1) (MFin s m E)) = MFin s (m * 2 ^ (f_mb g - f_mb f)) E.
Proof.
  intros O O' F W. assert (W' := widen_wf f g s m E O O' F W). destruct F as (F1 & F2 & F3).
  rewrite mnum_dy. destruct (dy_parts s m (E - (f_mb f + 1))) as (a & d & Q1 & Q2 & Q3 & Q4). rewrite Q1.
  assert (Pm : 0 < m). { unfold wfv in W. rewrite fctx_eq in W by auto. cbn [wfm c_prec] in W. destruct W as [W _]. pose proof (pow2_pos (f_mb f + 1 - 1) ltac:(destruct O; lia)). lia. }
  assert (C : c_prec (fctx g) = f_mb g + 1) by (rewrite fctx_eq by auto; reflexivity).
  destruct (scaled a d (E - c_prec (fctx g))) as [N D] eqn:S.
  apply (round_exact_ratio (fctx g) (top g) s (m * 2 ^ (f_mb g - f_mb f)) E a d N D); auto.
  - rewrite C. destruct O'. lia.
  - rewrite fctx_eq by auto. cbn [c_sub c_emin c_prec]. destruct (f_ieee g); lia.
  - rewrite C in S. assert (L : E - (f_mb g + 1) <= E - (f_mb f + 1)) by lia. rewrite (Q4 _ _ _ L S). do 3 f_equal. lia.
Qed.

Lemma narrow_round f g s m E : okf f -> okf g -> fits f g -> wfv f (MFin s m E) ->
  mpfr_round (fctx f) (mnum (f_mb g + 1) (MFin s (m * 2 ^ (f_mb g - f_mb f)) E)) = MFin s m E.
Proof.
  intros O O' F W. destruct F as (F1 & F2 & F3).
  rewrite mnum_dy. destruct (dy_parts s (m * 2 ^ (f_mb g - f_mb f)) (E - (f_mb g + 1))) as (a & d & Q1 & Q2 & Q3 & Q4). rewrite Q1.
  assert (Pj : 0 < 2 ^ (f_mb g - f_mb f)) by (apply pow2_pos; lia).
  assert (Pm : 0 < m). { unfold wfv in W. rewrite fctx_eq in W by auto. cbn [wfm c_prec] in W. destruct W as [W _]. pose proof (pow2_pos (f_mb f + 1 - 1) ltac:(destruct O; lia)). lia. }
  assert (Pa : 0 < a) by (apply Q2; nia).
  assert (C : c_prec (fctx f) = f_mb f + 1) by (rewrite fctx_eq by auto; reflexivity).
  destruct (scaled a d (E - c_prec (fctx f))) as [N D] eqn:S.
  apply (round_exact_ratio (fctx f) (top f) s m E a d N D); auto.
  - rewrite C. destruct O. lia.
  - rewrite fctx_eq by auto. cbn [c_sub c_emin c_prec]. destruct (f_ieee f); lia.
  - destruct (scaled a d (E - c_prec (fctx f) - (f_mb g - f_mb f))) as [N' D'] eqn:S'.
    assert (R := scaled_shift a d (E - c_prec (fctx f)) (f_mb g - f_mb f) N D N' D' ltac:(lia) S S').
    rewrite C in S'. replace (E - (f_mb f + 1) - (f_mb g - f_mb f)) with (E - (f_mb g + 1)) in S' by lia.
    assert (K := Q4 _ _ _ (Z.le_refl _) S'). replace (E - (f_mb g + 1) - (E - (f_mb g + 1))) with 0 in K by lia.
    destruct (scaled_pos _ _ _ _ _ Pa Q3 S') as [_ PD']. rewrite K in R. change (2 ^ 0) with 1 in R.
    assert (X : (m * D) * (2 ^ (f_mb g - f_mb f) * D') = N * (2 ^ (f_mb g - f_mb f) * D')) by nia.
    apply Z.mul_cancel_r in X; [auto|]. nia.
Qed.

Lemma same_refl x : same_number x x.
Proof. destruct x; cbn; auto. Qed.

Lemma mnum_wide p k s m E : 0 <= k -> 0 < m -> same_number (mnum (p + k) (MFin s (m * 2 ^ k) E)) (mnum p (MFin s m E)).
Proof.
  intros K M. pose proof (pow2_pos k K) as PK. unfold mnum. destruct (Z.leb_spec (p + k) E), (Z.leb_spec p E); try lia; cbn [same_number]; split; auto.
  - rewrite !Z.mul_1_r, <- Z.mul_assoc, <- Z.pow_add_r by lia. do 2 f_equal. lia.
  - rewrite Z.mul_1_r, <- !Z.mul_assoc, <- Z.pow_add_r by lia. do 2 f_equal. lia.
  - rewrite <- Z.mul_assoc, <- Z.pow_add_r by lia. do 2 f_equal. lia.
Qed.

Lemma widen_good f g x : wide f -> wide g -> fits f g -> good f x ->
  let y := fp_init g (fnum x) in
  same_number (fnum y) (fnum x) /\ fp_is_NaN y = fp_is_NaN x /\ (forall q, fvalue x q -> fvalue y q) /\ fp_init f (fnum y) = x.
Proof.
  intros Wf Wg Ft G y. assert (O := wide_okf f Wf). assert (O' := wide_okf g Wg). destruct G as (F & W & N). destruct x as [f' v]. cbn [fv_fmt fv_val] in *. subst f'.
  assert (Cf : c_prec (fctx f) = f_mb f + 1) by (rewrite (fctx_eq f O); reflexivity). assert (Cg : c_prec (fctx g) = f_mb g + 1) by (rewrite (fctx_eq g O'); reflexivity).
  unfold y, fnum. cbn [fv_fmt fv_val]. unfold fp_init.
  destruct v as [s|s|s|s m E].
  - cbn [mnum mpfr_round]. unfold fp_store. cbn [is_nan andb is_signed]. destruct (f_ieee f) eqn:If; [|specialize (N eq_refl); discriminate].
    destruct Ft as (_ & _ & Ft). rewrite Ft by auto. cbn [negb]. cbn [fv_fmt fv_val mnum mpfr_round is_nan is_signed andb negb]. repeat split. intros q (q' & H & _). cbn in H. discriminate.
  - cbn. repeat split. intros q (q' & H & _). cbn in H. discriminate.
  - cbn. repeat split. intros q (q' & H & Hq). cbn in H. inversion H; subst. exists 0%Q. split; auto.
  - rewrite Cf, (widen_round f g) by auto. rewrite store_fin. cbn [fv_fmt fv_val]. rewrite Cg.
    assert (Pm : 0 < m). { unfold wfv in W. rewrite fctx_eq in W by auto. cbn [wfm c_prec] in W. destruct W as [W _]. pose proof (pow2_pos (f_mb f + 1 - 1) ltac:(destruct O; lia)). lia. }
    assert (L : f_mb f <= f_mb g) by (destruct Ft as (_ & L & _); exact L).
    split; [|split; [reflexivity|split]].
    + replace (f_mb g + 1) with (f_mb f + 1 + (f_mb g - f_mb f)) by lia. apply mnum_wide; lia.
    + intros q (q' & H & Hq). cbn [fv_val fv_fmt mpfr_value] in H. inversion H; subst. eexists. split; [reflexivity|]. cbn [fv_fmt fv_val].
      rewrite <- Hq. replace (E - (f_mb f + 1)) with ((f_mb g - f_mb f) + (E - (f_mb g + 1))) by lia.
      assert (A := FPQFacts.pow2q_add (f_mb g - f_mb f) (E - (f_mb g + 1))). assert (B := FPQFacts.pow2q_int (f_mb g - f_mb f) ltac:(lia)).
      unfold sgnq. destruct s; rewrite inject_Z_mult, A, B; ring.
    + rewrite (narrow_round f g) by auto. apply store_fin.
Qed.

Lemma float_eq x : wide (fv_fmt x) -> fp_float x = fnum (fp_init (double (f_mode (fv_fmt x))) (fnum x)).
Proof.
  intros W. unfold fp_float, fp_init, fp_store, fnum at 2. change (f_ieee (double _)) with true. cbn [negb]. rewrite andb_false_r. reflexivity.
Qed.

Lemma double_wide r : wide (double r).
Proof. split; cbn; lia. Qed.

Lemma C95_widen_pf : forall f g x, wide f -> wide g -> fits f g -> instance f x ->
  exists y, fp_new (Some g) (PFP x) = Ok y /\ same_number (fnum y) (fnum x) /\ fp_is_NaN y = fp_is_NaN x /\
    (forall q, fvalue x q -> fvalue y q) /\ fp_new (Some f) (PFP y) = Ok x.
Proof.
  intros f g x Wf Wg Ft I. destruct (widen_good f g x Wf Wg Ft (instance_good f x Wf I)) as (A & B & C & D).
  exists (fp_init g (fnum x)). split; [reflexivity|]. split; auto. split; auto. split; auto. cbn [fp_new arg_num rmap bind]. now rewrite D.
Qed.

Lemma C95_float_pf : forall f x, wide f -> f_eb f <= 11 -> f_mb f <= 52 -> instance f x ->
  same_number (fp_float x) (fnum x) /\ fp_new (Some f) (PNumber (fp_float x)) = Ok x /\
  (fp_is_NaN x = false -> fp_eq x (ANum (fp_float x)) = Ok true).
Proof.
  intros f x Wf L1 L2 I. assert (G := instance_good f x Wf I). assert (Ef : fv_fmt x = f) by apply G.
  destruct (widen_good f (double (f_mode f)) x Wf (double_wide _)) as (A & B & C & D); [repeat split; cbn; auto|exact G|].
  assert (E := float_eq x). rewrite Ef in E. rewrite (E Wf). split; auto. cbn [fp_new arg_num rmap bind]. rewrite D. split; auto.
  intros N. unfold fp_eq, compare_op, fp_cast, fp_coerce. rewrite Ef, D. cbn [bind]. do 2 f_equal.
  assert (K : forall z, match z with NNaN _ => False | _ => True end -> cmp_eq (num_cmp z z) = true).
  { intros z. destruct z as [s|s|s|s n d]; cbn; try tauto; [now rewrite eqb_reflx|]. now rewrite Z.compare_refl. }
  apply K. unfold fnum. unfold fp_is_NaN, is_nan in N. destruct (fv_val x); cbn [mnum]; auto; [discriminate|]. now destruct (_ <=? _).
Qed.

Lemma C95_float_rounded_pf : forall f x q, wide f -> instance f x -> fvalue x q ->
  exists d, fp_float x = fnum d /\ correct (double (f_mode f)) q d.
Proof.
  intros f x q Wf I H. assert (G := instance_good f x Wf I). assert (Ef : fv_fmt x = f) by apply G.
  exists (fp_init (double (f_mode f)) (fnum x)). split; [rewrite <- Ef; apply float_eq; now rewrite Ef|].
  apply init_correct; [apply double_wide|]. apply (fnum_val f); auto. now apply wide_okf.
Qed.

Lemma C95_float_special_pf : forall f s,
  fp_float (FPV f (MInf s)) = NInf s /\ fp_float (FPV f (MNaN s)) = NNaN s /\ fp_float (FPV f (MZero s)) = NZero s.
Proof. intros. repeat split. Qed.

Lemma C95_construct_partial_pf : forall f a q, wide f -> stands_for a q -> (forall y, a = PFP y -> exists g, wide g /\ instance g y) ->
  exists z, fp_new (Some f) a = Ok z /\ correct f q z.
Proof.
  intros f a q W H I. assert (K : exists x, arg_num a = Ok x /\ nval x q).
  { assert (V : forall x, num_value x q -> nval x q).
    { intros [s|s|s|s n d] V; try contradiction; [now constructor|]. destruct V as (V1 & V2 & V3). now constructor. }
    destruct a as [x|y|x|[x|] [x'|e]|[x|e]|[z|e]|[x|e]]; cbn [stands_for arg_num rmap bind] in *; try contradiction; try (eexists; split; [reflexivity|auto; fail]).
    - destruct (I y eq_refl) as (g & Wg & Ig). exists (fnum y). split; auto. apply (fnum_val g); [now apply wide_okf|now apply instance_good|auto].
    - exists (num_of_int z). split; auto. unfold num_of_int. destruct (Z.eqb_spec z 0) as [->|N]; [now constructor|]. constructor; [lia|lia|].
      rewrite H. rewrite <- sign_norm by lia. unfold Qdiv. change (/ inject_Z 1)%Q with 1%Q. ring. }
  destruct K as (x & E & V). exists (fp_init f x). cbn [fp_new]. rewrite E. split; [reflexivity|]. now apply init_correct.
Qed.

Lemma C95_construct_refuted_pf : exists f n z, wide f /\ fp_new (Some f) (PFloat (Ok (nearest_double (num_of_int n)))) = Ok z /\
  ~ correct f (inject_Z n) z /\ exists w, fp_new (Some f) (PNumber (num_of_int n)) = Ok w /\ correct f (inject_Z n) w.
Proof.
  exists (Fmt 8 60 RNE true), (2 ^ 53 + 1), (fp_init (Fmt 8 60 RNE true) (nearest_double (num_of_int (2 ^ 53 + 1)))).
  assert (W : wide (Fmt 8 60 RNE true)) by (split; cbn; lia). split; auto. split; [reflexivity|].
  assert (V : nval (num_of_int (2 ^ 53 + 1)) (inject_Z (2 ^ 53 + 1))) by (constructor; [lia|lia|vm_compute; reflexivity]).
  split; [|eexists; split; [reflexivity|now apply init_correct]].
  intros (c & R & _ & H). assert (N : ~ (inject_Z (2 ^ 53 + 1) == 0)%Q) by (intros K; discriminate K). specialize (H N).
  assert (Ec : c = 180 * 2 ^ 60) by (vm_compute in R; vm_compute; congruence).
  destruct (rounded_exact (Fmt 8 60 RNE true) (inject_Z (2 ^ 53 + 1)) c (180 * 2 ^ 60 + 128) W) as [_ K]; [|vm_compute; reflexivity|exact H|].
  - split; [|intros X; discriminate X]. split; vm_compute; repeat split; discriminate.
  - subst c. vm_compute in K. discriminate K.
Qed.

Lemma C95_errors_pf : forall f,
  (forall a, fp_new None a = Raise EAttributeError) /\
  fp_new (Some f) (PStr None (Raise EValueError)) = Raise EValueError /\
  fp_new (Some f) (PStr None (Raise EZeroDivision)) = Raise EZeroDivision /\
  fp_new (Some f) (PMisc (Raise ETypeError)) = Raise ETypeError /\
  (forall e, fp_new (Some f) (PFloat (Raise e)) = Raise e /\ fp_new (Some f) (PInt (Raise e)) = Raise e).
Proof. intros. repeat split. Qed.

Lemma gmode_refl a : gmode_eqb a a = true.
Proof. destruct a; reflexivity. Qed.

Lemma ctx_refl a : ctx_eqb a a = true.
Proof. unfold ctx_eqb. now rewrite !Z.eqb_refl, gmode_refl, eqb_reflx. Qed.

Lemma first_ctx_in s v k : forall l, first_ctx s v l = Some k -> exists x f, In x l /\ fissub s x v = true /\ fc_binding (get_fcls s x) = Some f /\ k = fctx f.
Proof.
  induction l as [|x l IH]; cbn [first_ctx]; [discriminate|]. unfold own_ctx at 1. destruct (fissub s x v) eqn:S; cbn [andb].
  - destruct (negb (Nat.eqb x v)); [destruct (fc_binding (get_fcls s x)) as [f|] eqn:B; cbn [option_map]|].
    + intros H. injection H as <-. exists x, f. repeat split; auto. now left.
    + intros H. destruct (IH H) as (y & f & I & R). exists y, f. split; [now right|auto].
    + intros H. destruct (IH H) as (y & f & I & R). exists y, f. split; [now right|auto].
  - intros H. destruct (IH H) as (y & f & I & R). exists y, f. split; [now right|auto].
Qed.

Lemma first_ctx_binding h v c k : falive (fmrun h) c = true ->
  first_ctx (fmrun h) v (fc_mro (get_fcls (fmrun h) c)) = Some k -> exists f, fc_binding (get_fcls (fmrun h) c) = Some f /\ k = fctx f.
Proof.
  intros A H. apply first_ctx_in in H. destruct H as (x & f & I & _ & B & ->). exists f. split; auto.
  assert (L : (c < length (fclasses (fmrun h)))%nat) by (unfold falive in A; apply andb_true_iff in A as [A _]; now apply Nat.ltb_lt in A).
  apply (FMetaFacts.sub_size _ (FMetaFacts.mrun_minv h) c x f); auto. apply (FMetaFacts.mro_sub _ (FMetaFacts.mrun_minv h)); auto.
Qed.

Lemma first_ctx_tl s v l k : first_ctx s v (tl l) = Some k -> exists x f, In x l /\ fc_binding (get_fcls s x) = Some f /\ k = fctx f.
Proof.
  intros H. apply first_ctx_in in H. destruct H as (x & f & I & _ & B & K). exists x, f. split; auto. destruct l; [destruct I|now right].
Qed.

Lemma C96_never_conflicts_pf : forall h v c, falive (fmrun h) c = true ->
  init_subclass (fmrun h) v c = Ok (option_map fctx (fc_binding (get_fcls (fmrun h) c))).
Proof.
  intros h v c A. unfold init_subclass. destruct (fc_binding (get_fcls (fmrun h) c)) as [f|] eqn:B; cbn [option_map]; auto.
  destruct (first_ctx (fmrun h) v (tl (fc_mro (get_fcls (fmrun h) c)))) as [k|] eqn:F; auto.
  apply first_ctx_tl in F. destruct F as (x & g & I & Bx & ->).
  assert (L : (c < length (fclasses (fmrun h)))%nat) by (unfold falive in A; apply andb_true_iff in A as [A _]; now apply Nat.ltb_lt in A).
  assert (G : fc_binding (get_fcls (fmrun h) c) = Some g).
  { apply (FMetaFacts.sub_size _ (FMetaFacts.mrun_minv h) c x g); auto. apply (FMetaFacts.mro_sub _ (FMetaFacts.mrun_minv h)); auto. }
  assert (g = f) by congruence. subst g. now rewrite ctx_refl.
Qed.

Lemma C96_context_pf : forall h v c, falive (fmrun h) c = true -> fissub (fmrun h) c v = true -> unbound (fmrun h) v ->
  class_ctx (fmrun h) v c = match fc_binding (get_fcls (fmrun h) c) with Some f => Ok (fctx f) | None => Raise EAttributeError end.
Proof.
  intros h v c A S U. unfold class_ctx.
  destruct (first_ctx (fmrun h) v (fc_mro (get_fcls (fmrun h) c))) as [k|] eqn:F.
  - destruct (first_ctx_binding h v c k A F) as (f & -> & ->). reflexivity.
  - destruct (fc_binding (get_fcls (fmrun h) c)) as [f|] eqn:B; auto. exfalso.
    assert (L : (c < length (fclasses (fmrun h)))%nat) by (unfold falive in A; apply andb_true_iff in A as [A _]; now apply Nat.ltb_lt in A).
    assert (I : In c (fc_mro (get_fcls (fmrun h) c))) by (apply (FMetaFacts.mro_sub _ (FMetaFacts.mrun_minv h)); auto; constructor).
    assert (O : own_ctx (fmrun h) v c = Some (fctx f)).
    { unfold own_ctx. rewrite S, B. destruct (Nat.eqb_spec c v) as [->|]; [unfold unbound in U; congruence|reflexivity]. }
    revert F I. generalize (fc_mro (get_fcls (fmrun h) c)). induction l as [|x l IH]; cbn [first_ctx]; [intros _ []|].
    destruct (own_ctx (fmrun h) v x) eqn:Ox; [discriminate|]. intros F [->|I]; [congruence|auto].
Qed.

Lemma C96_inherited_pf : forall h v c d f, falive (fmrun h) c = true -> falive (fmrun h) d = true -> unbound (fmrun h) v ->
  fsub (fmrun h) c v -> fsub (fmrun h) d c -> fc_binding (get_fcls (fmrun h) c) = Some f ->
  class_ctx (fmrun h) v d = Ok (fctx f) /\ class_ctx (fmrun h) v c = Ok (fctx f).
Proof.
  intros h v c d f A A' U S S' B.
  assert (L : (c < length (fclasses (fmrun h)))%nat) by (unfold falive in A; apply andb_true_iff in A as [A _]; now apply Nat.ltb_lt in A).
  assert (L' : (d < length (fclasses (fmrun h)))%nat) by (unfold falive in A'; apply andb_true_iff in A' as [A' _]; now apply Nat.ltb_lt in A').
  assert (B' : fc_binding (get_fcls (fmrun h) d) = Some f) by (apply (FMetaFacts.sub_size _ (FMetaFacts.mrun_minv h) d c f); auto).
  assert (S2 : fsub (fmrun h) d v). { clear - S S'. induction S' as [|a b c I S' IH]; auto. econstructor; eauto. }
  split; rewrite C96_context_pf; auto; try (now rewrite B); try (now rewrite B');
  apply (FMetaFacts.issub_sub _ (FMetaFacts.mrun_minv h)); auto.
Qed.
