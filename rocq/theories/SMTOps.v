(** Named methods, operators and comparisons of the symbolic classes. *)
From Coq Require Import Lia ZifyBool.
From Verif Require Import PyBase BVModel BVSpec BVFacts BVOps OpModel OpSpec OpFacts SMTTerm SMTModel SMTSpec SMTFacts.

Ltac node FS := match goal with
  | |- context[vec_node ?S ?c ?t] =>
      let r := fresh "r" in let E := fresh "E" in let C := fresh "C" in let W := fresh "W" in let V := fresh "V" in
      destruct (vec_node_ok S FS c t) as (r & E & C & W & V); [..| rewrite E; cbn [bind rmap]]
  | |- context[bit_node ?S ?t] =>
      let r := fresh "r" in let E := fresh "E" in let W := fresh "W" in let V := fresh "V" in
      destruct (bit_node_ok S FS t) as (r & E & W & V); [..| rewrite E; cbn [bind rmap]]
  | |- context[int_node ?S ?t] =>
      let r := fresh "r" in let E := fresh "E" in let W := fresh "W" in let V := fresh "V" in
      destruct (int_node_ok S FS t) as (r & E & W & V); [..| rewrite E; cbn [bind rmap]]
  end.

Section O.
Variable S : simplifier.
Hypothesis FS : faithful S.

Lemma s_cast_ok {A} (fn : svec -> svec -> res A) x v : swf x -> accepted (csize (scls x)) v ->
  exists y, s_cast S fn x v = fn x y /\ ssize y = ssize x /\ swf y /\
    (forall e (B : Type) (g : bv -> bv -> res B), bv_cast g (meaning e x) (vmeaning e v) = g (meaning e x) (meaning e y)) /\
    (forall z, v = SVec z -> y = z).
Proof.
  intros Hx Hv. pose proof Hx as (W1 & _). destruct (s_coerce_ok S FS _ _ W1 Hv) as (y & E1 & E2 & E3 & E4).
  exists y. unfold s_cast. rewrite E1. split; [reflexivity|]. split; [exact E2|]. split; [exact E3|]. split.
  - intros e B g. unfold bv_cast. cbn [meaning bcls]. fold (meaning e x). now rewrite E4.
  - intros z ->. cbn [s_coerce] in E1. destruct Hv as [_ Hv]. unfold ssize in E1. rewrite Hv, Z.eqb_refl in E1.
    cbn [negb] in E1. congruence.
Qed.

Lemma swf_same x y : swf x -> swf y -> ssize y = ssize x -> vwf (sterm x) = true /\ vwf (sterm y) = true /\
  width (sterm x) = csize (scls x) /\ width (sterm y) = csize (scls x) /\ 1 <= csize (scls x).
Proof. unfold ssize. intros (A & B & C) (D & E & F) H. repeat split; auto; lia. Qed.

Lemma eval_range e x : swf x -> 0 <= evalv e (sterm x) < 2 ^ csize (scls x).
Proof. intros (A & B & C). rewrite <- C. now apply vwf_range. Qed.

Lemma s_bin_ok op x v : swf x -> accepted (csize (scls x)) v ->
  exists y r, s_bin S op x v = Ok r /\ ssize y = ssize x /\ swf y /\ scls r = scls x /\ swf r /\
    (forall e, evalv e (sterm r) = op_sem op (csize (scls x)) (evalv e (sterm x)) (evalv e (sterm y))) /\
    (forall e (B : Type) (g : bv -> bv -> res B), bv_cast g (meaning e x) (vmeaning e v) = g (meaning e x) (meaning e y)).
Proof.
  intros Hx Hv. destruct (s_cast_ok (fun x y => vec_node S (scls x) (VBin op (sterm x) (sterm y))) x v Hx Hv)
    as (y & E1 & E2 & E3 & E4 & _).
  destruct (swf_same x y Hx E3 E2) as (A1 & A2 & A3 & A4 & A5).
  unfold s_bin. rewrite E1. node FS; [exact A5|cbn [vwf]; rewrite A1, A2; cbn [andb]; lia|exact A3|].
  exists y, r. repeat (split; [now auto|]). split; [|exact E4]. intros e. rewrite V. cbn [evalv]. now rewrite A3.
Qed.
Lemma s_nbin_ok op x v : swf x -> accepted (csize (scls x)) v ->
  exists y r, s_nbin S op x v = Ok r /\ ssize y = ssize x /\ swf y /\ scls r = scls x /\ swf r /\
    (forall e, evalv e (sterm r) = 2 ^ csize (scls x) - 1 - op_sem op (csize (scls x)) (evalv e (sterm x)) (evalv e (sterm y))) /\
    (forall e (B : Type) (g : bv -> bv -> res B), bv_cast g (meaning e x) (vmeaning e v) = g (meaning e x) (meaning e y)).
Proof.
  intros Hx Hv. destruct (s_cast_ok (fun x y => vec_node S (scls x) (VNot (VBin op (sterm x) (sterm y)))) x v Hx Hv)
    as (y & E1 & E2 & E3 & E4 & _).
  destruct (swf_same x y Hx E3 E2) as (A1 & A2 & A3 & A4 & A5).
  unfold s_nbin. rewrite E1. node FS; [exact A5|cbn [vwf]; rewrite A1, A2; cbn [andb]; lia|exact A3|].
  exists y, r. repeat (split; [now auto|]). split; [|exact E4]. intros e. rewrite V. cbn [evalv width]. now rewrite A3.
Qed.

Lemma meth_ok m x v : swf x -> accepted (csize (scls x)) v ->
  exists r, smt_meth S m x v = Ok r /\ scls r = (match m with MComp => BVC (skind x) 1 | _ => scls x end) /\ swf r /\
    forall e, exists o, conc_meth m (meaning e x) (vmeaning e v) = Ok o /\ rv_val (meaning e x) o = meaning e r.
Proof.
  intros Hx Hv.
  assert (X : forall e, wf (meaning e x)) by (intros; now apply swf_meaning).
  assert (X1 : 1 <= csize (scls x)) by (destruct Hx; auto).
  assert (RG : forall e y, swf y -> ssize y = ssize x -> 0 <= evalv e (sterm y) < 2 ^ csize (scls x)).
  { intros e y Y1 Y2. fold (ssize x). rewrite <- Y2. now apply eval_range. }
  assert (RGx : forall e, 0 <= evalv e (sterm x) < 2 ^ csize (scls x)) by (intros e; now apply eval_range).
  assert (R : forall op c (g : bv -> bv -> res rv), (forall v, c v = bv_cast g v) ->
    (forall e y, swf y -> ssize y = ssize x -> exists o, g (meaning e x) (meaning e y) = Ok o /\
      rv_val (meaning e x) o = BV (scls x) (op_sem op (csize (scls x)) (evalv e (sterm x)) (evalv e (sterm y)))) ->
    exists r, s_bin S op x v = Ok r /\ scls r = scls x /\ swf r /\
    forall e, exists o, c (meaning e x) (vmeaning e v) = Ok o /\ rv_val (meaning e x) o = meaning e r).
  { intros op c g Hc H. destruct (s_bin_ok op x v Hx Hv) as (y & r & E1 & E2 & E3 & E4 & E5 & E6 & E7).
    exists r. repeat (split; [now auto|]). intros e. destruct (H e y E3 E2) as (o & O1 & O2).
    exists o. rewrite Hc, E7. split; [exact O1|]. rewrite O2. symmetry. now apply meaning_eq. }
  assert (RN : forall op (g : bv -> bv -> Z) (f : bv -> pyval -> res rv),
    (forall w, f w = bv_cast (fun a b => Ok (renew a (g a b))) w) ->
    (forall e y, swf y -> ssize y = ssize x ->
      g (meaning e x) (meaning e y) = op_sem op (csize (scls x)) (evalv e (sterm x)) (evalv e (sterm y))) ->
    exists r, s_nbin S op x v = Ok r /\ scls r = scls x /\ swf r /\
    forall e, exists o, (r0 <- f (meaning e x) (vmeaning e v) ;; Ok (New (bvnot (rv_val (meaning e x) r0)))) = Ok o /\
      rv_val (meaning e x) o = meaning e r).
  { intros op g f Hf H. destruct (s_nbin_ok op x v Hx Hv) as (y & r & E1 & E2 & E3 & E4 & E5 & E6 & E7).
    exists r. repeat (split; [now auto|]). intros e. rewrite Hf, E7. cbn [bind]. eexists. split; [reflexivity|].
    rewrite renew_eq by (now apply swf_meaning). cbn [rv_val]. rewrite (H e y E3 E2). rewrite Z.mod_small.
    2:{ apply (op_sem_range op); [exact X1|apply RGx|now apply RG]. }
    rewrite bvnot_spec. { cbn [bcls bsize bval]. symmetry. apply meaning_eq; [exact E4|]. rewrite E6. reflexivity. }
    unfold wf. cbn [bcls bval meaning]. split; [lia|]. apply (op_sem_range op); [exact X1|apply RGx|now apply RG]. }
  destruct m; cbn [smt_meth conc_meth].
  - eapply R; [reflexivity|]. intros e y Y1 Y2. eexists; split; [reflexivity|]. rewrite renew_eq by auto. cbn [rv_val meaning bcls].
    f_equal. apply Z.mod_small. apply (op_sem_range XAnd); auto.
  - eapply RN with (f := bvand); [reflexivity|]. reflexivity.
  - eapply R; [reflexivity|]. intros e y Y1 Y2. eexists; split; [reflexivity|]. rewrite renew_eq by auto. cbn [rv_val meaning bcls].
    f_equal. apply Z.mod_small. apply (op_sem_range XOr); auto.
  - eapply RN with (f := bvor); [reflexivity|]. reflexivity.
  - eapply R; [reflexivity|]. intros e y Y1 Y2. eexists; split; [reflexivity|]. rewrite renew_eq by auto. cbn [rv_val meaning bcls].
    f_equal. apply Z.mod_small. apply (op_sem_range XXor); auto.
  - eapply RN with (f := bvxor); [reflexivity|]. reflexivity.
  - eapply R; [reflexivity|]. intros e y Y1 Y2. eexists; split; [reflexivity|]. rewrite renew_eq by auto. cbn [rv_val meaning bcls].
    f_equal. unfold as_uint. cbn [meaning bval op_sem]. rewrite Z.shiftl_mul_pow2 by (apply RG; auto). reflexivity.
  - eapply R; [reflexivity|]. intros e y Y1 Y2. eexists; split; [reflexivity|]. rewrite renew_eq by auto. cbn [rv_val meaning bcls].
    f_equal. unfold as_uint. cbn [meaning bval]. rewrite Z.shiftr_div_pow2 by (apply RG; auto).
    apply Z.mod_small. apply (op_sem_range XLShr); auto.
  - eapply R; [reflexivity|]. intros e y Y1 Y2. cbv beta. rewrite as_sint_spec by auto. cbn [bind].
    eexists; split; [reflexivity|]. rewrite renew_eq by auto. cbn [rv_val meaning bcls]. f_equal.
    unfold as_uint. cbn [meaning bval op_sem]. rewrite Z.shiftr_div_pow2 by (apply RG; auto).
    rewrite to_int_signed by auto. reflexivity.
  - eapply R; [reflexivity|]. intros e y Y1 Y2. eexists; split; [reflexivity|]. rewrite renew_eq by auto. reflexivity.
  - eapply R; [reflexivity|]. intros e y Y1 Y2. eexists; split; [reflexivity|]. rewrite renew_eq by auto. reflexivity.
  - eapply R; [reflexivity|]. intros e y Y1 Y2. eexists; split; [reflexivity|]. rewrite renew_eq by auto. reflexivity.
  - eapply R; [reflexivity|]. intros e y Y1 Y2. cbv beta zeta. unfold as_uint. cbn [meaning bval].
    cbn [op_sem]. unfold udiv. specialize (RG e y Y1 Y2). destruct (Z.eqb_spec (evalv e (sterm y)) 0) as [Hz|Hz].
    + eexists; split; [reflexivity|]. rewrite renew_eq by (apply (X e)). cbn [rv_val bcls]. f_equal.
      change (bsize (meaning e x)) with (csize (scls x)). rewrite shiftl1 by lia. apply Z.mod_small. pose proof (pow2_pos (csize (scls x))). lia.
    + eexists; split; [reflexivity|]. rewrite renew_eq by (apply (X e)). cbn [rv_val bcls]. f_equal.
      apply Z.mod_small. apply div_range; [apply RGx|]. lia.
  - eapply R; [reflexivity|]. intros e y Y1 Y2. cbv beta zeta. unfold as_uint. cbn [meaning bval].
    cbn [op_sem]. unfold urem. pose proof (RG e y Y1 Y2). destruct (Z.eqb_spec (evalv e (sterm y)) 0) as [Hz|Hz].
    + eexists; split; reflexivity.
    + eexists; split; [reflexivity|]. rewrite renew_eq by (apply (X e)). cbn [rv_val bcls]. f_equal.
      apply Z.mod_small. pose proof (urem_range (csize (scls x)) (evalv e (sterm x)) (evalv e (sterm y)) (RGx e)) as U.
      unfold urem in U. destruct (Z.eqb_spec (evalv e (sterm y)) 0); [lia|]. apply U. lia.
  - unfold s_bvcomp, bvcomp.
    destruct (s_cast_ok (fun x y => c <- sized (skind x) 1;; vec_node S c (VComp (sterm x) (sterm y))) x v Hx Hv)
      as (y & E1 & E2 & E3 & E4 & _).
    destruct (swf_same x y Hx E3 E2) as (A1 & A2 & A3 & A4 & A5).
    rewrite E1. rewrite sized_ok by lia. cbn [bind]. node FS; [cbn; lia|cbn [vwf]; rewrite A1, A2; cbn [andb]; lia|reflexivity|].
    exists r. repeat (split; [now auto|]). intros e. rewrite E4.
    rewrite construct_converts with (u := (if as_uint (meaning e x) =? as_uint (meaning e y) then 1 else 0) mod 2 ^ 1);
      [|lia|constructor].
    cbn [rmap]. eexists; split; [reflexivity|]. cbn [rv_val]. symmetry. apply meaning_eq; [exact C|].
    rewrite V. cbn [evalv]. unfold as_uint. cbn [meaning bval]. destruct (_ =? _); reflexivity.
Qed.

Lemma rel_ok m x v : swf x -> accepted (csize (scls x)) v ->
  exists r, smt_rel S m x v = Ok r /\ bwf r = true /\
    forall e, conc_rel m (meaning e x) (vmeaning e v) = Ok (evalb e r).
Proof.
  intros Hx Hv.
  assert (R : forall f, (forall a b, bwf (f a b) = vwf a && vwf b && (width a =? width b) \/
                                     bwf (f a b) = vwf b && vwf a && (width b =? width a)) ->
    exists y r, s_rel S f x v = Ok r /\ bwf r = true /\ ssize y = ssize x /\ swf y /\
      (forall e, evalb e r = evalb e (f (sterm x) (sterm y))) /\
      (forall e (B : Type) (g : bv -> bv -> res B), bv_cast g (meaning e x) (vmeaning e v) = g (meaning e x) (meaning e y))).
  { intros f Hf. destruct (s_cast_ok (fun x y => bit_node S (f (sterm x) (sterm y))) x v Hx Hv) as (y & E1 & E2 & E3 & E4 & _).
    destruct (swf_same x y Hx E3 E2) as (A1 & A2 & A3 & A4 & A5).
    unfold s_rel. rewrite E1. node FS. { destruct (Hf (sterm x) (sterm y)) as [->| ->]; rewrite A1, A2; cbn [andb]; lia. }
    exists y, r. repeat (split; [now auto|]). auto. }
  assert (X : forall e, wf (meaning e x)) by (intros; now apply swf_meaning).
  assert (X1 : 1 <= csize (scls x)) by (destruct Hx; auto).
  assert (SG : forall e y, swf y -> ssize y = ssize x -> as_sint (meaning e y) = Ok (to_int (width (sterm y)) (evalv e (sterm y)))).
  { intros e y Y1 Y2. destruct (swf_same x y Hx Y1 Y2) as (A1 & A2 & A3 & A4 & A5).
    rewrite as_sint_spec; [|now apply swf_meaning|unfold bsize; cbn [meaning bcls]; fold (ssize y); rewrite Y2; auto].
    rewrite to_int_signed by lia. destruct Y1 as (_ & _ & Y3). now rewrite Y3. }
  destruct m; cbn [smt_rel conc_rel].
  - destruct (R BEq) as (y & r & E1 & E2 & E3 & E4 & E5 & E6); [now left|]. exists r. repeat (split; [now auto|]).
    intros e. unfold bveq. rewrite E6, E5. reflexivity.
  - destruct (R (fun a b => BNot (BEq a b))) as (y & r & E1 & E2 & E3 & E4 & E5 & E6); [now left|]. exists r. repeat (split; [now auto|]).
    intros e. unfold bvne. rewrite E6, E5. reflexivity.
  - destruct (R BUlt) as (y & r & E1 & E2 & E3 & E4 & E5 & E6); [now left|]. exists r. repeat (split; [now auto|]).
    intros e. unfold bvult. rewrite E6, E5. reflexivity.
  - destruct (R BUle) as (y & r & E1 & E2 & E3 & E4 & E5 & E6); [now left|]. exists r. repeat (split; [now auto|]).
    intros e. unfold bvule. rewrite E6, E5. reflexivity.
  - destruct (R (fun a b => BUlt b a)) as (y & r & E1 & E2 & E3 & E4 & E5 & E6); [now right|]. exists r. repeat (split; [now auto|]).
    intros e. unfold bvugt. rewrite E6, E5. reflexivity.
  - destruct (R (fun a b => BUle b a)) as (y & r & E1 & E2 & E3 & E4 & E5 & E6); [now right|]. exists r. repeat (split; [now auto|]).
    intros e. unfold bvuge. rewrite E6, E5. reflexivity.
  - destruct (R BSlt) as (y & r & E1 & E2 & E3 & E4 & E5 & E6); [now left|]. exists r. repeat (split; [now auto|]).
    intros e. unfold bvslt. rewrite E6, E5. rewrite !SG by auto. reflexivity.
  - destruct (R BSle) as (y & r & E1 & E2 & E3 & E4 & E5 & E6); [now left|]. exists r. repeat (split; [now auto|]).
    intros e. unfold bvsle, bvslt, bveq. rewrite !E6, E5. rewrite !SG by auto. cbn [bind evalb]. f_equal.
    destruct (swf_same x y Hx E4 E3) as (A1 & A2 & A3 & A4 & A5). rewrite A3, A4, !to_int_signed by lia.
    unfold as_uint; cbn [meaning bval].
    destruct (Z.eqb_spec (evalv e (sterm x)) (evalv e (sterm y))) as [->|N]; [lia|].
    assert (signed (csize (scls x)) (evalv e (sterm x)) <> signed (csize (scls x)) (evalv e (sterm y))).
    { intros Q. apply signed_inj in Q; auto. - now apply eval_range. - rewrite <- A4. now apply vwf_range. }
    lia.
  - destruct (R (fun a b => BSlt b a)) as (y & r & E1 & E2 & E3 & E4 & E5 & E6); [now right|]. exists r. repeat (split; [now auto|]).
    intros e. unfold bvsgt, bvsle, bvslt, bveq. rewrite !E6, E5. rewrite !SG by auto. cbn [bind evalb rmap]. f_equal.
    destruct (swf_same x y Hx E4 E3) as (A1 & A2 & A3 & A4 & A5). rewrite A3, A4, !to_int_signed by lia.
    unfold as_uint; cbn [meaning bval].
    destruct (Z.eqb_spec (evalv e (sterm x)) (evalv e (sterm y))) as [->|N]; [lia|].
    assert (signed (csize (scls x)) (evalv e (sterm x)) <> signed (csize (scls x)) (evalv e (sterm y))).
    { intros Q. apply signed_inj in Q; auto. - now apply eval_range. - rewrite <- A4. now apply vwf_range. }
    lia.
  - destruct (R (fun a b => BSle b a)) as (y & r & E1 & E2 & E3 & E4 & E5 & E6); [now right|]. exists r. repeat (split; [now auto|]).
    intros e. unfold bvsge, bvslt. rewrite !E6, E5. rewrite !SG by auto. cbn [bind evalb rmap]. f_equal. lia.
Qed.

(** ** Unary *)
Lemma s_bvnot_ok x : swf x -> exists r, s_bvnot S x = Ok r /\ scls r = scls x /\ swf r /\ forall e, bvnot (meaning e x) = meaning e r.
Proof.
  intros Hx. pose proof Hx as (A & B & C0). unfold s_bvnot. node FS; auto. exists r. repeat (split; [now auto|]).
  intros e. rewrite bvnot_spec by (now apply swf_meaning). symmetry. apply meaning_eq; auto. rewrite V. cbn [evalv]. now rewrite C0.
Qed.
Lemma s_bvneg_ok x : swf x -> exists r, s_bvneg S x = Ok r /\ scls r = scls x /\ swf r /\ forall e, bvneg (meaning e x) = meaning e r.
Proof.
  intros Hx. pose proof Hx as (A & B & C0). unfold s_bvneg. node FS; auto. exists r. repeat (split; [now auto|]).
  intros e. rewrite bvneg_spec by (now apply swf_meaning). symmetry. apply meaning_eq; auto. rewrite V. cbn [evalv]. now rewrite C0.
Qed.

(** ** Rotation *)
Lemma rol_testbit w k u i : 0 <= k <= w -> 0 <= u < 2 ^ w -> 0 <= i < w ->
  Z.testbit ((u * 2 ^ k) mod 2 ^ w + u / 2 ^ (w - k)) i = Z.testbit u ((i - k) mod w).
Proof.
  intros Hk Hu Hi.
  assert (E : (u * 2 ^ k) mod 2 ^ w + u / 2 ^ (w - k) = Z.lor (u / 2 ^ (w - k)) (Z.shiftl (u mod 2 ^ (w - k)) k)).
  { rewrite lor_shift_add.
    - rewrite <- Z.mul_mod_distr_r by (apply Z.pow_nonzero; lia). rewrite <- Z.pow_add_r by lia.
      replace (w - k + k) with w by lia. lia.
    - lia.
    - split; [apply Z.div_pos; [lia|apply pow2_pos; lia]|]. apply Z.div_lt_upper_bound; [apply pow2_pos; lia|].
      rewrite <- Z.pow_add_r by lia. replace (w - k + k) with w by lia. lia. }
  rewrite E, Z.lor_spec, Z.shiftl_spec by lia. rewrite <- Z.shiftr_div_pow2, Z.shiftr_spec by lia.
  destruct (Z.lt_ge_cases i k).
  - rewrite (Z.testbit_neg_r _ (i - k)) by lia. rewrite orb_false_r. f_equal. apply Zmod_unique with (-1); lia.
  - rewrite Z.mod_pow2_bits_low by lia. rewrite (testbit_high u w (i + (w - k))) by lia. cbn [orb].
    f_equal. symmetry. apply Z.mod_small. lia.
Qed.
Lemma ror_testbit w k u i : 0 <= k <= w -> 0 <= u < 2 ^ w -> 0 <= i < w ->
  Z.testbit (u / 2 ^ k + (u * 2 ^ (w - k)) mod 2 ^ w) i = Z.testbit u ((i + k) mod w).
Proof.
  intros Hk Hu Hi. pose proof (rol_testbit w (w - k) u i) as R. replace (w - (w - k)) with k in R by lia.
  rewrite Z.add_comm, R by lia. f_equal. replace (i - (w - k)) with (i + k + (-1) * w) by lia.
  apply Z.mod_add. lia.
Qed.

Lemma rotate_amount n k : 0 <= k <= n -> 1 <= n -> k mod 2 ^ n = k.
Proof. intros H Hn. apply Z.mod_small. pose proof (Z.pow_gt_lin_r 2 n). lia. Qed.

Lemma s_rol_ok x k : swf x -> 0 <= k <= csize (scls x) ->
  exists r, s_bvrol S x (SInt k) = Ok r /\ scls r = scls x /\ swf r /\
    forall e, bvrol (meaning e x) (VInt k) = Ok (New (meaning e r)).
Proof.
  intros Hx Hk. pose proof Hx as (A & B & C0). unfold s_bvrol. cbn [s_int bind].
  replace ((k <? 0) || (width (sterm x) <? k)) with false by lia.
  node FS; auto; [cbn [vwf]; rewrite B; cbn [andb]; lia|]. exists r. repeat (split; [now auto|]).
  intros e. destruct (bvrol_spec (meaning e x) (VInt k) k) as (y & E1 & E2 & E3 & E4).
  - now apply swf_meaning.
  - exact A.
  - apply Op_conv; [discriminate|]. rewrite <- (rotate_amount (csize (scls x)) k) at 2 by lia. constructor.
  - rewrite E1. do 2 f_equal. apply bv_ext.
    + rewrite E2. cbn [meaning bcls]. auto.
    + destruct W as (W1 & W2). destruct E3 as [E3 E3']. rewrite E2 in E3'. change (bcls (meaning e x)) with (scls x) in *.
      apply bits_ext with (csize (scls x)); auto.
      { cbn [meaning bval]. rewrite <- C. apply eval_range. split; auto. }
      intros i Hi. rewrite E4 by exact Hi. cbn [meaning bval]. rewrite V. cbn [evalv]. rewrite C0.
      rewrite rol_testbit; try lia; [reflexivity|]. now apply eval_range.
Qed.
Lemma s_ror_ok x k : swf x -> 0 <= k <= csize (scls x) ->
  exists r, s_bvror S x (SInt k) = Ok r /\ scls r = scls x /\ swf r /\
    forall e, bvror (meaning e x) (VInt k) = Ok (New (meaning e r)).
Proof.
  intros Hx Hk. pose proof Hx as (A & B & C0). unfold s_bvror. cbn [s_int bind].
  replace ((k <? 0) || (width (sterm x) <? k)) with false by lia.
  node FS; auto; [cbn [vwf]; rewrite B; cbn [andb]; lia|]. exists r. repeat (split; [now auto|]).
  intros e. destruct (bvror_spec (meaning e x) (VInt k) k) as (y & E1 & E2 & E3 & E4).
  - now apply swf_meaning.
  - exact A.
  - apply Op_conv; [discriminate|]. rewrite <- (rotate_amount (csize (scls x)) k) at 2 by lia. constructor.
  - rewrite E1. do 2 f_equal. apply bv_ext.
    + rewrite E2. cbn [meaning bcls]. auto.
    + destruct W as (W1 & W2). destruct E3 as [E3 E3']. rewrite E2 in E3'. change (bcls (meaning e x)) with (scls x) in *.
      apply bits_ext with (csize (scls x)); auto.
      { cbn [meaning bval]. rewrite <- C. apply eval_range. split; auto. }
      intros i Hi. rewrite E4 by exact Hi. cbn [meaning bval]. rewrite V. cbn [evalv]. rewrite C0.
      rewrite ror_testbit; try lia; [reflexivity|]. now apply eval_range.
Qed.
End O.
