(** Conversions to integers, exact roundings, and the steps of random. *)
From Coq Require Import Lia ZArith QArith Qpower Qabs Lqa ZifyBool.
From Verif Require Import PyBase BVModel BVSpec BVFacts BVOps FPModel FPSpec FPRoundFacts FPPatFacts FPEncFacts FPDecFacts FPSqrtFacts FPBracket FPQFacts FPRoundSpec FPInst FPArith FPSqrtSpec FPMore.
Open Scope Z_scope.

Lemma round_int_close g s N D : 0 < D -> - D < N - round_int g s N D * D < D.
Proof.
  intros HD. unfold round_int. pose proof (Z.div_mod N D ltac:(lia)) as DM. pose proof (Z.mod_pos_bound N D HD) as MB.
  set (t := N / D) in *. set (r := N mod D) in *. clearbody t r.
  destruct (incr g s t r D) eqn:I; cbn [b2z]; [|lia].
  assert (r <> 0); [|lia]. intros ->. unfold incr in I. destruct g; cbn in I; try discriminate. lia.
Qed.
Lemma int_spec g x a : nval x a -> exists k, mpfr_int g x = Ok k /\ (Qabs (a - inject_Z k) < 1)%Q.
Proof.
  intros [s q H|s n d q Hn Hd H]; cbn [mpfr_int].
  - exists 0. split; [reflexivity|]. rewrite H. reflexivity.
  - exists (sgnz s (round_int g s n d)). split; [reflexivity|]. rewrite H, ratq_z by exact Hd.
    rewrite (frac_int (sgnz s (round_int g s n d)) d Hd).
    pose proof (frac_sub (sgnz s n) (sgnz s (round_int g s n d) * d) d Hd) as FS. rewrite FS, frac_abs by exact Hd.
    setoid_replace 1%Q with (inject_Z d / inject_Z d)%Q by (field; now apply inj_nz).
    apply frac_lt; [exact Hd|]. pose proof (round_int_close g s n d Hd). destruct s; cbn [sgnz]; lia.
Qed.
Lemma close_eq z k : (Qabs (inject_Z z - inject_Z k) < 1)%Q -> k = z.
Proof.
  rewrite <- inj_sub. change (Qabs (inject_Z (z - k))) with (inject_Z (Z.abs (z - k))).
  change 1%Q with (inject_Z 1). rewrite <- Zlt_Qlt. lia.
Qed.

Lemma frac_pos n d : 0 < n -> 0 < d -> (0 < inject_Z n / inject_Z d)%Q.
Proof.
  intros Hn Hd. apply Qlt_shift_div_l; [now apply inj_pos|]. rewrite Qmult_0_l. now apply inj_pos.
Qed.

(** Rounding of a value of the type. *)
Lemma round_val f s n d m E : wide f -> wfv f (MFin s m E) -> 0 < n -> 0 < d ->
  (inject_Z n / inject_Z d == inject_Z m * pow2 (E - (f_mb f + 1)))%Q ->
  mpfr_round (fctx f) (NRat s n d) = MFin s m E.
Proof.
  intros W WF Hn Hd Q. pose proof (wide_okf f W) as O.
  assert (P : c_prec (fctx f) = f_mb f + 1) by (rewrite fctx_eq by exact O; reflexivity).
  destruct (scaled n d (E - c_prec (fctx f))) as [N D] eqn:HS. pose proof (scaled_pos _ _ _ _ _ Hn Hd HS) as [PN PD].
  apply (round_exact_ratio (fctx f) (top f) s m E n d N D); auto.
  - rewrite P. destruct W; lia.
  - rewrite fctx_eq by exact O. cbn [c_prec c_sub c_emin]. destruct (f_ieee f); lia.
  - rewrite (scaled_q n d _ N D Hd PD HS), P in Q.
    assert (Q' : (inject_Z N / inject_Z D == inject_Z m)%Q).
    { apply (Qmult_inj_r _ _ (pow2 (E - (f_mb f + 1)))); [|exact Q].
      intros X. pose proof (pow2q_pos (E - (f_mb f + 1))) as Y. rewrite X in Y. now apply Qlt_irrefl in Y. }
    apply inject_Z_injective. rewrite inject_Z_mult, <- Q'. field. now apply inj_nz.
Qed.

Definition sval (f : fmt) (s : bool) (m E : Z) : Q := sgnq s (inject_Z m * pow2 (E - (f_mb f + 1))).

Lemma wf_norm f s m E : wide f -> 2 ^ f_mb f <= m < 2 ^ (f_mb f + 1) -> top f <= E <= 2 ^ (f_eb f - 1) -> wfv f (MFin s m E).
Proof.
  intros W M EE. pose proof (wide_okf f W) as O. unfold wfv. rewrite fctx_eq by exact O. cbn [wfm c_prec c_emin c_emax].
  replace (f_mb f + 1 - 1) with (f_mb f) by lia. destruct O. unfold top in *.
  split; [exact M|]. split; [|lia]. destruct (f_ieee f); lia.
Qed.

(** The rounded number of an exact value of the type is that value. *)
Lemma rd_exact f r s m E : wide f -> 2 ^ f_mb f <= m < 2 ^ (f_mb f + 1) -> top f <= E <= 2 ^ (f_eb f - 1) ->
  nval r (sval f s m E) -> mpfr_round (fctx f) r = MFin s m E.
Proof.
  intros W M EE N. assert (PM : 0 < m) by (pose proof (pow2_pos (f_mb f)); destruct W; lia).
  assert (PV : (0 < inject_Z m * pow2 (E - (f_mb f + 1)))%Q) by (apply Qmult_lt_0_compat; [now apply inj_pos|apply pow2q_pos]).
  remember (sval f s m E) as q0 eqn:HQ. destruct N as [s' q H|s' n d q Hn Hd H].
  - exfalso. subst q. unfold sval, sgnq in H. destruct s; lra.
  - subst q. assert (PR : (0 < inject_Z n / inject_Z d)%Q).
    { now apply frac_pos. }
    unfold sval, ratq, sgnq in H. assert (s' = s) as -> by (destruct s, s'; auto; lra).
    apply round_val; auto; [now apply wf_norm|]. destruct s; lra.
Qed.
Lemma rd_nval f r s m E : wide f -> 2 ^ f_mb f <= m < 2 ^ (f_mb f + 1) -> top f <= E <= 2 ^ (f_eb f - 1) ->
  nval r (sval f s m E) -> nval (mnum (c_prec (fctx f)) (mpfr_round (fctx f) r)) (sval f s m E).
Proof.
  intros W M EE N. rewrite (rd_exact f r s m E) by assumption.
  apply mnum_val; [apply wide_okf, W|now apply wf_norm|reflexivity].
Qed.

Lemma pow_nval x y k : nval x 2 -> nval y (inject_Z k) -> nval (num_pow x y) (pow2 k).
Proof.
  intros HX HY. inversion HY as [s q H|s a b q Ha Hb H]; subst.
  - assert (k = 0) as -> by (apply inject_Z_injective; exact H).
    assert (num_pow x (NZero s) = NRat false 1 1) as -> by (destruct x as [|?|?|[|] ? ?]; reflexivity).
    constructor; [lia|lia|reflexivity].
  - inversion HX as [s' q H'|s' n d q Hn Hd H']; subst; [exfalso; lra|].
    assert (PR : (0 < inject_Z n / inject_Z d)%Q) by (now apply frac_pos).
    destruct s'; [exfalso; unfold ratq, sgnq in H'; lra|].
    assert (ND : n = 2 * d).
    { apply inject_Z_injective. rewrite inject_Z_mult. change (inject_Z 2) with 2%Q. unfold ratq, sgnq in H'.
      rewrite H'. field. now apply inj_nz. }
    rewrite ratq_z in H by exact Hb.
    assert (AB : sgnz s a = k * b).
    { apply inject_Z_injective. rewrite inject_Z_mult, H. field. now apply inj_nz. }
    assert (AK : a / b = Z.abs k).
    { symmetry. apply Z.div_unique_exact; [lia|]. destruct s; cbn [sgnz] in AB; nia. }
    cbn [num_pow]. rewrite AK. assert (PD : 0 < d ^ Z.abs k) by (apply Z.pow_pos_nonneg; lia).
    assert (PN : 0 < n ^ Z.abs k) by (apply Z.pow_pos_nonneg; lia).
    assert (NE : n ^ Z.abs k = 2 ^ Z.abs k * d ^ Z.abs k) by (rewrite ND; apply Z.pow_mul_l).
    pose proof (inj_nz _ PD) as ZD. pose proof (inj_nz _ PN) as ZN.
    destruct s; constructor; auto; unfold ratq, sgnq; rewrite NE, inject_Z_mult, <- pow2q_int by lia; cbn [sgnz] in AB.
    + assert (k < 0) by nia. replace (Z.abs k) with (- k) at 1 by lia.
      assert (T : (pow2 (- k) * pow2 k == 1)%Q) by (rewrite <- pow2q_add, Z.add_opp_diag_l; reflexivity).
      assert (NZ : ~ (pow2 (- k) == 0)%Q) by (intros X; pose proof (pow2q_pos (- k)) as Y; rewrite X in Y; now apply Qlt_irrefl in Y).
      replace (Z.abs k) with (- k) in * by lia. transitivity (pow2 k * (pow2 (- k) / pow2 (- k)))%Q; [field; exact NZ|].
      transitivity ((pow2 (- k) * pow2 k) / pow2 (- k))%Q; [field; exact NZ|]. rewrite T. field. split; assumption.
    + assert (0 <= k) by nia. replace (Z.abs k) with k in * by lia. field. exact ZD.
Qed.

Lemma rd_int f k : wide f -> f_eb f <= f_mb f + 2 -> Z.abs k <= bias f ->
  nval (mnum (c_prec (fctx f)) (mpfr_round (fctx f) (num_of_int k))) (inject_Z k).
Proof.
  intros W EB B. unfold num_of_int. destruct (Z.eqb_spec k 0) as [->|NZ]; [constructor; reflexivity|].
  unfold bias in B. set (l := Z.log2 (Z.abs k)). pose proof (Z.log2_spec (Z.abs k) ltac:(lia)) as [L1 L2]. fold l in L1, L2.
  pose proof (Z.log2_nonneg (Z.abs k)) as L0. fold l in L0.
  assert (LB : l < f_eb f - 1).
  { apply (Z.pow_lt_mono_r_iff 2); [lia|destruct W; lia|]. lia. }
  assert (LE : l <= f_mb f) by lia.
  set (m := Z.abs k * 2 ^ (f_mb f - l)). pose proof (pow2_pos (f_mb f - l) ltac:(lia)) as PP.
  assert (V : (inject_Z k == sval f (k <? 0) m (l + 1))%Q).
  { assert (T : (pow2 (f_mb f - l) * pow2 (l + 1 - (f_mb f + 1)) == 1)%Q).
    { rewrite <- pow2q_add. replace (f_mb f - l + (l + 1 - (f_mb f + 1))) with 0 by lia. reflexivity. }
    assert (A : (inject_Z m * pow2 (l + 1 - (f_mb f + 1)) == inject_Z (Z.abs k))%Q).
    { unfold m. rewrite inject_Z_mult, <- pow2q_int by lia. rewrite <- Qmult_assoc, T. ring. }
    unfold sval, sgnq. destruct (Z.ltb_spec k 0); rewrite A.
    - rewrite <- inject_Z_opp. replace (- Z.abs k) with k by lia. reflexivity.
    - replace (Z.abs k) with k by lia. reflexivity. }
  apply (nval_wd _ (sval f (k <? 0) m (l + 1))); [symmetry; exact V|]. apply rd_nval; [exact W| | |].
  - unfold m. assert (E1 : 2 ^ f_mb f = 2 ^ l * 2 ^ (f_mb f - l)) by (rewrite <- pow2_split by lia; f_equal; lia).
    assert (E2 : 2 ^ (f_mb f + 1) = 2 ^ Z.succ l * 2 ^ (f_mb f - l)) by (rewrite <- pow2_split by lia; f_equal; lia).
    rewrite E1, E2. split; [apply Z.mul_le_mono_nonneg_r; lia|apply Z.mul_lt_mono_pos_r; lia].
  - unfold top. pose proof (pow2_pos (f_eb f - 1) ltac:(destruct W; lia)).
    assert (f_eb f - 1 < 2 ^ (f_eb f - 1)) by (apply Z.pow_gt_lin_r; destruct W; lia).
    assert (2 ^ 1 <= 2 ^ (f_eb f - 1)) by (apply Z.pow_le_mono_r; destruct W; lia). lia.
  - constructor; [lia|lia|]. rewrite <- V. rewrite ratq_z by lia.
    replace (sgnz (k <? 0) (Z.abs k)) with k by (destruct (Z.ltb_spec k 0); cbn [sgnz]; lia). field.
Qed.

Lemma random_value f u s e j : wide f -> f_eb f <= f_mb f + 2 -> 0 <= j < 2 ^ f_mb f ->
  nval u (inject_Z j / inject_Z (2 ^ f_mb f)) -> 1 - bias f <= e <= bias f ->
  fp_random f u s e = FPV f (MFin s (2 ^ f_mb f + j) (e + 1)).
Proof.
  intros W EB J U E. pose proof (wide_okf f W) as O. destruct O as [O1 O2].
  pose proof (pow2_S (f_mb f) ltac:(lia)) as PS. pose proof (pow2_pos (f_mb f) ltac:(lia)) as PM.
  assert (P1 : 2 ^ 1 <= 2 ^ (f_eb f - 1)) by (apply Z.pow_le_mono_r; destruct W; lia). change (2 ^ 1) with 2 in P1.
  unfold bias in E.
  assert (RM : 2 ^ f_mb f <= 2 ^ f_mb f + j < 2 ^ (f_mb f + 1)) by lia.
  assert (T1 : top f <= 1 <= 2 ^ (f_eb f - 1)) by (unfold top; lia).
  assert (V1 : (sval f false (2 ^ f_mb f + j) 1 == inject_Z j / inject_Z (2 ^ f_mb f) + 1)%Q).
  { unfold sval, sgnq. replace (1 - (f_mb f + 1)) with (- f_mb f) by lia.
    assert (T : (pow2 (f_mb f) * pow2 (- f_mb f) == 1)%Q) by (rewrite <- pow2q_add, Z.add_opp_diag_r; reflexivity).
    rewrite inject_Z_plus, <- !pow2q_int by lia.
    assert (NZ : ~ (pow2 (f_mb f) == 0)%Q) by (intros X; pose proof (pow2q_pos (f_mb f)) as Y; rewrite X in Y; now apply Qlt_irrefl in Y).
    transitivity (pow2 (f_mb f) * pow2 (- f_mb f) + inject_Z j * ((pow2 (f_mb f) * pow2 (- f_mb f)) / pow2 (f_mb f)))%Q; [field; exact NZ|].
    rewrite T. field. exact NZ. }
  unfold fp_random. set (c := fctx f). set (rd := fun x => mnum (c_prec c) (mpfr_round c x)).
  assert (N1 : nval (rd (num_add (c_rnd c) u (NRat false 1 1))) (sval f false (2 ^ f_mb f + j) 1)).
  { apply rd_nval; auto. apply (nval_wd _ (inject_Z j / inject_Z (2 ^ f_mb f) + 1)%Q); [symmetry; exact V1|].
    apply nval_add; [exact U|]. constructor; [lia|lia|reflexivity]. }
  assert (N2 : nval (rd (num_mul (rd (num_add (c_rnd c) u (NRat false 1 1))) (NRat s 1 1))) (sval f s (2 ^ f_mb f + j) 1)).
  { apply rd_nval; auto. apply (nval_wd _ (sval f false (2 ^ f_mb f + j) 1 * ratq s 1 1)%Q).
    - unfold sval, ratq, sgnq. destruct s; change (inject_Z 1 / inject_Z 1)%Q with 1%Q; ring.
    - apply nval_mul; [exact N1|]. constructor; [lia|lia|reflexivity]. }
  assert (N3 : nval (rd (NRat false 2 1)) 2).
  { apply (nval_wd _ (sval f false (2 ^ f_mb f) 2)).
    - unfold sval, sgnq. rewrite <- pow2q_int, <- pow2q_add by lia. replace (f_mb f + (2 - (f_mb f + 1))) with 1 by lia. reflexivity.
    - apply rd_nval; [exact W|lia|unfold top; lia|]. constructor; [lia|lia|]. unfold sval, sgnq. rewrite <- pow2q_int, <- pow2q_add by lia.
      replace (f_mb f + (2 - (f_mb f + 1))) with 1 by lia. reflexivity. }
  assert (N4 : nval (rd (num_of_int e)) (inject_Z e)) by (apply rd_int; auto; unfold bias; lia).
  assert (TE : top f <= e + 1 <= 2 ^ (f_eb f - 1)) by (unfold top; lia).
  assert (N5 : nval (rd (num_pow (rd (NRat false 2 1)) (rd (num_of_int e)))) (pow2 e)).
  { assert (V : (sval f false (2 ^ f_mb f) (e + 1) == pow2 e)%Q).
    { unfold sval, sgnq. rewrite <- pow2q_int, <- pow2q_add by lia. replace (f_mb f + (e + 1 - (f_mb f + 1))) with e by lia. reflexivity. }
    apply (nval_wd _ _ _ V). apply rd_nval; [exact W|lia|exact TE|]. apply (nval_wd _ (pow2 e)); [symmetry; exact V|]. now apply pow_nval. }
  rewrite (rd_exact f _ s (2 ^ f_mb f + j) (e + 1)); auto.
  - rewrite wrap_wf; [reflexivity|split; assumption|now apply wf_norm].
  - eapply nval_wd; [|exact (nval_mul _ _ _ _ N2 N5)]. unfold sval, sgnq.
    replace (e + 1 - (f_mb f + 1)) with (1 - (f_mb f + 1) + e) by lia. destruct s; rewrite (pow2q_add (1 - (f_mb f + 1)) e); ring.
Qed.
