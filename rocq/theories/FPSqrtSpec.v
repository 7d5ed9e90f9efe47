(** The square root is correctly rounded. *)
From Coq Require Import Lia ZArith QArith Qpower Qabs Lqa ZifyBool.
From Verif Require Import PyBase BVModel BVSpec BVFacts BVOps FPModel FPSpec FPRoundFacts FPPatFacts FPEncFacts FPDecFacts FPSqrtFacts FPBracket FPQFacts FPRoundSpec FPInst FPArith.
Open Scope Z_scope.

Lemma scaled_q n d e N D : 0 < d -> 0 < D -> scaled n d e = (N, D) ->
  (inject_Z n / inject_Z d == inject_Z N / inject_Z D * pow2 e)%Q.
Proof.
  intros Hd PD HS. unfold scaled in HS.
  assert (Dn : ~ (inject_Z D == 0)%Q) by (intros X; apply (inject_Z_injective D 0) in X; lia).
  assert (dn : ~ (inject_Z d == 0)%Q) by (intros X; apply (inject_Z_injective d 0) in X; lia).
  destruct (Z.leb_spec 0 e) as [L|L]; pose proof (f_equal fst HS) as QN; pose proof (f_equal snd HS) as QD; cbn [fst snd] in QN, QD; rewrite <- QN in *; rewrite <- QD in *.
  - rewrite pow2q_int by exact L. rewrite inject_Z_mult in *. field. split; [|exact dn]. intros X. apply Dn. rewrite X. ring.
  - rewrite inject_Z_mult, <- pow2q_int by lia.
    assert (T : (pow2 (- e) * pow2 e == 1)%Q) by (rewrite <- pow2q_add, Z.add_opp_diag_l; reflexivity).
    transitivity (inject_Z n / inject_Z d * (pow2 (- e) * pow2 e))%Q; [rewrite T; ring|field; exact dn].
Qed.
Lemma q_frac q : (q == inject_Z (Qnum q) / inject_Z (Zpos (Qden q)))%Q.
Proof. rewrite <- Qmake_Qdiv. destruct q; reflexivity. Qed.

Section Root.
Variables (f : fmt) (n d N D : Z).
Hypothesis (W : wide f) (Hn : 0 < n) (Hd : 0 < d).
Let p := c_prec (fctx f).
Let e := rexp n d - p.
Hypothesis HS : scaled n d (2 * e) = (N, D).
Let k2 := Z.sqrt (4 * N / D).
Let U := pow2 (e - 1).

Lemma p_pos : 2 <= p.
Proof. unfold p. rewrite fctx_eq by (apply wide_okf, W). cbn [c_prec]. destruct W; lia. Qed.
Lemma U2 : (pow2 e == 2 * U)%Q.
Proof. unfold U. replace e with (1 + (e - 1)) at 1 by lia. rewrite pow2q_add. reflexivity. Qed.
Lemma U_pos : (0 < U)%Q.
Proof. apply pow2q_pos. Qed.
Lemma root_a : (inject_Z n / inject_Z d == inject_Z (4 * N) / inject_Z D * (U * U))%Q.
Proof.
  pose proof (scaled_pos _ _ _ _ _ Hn Hd HS) as [_ PD]. rewrite (scaled_q n d _ N D Hd PD HS).
  replace (2 * e) with (e + e) by lia. rewrite pow2q_add, U2, inject_Z_mult. change (inject_Z 4) with 4%Q.
  field. now apply inj_nz.
Qed.

Lemma root_like q : (0 < q)%Q ->
  (k2 * k2 * D = 4 * N /\ (q == inject_Z k2 * U)%Q) \/
  (k2 * k2 * D < 4 * N /\ (inject_Z k2 * U < q)%Q /\ (q < inject_Z (k2 + 1) * U)%Q) ->
  correct f q (fp_store f (mpfr_sqrt (fctx f) (NRat false n d))).
Proof.
  intros Q0 HC. set (qn := Qnum q). set (qd := Zpos (Qden q)). pose proof (q_frac q) as QF. fold qn qd in QF.
  assert (P1 : 0 < qn) by (unfold qn; revert Q0; unfold Qlt; cbn [Qnum Qden]; lia).
  assert (P2 : 0 < qd) by (unfold qd; lia).
  destruct (scaled qn qd e) as [QN QD] eqn:HQ. pose proof (scaled_pos _ _ _ _ _ P1 P2 HQ) as [PQN PQD].
  assert (QE : (q == inject_Z (2 * QN) / inject_Z QD * U)%Q).
  { rewrite QF, (scaled_q qn qd e QN QD P2 PQD HQ), U2, inject_Z_mult. change (inject_Z 2) with 2%Q. field. now apply inj_nz. }
  assert (R : rnd_set p (c_rnd (fctx f)) false qn qd = sqrt_set p (c_rnd (fctx f)) n d).
  { apply (sqrt_core p _ n d qn qd N D QN QD); auto; [pose proof p_pos; lia|]. fold k2.
    destruct HC as [[HC1 HC2]|(HC1 & HC2 & HC3)]; [left|right]; (split; [exact HC1|]); rewrite QE in *.
    - apply (conv_eq2 U QD U_pos PQD). rewrite HC2. transitivity (inject_Z k2 * (inject_Z QD / inject_Z QD) * U)%Q.
      + setoid_replace (inject_Z QD / inject_Z QD)%Q with 1%Q; [ring|field; now apply inj_nz].
      + rewrite (inject_Z_mult k2 QD). unfold Qdiv. ring.
    - split; [apply (conv_gt U (2 * QN) QD U_pos PQD); exact HC2|apply (conv_lt U (2 * QN) QD U_pos PQD); exact HC3]. }
  replace (mpfr_sqrt (fctx f) (NRat false n d)) with (mpfr_round (fctx f) (NRat false qn qd)).
  - apply (init_correct f (NRat false qn qd) q W). constructor; auto.
  - cbn [mpfr_sqrt mpfr_round]. fold p. rewrite R. reflexivity.
Qed.

Lemma sqrt_correct_scaled : correct_sqrt f (inject_Z n / inject_Z d) (fp_store f (mpfr_sqrt (fctx f) (NRat false n d))).
Proof.
  pose proof (scaled_pos _ _ _ _ _ Hn Hd HS) as [PN PD]. pose proof p_pos as PP.
  pose proof (sqrt_bounds p n d N D Hn Hd ltac:(lia) HS) as [B1 B2].
  pose proof (root2 N D ltac:(lia) PD) as (K0 & K1 & K2). cbv zeta in *. fold k2 in K0, K1, K2.
  pose proof (pow2_pos p ltac:(lia)) as P2.
  assert (L : 2 ^ p <= k2) by (assert (2 ^ p < k2 + 1); [apply (sq_mono _ _ D); lia|lia]).
  assert (KP : (0 < inject_Z k2)%Q) by (apply inj_pos; lia).
  assert (KP' : (0 < inject_Z (k2 + 1))%Q) by (apply inj_pos; lia).
  pose proof U_pos as UP. assert (UU : (0 < U * U)%Q) by (apply Qmult_lt_0_compat; exact UP).
  assert (R0 : (0 < inject_Z k2 * U)%Q) by (apply Qmult_lt_0_compat; assumption).
  assert (R1 : (0 < inject_Z (k2 + 1) * U)%Q) by (apply Qmult_lt_0_compat; assumption).
  assert (SQ : forall z, (inject_Z z * U * (inject_Z z * U) == inject_Z (z * z) * (U * U))%Q) by (intros; rewrite inject_Z_mult; ring).
  destruct (Z.eq_dec (k2 * k2 * D) (4 * N)) as [E|E]; [left|right].
  - exists (inject_Z k2 * U)%Q. split; [now apply Qlt_le_weak|]. split.
    + rewrite SQ, root_a, <- E, (inject_Z_mult (k2 * k2) D). field. now apply inj_nz.
    + apply root_like; [exact R0|]. left. split; [exact E|reflexivity].
  - exists (inject_Z k2 * U)%Q, (inject_Z (k2 + 1) * U)%Q.
    split; [now apply Qlt_le_weak|]. split; [now apply Qlt_le_weak|]. split; [|split].
    + rewrite SQ, root_a. apply (conv_gt (U * U) (4 * N) D UU PD). lia.
    + rewrite SQ, root_a. apply (conv_lt (U * U) (4 * N) D UU PD). lia.
    + intros q Q1 Q2. apply root_like; [now apply Qlt_trans with (2 := Q1)|]. right. split; [lia|]. split; assumption.
Qed.
End Root.

Lemma sqrt_correct f n d : wide f -> 0 < n -> 0 < d ->
  correct_sqrt f (inject_Z n / inject_Z d) (fp_store f (mpfr_sqrt (fctx f) (NRat false n d))).
Proof.
  intros W Hn Hd. destruct (scaled n d (2 * (rexp n d - c_prec (fctx f)))) as [N D] eqn:HS.
  exact (sqrt_correct_scaled f n d N D W Hn Hd HS).
Qed.

Lemma correct_wd f q q' z : (q == q')%Q -> correct f q z -> correct f q' z.
Proof.
  intros E (c & A & B & C). exists c. split; [exact A|]. split; [rewrite <- E; exact B|].
  intros X. apply (rounded_wd f q q'); [exact E|]. apply C. now rewrite E.
Qed.
Lemma correct_sqrt_wd f q q' z : (q == q')%Q -> correct_sqrt f q z -> correct_sqrt f q' z.
Proof.
  intros E [(r & A & B & C)|(lo & hi & A & B & C & D & F)]; [left|right].
  - exists r. split; [exact A|]. split; [now rewrite <- E|exact C].
  - exists lo, hi. split; [exact A|]. split; [exact B|]. split; [now rewrite <- E|]. split; [now rewrite <- E|exact F].
Qed.
Lemma sq_lt a b : (0 <= a)%Q -> (0 <= b)%Q -> (a * a < b * b)%Q -> (a < b)%Q.
Proof. intros HA HB H. destruct (Qlt_le_dec a b) as [L|L]; [exact L|]. exfalso. nra. Qed.
Lemma correct_sqrt_root f a z r : correct_sqrt f a z -> (0 <= r)%Q -> (r * r == a)%Q -> correct f r z.
Proof.
  intros [(r' & A & B & C)|(lo & hi & A & B & C & D & F)] R E.
  - apply (correct_wd f r' r); [|exact C].
    destruct (Qlt_le_dec r r') as [L|L]; [nra|]. destruct (Qlt_le_dec r' r) as [L'|L']; [nra|]. now apply Qle_antisym.
  - apply F; apply sq_lt; auto; now rewrite E.
Qed.
