(** Square roots rounded to nearest in a wider type and then in a narrow one. *)
From Coq Require Import Lia ZArith QArith Qpower Qabs ZifyBool Lqa.
From Verif Require Import PyBase BVModel BVSpec BVFacts BVOps FPModel FPSpec FPRoundFacts FPPatFacts FPEncFacts FPDecFacts FPSqrtFacts FPBracket FPQFacts FPRoundSpec FPInst FPArith FPMore FPProofs FPSqrtSpec FP2Proofs FPAlgFacts FPAlgProofs FPExFacts FPExProofs FPErrFacts FPErrProofs FloatSpec FloatProofs FPWideFacts FPQuotFacts.
Open Scope Z_scope.

(** ** The root is rounded as the rationals near it *)
Definition rat (q : Q) : num := NRat false (Qnum q) (Zpos (Qden q)).
Lemma rat_val q : (0 < q)%Q -> nval (rat q) q.
Proof.
  intros Q0. constructor; [revert Q0; unfold Qlt; cbn; lia|lia|]. rewrite ratq_z by lia. cbn [sgnz]. apply q_frac.
Qed.
Lemma root_same f n d N D q : wide f -> 0 < n -> 0 < d -> scaled n d (2 * (rexp n d - c_prec (fctx f))) = (N, D) -> (0 < q)%Q ->
  let k2 := Z.sqrt (4 * N / D) in let U := pow2 (rexp n d - c_prec (fctx f) - 1) in
  (k2 * k2 * D = 4 * N /\ (q == inject_Z k2 * U)%Q) \/
  (k2 * k2 * D < 4 * N /\ (inject_Z k2 * U < q)%Q /\ (q < inject_Z (k2 + 1) * U)%Q) ->
  fp_store f (mpfr_sqrt (fctx f) (NRat false n d)) = fp_init f (rat q).
Proof.
  intros W Hn Hd HS Q0 k2 U HC. set (p := c_prec (fctx f)) in *. set (e := rexp n d - p) in *. set (qn := Qnum q). set (qd := Zpos (Qden q)). pose proof (q_frac q) as QF. fold qn qd in QF.
  assert (P1 : 0 < qn) by (unfold qn; revert Q0; unfold Qlt; cbn [Qnum Qden]; lia).
  assert (P2 : 0 < qd) by (unfold qd; lia). assert (UP : (0 < U)%Q) by apply pow2q_pos.
  assert (U2 : (pow2 e == 2 * U)%Q) by (unfold U; replace e with (1 + (e - 1)) at 1 by lia; rewrite pow2q_add; reflexivity).
  destruct (scaled qn qd e) as [QN QD] eqn:HQ. pose proof (scaled_pos _ _ _ _ _ P1 P2 HQ) as [PQN PQD].
  assert (QE : (q == inject_Z (2 * QN) / inject_Z QD * U)%Q).
  { rewrite QF, (scaled_q qn qd e QN QD P2 PQD HQ), U2, inject_Z_mult. change (inject_Z 2) with 2%Q. field. now apply inj_nz. }
  assert (PP : 2 <= p) by (unfold p; rewrite fctx_eq by (apply wide_okf, W); cbn [c_prec]; destruct W; lia).
  assert (R : rnd_set p (c_rnd (fctx f)) false qn qd = sqrt_set p (c_rnd (fctx f)) n d).
  { apply (sqrt_core p _ n d qn qd N D QN QD); auto; [lia|]. fold k2.
    destruct HC as [[HC1 HC2]|(HC1 & HC2 & HC3)]; [left|right]; (split; [exact HC1|]); rewrite QE in *.
    - apply (conv_eq2 U QD UP PQD). rewrite HC2. transitivity (inject_Z k2 * (inject_Z QD / inject_Z QD) * U)%Q.
      + setoid_replace (inject_Z QD / inject_Z QD)%Q with 1%Q; [ring|field; now apply inj_nz].
      + rewrite (inject_Z_mult k2 QD). unfold Qdiv. ring.
    - split; [apply (conv_gt U (2 * QN) QD UP PQD); exact HC2|apply (conv_lt U (2 * QN) QD UP PQD); exact HC3]. }
  replace (mpfr_sqrt (fctx f) (NRat false n d)) with (mpfr_round (fctx f) (NRat false qn qd)); [reflexivity|].
  cbn [mpfr_sqrt mpfr_round]. fold p. rewrite R. reflexivity.
Qed.
(** P holds of the root of a, or near it. *)
Definition near_root (a : Q) (P : Q -> Prop) : Prop :=
  (exists r, (0 < r)%Q /\ (r * r == a)%Q /\ P r) \/
  (exists lo hi, (0 <= lo)%Q /\ (0 <= hi)%Q /\ (lo * lo < a)%Q /\ (a < hi * hi)%Q /\ forall q, (lo < q)%Q -> (q < hi)%Q -> P q).
Lemma sqrt_same f n d : wide f -> 0 < n -> 0 < d -> near_root (inject_Z n / inject_Z d) (fun q => fp_store f (mpfr_sqrt (fctx f) (NRat false n d)) = fp_init f (rat q)).
Proof.
  intros W Hn Hd. set (p := c_prec (fctx f)). destruct (scaled n d (2 * (rexp n d - p))) as [N D] eqn:HS.
  pose proof (scaled_pos _ _ _ _ _ Hn Hd HS) as [PN PD]. assert (PP : 2 <= p) by (unfold p; rewrite fctx_eq by (apply wide_okf, W); cbn [c_prec]; destruct W; lia).
  pose proof (sqrt_bounds p n d N D Hn Hd ltac:(lia) HS) as [B1 B2].
  pose proof (root2 N D ltac:(lia) PD) as (K0 & K1 & K2). cbv zeta in *. set (k2 := Z.sqrt (4 * N / D)) in *. set (U := pow2 (rexp n d - p - 1)).
  pose proof (pow2_pos p ltac:(lia)) as P2. assert (UP : (0 < U)%Q) by apply pow2q_pos.
  assert (L : 2 ^ p <= k2) by (assert (2 ^ p < k2 + 1); [apply (sq_mono _ _ D); lia|lia]).
  assert (KP : (0 < inject_Z k2)%Q) by (apply inj_pos; lia).
  assert (KP' : (0 < inject_Z (k2 + 1))%Q) by (apply inj_pos; lia).
  assert (UU : (0 < U * U)%Q) by (apply Qmult_lt_0_compat; exact UP).
  assert (R0 : (0 < inject_Z k2 * U)%Q) by (apply Qmult_lt_0_compat; assumption).
  assert (R1 : (0 < inject_Z (k2 + 1) * U)%Q) by (apply Qmult_lt_0_compat; assumption).
  assert (SQ : forall z, (inject_Z z * U * (inject_Z z * U) == inject_Z (z * z) * (U * U))%Q) by (intros; rewrite inject_Z_mult; ring).
  assert (EA : (inject_Z n / inject_Z d == inject_Z (4 * N) / inject_Z D * (U * U))%Q) by (exact (root_a f n d N D Hn Hd HS)).
  destruct (Z.eq_dec (k2 * k2 * D) (4 * N)) as [E|E]; [left|right].
  - exists (inject_Z k2 * U)%Q. split; [exact R0|]. split.
    + rewrite SQ, EA, <- E, (inject_Z_mult (k2 * k2) D). field. now apply inj_nz.
    + apply (root_same f n d N D); auto. left. split; [exact E|reflexivity].
  - exists (inject_Z k2 * U)%Q, (inject_Z (k2 + 1) * U)%Q.
    split; [now apply Qlt_le_weak|]. split; [now apply Qlt_le_weak|]. split; [|split].
    + rewrite SQ, EA. apply (conv_gt (U * U) (4 * N) D UU PD). lia.
    + rewrite SQ, EA. apply (conv_lt (U * U) (4 * N) D UU PD). lia.
    + intros q Q1 Q2. apply (root_same f n d N D); auto; [now apply Qlt_trans with (2 := Q1)|]. right. split; [lia|]. split; assumption.
Qed.

(** ** A root is not close to a half-way point *)
Lemma root_gap m A ja ta gg K j t : 1 <= m -> 0 <= gg -> A = ta * 2 ^ ja -> 0 <= ja -> 0 < ta < 2 ^ (m + 1) ->
  K = (2 * t + 1) * 2 ^ j -> 0 <= j -> 0 <= t < 2 ^ (m + 1) -> (j = 0 \/ 2 ^ m <= t) ->
  let Y := 4 * (A * 2 ^ gg) in let P := 2 ^ (m + 3) in
  (Y < K * K -> Y * (P * P) <= (K * P - 2 ^ j) * (K * P - 2 ^ j)) /\
  (K * K < Y -> (K * P + 2 ^ j) * (K * P + 2 ^ j) <= Y * (P * P)).
Proof.
  intros M G EA JA TA EK J T NT Y P. pose proof (pow2_pos j J) as PJ. set (Q := 2 ^ j) in *.
  assert (PM : 2 ^ (m + 1) * 4 = P) by (unfold P; replace (m + 3) with (m + 1 + 2) by lia; rewrite (pow2_split (m + 1) 2) by lia; reflexivity).
  assert (PM0 : 2 ^ (m + 1) = 2 * 2 ^ m) by (rewrite pow2_split by lia; change (2 ^ 1) with 2; lia). pose proof (pow2_le_mono 1 m ltac:(lia)) as PM1. change (2 ^ 1) with 2 in PM1.
  assert (EY : Y = ta * 2 ^ (ja + gg + 2)) by (unfold Y; rewrite EA, (pow2_split (ja + gg) 2), (pow2_split ja gg) by lia; change (2 ^ 2) with 4; ring).
  set (o := 2 * t + 1) in *. assert (EKK : K * K = o * o * (Q * Q)) by (rewrite EK; ring). assert (OP : 2 * o + 2 <= P) by (unfold o; lia).
  assert (QQ : 0 < Q * Q) by (apply Z.mul_pos_pos; lia). assert (KQ : K * Q = o * (Q * Q)) by (rewrite EK; ring).
  assert (X1 : (K * P - Q) * (K * P - Q) = K * K * (P * P) - 2 * (K * Q) * P + Q * Q) by ring.
  assert (X2 : (K * P + Q) * (K * P + Q) = K * K * (P * P) + 2 * (K * Q) * P + Q * Q) by ring.
  assert (LOW : forall c, 2 * (K * Q) <= c * P -> 0 <= c -> 2 * (K * Q) * P <= c * (P * P)).
  { intros c C C0. replace (c * (P * P)) with (c * P * P) by ring. apply Z.mul_le_mono_nonneg_r; lia. }
  destruct (Z_le_gt_dec (2 * j) (ja + gg + 2)) as [C|C].
  - (* both are multiples of Q * Q *)
    assert (QE : Q * Q = 2 ^ (2 * j)) by (unfold Q; replace (2 * j) with (j + j) by lia; now rewrite pow2_split by lia).
    set (x := ta * 2 ^ (ja + gg + 2 - 2 * j)). assert (EX : Y = x * (Q * Q)) by (rewrite EY, QE; unfold x; replace (ja + gg + 2) with (ja + gg + 2 - 2 * j + 2 * j) at 1 by lia; rewrite pow2_split by lia; ring).
    set (S := Q * Q) in *. split; intros LT.
    + assert (D : S <= K * K - Y) by (rewrite EKK, EX in *; assert (x < o * o) by (apply (mul_lt_inv _ _ S); lia); replace (o * o * S - x * S) with ((o * o - x) * S) by ring; apply mul_ge_1; lia).
      assert (E1 : 2 * (K * Q) <= (K * K - Y) * P).
      { rewrite KQ. apply Z.le_trans with (S * P); [|apply Z.mul_le_mono_nonneg_r; lia]. replace (2 * (o * S)) with (S * (2 * o)) by ring. apply Z.mul_le_mono_nonneg_l; lia. }
      apply LOW in E1; [|lia]. rewrite X1. replace (Y * (P * P)) with (K * K * (P * P) - (K * K - Y) * (P * P)) by ring. lia.
    + assert (D : S <= Y - K * K) by (rewrite EKK, EX in *; assert (o * o < x) by (apply (mul_lt_inv _ _ S); lia); replace (x * S - o * o * S) with ((x - o * o) * S) by ring; apply mul_ge_1; lia).
      rewrite X2. replace (Y * (P * P)) with (K * K * (P * P) + (Y - K * K) * (P * P)) by ring.
      assert (E1 : S * (P * P) <= (Y - K * K) * (P * P)) by (apply Z.mul_le_mono_nonneg_r; [apply Z.mul_nonneg_nonneg; lia|exact D]).
      assert (E2 : 2 * (K * Q) * P + S <= S * (P * P)).
      { rewrite KQ. replace (2 * (o * S) * P + S) with (S * (2 * o * P + 1)) by ring. apply Z.mul_le_mono_nonneg_l; [lia|].
        apply Z.le_trans with ((2 * o + 2) * P); [lia|apply Z.mul_le_mono_nonneg_r; lia]. }
      lia.
  - (* the point is much larger *)
    destruct NT as [NT|NT]; [lia|]. assert (OB : 2 ^ (m + 1) <= o) by (unfold o; lia).
    assert (YB : 2 * Y <= 2 ^ (m + 1) * (Q * Q)).
    { rewrite EY. replace (2 * (ta * 2 ^ (ja + gg + 2))) with (ta * 2 ^ (ja + gg + 3)) by (replace (ja + gg + 3) with (1 + (ja + gg + 2)) by lia; rewrite (pow2_split 1) by lia; change (2 ^ 1) with 2; ring).
      unfold Q. rewrite <- (pow2_split j j) by lia. apply Z.mul_le_mono_nonneg; [lia|lia|pose proof (pow2_pos (ja + gg + 3)); lia|]. apply pow2_le_mono. lia. }
    assert (KB : 2 ^ (m + 1) * (Q * Q) <= K * K). { rewrite EKK. apply Z.mul_le_mono_nonneg_r; [lia|]. apply Z.le_trans with (1 * o); [lia|apply Z.mul_le_mono_nonneg_r; lia]. }
    assert (K0 : 0 < K * K) by (apply Z.lt_le_trans with (2 ^ (m + 1) * (Q * Q)); [apply Z.mul_pos_pos; lia|exact KB]).
    split; intros LT; [|exfalso; lia].
    assert (E1 : 2 * (K * Q) <= (K * K - Y) * P).
    { apply Z.le_trans with ((K * K - Y) * 4); [|apply Z.mul_le_mono_nonneg_l; lia]. rewrite KQ.
      assert (o * (Q * Q) <= K * K) by (rewrite EKK; apply Z.mul_le_mono_nonneg_r; [lia|]; apply Z.le_trans with (1 * o); [lia|apply Z.mul_le_mono_nonneg_r; lia]). lia. }
    apply LOW in E1; [|lia]. rewrite X1. replace (Y * (P * P)) with (K * K * (P * P) - (K * K - Y) * (P * P)) by ring. lia.
Qed.

(** ** The half-way points and their neighbours are values of the wide type *)
Lemma mid_rep_root f g K L j t : wide f -> wide g -> f_eb f + 2 <= f_eb g -> 2 * f_mb f + 4 <= f_mb g -> f_ieee g = true -> cv (f_mb f) (hi f) L j t -> Z.abs K = (2 * t + 1) * 2 ^ j ->
  let k := bias g + f_mb g - (bias f + f_mb f) in let c := 2 ^ (k - f_mb f - 4) in
  f_mb f + 4 <= k /\ (half_units f K == inject_Z (K * 2 ^ (f_mb f + 3) * c) * unit g)%Q /\
  forall s, -1 <= s <= 1 -> repv g (inject_Z ((K * 2 ^ (f_mb f + 3) + s * 2 ^ j) * c) * unit g).
Proof.
  intros W W' R1 R2 IE CL EK k c. destruct (roomy_bias f g W W' ltac:(split; lia)) as [B1 B2]. pose proof W as [_ M]. pose proof W' as [_ M'].
  assert (K0 : f_mb f + 4 <= k) by (unfold k; lia). split; [exact K0|]. pose proof CL as (EL & J & T & NL & UL).
  assert (JH : j <= hi f).
  { destruct (hi_top f W) as [_ H0]. destruct NL as [->|NL]; [exact H0|]. pose proof (top_bounds f W) as [_ TB].
    assert (2 ^ (f_mb f + j) < 2 ^ (f_mb f + 1 + hi f)) as LT by (rewrite (pow2_split (f_mb f) j) by lia; pose proof (Z.mul_le_mono_nonneg_r _ _ (2 ^ j) ltac:(pose proof (pow2_pos j); lia) NL); lia).
    apply pow_lt_inv in LT; lia. }
  pose proof (unit_ratio f g k eq_refl ltac:(lia)) as UR. split.
  - assert (EN : 2 * (K * 2 ^ (f_mb f + 3) * c) = K * 2 ^ k).
    { unfold c. replace k with (1 + (f_mb f + 3) + (k - f_mb f - 4)) at 2 by lia. rewrite (pow2_split (1 + (f_mb f + 3))), (pow2_split 1) by lia. change (2 ^ 1) with 2. ring. }
    assert (E2 : (2 * inject_Z (K * 2 ^ (f_mb f + 3) * c) == inject_Z K * inject_Z (2 ^ k))%Q) by (change 2%Q with (inject_Z 2); rewrite <- !inject_Z_mult, EN; reflexivity).
    unfold half_units. rewrite UR. transitivity ((1 # 2) * (inject_Z K * inject_Z (2 ^ k)) * unit g)%Q; [ring|]. rewrite <- E2. ring.
  - intros s S. set (e := j + (k - f_mb f - 4)). assert (E0 : 0 <= e) by (unfold e; lia). pose proof (pow2_pos e E0) as PE.
    set (n := Z.sgn K * (2 * t + 1) * 2 ^ (f_mb f + 3)).
    replace ((K * 2 ^ (f_mb f + 3) + s * 2 ^ j) * c) with ((n + s) * 2 ^ e).
    2:{ unfold n, e, c. rewrite (pow2_split j) by lia. rewrite <- (Z.abs_sgn K) at 2. rewrite EK. ring. }
    apply uv_rep; [exact W'|exact IE|].
    pose proof (pow2_pos (f_mb f + 3) ltac:(lia)) as P1.
    assert (P2 : 2 ^ (f_mb f + 4) = 2 * 2 ^ (f_mb f + 3)) by (replace (f_mb f + 4) with (1 + (f_mb f + 3)) by lia; rewrite pow2_split by lia; reflexivity).
    assert (NB : Z.abs (n + s) <= (t + 1) * 2 ^ (f_mb f + 4)).
    { rewrite P2. assert (Z.abs n <= (2 * t + 1) * 2 ^ (f_mb f + 3)).
      { unfold n. rewrite !Z.abs_mul, (Z.abs_eq (2 * t + 1)), (Z.abs_eq (2 ^ (f_mb f + 3))) by lia. apply Z.mul_le_mono_nonneg_r; [lia|]. transitivity (1 * (2 * t + 1)); [apply Z.mul_le_mono_nonneg_r; lia|lia]. }
      lia. }
    assert (NB2 : Z.abs (n + s) <= 2 ^ (2 * f_mb f + 5)).
    { apply (Z.le_trans _ _ _ NB). replace (2 * f_mb f + 5) with (f_mb f + 1 + (f_mb f + 4)) by lia. rewrite (pow2_split (f_mb f + 1)) by lia. apply Z.mul_le_mono_nonneg_r; [pose proof (pow2_pos (f_mb f + 4)); lia|lia]. }
    apply uv_mul; [lia|lia| |].
    + apply (Z.le_trans _ _ _ NB2). apply pow2_le_mono. lia.
    + rewrite Z.abs_mul, (Z.abs_eq (2 ^ e)) by lia. pose proof (top_bounds g W') as [TG _]. apply Z.le_trans with (2 ^ (f_mb g + hi g)); [|exact TG].
      apply Z.le_trans with (2 ^ (2 * f_mb f + 5) * 2 ^ e); [apply Z.mul_le_mono_nonneg_r; lia|]. rewrite <- pow2_split by lia. apply pow2_le_mono. unfold e, k, hi in *. lia.
Qed.

(** ** A rational that is rounded as the root in both types and compares with the units as the root does *)
Lemma sq_le p q : (0 <= p)%Q -> (0 <= q)%Q -> (p * p <= q * q)%Q -> (p <= q)%Q.
Proof.
  intros P0 Q0 L. destruct (Qlt_le_dec q p) as [X|X]; [exfalso|exact X]. assert (0 < p)%Q by lra.
  pose proof (proj2 (Qmult_lt_r q p p H) X). assert (q * q <= p * q)%Q by (apply Qmult_le_compat_r; lra). rewrite (Qmult_comm p q) in *. lra.
Qed.
Lemma pick a (P1 P2 : Q -> Prop) u M : (0 < a)%Q -> (0 < u)%Q -> 0 < M -> (a == inject_Z M * (u * u))%Q ->
  (forall q q', (q == q')%Q -> P2 q -> P2 q') -> near_root a P1 -> near_root a P2 ->
  exists q, (0 < q)%Q /\ P1 q /\ P2 q /\
    forall p, 0 <= p -> (M <= p * p -> (q <= inject_Z p * u)%Q) /\ (p * p <= M -> (inject_Z p * u <= q)%Q).
Proof.
  intros A0 U0 M0 EA WD N1 N2.
  assert (SQ : forall z, (inject_Z z * u * (inject_Z z * u) == inject_Z (z * z) * (u * u))%Q) by (intros; rewrite inject_Z_mult; ring).
  assert (UU : (0 < u * u)%Q) by (now apply Qmult_lt_0_compat).
  assert (NN : forall z, 0 <= z -> (0 <= inject_Z z * u)%Q) by (intros z Z0; apply Qmult_le_0_compat; [change 0%Q with (inject_Z 0); now rewrite <- Zle_Qle|lra]).
  assert (ROOT : forall r, (0 < r)%Q -> (r * r == a)%Q -> forall p, 0 <= p -> (M <= p * p -> (r <= inject_Z p * u)%Q) /\ (p * p <= M -> (inject_Z p * u <= r)%Q)).
  { intros r R0 R1 p Pp. split; intros L; (apply sq_le; [try lra; now apply NN|try lra; now apply NN|]); rewrite SQ, R1, EA; apply (proj2 (val_le (u * u) UU _ _)); exact L. }
  destruct N1 as [(r & R0 & R1 & C)|(lo & hi & L0 & H0 & L1 & H1 & C)].
  { exists r. split; [exact R0|]. split; [exact C|]. split; [|exact (ROOT r R0 R1)].
    destruct N2 as [(r' & R0' & R1' & C')|(lo' & hi' & L0' & H0' & L1' & H1' & C')].
    - apply (WD r'); [|exact C']. apply Qle_antisym; apply sq_le; lra.
    - apply C'; apply sq_lt; lra. }
  destruct N2 as [(r' & R0' & R1' & C')|(lo' & hi' & L0' & H0' & L1' & H1' & C')].
  { exists r'. split; [exact R0'|]. split; [apply C; apply sq_lt; lra|]. split; [exact C'|exact (ROOT r' R0' R1')]. }
  set (k := Z.sqrt M). pose proof (Z.sqrt_spec M ltac:(lia)) as [S1 S2]. fold k in S1, S2. pose proof (Z.sqrt_nonneg M) as K0. fold k in K0.
  destruct (Z.eq_dec (k * k) M) as [E|E].
  { assert (KP : 0 < k) by (destruct (Z.eq_dec k 0) as [Z|]; [rewrite Z in E; lia|lia]).
    assert (R0 : (0 < inject_Z k * u)%Q) by (apply Qmult_lt_0_compat; [now apply inj_pos|exact U0]). assert (R1 : (inject_Z k * u * (inject_Z k * u) == a)%Q) by (rewrite SQ, E, EA; reflexivity).
    exists (inject_Z k * u)%Q. split; [exact R0|]. split; [apply C; apply sq_lt; lra|]. split; [apply C'; apply sq_lt; lra|exact (ROOT _ R0 R1)]. }
  set (x := (inject_Z k * u)%Q). set (y := (inject_Z (Z.succ k) * u)%Q). assert (X0 : (0 <= x)%Q) by (now apply NN). assert (Y0 : (0 <= y)%Q) by (apply NN; lia).
  assert (LT : forall i l, i < l -> (inject_Z i * (u * u) < inject_Z l * (u * u))%Q) by (intros i l H; apply Qmult_lt_r; [exact UU|now rewrite <- Zlt_Qlt]).
  assert (X1 : (x * x < a)%Q) by (unfold x; rewrite SQ, EA; apply LT; lia). assert (Y1 : (a < y * y)%Q) by (unfold y; rewrite SQ, EA; apply LT; lia).
  assert (I : forall l h, (0 <= l)%Q -> (0 <= h)%Q -> (l * l < a)%Q -> (a < h * h)%Q -> (l < h)%Q) by (intros l h l0 h0 l1 h1; apply sq_lt; lra).
  pose proof (I lo hi). pose proof (I lo hi'). pose proof (I lo y). pose proof (I lo' hi). pose proof (I lo' hi'). pose proof (I lo' y). pose proof (I x hi). pose proof (I x hi'). pose proof (I x y).
  assert (MX : exists l, (lo <= l)%Q /\ (lo' <= l)%Q /\ (x <= l)%Q /\ (l < hi)%Q /\ (l < hi')%Q /\ (l < y)%Q).
  { destruct (Qlt_le_dec lo lo'); [destruct (Qlt_le_dec lo' x); [exists x|exists lo']|destruct (Qlt_le_dec lo x); [exists x|exists lo]]; repeat split; auto; lra. }
  destruct MX as (l & B1 & B2 & B3 & B4 & B5 & B6).
  assert (MN : exists h, (l < h)%Q /\ (h <= hi)%Q /\ (h <= hi')%Q /\ (h <= y)%Q).
  { destruct (Qlt_le_dec hi hi'); [destruct (Qlt_le_dec hi y); [exists hi|exists y]|destruct (Qlt_le_dec hi' y); [exists hi'|exists y]]; repeat split; auto; lra. }
  destruct MN as (h & B7 & B8 & B9 & B10). exists ((l + h) * (1 # 2))%Q. split; [lra|]. split; [apply C; lra|]. split; [apply C'; lra|].
  intros p Pp. split; intros L.
  - assert (k < p) by (apply Z.nle_gt; intros G; pose proof (Z.mul_le_mono_nonneg p k p k Pp G Pp G); lia).
    assert (y <= inject_Z p * u)%Q by (unfold y; apply (proj2 (val_le u U0 _ _)); lia). lra.
  - assert (p <= k) by (apply Z.nlt_ge; intros G; pose proof (Z.mul_le_mono_nonneg (Z.succ k) p (Z.succ k) p ltac:(lia) ltac:(lia) ltac:(lia) ltac:(lia)); lia).
    assert (inject_Z p * u <= x)%Q by (unfold x; apply (proj2 (val_le u U0 _ _)); lia). lra.
Qed.

Lemma root_back f g x x' a : wide f -> wide g -> f_eb f + 2 <= f_eb g -> 2 * f_mb f + 4 <= f_mb g -> f_ieee f = true -> f_ieee g = true -> f_mode f = RNE ->
  instance f x -> instance g x' -> fvalue x a -> fvalue x' a -> (0 < a)%Q -> fp_init f (fnum (fp_sqrt x')) = fp_sqrt x.
Proof.
  intros W W' R1 R2 IEf IE MO Ix Ix' VA VA' PA. pose proof (wide_okf f W) as O. pose proof (instance_good f x W Ix) as G.
  assert (N1 : near_root a (fun q => fp_sqrt x = fp_init f (rat q))).
  { rewrite (sqrt_eq f x W G). pose proof (fnum_val f x a O G VA) as N. destruct N as [s q H|s n d q Hn Hd H]; [exfalso; rewrite H in PA; now apply Qlt_irrefl in PA|]. destruct s.
    - exfalso. rewrite H in PA. revert PA. rewrite ratq_z by exact Hd. cbn [sgnz]. unfold Qlt, Qdiv, Qmult, Qinv, inject_Z. destruct d; cbn; lia.
    - rewrite ratq_z in H by exact Hd. cbn [sgnz] in H. destruct (sqrt_same f n d W Hn Hd) as [(r & A & B & C)|(lo & h & A & B & C & D & E)]; [left; exists r|right; exists lo, h]; rewrite H; auto. }
  assert (N2 : near_root a (fun q => correct g q (fp_sqrt x'))).
  { destruct (C73_sqrt_pf g x' a W' Ix' VA' PA) as [(r & A & B & C)|H]; [left|right; exact H]. exists r. split; [|auto]. destruct (Qlt_le_dec 0 r) as [|Z]; [assumption|exfalso]. assert (E : (r == 0)%Q) by lra. rewrite E in B. lra. }
  destruct (value_cv f x a W Ix VA) as (A & ja & ta & QA & EA & JA & TA & _). pose proof (unit_pos f) as UP. pose proof (unit_pos g) as UG.
  assert (A0 : 0 < A). { apply Znot_ge_lt. intros H. apply Z.ge_le, (units_le f) in H. change (inject_Z 0) with 0%Q in H. lra. } rewrite Z.abs_eq in EA by lia.
  assert (TA0 : 0 < ta) by (destruct (Z.eq_dec ta 0) as [Z|]; [rewrite Z in EA; lia|lia]).
  pose proof (gg_pos f W) as G0. set (k := bias g + f_mb g - (bias f + f_mb f)). pose proof W as [_ M].
  assert (K0 : f_mb f + 4 <= k) by (destruct (roomy_bias f g W W' ltac:(split; lia)); unfold k; lia).
  set (c := 2 ^ (k - f_mb f - 4)). set (P := 2 ^ (f_mb f + 3)). pose proof (pow2_pos (k - f_mb f - 4) ltac:(lia)) as PC. fold c in PC. pose proof (pow2_pos (f_mb f + 3) ltac:(lia)) as PP. fold P in PP. pose proof (pow2_pos (gg f) ltac:(lia)) as PG.
  set (Y := 4 * (A * 2 ^ gg f)). assert (Y0 : 0 < Y) by (unfold Y; apply Z.mul_pos_pos; [lia|apply Z.mul_pos_pos; lia]).
  set (MM := Y * (P * P) * (c * c)). assert (M0 : 0 < MM) by (unfold MM; repeat apply Z.mul_pos_pos; lia).
  assert (EM : (a == inject_Z MM * (unit g * unit g))%Q).
  { rewrite QA, (unit_sq f A W), (unit_ratio f g k eq_refl ltac:(lia)). transitivity (inject_Z (A * 2 ^ gg f * (2 ^ k * 2 ^ k)) * (unit g * unit g))%Q; [rewrite !inject_Z_mult; ring|].
    replace MM with (A * 2 ^ gg f * (2 ^ k * 2 ^ k)); [reflexivity|]. replace k with (1 + (f_mb f + 3) + (k - f_mb f - 4)) at 1 2 by lia. rewrite (pow2_split (1 + (f_mb f + 3))), (pow2_split 1) by lia. fold P c. change (2 ^ 1) with 2. unfold MM, Y. ring. }
  destruct (pick a _ _ (unit g) MM PA UG M0 EM (fun q q' E => correct_wd g q q' _ E) N1 N2) as (q & Q0 & EQ & CQ & CMP).
  destruct (nearest_back f g q (fp_sqrt x) (fp_sqrt x') (rat q) W W' IEf MO) as [H _]; [|now apply rat_val|exact EQ|now apply I_sqrt|exact CQ|apply H; lra].
  intros e2 K X2 (L & j & t & CL & EK). destruct (mid_rep_root f g K L j t W W' R1 R2 IE CL EK) as (_ & EH & RP). fold k c P in EH, RP.
  assert (R0 : repv g (half_units f K)). { apply (repv_wd g (inject_Z ((K * P + 0 * 2 ^ j) * c) * unit g)%Q); [|apply RP; lia]. rewrite EH. replace ((K * P + 0 * 2 ^ j) * c) with (K * P * c) by ring. reflexivity. }
  split; [exact R0|]. pose proof CL as (_ & J & T & NT & _). pose proof (pow2_pos j J) as PJ. set (Qj := 2 ^ j) in *.
  assert (KJ : Qj <= Z.abs K) by (rewrite EK; apply mul_ge_1; lia).
  assert (P8 : 8 <= P) by (unfold P; replace (f_mb f + 3) with (3 + f_mb f) by lia; rewrite pow2_split by lia; change (2 ^ 3) with 8; pose proof (pow2_pos (f_mb f)); lia).
  assert (KP : Z.abs K <= Z.abs K * P) by (rewrite <- (Z.mul_1_r (Z.abs K)) at 1; apply Z.mul_le_mono_nonneg_l; lia).
  assert (UN : forall i l, i < l -> (inject_Z i * unit g < inject_Z l * unit g)%Q) by (intros i l H; apply Qmult_lt_r; [exact UG|now rewrite <- Zlt_Qlt]).
  assert (LO : (inject_Z ((K * P + -1 * Qj) * c) * unit g < half_units f K)%Q) by (rewrite EH; apply UN, Z.mul_lt_mono_pos_r; lia).
  assert (HI : (half_units f K < inject_Z ((K * P + 1 * Qj) * c) * unit g)%Q) by (rewrite EH; apply UN, Z.mul_lt_mono_pos_r; lia).
  assert (GAP : ((q < half_units f K)%Q -> (q <= inject_Z ((K * P + -1 * Qj) * c) * unit g)%Q) /\ ((half_units f K < q)%Q -> (inject_Z ((K * P + 1 * Qj) * c) * unit g <= q)%Q)).
  { destruct (Z_lt_le_dec K 0) as [S|S].
    - rewrite Z.abs_neq in * by lia. assert (NP : K * P + 1 * Qj <= 0) by lia. split; intros LT.
      + exfalso. assert (K * P * c <= 0) as NK by (apply Z.mul_nonpos_nonneg; lia). apply (units_le g) in NK. rewrite <- EH in NK. change (inject_Z 0) with 0%Q in NK. lra.
      + assert ((K * P + 1 * Qj) * c <= 0) as NK by (apply Z.mul_nonpos_nonneg; lia). apply (units_le g) in NK. change (inject_Z 0) with 0%Q in NK. lra.
    - rewrite Z.abs_eq in * by lia. destruct (root_gap (f_mb f) A ja ta (gg f) K j t M ltac:(lia) EA JA ltac:(lia) EK J T NT) as [G1 G2]. fold Y P Qj in G1, G2.
      assert (H0 : 0 <= K * P * c) by (apply Z.mul_nonneg_nonneg; [apply Z.mul_nonneg_nonneg; lia|lia]).
      assert (CC : 0 < P * P * (c * c)) by (repeat apply Z.mul_pos_pos; lia). assert (C2 : 0 < c * c) by (apply Z.mul_pos_pos; lia).
      assert (EHH : K * P * c * (K * P * c) = K * K * (P * P * (c * c))) by ring. assert (EMM : MM = Y * (P * P * (c * c))) by (unfold MM; ring).
      destruct (CMP _ H0) as [C1 C3]. split; intros LT; rewrite EH in LT.
      + assert (LT2 : MM < K * P * c * (K * P * c)) by (apply Z.nle_gt; intros X; apply C3 in X; lra). rewrite EMM, EHH in LT2. apply Z.mul_lt_mono_pos_r in LT2; [|exact CC].
        apply G1 in LT2. assert (B : 0 <= (K * P + -1 * Qj) * c) by (apply Z.mul_nonneg_nonneg; lia). apply (CMP _ B).
        replace ((K * P + -1 * Qj) * c * ((K * P + -1 * Qj) * c)) with ((K * P - Qj) * (K * P - Qj) * (c * c)) by ring. unfold MM. apply Z.mul_le_mono_nonneg_r; lia.
      + assert (LT2 : K * P * c * (K * P * c) < MM) by (apply Z.nle_gt; intros X; apply C1 in X; lra). rewrite EMM, EHH in LT2. apply Z.mul_lt_mono_pos_r in LT2; [|exact CC].
        apply G2 in LT2. assert (B : 0 <= (K * P + 1 * Qj) * c) by (apply Z.mul_nonneg_nonneg; lia). apply (CMP _ B).
        replace ((K * P + 1 * Qj) * c * ((K * P + 1 * Qj) * c)) with ((K * P + Qj) * (K * P + Qj) * (c * c)) by ring. unfold MM. apply Z.mul_le_mono_nonneg_r; lia. }
  destruct GAP as [GA GB]. split; intros LT.
  - specialize (GA LT). pose proof (rx_above g q e2 _ W' X2 (RP (-1) ltac:(lia)) GA) as [Z|Z]; destruct e2 as [s|v]; cbn [ext_lt ext_eq] in *; try contradiction; auto; lra.
  - specialize (GB LT). pose proof (rx_below g q e2 _ W' X2 (RP 1 ltac:(lia)) GB) as [Z|Z]; destruct e2 as [s|v]; cbn [ext_lt ext_eq] in *; try contradiction; auto; lra.
Qed.
