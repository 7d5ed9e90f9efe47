(** The square root: it rounds like every rational in an interval around the root. *)
From Coq Require Import Lia ZArith ZifyBool.
From Verif Require Import PyBase BVModel BVFacts FPModel FPRoundFacts FPPatFacts FPEncFacts.
Open Scope Z_scope.

(** E with 2^(E-1) <= sqrt(n/d) < 2^E, and the root scaled to p bits. *)
Definition rexp (n d : Z) : Z := (mag n d + 1) / 2.

Lemma sqrt_bounds p n d N D : 0 < n -> 0 < d -> 1 <= p -> scaled n d (2 * (rexp n d - p)) = (N, D) ->
  2 ^ p * 2 ^ p * D <= 4 * N < 2 ^ (p + 1) * 2 ^ (p + 1) * D.
Proof.
  intros Hn Hd Hp HS. set (j := mag n d - 2 * rexp n d + 2 * p).
  assert (J : j = 2 * p \/ j = 2 * p - 1).
  { unfold j, rexp. pose proof (Z.div_mod (mag n d + 1) 2 ltac:(lia)). pose proof (Z.mod_pos_bound (mag n d + 1) 2 ltac:(lia)). lia. }
  assert (HS' : scaled n d (mag n d - j) = (N, D)) by (rewrite <- HS; f_equal; unfold j; lia).
  pose proof (mag_spec n d j N D Hn Hd ltac:(lia) HS') as B.
  pose proof (scaled_pos _ _ _ _ _ Hn Hd HS) as [_ PD].
  rewrite <- !pow2_split by lia.
  assert (L : 2 ^ (p + p) <= 4 * 2 ^ (j - 1)).
  { change 4 with (2 ^ 2). rewrite <- pow2_split by lia. apply Z.pow_le_mono_r; lia. }
  assert (U : 4 * 2 ^ j <= 2 ^ (p + 1 + (p + 1))).
  { change 4 with (2 ^ 2). rewrite <- pow2_split by lia. apply Z.pow_le_mono_r; lia. }
  split; nia.
Qed.

Lemma sq_mono a b D : 0 < D -> 0 <= a -> 0 <= b -> a * a * D < b * b * D -> a < b.
Proof. intros HD Ha Hb H. apply (Z.mul_lt_mono_pos_r D) in H; [|exact HD]. now apply Z.square_lt_simpl_nonneg in H. Qed.

Lemma root2 N D : 0 <= N -> 0 < D -> let k2 := Z.sqrt (4 * N / D) in
  0 <= k2 /\ k2 * k2 * D <= 4 * N /\ 4 * N < (k2 + 1) * (k2 + 1) * D.
Proof.
  intros HN HD k2. assert (P : 0 <= 4 * N / D) by (apply Z.div_pos; lia).
  pose proof (Z.sqrt_spec (4 * N / D) P) as [A B]. fold k2 in A, B.
  pose proof (Z.div_mod (4 * N) D ltac:(lia)) as DM. pose proof (Z.mod_pos_bound (4 * N) D HD).
  split; [apply Z.sqrt_nonneg|]. rewrite <- !Z.add_1_r in B. set (q := 4 * N / D) in *. split.
  - assert (k2 * k2 * D <= q * D) by (apply Z.mul_le_mono_nonneg_r; lia). lia.
  - assert ((q + 1) * D <= (k2 + 1) * (k2 + 1) * D) by (apply Z.mul_le_mono_nonneg_r; lia). lia.
Qed.

Lemma root_half N D : 0 <= N -> 0 < D -> Z.sqrt (N / D) = Z.sqrt (4 * N / D) / 2.
Proof.
  intros HN HD. pose proof (root2 N D HN HD) as (K0 & K1 & K2). cbv zeta in *. set (k2 := Z.sqrt (4 * N / D)) in *.
  pose proof (Z.div_mod k2 2 ltac:(lia)) as DM. pose proof (Z.mod_pos_bound k2 2 ltac:(lia)) as MB.
  set (k := k2 / 2) in *. assert (PK : 0 <= k) by (apply Z.div_pos; lia).
  apply Z.sqrt_unique. rewrite <- Z.add_1_r. split.
  - apply Z.div_le_lower_bound; [exact HD|].
    assert (2 * k * (2 * k) <= k2 * k2) by (apply Z.mul_le_mono_nonneg; lia).
    assert (2 * k * (2 * k) * D <= k2 * k2 * D) by (apply Z.mul_le_mono_nonneg_r; lia). lia.
  - apply Z.div_lt_upper_bound; [exact HD|].
    assert ((k2 + 1) * (k2 + 1) <= (2 * k + 2) * (2 * k + 2)) by (apply Z.mul_le_mono_nonneg; lia).
    assert ((k2 + 1) * (k2 + 1) * D <= (2 * k + 2) * (2 * k + 2) * D) by (apply Z.mul_le_mono_nonneg_r; lia). lia.
Qed.

Lemma sqrt_core p g n d qn qd N D QN QD : 1 <= p -> 0 < n -> 0 < d -> 0 < qn -> 0 < qd ->
  scaled n d (2 * (rexp n d - p)) = (N, D) -> scaled qn qd (rexp n d - p) = (QN, QD) ->
  let k2 := Z.sqrt (4 * N / D) in
  (k2 * k2 * D = 4 * N /\ 2 * QN = k2 * QD) \/
  (k2 * k2 * D < 4 * N /\ k2 * QD < 2 * QN /\ 2 * QN < (k2 + 1) * QD) ->
  rnd_set p g false qn qd = sqrt_set p g n d.
Proof.
  intros Hp Hn Hd Hqn Hqd HS HQ k2 HC.
  pose proof (scaled_pos _ _ _ _ _ Hn Hd HS) as [PN PD]. pose proof (scaled_pos _ _ _ _ _ Hqn Hqd HQ) as [PQN PQD].
  pose proof (sqrt_bounds p n d N D Hn Hd Hp HS) as [B1 B2].
  pose proof (root2 N D ltac:(lia) PD) as (K0 & K1 & K2). fold k2 in K0, K1, K2.
  pose proof (pow2_pos p ltac:(lia)) as PP. pose proof (pow2_S p ltac:(lia)) as PS.
  assert (L : 2 ^ p <= k2) by (assert (2 ^ p < k2 + 1); [apply (sq_mono _ _ D); lia|lia]).
  assert (U : k2 < 2 ^ (p + 1)) by (apply (sq_mono _ _ D); lia).
  assert (M : mag qn qd = rexp n d).
  { rewrite (mag_unique qn qd (rexp n d - p) p QN QD); [lia|lia|lia|lia|exact HQ|].
    assert (P2 : 2 ^ p = 2 * 2 ^ (p - 1)) by (rewrite <- pow2_S by lia; f_equal; lia).
    assert (2 ^ p * QD <= k2 * QD) by (apply Z.mul_le_mono_nonneg_r; lia).
    assert ((k2 + 1) * QD <= 2 ^ (p + 1) * QD) by (apply Z.mul_le_mono_nonneg_r; lia).
    rewrite PS, P2 in *. lia. }
  unfold rnd_set, sqrt_set. fold (rexp n d). rewrite M, HQ, HS. rewrite root_half by lia. fold k2.
  pose proof (Z.div_mod k2 2 ltac:(lia)) as DM. pose proof (Z.mod_pos_bound k2 2 ltac:(lia)) as MB.
  set (k := k2 / 2) in *. set (r := k2 mod 2) in *. clearbody k r. assert (PK : 0 <= k) by lia.
  (* the integer part and the remainder of q *)
  pose proof (Z.div_mod QN QD ltac:(lia)) as DQ. pose proof (Z.mod_pos_bound QN QD PQD) as MQ.
  assert (KQ : QN / QD = k).
  { symmetry. apply Z.div_unique_pos with (r := QN - k * QD); [|ring].
    assert (r = 0 \/ r = 1) as [-> | ->] by lia; destruct HC as [[HC1 HC2]|[HC1 [HC2 HC3]]]; rewrite DM in *; nia. }
  rewrite KQ in *. set (R := QN mod QD) in *. clearbody R.
  assert (X1 : (2 * k + 1) * (2 * k + 1) * D = 4 * (k * k * D) + 4 * (k * D) + D) by ring.
  assert (PKD : 0 <= k * D) by (apply Z.mul_nonneg_nonneg; lia).
  assert (KK : k2 * k2 * D = 4 * (k * k * D) + 4 * r * (k * D) + r * r * D) by (rewrite DM; ring).
  assert (KS : (k2 + 1) * (k2 + 1) * D = 4 * (k * k * D) + 4 * (r + 1) * (k * D) + (r + 1) * (r + 1) * D) by (rewrite DM; ring).
  assert (QQ : k2 * QD = 2 * (k * QD) + r * QD) by (rewrite DM; ring).
  assert (QS : (k2 + 1) * QD = 2 * (k * QD) + (r + 1) * QD) by (rewrite DM; ring).
  assert (Q2 : 2 * QN = 2 * (k * QD) + 2 * R) by lia.
  rewrite KK, KS in *. rewrite QQ, QS, Q2 in HC. clear QQ QS KK KS.
  assert (UP : incr g false k R QD = match g with
      | RoundToNearest => ((2 * k + 1) * (2 * k + 1) * D <? 4 * N) || (((2 * k + 1) * (2 * k + 1) * D =? 4 * N) && Z.odd k)
      | _ => negb (k * k * D =? N) && negb (toward_zero g false) end).
  { assert (E1 : (R =? 0) = (k * k * D =? N)).
    { apply Bool.eq_iff_eq_true. rewrite !Z.eqb_eq. assert (r = 0 \/ r = 1) as [-> | ->] by lia; lia. }
    unfold incr. destruct g; try (rewrite E1; reflexivity). rewrite X1.
    assert (E2 : (QD <? 2 * R) = (4 * (k * k * D) + 4 * (k * D) + D <? 4 * N)).
    { apply Bool.eq_iff_eq_true. rewrite !Z.ltb_lt. assert (r = 0 \/ r = 1) as [-> | ->] by lia; lia. }
    assert (E3 : (QD =? 2 * R) = (4 * (k * k * D) + 4 * (k * D) + D =? 4 * N)).
    { apply Bool.eq_iff_eq_true. rewrite !Z.eqb_eq. assert (r = 0 \/ r = 1) as [-> | ->] by lia; lia. }
    rewrite E2, E3. reflexivity. }
  unfold round_int. rewrite KQ. replace (QN mod QD) with R by (rewrite Z.mod_eq by lia; rewrite KQ; lia).
  rewrite UP. set (up := match g with RoundToNearest => _ | _ => _ end). clearbody up.
  destruct (renorm p (k + b2z up) (rexp n d)) as [m E']. f_equal.
  destruct up; cbn [b2z].
  - replace ((k + 1) * QD - QN) with (QD - R) by lia.
    replace ((k + 1) * (k + 1) * D - N) with (k * k * D + 2 * (k * D) + D - N) by ring.
    rewrite !Z.sgn_pos; [reflexivity| |lia]. assert (r = 0 \/ r = 1) as [-> | ->] by lia; lia.
  - rewrite Z.add_0_r. replace (k * QD - QN) with (- R) by lia.
    destruct (Z.eq_dec R 0) as [->|NZ].
    + replace (k * k * D - N) with 0; [reflexivity|]. assert (r = 0 \/ r = 1) as [-> | ->] by lia; lia.
    + rewrite !Z.sgn_neg; [reflexivity| |lia]. assert (r = 0 \/ r = 1) as [-> | ->] by lia; lia.
Qed.

(** Some positive rational rounds like the root. *)
Lemma sqrt_like p g n d : 1 <= p -> 0 < n -> 0 < d ->
  exists qn qd, 0 < qn /\ 0 < qd /\ rnd_set p g false qn qd = sqrt_set p g n d.
Proof.
  intros Hp Hn Hd. destruct (scaled n d (2 * (rexp n d - p))) as [N D] eqn:HS.
  pose proof (scaled_pos _ _ _ _ _ Hn Hd HS) as [PN PD].
  pose proof (sqrt_bounds p n d N D Hn Hd Hp HS) as [B1 B2].
  pose proof (root2 N D ltac:(lia) PD) as (K0 & K1 & K2). cbv zeta in *. set (k2 := Z.sqrt (4 * N / D)) in *.
  pose proof (pow2_pos p ltac:(lia)) as PP.
  assert (L : 2 ^ p <= k2) by (assert (2 ^ p < k2 + 1); [apply (sq_mono _ _ D); lia|lia]).
  set (e := rexp n d - p) in *. set (a := if k2 * k2 * D =? 4 * N then 2 * k2 else 2 * k2 + 1).
  assert (PA : 0 < a) by (unfold a; destruct (k2 * k2 * D =? 4 * N); lia).
  exists (if 0 <=? e then a * 2 ^ e else a), (if 0 <=? e then 4 else 4 * 2 ^ (- e)).
  assert (X : exists c, 0 < c /\ scaled (if 0 <=? e then a * 2 ^ e else a) (if 0 <=? e then 4 else 4 * 2 ^ (- e)) e = (a * c, 4 * c)
     /\ 0 < (if 0 <=? e then a * 2 ^ e else a) /\ 0 < (if 0 <=? e then 4 else 4 * 2 ^ (- e))).
  { unfold scaled. destruct (0 <=? e) eqn:He.
    - exists (2 ^ e). pose proof (pow2_pos e ltac:(lia)). split; [lia|]. split; [reflexivity|]. split; [nia|lia].
    - exists (2 ^ (- e)). pose proof (pow2_pos (- e) ltac:(lia)). split; [lia|]. split; [f_equal; lia|]. split; lia. }
  destruct X as (c & PC & HQ & P1 & P2). split; [exact P1|]. split; [exact P2|].
  apply (sqrt_core p g n d _ _ N D (a * c) (4 * c)); auto. fold k2. unfold a.
  destruct (Z.eqb_spec (k2 * k2 * D) (4 * N)) as [E|E].
  - left. split; [exact E|ring].
  - right. split; [lia|]. split; nia.
Qed.

Lemma mpfr_sqrt_like c n d : 1 <= c_prec c -> 0 < n -> 0 < d ->
  exists qn qd, 0 < qn /\ 0 < qd /\ mpfr_sqrt c (NRat false n d) = mpfr_round c (NRat false qn qd).
Proof.
  intros Hp Hn Hd. destruct (sqrt_like (c_prec c) (c_rnd c) n d Hp Hn Hd) as (qn & qd & P1 & P2 & E).
  exists qn, qd. split; [exact P1|]. split; [exact P2|]. cbn [mpfr_sqrt mpfr_round]. rewrite E. reflexivity.
Qed.
