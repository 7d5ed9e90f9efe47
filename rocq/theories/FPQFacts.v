(** From the integer form of rounding to the specification over rationals. *)
From Coq Require Import Lia ZArith QArith Qpower Qabs Lqa ZifyBool.
From Verif Require Import PyBase BVModel BVSpec BVFacts FPModel FPSpec FPRoundFacts FPPatFacts FPEncFacts FPDecFacts FPBracket.
Open Scope Z_scope.

(** ** Powers of two *)
Lemma pow2q_pos e : (0 < pow2 e)%Q.
Proof.
  unfold pow2. assert (H : (0 <= Qpower 2 e)%Q) by (apply Qpower_pos; discriminate).
  assert (N : ~ (Qpower 2 e == 0)%Q) by (apply Qpower_not_0; discriminate).
  apply Qle_lteq in H. destruct H as [H|H]; [exact H|]. exfalso. apply N. now symmetry.
Qed.
Lemma pow2q_add a b : (pow2 (a + b) == pow2 a * pow2 b)%Q.
Proof. unfold pow2. apply Qpower_plus. discriminate. Qed.
Lemma pow2q_int e : 0 <= e -> (pow2 e == inject_Z (2 ^ e))%Q.
Proof. intros H. unfold pow2. symmetry. now apply Zpower_Qpower. Qed.

Lemma inj_div a D : 0 < D -> (inject_Z a / inject_Z D * inject_Z D == inject_Z a)%Q.
Proof. intros H. field. intros X. apply (inject_Z_injective D 0) in X. lia. Qed.

Lemma inj_sub x y : (inject_Z (x - y) == inject_Z x - inject_Z y)%Q.
Proof. unfold Z.sub. rewrite inject_Z_plus, inject_Z_opp. reflexivity. Qed.

(** ** A pattern and a number in units of the smallest subnormal *)
Definition unit (f : fmt) : Q := pow2 (1 - bias f - f_mb f).
Definition W (f : fmt) (s : bool) (k : Z) : Z := sgnz s (V (f_mb f) k).

Lemma pat_value_W f s k : okf f -> 0 <= k < 2 ^ (f_eb f + f_mb f) ->
  (pat_value f (b2z s * 2 ^ (f_eb f + f_mb f) + k) == inject_Z (W f s k) * unit f)%Q.
Proof.
  intros O K. destruct (fields f s k O K) as (_ & S & E & M & RE & RM). unfold pat_value. rewrite S, E, M.
  rewrite E in RE. rewrite M in RM.
  assert (A : ((if k / 2 ^ f_mb f =? 0 then inject_Z (k mod 2 ^ f_mb f) * pow2 (1 - bias f - f_mb f)
     else inject_Z (2 ^ f_mb f + k mod 2 ^ f_mb f) * pow2 (k / 2 ^ f_mb f - bias f - f_mb f)) ==
     inject_Z (V (f_mb f) k) * unit f)%Q).
  { unfold V, unit. destruct (Z.eqb_spec (k / 2 ^ f_mb f) 0) as [Z0|Z0]; [reflexivity|].
    replace (k / 2 ^ f_mb f - bias f - f_mb f) with (k / 2 ^ f_mb f - 1 + (1 - bias f - f_mb f)) by lia.
    rewrite pow2q_add, (pow2q_int (_ - 1)) by lia. rewrite (inject_Z_mult (_ + _)). ring. }
  unfold sgnq, W, sgnz. destruct s; [|exact A]. rewrite A. rewrite inject_Z_opp. ring.
Qed.

Lemma ratq_M f s n d N D : okf f -> 0 < d -> scaled n d (top f - (f_mb f + 1)) = (N, D) -> 0 < D ->
  (ratq s n d == inject_Z (sgnz s N) / inject_Z D * unit f)%Q.
Proof.
  intros O Hd HS PD.
  assert (U : unit f = pow2 (top f - (f_mb f + 1))) by (unfold unit, bias, top; f_equal; lia).
  assert (A : (inject_Z n / inject_Z d == inject_Z N / inject_Z D * unit f)%Q).
  { rewrite U. unfold scaled in HS.
    assert (Dn : ~ (inject_Z D == 0)%Q) by (intros X; apply (inject_Z_injective D 0) in X; lia).
    assert (dn : ~ (inject_Z d == 0)%Q) by (intros X; apply (inject_Z_injective d 0) in X; lia).
    destruct (Z.leb_spec 0 (top f - (f_mb f + 1))) as [L|L]; pose proof (f_equal fst HS) as QN; pose proof (f_equal snd HS) as QD; cbn [fst snd] in QN, QD; rewrite <- QN in *; rewrite <- QD in *.
    - rewrite pow2q_int by exact L. rewrite inject_Z_mult in *. field. split; [|exact dn]. intros X. apply Dn. rewrite X. ring.
    - rewrite inject_Z_mult, <- pow2q_int by lia. set (t := top f - (f_mb f + 1)) in *.
      assert (T : (pow2 (- t) * pow2 t == 1)%Q) by (rewrite <- pow2q_add, Z.add_opp_diag_l; reflexivity).
      transitivity (inject_Z n / inject_Z d * (pow2 (- t) * pow2 t))%Q; [rewrite T; ring|field; exact dn]. }
  unfold ratq, sgnq, sgnz. destruct s; [|exact A]. rewrite A, inject_Z_opp. unfold Qdiv. ring.
Qed.

Section Conv.
Variables (P : Q) (a D : Z).
Hypothesis (HP : (0 < P)%Q) (HD : 0 < D).
Let HD' : (0 < inject_Z D)%Q.
Proof. change 0%Q with (inject_Z 0). rewrite <- Zlt_Qlt. exact HD. Qed.

Lemma conv_le w : (inject_Z a / inject_Z D * P <= inject_Z w * P)%Q <-> a <= w * D.
Proof.
  rewrite Qmult_le_r by exact HP. rewrite <- (Qmult_le_r _ _ (inject_Z D)) by exact HD'.
  rewrite inj_div by exact HD. rewrite <- inject_Z_mult, <- Zle_Qle. reflexivity.
Qed.
Lemma conv_ge w : (inject_Z w * P <= inject_Z a / inject_Z D * P)%Q <-> w * D <= a.
Proof.
  rewrite Qmult_le_r by exact HP. rewrite <- (Qmult_le_r _ _ (inject_Z D)) by exact HD'.
  rewrite inj_div by exact HD. rewrite <- inject_Z_mult, <- Zle_Qle. reflexivity.
Qed.
Lemma conv_lt w : (inject_Z a / inject_Z D * P < inject_Z w * P)%Q <-> a < w * D.
Proof.
  split; intros H.
  - apply Z.nle_gt. intros X. apply conv_ge in X. revert X. now apply Qlt_not_le.
  - apply Qnot_le_lt. intros X. apply conv_ge in X. lia.
Qed.
Lemma conv_gt w : (inject_Z w * P < inject_Z a / inject_Z D * P)%Q <-> w * D < a.
Proof.
  split; intros H.
  - apply Z.nle_gt. intros X. apply conv_le in X. revert X. now apply Qlt_not_le.
  - apply Qnot_le_lt. intros X. apply conv_le in X. lia.
Qed.
Lemma conv_abs : (Qabs (inject_Z a / inject_Z D * P) == inject_Z (Z.abs a) / inject_Z D * P)%Q.
Proof.
  rewrite Qabs_Qmult, (Qabs_pos P) by (apply Qlt_le_weak, HP). unfold Qdiv. rewrite Qabs_Qmult.
  rewrite (Qabs_pos (/ inject_Z D)) by (apply Qlt_le_weak, Qinv_lt_0_compat, HD'). reflexivity.
Qed.
Lemma conv_dist w : (Qabs (inject_Z a / inject_Z D * P - inject_Z w * P) == inject_Z (Z.abs (a - w * D)) / inject_Z D * P)%Q.
Proof.
  assert (E : (inject_Z a / inject_Z D * P - inject_Z w * P == inject_Z (a - w * D) / inject_Z D * P)%Q).
  { unfold Z.sub. rewrite inject_Z_plus, inject_Z_opp, inject_Z_mult. field. intros X. apply (inject_Z_injective D 0) in X. lia. }
  rewrite E. unfold Qdiv. rewrite !Qabs_Qmult, (Qabs_pos P) by (apply Qlt_le_weak, HP).
  rewrite (Qabs_pos (/ inject_Z D)) by (apply Qlt_le_weak, Qinv_lt_0_compat, HD'). reflexivity.
Qed.
Lemma conv_le2 x y : (inject_Z x / inject_Z D * P <= inject_Z y / inject_Z D * P)%Q <-> x <= y.
Proof.
  rewrite Qmult_le_r by exact HP. rewrite <- (Qmult_le_r _ _ (inject_Z D)) by exact HD'.
  rewrite !inj_div by exact HD. rewrite <- Zle_Qle. reflexivity.
Qed.
Lemma conv_eq2 x y : (inject_Z x / inject_Z D * P == inject_Z y / inject_Z D * P)%Q <-> x = y.
Proof.
  split; [intros H|intros ->; reflexivity]. apply Z.le_antisymm; apply conv_le2; rewrite H; apply Qle_refl.
Qed.
Lemma val_le x y : (inject_Z x * P <= inject_Z y * P)%Q <-> x <= y.
Proof. rewrite Qmult_le_r by exact HP. rewrite <- Zle_Qle. reflexivity. Qed.
Lemma val_eq x y : (inject_Z x * P == inject_Z y * P)%Q <-> x = y.
Proof.
  split; [intros H|intros ->; reflexivity]. apply Z.le_antisymm; apply val_le; rewrite H; apply Qle_refl.
Qed.
Lemma val_abs x : (Qabs (inject_Z x * P) == inject_Z (Z.abs x) * P)%Q.
Proof. rewrite Qabs_Qmult, (Qabs_pos P) by (apply Qlt_le_weak, HP). reflexivity. Qed.
Lemma conv_pos : (0 < inject_Z a / inject_Z D * P)%Q <-> 0 < a.
Proof. pose proof (conv_gt 0) as H. change (inject_Z 0) with 0%Q in H. rewrite Qmult_0_l in H. rewrite H. lia. Qed.
Lemma conv_neg : (inject_Z a / inject_Z D * P < 0)%Q <-> a < 0.
Proof. pose proof (conv_lt 0) as H. change (inject_Z 0) with 0%Q in H. rewrite Qmult_0_l in H. rewrite H. lia. Qed.
End Conv.

(** ** The overflow threshold *)
Lemma V_IM f : wide f -> V (f_mb f) (IM f) = 2 ^ (f_mb f + 2 * bias f) /\
  V (f_mb f) (IM f - 1) = 2 ^ (f_mb f + 2 * bias f) - 2 ^ (2 * bias f - 1) /\ 1 <= bias f.
Proof.
  intros W. pose proof (wide_okf f W) as O. pose proof (emax_pos f O) as [E1 E2]. destruct W as [W1 W2].
  assert (B : 1 <= bias f).
  { unfold bias. pose proof (pow2_le_mono 1 (f_eb f - 1) ltac:(lia)) as L. change (2 ^ 1) with 2 in L. lia. }
  pose proof (pow2_pos (f_mb f) ltac:(lia)) as PM.
  assert (EB : 2 ^ f_eb f - 1 = 2 * bias f + 1) by (unfold bias; lia).
  unfold IM. rewrite EB. split; [|split; [|exact B]].
  - replace ((2 * bias f + 1) * 2 ^ f_mb f) with ((2 * bias f + 1) * 2 ^ f_mb f + 0) by lia.
    rewrite V_norm by lia. rewrite Z.add_0_r. replace (2 * bias f + 1 - 1) with (2 * bias f) by lia.
    rewrite <- pow2_split by lia. reflexivity.
  - replace ((2 * bias f + 1) * 2 ^ f_mb f - 1) with (2 * bias f * 2 ^ f_mb f + (2 ^ f_mb f - 1)) by lia.
    rewrite V_norm by lia.
    replace (f_mb f + 2 * bias f) with (f_mb f + (2 * bias f - 1) + 1) by lia. rewrite pow2_S, pow2_split by lia. ring.
Qed.

Lemma threshold_W f : wide f ->
  (overflow_threshold f == inject_Z (V (f_mb f) (IM f - 1) + V (f_mb f) (IM f)) / inject_Z 2 * unit f)%Q.
Proof.
  intros W. destruct (V_IM f W) as (-> & -> & B). destruct W as [W1 W2].
  unfold overflow_threshold, unit.
  replace (2 ^ (f_mb f + 2 * bias f) - 2 ^ (2 * bias f - 1) + 2 ^ (f_mb f + 2 * bias f))
    with (2 * (2 ^ (f_mb f + 2 * bias f) - 2 ^ (2 * bias f - 2))).
  2:{ replace (2 * bias f - 1) with (2 * bias f - 2 + 1) by lia. rewrite pow2_S by lia. lia. }
  rewrite inject_Z_mult, inj_sub.
  rewrite <- !pow2q_int by lia.
  transitivity ((pow2 (f_mb f + 2 * bias f) - pow2 (2 * bias f - 2)) * pow2 (1 - bias f - f_mb f))%Q; [|field].
  assert (A1 : (pow2 (f_mb f + 2 * bias f) * pow2 (1 - bias f - f_mb f) == pow2 (bias f) * 2)%Q).
  { rewrite <- pow2q_add. replace (f_mb f + 2 * bias f + (1 - bias f - f_mb f)) with (bias f + 1) by lia. rewrite pow2q_add. reflexivity. }
  assert (A2 : (pow2 (2 * bias f - 2) * pow2 (1 - bias f - f_mb f) == pow2 (bias f) * pow2 (- f_mb f) * (1 # 2))%Q).
  { rewrite <- pow2q_add. replace (2 * bias f - 2 + (1 - bias f - f_mb f)) with (bias f + - f_mb f + -1) by lia. rewrite !pow2q_add. reflexivity. }
  transitivity (pow2 (f_mb f + 2 * bias f) * pow2 (1 - bias f - f_mb f) - pow2 (2 * bias f - 2) * pow2 (1 - bias f - f_mb f))%Q; [|ring].
  rewrite A1, A2. ring.
Qed.
