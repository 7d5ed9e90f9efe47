(** Facts about the rounding functions of FPModel.v: scaling, magnitude, double rounding. *)
From Coq Require Import Lia ZArith ZifyBool.
From Verif Require Import PyBase BVModel BVFacts FPModel.

Lemma pow2_pos : forall k, 0 <= k -> 0 < 2 ^ k.
Proof. intros; apply Z.pow_pos_nonneg; lia. Qed.
Lemma pow2_S : forall k, 0 <= k -> 2 ^ (k + 1) = 2 * 2 ^ k.
Proof. intros. rewrite Z.pow_add_r by lia. lia. Qed.
Lemma pow2_split : forall a b, 0 <= a -> 0 <= b -> 2 ^ (a + b) = 2 ^ a * 2 ^ b.
Proof. intros. apply Z.pow_add_r; lia. Qed.

Lemma scaled_pos : forall n d e N D, 0 < n -> 0 < d -> scaled n d e = (N, D) -> 0 < N /\ 0 < D.
Proof.
  intros n d e N D Hn Hd. unfold scaled. destruct (0 <=? e) eqn:He; intros H; inversion H; subst.
  - split; [lia|]. pose proof (pow2_pos e ltac:(lia)). nia.
  - split; [|lia]. pose proof (pow2_pos (- e) ltac:(lia)). nia.
Qed.

(** Moving the scale by j multiplies the ratio by 2^j. *)
Lemma scaled_shift : forall n d e j N D N' D', 0 <= j ->
  scaled n d e = (N, D) -> scaled n d (e - j) = (N', D') -> N' * D = N * 2 ^ j * D'.
Proof.
  intros n d e j N D N' D' Hj. unfold scaled.
  destruct (0 <=? e) eqn:He; destruct (0 <=? e - j) eqn:He'; intros H H'; inversion H; inversion H'; subst.
  - replace e with ((e - j) + j) at 1 by lia. rewrite (pow2_split (e - j) j) by lia. ring.
  - replace j with (e + (- (e - j))) at 2 by lia. rewrite (pow2_split e (- (e - j))) by lia. ring.
  - lia.
  - replace (- (e - j)) with (- e + j) by lia. rewrite pow2_split by lia. ring.
Qed.

(** round_int depends on the ratio only. *)
Lemma div_mod_ratio : forall N D N' D', 0 < D -> 0 < D' -> N * D' = N' * D ->
  N / D = N' / D' /\ (N mod D) * D' = (N' mod D') * D.
Proof.
  intros N D N' D' HD HD' H.
  assert (E : N / D = N' / D').
  { rewrite <- (Z.div_mul_cancel_r N D D') by lia.
    rewrite <- (Z.div_mul_cancel_r N' D' D) by lia.
    rewrite H, (Z.mul_comm D D'). reflexivity. }
  split; [exact E|].
  rewrite (Z.mod_eq N D), (Z.mod_eq N' D') by lia. rewrite E.
  rewrite !Z.mul_sub_distr_r. rewrite H. ring.
Qed.

Lemma mul_ltb : forall a b k, 0 < k -> (a * k <? b * k) = (a <? b).
Proof. intros. apply Bool.eq_iff_eq_true. rewrite !Z.ltb_lt. nia. Qed.
Lemma mul_eqb : forall a b k, 0 < k -> (a * k =? b * k) = (a =? b).
Proof. intros. apply Bool.eq_iff_eq_true. rewrite !Z.eqb_eq. nia. Qed.

Lemma round_int_ratio : forall g s N D N' D', 0 < D -> 0 < D' -> N * D' = N' * D ->
  round_int g s N D = round_int g s N' D'.
Proof.
  intros g s N D N' D' HD HD' H. unfold round_int.
  destruct (div_mod_ratio N D N' D' HD HD' H) as [-> Hr].
  set (r := N mod D) in *. set (r' := N' mod D') in *. clearbody r r'.
  f_equal. f_equal. unfold incr.
  assert (A : (D <? 2 * r) = (D' <? 2 * r')).
  { rewrite <- (mul_ltb D (2 * r) D'), <- (mul_ltb D' (2 * r') D) by lia.
    replace (2 * r * D') with (2 * r' * D) by lia. f_equal; ring. }
  assert (B : (D =? 2 * r) = (D' =? 2 * r')).
  { rewrite <- (mul_eqb D (2 * r) D'), <- (mul_eqb D' (2 * r') D) by lia.
    replace (2 * r * D') with (2 * r' * D) by lia. f_equal; ring. }
  assert (C : (r =? 0) = (r' =? 0)).
  { rewrite <- (mul_eqb r 0 D'), <- (mul_eqb r' 0 D) by lia. rewrite Hr. reflexivity. }
  rewrite A, B, C. reflexivity.
Qed.

Lemma sgn_ratio : forall t N D N' D', 0 < D -> 0 < D' -> N * D' = N' * D ->
  Z.sgn (t * D - N) = Z.sgn (t * D' - N').
Proof.
  intros t N D N' D' HD HD' H.
  assert (E : (t * D - N) * D' = (t * D' - N') * D) by (rewrite !Z.mul_sub_distr_r, H; ring).
  pose proof (Z.sgn_mul (t * D - N) D') as A. pose proof (Z.sgn_mul (t * D' - N') D) as B.
  rewrite (Z.sgn_pos D') in A by lia. rewrite (Z.sgn_pos D) in B by lia.
  rewrite E in A. lia.
Qed.

(** The exponent. *)
Lemma mag_base : forall n d, 0 < n -> 0 < d ->
  let e := Z.log2 n - Z.log2 d in
  forall N D, scaled n d e = (N, D) -> D < 2 * N /\ N < 2 * D.
Proof.
  intros n d Hn Hd e N D. pose proof (Z.log2_spec n Hn) as [A A'].
  pose proof (Z.log2_spec d Hd) as [B B'].
  pose proof (Z.log2_nonneg n). pose proof (Z.log2_nonneg d).
  subst e. set (a := Z.log2 n) in *. set (b := Z.log2 d) in *. clearbody a b.
  unfold scaled. destruct (0 <=? a - b) eqn:He; intros HH; inversion HH; subst.
  - assert (Ha : 2 ^ a = 2 ^ (a - b) * 2 ^ b) by (rewrite <- pow2_split by lia; f_equal; lia).
    pose proof (pow2_pos (a - b) ltac:(lia)). pose proof (pow2_pos b ltac:(lia)).
    rewrite Z.pow_succ_r in A', B' by lia. rewrite Ha in A, A'. nia.
  - assert (Hb : 2 ^ b = 2 ^ (- (a - b)) * 2 ^ a) by (rewrite <- pow2_split by lia; f_equal; lia).
    pose proof (pow2_pos (- (a - b)) ltac:(lia)). pose proof (pow2_pos a ltac:(lia)).
    rewrite Z.pow_succ_r in A', B' by lia. rewrite Hb in B, B'. nia.
Qed.

(** 2^(E-1) <= n/d < 2^E at every scale at or below E-1. *)
Lemma mag_spec : forall n d j N D, 0 < n -> 0 < d -> 1 <= j ->
  scaled n d (mag n d - j) = (N, D) -> 2 ^ (j - 1) * D <= N /\ N < 2 ^ j * D.
Proof.
  intros n d j N D Hn Hd Hj HS.
  pose proof (scaled_pos _ _ _ _ _ Hn Hd HS) as [PN PD].
  unfold mag in HS. set (e0 := Z.log2 n - Z.log2 d) in *.
  destruct (scaled n d e0) as [N0 D0] eqn:H0.
  pose proof (scaled_pos _ _ _ _ _ Hn Hd H0) as [PN0 PD0].
  pose proof (mag_base n d Hn Hd N0 D0 H0) as [L U].
  pose proof (pow2_pos (j - 1) ltac:(lia)) as PJ.
  assert (HJ : 2 ^ j = 2 * 2 ^ (j - 1)) by (rewrite <- pow2_S by lia; f_equal; lia).
  set (w := 2 ^ (j - 1)) in *.
  destruct (D0 <=? N0) eqn:C.
  - replace (e0 + 1 - j) with (e0 - (j - 1)) in HS by lia.
    pose proof (scaled_shift n d e0 (j - 1) N0 D0 N D ltac:(lia) H0 HS) as R. fold w in R.
    rewrite HJ. split; apply (Z.mul_le_mono_pos_r _ _ D0) || apply (Z.mul_lt_mono_pos_r D0); try lia; rewrite R; nia.
  - pose proof (scaled_shift n d e0 j N0 D0 N D ltac:(lia) H0 HS) as R. rewrite HJ in *.
    split; [apply (Z.mul_le_mono_pos_r _ _ D0)|apply (Z.mul_lt_mono_pos_r D0)]; try lia; rewrite R; nia.
Qed.

(** Rounding an integer ratio: bounds. *)
Lemma round_int_bounds : forall g s N D lo hi, 0 < D -> lo * D <= N -> N <= hi * D ->
  lo <= round_int g s N D <= hi.
Proof.
  intros g s N D lo hi HD Hlo Hhi. unfold round_int.
  pose proof (Z.div_mod N D ltac:(lia)) as DM. pose proof (Z.mod_pos_bound N D HD) as MB.
  assert (lo <= N / D) by (apply Z.div_le_lower_bound; lia).
  assert (A : N / D <= hi) by (apply Z.div_le_upper_bound; lia).
  destruct (incr g s (N / D) (N mod D) D) eqn:I; cbn [b2z]; [|lia].
  split; [lia|]. enough (N / D <> hi) by lia. intros E.
  assert (R0 : N mod D = 0) by nia.
  rewrite R0 in I. unfold incr in I. destruct g; cbn [Z.eqb negb andb] in I; lia.
Qed.

Lemma round_int_exact : forall g s t D, 0 < D -> round_int g s (t * D) D = t.
Proof.
  intros. pose proof (round_int_bounds g s (t * D) D t t ltac:(lia) ltac:(lia) ltac:(lia)). lia.
Qed.

(** The second rounding of mpfr_subnormalize, from Y = round(N*2^j/D) and the ternary value. *)
Definition coarse (g : gmode) (s : bool) (Y j tern : Z) : Z :=
  let D := 2 ^ j in
  let t := Y / D in
  let r := Y mod D in
  t + b2z match g with
          | RoundToNearest =>
              (D <? 2 * r) || ((D =? 2 * r) && ((tern <? 0) || ((tern =? 0) && Z.odd t)))
          | g => negb (r =? 0) && negb (toward_zero g s)
          end.

Lemma coarse_val : forall g s t r j tern, 0 <= j -> 0 <= r < 2 ^ j ->
  coarse g s (t * 2 ^ j + r) j tern =
  t + b2z match g with
          | RoundToNearest =>
              (2 ^ j <? 2 * r) || ((2 ^ j =? 2 * r) && ((tern <? 0) || ((tern =? 0) && Z.odd t)))
          | g => negb (r =? 0) && negb (toward_zero g s)
          end.
Proof.
  intros g s t r j tern Hj Hr. unfold coarse.
  pose proof (pow2_pos j Hj).
  rewrite (Z.add_comm (t * _)). rewrite Z.div_add, Z.mod_add by lia.
  rewrite (Z.div_small r), (Z.mod_small r) by lia. reflexivity.
Qed.

Lemma half_lt : forall D H r rho R0, 0 < D -> 0 < H -> 0 <= R0 < D ->
  r * (2 * H) = D * rho + R0 -> rho < H -> 2 * r < D.
Proof.
  intros D H r rho R0 HD HH HR G L.
  assert (D * (rho + 1) <= D * H) by (apply Z.mul_le_mono_nonneg_l; lia).
  apply (Z.mul_lt_mono_pos_r H); lia.
Qed.
Lemma half_eq : forall D H r rho R0, 0 < D -> 0 < H ->
  r * (2 * H) = D * rho + R0 -> rho = H -> R0 = 0 -> 2 * r = D.
Proof. intros. subst. apply (Z.mul_reg_r _ _ H); lia. Qed.
Lemma half_gt : forall D H r rho R0, 0 < D -> 0 < H -> 0 <= R0 < D ->
  r * (2 * H) = D * rho + R0 -> H <= rho -> (rho = H -> 0 < R0) -> D < 2 * r.
Proof.
  intros D H r rho R0 HD HH HR G L LE.
  apply (Z.mul_lt_mono_pos_r H); [lia|].
  destruct (Z.eq_dec rho H) as [->|NE]; [specialize (LE eq_refl); lia|].
  assert (D * (H + 1) <= D * rho) by (apply Z.mul_le_mono_nonneg_l; lia). lia.
Qed.
Lemma rem_zero : forall D H r rho R0, 0 < D -> 0 < H -> 0 <= R0 -> 0 <= rho ->
  r * (2 * H) = D * rho + R0 -> (r = 0 <-> rho = 0 /\ R0 = 0).
Proof.
  intros D H r rho R0 HD HH HR Hrho G. split.
  - intros ->. assert (0 <= D * rho) by (apply Z.mul_nonneg_nonneg; lia).
    assert (D * rho = 0) by lia. apply Z.mul_eq_0 in H1. lia.
  - intros [-> ->]. rewrite Z.mul_0_r in G. assert (r * (2 * H) = 0) by lia.
    apply Z.mul_eq_0 in H0. lia.
Qed.

Lemma double_round_aux : forall g s N D j t r rho R0 H Y, 0 < D -> 0 < H -> 2 ^ j = 2 * H -> 1 <= j ->
  0 <= r < D -> 0 <= R0 < D -> 0 <= rho < 2 * H -> r * (2 * H) = D * rho + R0 ->
  Y = t * (2 * H) + rho + b2z (incr g s (t * (2 * H) + rho) R0 D) ->
  Y * D - N = b2z (incr g s (t * (2 * H) + rho) R0 D) * D - R0 ->
  coarse g s Y j (Z.sgn (Y * D - N)) = t + b2z (incr g s t r D).
Proof.
  intros g s N D j t r rho R0 H Y HD PH HJ Hj MB MB' RB G RI TE. rewrite TE. clear TE N.
  assert (PAR : Z.odd (t * (2 * H) + rho) = Z.odd rho).
  { rewrite Z.odd_add. replace (t * (2 * H)) with (2 * (t * H)) by ring.
    rewrite Z.odd_mul. change (Z.odd 2) with false. cbn [andb xorb]. destruct (Z.odd rho); reflexivity. }
  assert (GE : g = RoundToNearest \/ g <> RoundToNearest) by (destruct g; auto; right; discriminate).
  pose proof (rem_zero D H r rho R0 HD PH (proj1 MB') (proj1 RB) G) as RZ.
  destruct GE as [->|NG].
  - unfold incr in *. rewrite PAR in *.
    remember ((D <? 2 * R0) || (D =? 2 * R0) && Z.odd rho) as up eqn:UP.
    destruct (Z.eq_dec (rho + b2z up) (2 * H)) as [FULL|NF].
    + destruct up; cbn [b2z] in *; [|lia].
      replace Y with ((t + 1) * 2 ^ j + 0) by (rewrite HJ; lia).
      rewrite coarse_val by lia. rewrite HJ.
      replace (2 * H <? 2 * 0) with false by lia. replace (2 * H =? 2 * 0) with false by lia.
      assert (P : 0 < R0) by lia.
      pose proof (half_gt D H r rho R0 HD PH MB' G ltac:(lia) ltac:(lia)) as X.
      replace (D <? 2 * r) with true by lia. cbn [orb andb b2z]. lia.
    + assert (UB : 0 <= b2z up <= 1) by (destruct up; cbn; lia).
      replace Y with (t * 2 ^ j + (rho + b2z up)) by (rewrite HJ; lia).
      rewrite coarse_val by lia. rewrite HJ. f_equal. f_equal.
      destruct (Z.lt_trichotomy (rho + 1) H) as [LT|[EQ|GT]].
      * pose proof (half_lt D H r rho R0 HD PH MB' G ltac:(lia)) as X.
        replace (D <? 2 * r) with false by lia. replace (D =? 2 * r) with false by lia.
        replace (2 * H <? 2 * (rho + b2z up)) with false by lia.
        replace (2 * H =? 2 * (rho + b2z up)) with false by lia. reflexivity.
      * pose proof (half_lt D H r rho R0 HD PH MB' G ltac:(lia)) as X.
        replace (D <? 2 * r) with false by lia. replace (D =? 2 * r) with false by lia.
        destruct up; cbn [b2z].
        -- replace (2 * H <? 2 * (rho + 1)) with false by lia.
           replace (2 * H =? 2 * (rho + 1)) with true by lia. cbn [orb andb].
           rewrite (Z.sgn_pos (1 * D - R0)) by lia. reflexivity.
        -- replace (2 * H <? 2 * (rho + 0)) with false by lia.
           replace (2 * H =? 2 * (rho + 0)) with false by lia. reflexivity.
      * destruct (Z.eq_dec rho H) as [EQ|NE].
        -- destruct (Z.eq_dec R0 0) as [R00|RN].
           ++ pose proof (half_eq D H r rho R0 HD PH G EQ R00) as X.
              replace (D <? 2 * r) with false by lia. replace (D =? 2 * r) with true by lia.
              replace up with false by (rewrite UP, R00; lia). cbn [b2z].
              replace (2 * H <? 2 * (rho + 0)) with false by lia.
              replace (2 * H =? 2 * (rho + 0)) with true by lia. rewrite R00.
              replace (0 * D - 0) with 0 by lia. reflexivity.
           ++ pose proof (half_gt D H r rho R0 HD PH MB' G ltac:(lia) ltac:(lia)) as X.
              replace (D <? 2 * r) with true by lia. cbn [orb].
              destruct up; cbn [b2z].
              ** replace (2 * H <? 2 * (rho + 1)) with true by lia. reflexivity.
              ** replace (2 * H <? 2 * (rho + 0)) with false by lia.
                 replace (2 * H =? 2 * (rho + 0)) with true by lia.
                 rewrite (Z.sgn_neg (0 * D - R0)) by lia. reflexivity.
        -- pose proof (half_gt D H r rho R0 HD PH MB' G ltac:(lia) ltac:(lia)) as X.
           replace (D <? 2 * r) with true by lia.
           replace (2 * H <? 2 * (rho + b2z up)) with true by lia. reflexivity.
  - assert (C1 : forall t r D, incr g s t r D = negb (r =? 0) && negb (toward_zero g s))
      by (intros; destruct g; congruence || reflexivity).
    rewrite !C1 in *.
    assert (C2 : forall t r tern, 0 <= r < 2 ^ j -> coarse g s (t * 2 ^ j + r) j tern =
                 t + b2z (negb (r =? 0) && negb (toward_zero g s)))
      by (intros; rewrite coarse_val by lia; destruct g; congruence || reflexivity).
    remember (negb (R0 =? 0) && negb (toward_zero g s)) as up eqn:UP.
    destruct (Z.eq_dec (rho + b2z up) (2 * H)) as [FULL|NF].
    + destruct up; cbn [b2z] in *; [|lia].
      replace Y with ((t + 1) * 2 ^ j + 0) by (rewrite HJ; lia).
      rewrite C2 by lia. symmetry in UP. apply andb_prop in UP. destruct UP as [U1 U2].
      rewrite U2. replace (r =? 0) with false by lia. reflexivity || (cbn; lia).
    + assert (UB : 0 <= b2z up <= 1) by (destruct up; cbn; lia).
      replace Y with (t * 2 ^ j + (rho + b2z up)) by (rewrite HJ; lia).
      rewrite C2 by lia. f_equal. f_equal.
      destruct (toward_zero g s); [rewrite !andb_false_r; reflexivity|].
      rewrite !andb_true_r in *. f_equal. rewrite UP.
      destruct (R0 =? 0) eqn:Z0; cbn [negb b2z]; lia.
Qed.

Lemma double_round : forall g s N D j, 0 < D -> 1 <= j ->
  let Y := round_int g s (N * 2 ^ j) D in
  coarse g s Y j (Z.sgn (Y * D - N * 2 ^ j)) = round_int g s N D.
Proof.
  intros g s N D j HD Hj. cbv zeta.
  assert (HJ : 2 ^ j = 2 * 2 ^ (j - 1)) by (rewrite <- pow2_S by lia; f_equal; lia).
  pose proof (pow2_pos (j - 1) ltac:(lia)) as PH.
  pose proof (Z.div_mod N D ltac:(lia)) as DM. pose proof (Z.mod_pos_bound N D HD) as MB.
  pose proof (Z.div_mod (N * 2 ^ j) D ltac:(lia)) as DM'. pose proof (Z.mod_pos_bound (N * 2 ^ j) D HD) as MB'.
  assert (F : N * 2 ^ j / D = (N / D) * (2 * 2 ^ (j - 1)) + (N mod D * (2 * 2 ^ (j - 1))) / D).
  { rewrite DM at 1. rewrite HJ.
    replace ((D * (N / D) + N mod D) * (2 * 2 ^ (j - 1)))
      with (N mod D * (2 * 2 ^ (j - 1)) + (N / D * (2 * 2 ^ (j - 1))) * D) by ring.
    rewrite Z.div_add by lia. ring. }
  assert (G : N mod D * (2 * 2 ^ (j - 1)) = D * (N mod D * (2 * 2 ^ (j - 1)) / D) + (N * 2 ^ j) mod D).
  { rewrite (Z.div_mod (N mod D * (2 * 2 ^ (j - 1))) D) at 1 by lia. f_equal.
    rewrite HJ. apply Z.mul_mod_idemp_l. lia. }
  assert (RB : 0 <= N mod D * (2 * 2 ^ (j - 1)) / D < 2 * 2 ^ (j - 1)).
  { split; [apply Z.div_pos; nia|]. apply Z.div_lt_upper_bound; nia. }
  unfold round_int at 3.
  apply (double_round_aux g s (N * 2 ^ j) D j (N / D) (N mod D) (N mod D * (2 * 2 ^ (j - 1)) / D)
           ((N * 2 ^ j) mod D) (2 ^ (j - 1))); try assumption.
  - unfold round_int. rewrite <- F. reflexivity.
  - unfold round_int. rewrite <- F. rewrite Z.mul_add_distr_r. lia.
Qed.
