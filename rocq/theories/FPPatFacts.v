(** Magnitude patterns and the correctness of mpfr_round on them. *)
From Coq Require Import Lia ZArith ZifyBool.
From Verif Require Import PyBase BVModel BVFacts FPModel FPRoundFacts.

(** ** The value of a magnitude pattern, in units of the smallest subnormal *)
Definition V (mb k : Z) : Z :=
  if k / 2 ^ mb =? 0 then k mod 2 ^ mb else (2 ^ mb + k mod 2 ^ mb) * 2 ^ (k / 2 ^ mb - 1).

Section V.
Variable mb : Z.
Hypothesis Hmb : 1 <= mb.
Let P := pow2_pos mb ltac:(lia).

Lemma V_sub : forall k, 0 <= k < 2 ^ mb -> V mb k = k.
Proof. intros k Hk. unfold V. rewrite Z.div_small, Z.mod_small by lia. reflexivity. Qed.

Lemma V_norm : forall e m, 1 <= e -> 0 <= m < 2 ^ mb -> V mb (e * 2 ^ mb + m) = (2 ^ mb + m) * 2 ^ (e - 1).
Proof.
  intros e m He Hm. unfold V. rewrite (Z.add_comm (e * _)). rewrite Z.div_add, Z.mod_add by lia.
  rewrite Z.div_small, Z.mod_small by lia. cbn [Z.add].
  replace (e =? 0) with false by lia. reflexivity.
Qed.

(** In terms of a significand 2^mb <= t <= 2^(mb+1) at shift j. *)
Lemma V_sig : forall j t, 0 <= j -> 2 ^ mb <= t <= 2 ^ (mb + 1) -> V mb (j * 2 ^ mb + t) = t * 2 ^ j.
Proof.
  intros j t Hj Ht. rewrite pow2_S in Ht by lia.
  destruct (Z.eq_dec t (2 * 2 ^ mb)) as [->|N].
  - replace (j * 2 ^ mb + 2 * 2 ^ mb) with ((j + 2) * 2 ^ mb + 0) by lia.
    rewrite V_norm by lia. replace (j + 2 - 1) with (j + 1) by lia. rewrite pow2_S by lia. lia.
  - replace (j * 2 ^ mb + t) with ((j + 1) * 2 ^ mb + (t - 2 ^ mb)) by lia.
    rewrite V_norm by lia. replace (j + 1 - 1) with j by lia. f_equal. lia.
Qed.

Lemma V_sub_top : forall k, 0 <= k <= 2 ^ mb -> V mb k = k.
Proof.
  intros k Hk. destruct (Z.eq_dec k (2 ^ mb)) as [->|N]; [|apply V_sub; lia].
  replace (2 ^ mb) with (0 * 2 ^ mb + 2 ^ mb) at 1 by lia. rewrite V_sig; [cbn; lia|lia|].
  rewrite pow2_S; lia.
Qed.

Lemma V_next : forall k, 0 <= k -> V mb k < V mb (k + 1).
Proof.
  intros k Hk. pose proof (Z.div_mod k (2 ^ mb) ltac:(lia)) as DM.
  pose proof (Z.mod_pos_bound k (2 ^ mb) P) as MB.
  pose proof (Z.div_pos k (2 ^ mb) Hk P) as Q.
  set (q := k / 2 ^ mb) in *. set (r := k mod 2 ^ mb) in *.
  destruct (Z.eq_dec q 0) as [Q0|Q0].
  - rewrite Q0 in DM. rewrite !V_sub_top by lia. lia.
  - replace k with ((q - 1) * 2 ^ mb + (2 ^ mb + r)) by lia.
    replace ((q - 1) * 2 ^ mb + (2 ^ mb + r) + 1) with ((q - 1) * 2 ^ mb + (2 ^ mb + r + 1)) by lia.
    assert (E2 : 2 ^ (mb + 1) = 2 * 2 ^ mb) by (apply pow2_S; lia).
    rewrite !V_sig by lia. pose proof (pow2_pos (q - 1) ltac:(lia)). nia.
Qed.

Lemma V_lt_add : forall n k, 0 <= n -> 0 <= k -> V mb k < V mb (k + 1 + n).
Proof.
  intros n k Hn Hk. revert n Hn. apply natlike_ind.
  - rewrite Z.add_0_r. now apply V_next.
  - intros n Hn IH. eapply Z.lt_trans; [exact IH|].
    replace (k + 1 + Z.succ n) with (k + 1 + n + 1) by lia. apply V_next. lia.
Qed.
Lemma V_lt : forall k k', 0 <= k < k' -> V mb k < V mb k'.
Proof. intros k k' H. replace k' with (k + 1 + (k' - k - 1)) by lia. apply V_lt_add; lia. Qed.
Lemma V_le : forall k k', 0 <= k <= k' -> V mb k <= V mb k'.
Proof. intros k k' H. destruct (Z.eq_dec k k') as [->|N]; [lia|]. pose proof (V_lt k k'). lia. Qed.
Lemma V_nonneg : forall k, 0 <= k -> 0 <= V mb k.
Proof. intros k H. pose proof (V_le 0 k ltac:(lia)) as L. rewrite (V_sub_top 0) in L by lia. exact L. Qed.
End V.

(** Which neighbour of N/D in [V k, V (k+1)) is taken. *)
Definition choose (mb : Z) (g : gmode) (s : bool) (k N D : Z) : Z :=
  k + b2z match g with
          | RoundToNearest =>
              ((V mb k + V mb (k + 1)) * D <? 2 * N) || (((V mb k + V mb (k + 1)) * D =? 2 * N) && Z.odd k)
          | _ => negb (N =? V mb k * D) && negb (toward_zero g s)
          end.
Definition pick (mb IM : Z) (g : gmode) (s : bool) (k N D : Z) : Z :=
  if IM <=? k then (if toward_zero g s then IM - 1 else IM) else choose mb g s k N D.

Lemma choose_shift : forall mb g s j t0 N D, 1 <= mb -> 0 <= j -> 0 < D -> 2 ^ mb <= t0 < 2 ^ (mb + 1) ->
  t0 = N / (D * 2 ^ j) ->
  choose mb g s (j * 2 ^ mb + t0) N D = j * 2 ^ mb + round_int g s N (D * 2 ^ j).
Proof.
  intros mb g s j t0 N D Hmb Hj HD Ht E. unfold choose, round_int. rewrite <- E.
  assert (PJ : 0 < D * 2 ^ j) by (pose proof (pow2_pos j Hj); nia).
  pose proof (Z.div_mod N (D * 2 ^ j) ltac:(lia)) as DM. rewrite <- E in DM.
  set (W := D * 2 ^ j) in *. set (r := N mod W) in *.
  rewrite <- Z.add_assoc. f_equal. f_equal. f_equal.
  rewrite <- Z.add_assoc, !V_sig by lia.
  assert (O : Z.odd (j * 2 ^ mb + t0) = Z.odd t0).
  { rewrite Z.odd_add, Z.odd_mul. replace mb with (mb - 1 + 1) by lia. rewrite pow2_S by lia.
    rewrite (Z.odd_mul 2). change (Z.odd 2) with false. rewrite andb_false_r. destruct (Z.odd t0); reflexivity. }
  rewrite O.
  assert (A : (t0 * 2 ^ j + (t0 + 1) * 2 ^ j) * D = (2 * t0 + 1) * W) by (unfold W; ring).
  assert (B : t0 * 2 ^ j * D = t0 * W) by (unfold W; ring).
  rewrite A, B. unfold incr.
  replace (2 * N) with (2 * t0 * W + 2 * r) by lia.
  replace ((2 * t0 + 1) * W) with (2 * t0 * W + W) by ring.
  replace (N =? t0 * W) with (r =? 0) by lia.
  replace (2 * t0 * W + W <? 2 * t0 * W + 2 * r) with (W <? 2 * r) by lia.
  replace (2 * t0 * W + W =? 2 * t0 * W + 2 * r) with (W =? 2 * r) by lia.
  reflexivity.
Qed.

Lemma choose_sub : forall mb g s N D, 1 <= mb -> 0 < D -> 0 <= N -> N < 2 ^ mb * D ->
  choose mb g s (N / D) N D = round_int g s N D.
Proof.
  intros mb g s N D Hmb HD HN HU. unfold choose, round_int.
  pose proof (Z.div_mod N D ltac:(lia)) as DM. pose proof (Z.div_pos N D HN HD) as Q0.
  assert (Q1 : N / D < 2 ^ mb) by (apply Z.div_lt_upper_bound; lia).
  set (t := N / D) in *. set (r := N mod D) in *.
  rewrite !V_sub_top by lia. f_equal. f_equal. unfold incr.
  replace (2 * N) with (2 * t * D + 2 * r) by lia.
  replace ((t + (t + 1)) * D) with (2 * t * D + D) by ring.
  replace (N =? t * D) with (r =? 0) by lia.
  replace (2 * t * D + D <? 2 * t * D + 2 * r) with (D <? 2 * r) by lia.
  replace (2 * t * D + D =? 2 * t * D + 2 * r) with (D =? 2 * r) by lia.
  reflexivity.
Qed.

(** ** Patterns of mpfr values *)
(** [top] is the exponent of the smallest normal number (2^(top-1)). *)
Definition mpat (p top m E : Z) : Z :=
  if E <? top then m / 2 ^ (top - E) else (E - top) * 2 ^ (p - 1) + m.
Definition mag_pat (p top IM : Z) (v : mpfr) : Z :=
  match v with
  | MZero _ => 0
  | MFin _ m E => mpat p top m E
  | _ => IM
  end.

(** Values a context can hold. *)
Definition ctx_ok (c : ctx) (top : Z) : Prop :=
  2 <= c_prec c /\ top <= c_emax c /\
  (if c_sub c then top = c_emin c + c_prec c - 1 else top = c_emin c).
Definition inf_mag (c : ctx) (top : Z) : Z := (c_emax c - top + 2) * 2 ^ (c_prec c - 1).
Definition wfm (c : ctx) (top : Z) (v : mpfr) : Prop :=
  match v with
  | MFin _ m E => 2 ^ (c_prec c - 1) <= m < 2 ^ c_prec c /\ c_emin c <= E <= c_emax c /\
                  (E < top -> m mod 2 ^ (top - E) = 0)
  | _ => True
  end.

Lemma prec_pow : forall c top, ctx_ok c top -> 2 ^ c_prec c = 2 * 2 ^ (c_prec c - 1) /\ 0 < 2 ^ (c_prec c - 1).
Proof.
  intros c top (H & _). split; [rewrite <- pow2_S by lia; f_equal; lia|apply pow2_pos; lia].
Qed.

Lemma incr_toward : forall g s t r D, incr g s t r D = true -> toward_zero g s = false.
Proof. intros [] [] t r D; cbn [incr toward_zero negb]; rewrite ?andb_false_r; congruence. Qed.

(** Numbers of at least the smallest normal magnitude. *)
Lemma round_normal : forall c top s n d N D, ctx_ok c top -> 0 < n -> 0 < d ->
  scaled n d (top - c_prec c) = (N, D) -> top <= mag n d ->
  let v := mpfr_round c (NRat s n d) in
  exists k, 2 ^ (c_prec c - 1) <= k /\ V (c_prec c - 1) k * D <= N < V (c_prec c - 1) (k + 1) * D /\
    is_signed v = s /\ is_nan v = false /\ wfm c top v /\
    mag_pat (c_prec c) top (inf_mag c top) v = pick (c_prec c - 1) (inf_mag c top) (c_rnd c) s k N D.
Proof.
  intros c top s n d N D C Hn Hd HS HT v.
  destruct (prec_pow c top C) as [PP PH]. destruct C as (C1 & C2 & C3).
  pose proof (scaled_pos _ _ _ _ _ Hn Hd HS) as [PN PD].
  set (p := c_prec c) in *. set (E := mag n d) in *. set (j := E - top).
  destruct (scaled n d (E - p)) as [N1 D1] eqn:HS1.
  pose proof (scaled_pos _ _ _ _ _ Hn Hd HS1) as [PN1 PD1].
  pose proof (mag_spec n d p N1 D1 Hn Hd ltac:(lia) HS1) as [ML MU].
  assert (J : 0 <= j) by (unfold j; lia). pose proof (pow2_pos j J) as PJ.
  assert (R : N * D1 = N1 * (D * 2 ^ j)).
  { assert (HS' : scaled n d (E - p - j) = (N, D)) by (rewrite <- HS; f_equal; unfold j; lia).
    pose proof (scaled_shift n d (E - p) j N1 D1 N D J HS1 HS'). lia. }
  assert (PW : 0 < D * 2 ^ j) by nia.
  pose proof (round_int_ratio (c_rnd c) s N (D * 2 ^ j) N1 D1 PW PD1 ltac:(lia)) as RR.
  pose proof (div_mod_ratio N (D * 2 ^ j) N1 D1 PW PD1 ltac:(lia)) as [QQ _].
  set (t0 := N / (D * 2 ^ j)) in *.
  assert (T0 : 2 ^ (p - 1) <= t0 < 2 ^ p).
  { rewrite QQ. split; [apply Z.div_le_lower_bound; lia|apply Z.div_lt_upper_bound; lia]. }
  pose proof (round_int_bounds (c_rnd c) s N1 D1 (2 ^ (p - 1)) (2 ^ p) PD1 ML (Z.lt_le_incl _ _ MU)) as TB.
  rewrite <- RR in TB. set (t := round_int (c_rnd c) s N (D * 2 ^ j)) in *.
  assert (P1 : 2 ^ (p - 1 + 1) = 2 ^ p) by (f_equal; lia).
  assert (CH : choose (p - 1) (c_rnd c) s (j * 2 ^ (p - 1) + t0) N D = j * 2 ^ (p - 1) + t).
  { unfold t, t0. apply choose_shift; try lia. }
  exists (j * 2 ^ (p - 1) + t0).
  split; [nia|].
  split.
  { rewrite <- Z.add_assoc. rewrite !V_sig by (try rewrite P1; lia).
    pose proof (Z.div_mod N (D * 2 ^ j) ltac:(lia)) as DM. fold t0 in DM.
    pose proof (Z.mod_pos_bound N (D * 2 ^ j) PW). split; nia. }
  assert (VE : v = let '(m, E') := renorm p t E in finish c s m E' (Z.sgn (t * D1 - N1))).
  { unfold v, mpfr_round, rnd_set. fold p. fold E. rewrite HS1. fold t. rewrite <- RR. fold t.
    destruct (renorm p t E). reflexivity. }
  clearbody v. set (tern := Z.sgn (t * D1 - N1)) in *. clearbody tern.
  assert (UP : t = 2 ^ p -> toward_zero (c_rnd c) s = false).
  { intros Q. unfold t, round_int in Q. fold t0 in Q.
    destruct (incr (c_rnd c) s t0 (N mod (D * 2 ^ j)) (D * 2 ^ j)) eqn:I; [|cbn in Q; lia].
    eapply incr_toward; exact I. }
  assert (EM : c_emin c <= top) by (destruct (c_sub c); lia).
  assert (TS : c_sub c = true -> c_emin c + p - 2 < top) by (intros Q; rewrite Q in C3; fold p in C3; lia).
  assert (IMV : inf_mag c top = (c_emax c - top + 2) * 2 ^ (p - 1)) by reflexivity.
  (* the result when the rounded exponent is in range *)
  assert (KEEP : forall m E', 2 ^ (p - 1) <= m < 2 ^ p -> top <= E' <= c_emax c -> finish c s m E' tern = MFin s m E').
  { intros m E' Hm HE. unfold finish, check_range. replace (E' <? c_emin c) with false by lia.
    replace (c_emax c <? E') with false by lia. destruct (c_sub c) eqn:SB; [|reflexivity].
    unfold subnormalize. fold p. specialize (TS eq_refl).
    replace ((c_emin c <=? E') && (E' <=? c_emin c + p - 2)) with false by lia. reflexivity. }
  assert (OVER : forall m E', c_emax c < E' -> finish c s m E' tern =
            if toward_zero (c_rnd c) s then MFin s (2 ^ p - 1) (c_emax c) else MInf s).
  { intros m E' HE. unfold finish, check_range. fold p. replace (E' <? c_emin c) with false by lia.
    replace (c_emax c <? E') with true by lia. destruct (toward_zero (c_rnd c) s); [|reflexivity].
    destruct (c_sub c) eqn:SB; [|reflexivity]. unfold subnormalize. fold p. specialize (TS eq_refl).
    replace ((c_emin c <=? c_emax c) && (c_emax c <=? c_emin c + p - 2)) with false by lia. reflexivity. }
  assert (FIN : forall m E', 2 ^ (p - 1) <= m < 2 ^ p -> top <= E' <= c_emax c ->
            wfm c top (MFin s m E') /\ mag_pat p top (inf_mag c top) (MFin s m E') = (E' - top) * 2 ^ (p - 1) + m).
  { intros m E' Hm HE. split; [cbn [wfm]; fold p; lia|]. cbn [mag_pat]. unfold mpat.
    replace (E' <? top) with false by lia. reflexivity. }
  assert (MAXF : wfm c top (MFin s (2 ^ p - 1) (c_emax c)) /\
            mag_pat p top (inf_mag c top) (MFin s (2 ^ p - 1) (c_emax c)) = inf_mag c top - 1).
  { destruct (FIN (2 ^ p - 1) (c_emax c) ltac:(lia) ltac:(lia)) as [F1 F2]. split; [exact F1|].
    rewrite F2, IMV. lia. }
  unfold renorm in VE. destruct (Z.eqb_spec t (2 ^ p)) as [T|T].
  - specialize (UP T). destruct (Z_lt_le_dec (c_emax c) (E + 1)) as [O|O].
    + rewrite OVER, UP in VE by lia. subst v. do 2 (split; [reflexivity|]). split; [exact I|].
      cbn [mag_pat]. unfold pick. rewrite UP.
      destruct (Z.leb_spec (inf_mag c top) (j * 2 ^ (p - 1) + t0)); [reflexivity|].
      rewrite CH, T, IMV. assert (E = c_emax c); [|unfold j; lia].
      enough (E <= c_emax c) by lia. destruct (Z_lt_le_dec (c_emax c) E) as [O'|O']; [|lia].
      exfalso. rewrite IMV in H. unfold j in H. nia.
    + rewrite KEEP in VE by lia. subst v. do 2 (split; [reflexivity|]).
      destruct (FIN (2 ^ (p - 1)) (E + 1) ltac:(lia) ltac:(lia)) as [F1 F2]. split; [exact F1|]. rewrite F2.
      unfold pick. replace (inf_mag c top <=? j * 2 ^ (p - 1) + t0) with false by (rewrite IMV; unfold j; nia).
      rewrite CH, T. unfold j. lia.
  - destruct (Z_lt_le_dec (c_emax c) E) as [O|O].
    + rewrite OVER in VE by lia. unfold pick.
      replace (inf_mag c top <=? j * 2 ^ (p - 1) + t0) with true by (rewrite IMV; unfold j; nia).
      destruct (toward_zero (c_rnd c) s); subst v.
      * do 2 (split; [reflexivity|]). exact MAXF.
      * do 2 (split; [reflexivity|]). split; [exact I|]. reflexivity.
    + rewrite KEEP in VE by lia. subst v. do 2 (split; [reflexivity|]).
      destruct (FIN t E ltac:(lia) ltac:(lia)) as [F1 F2]. split; [exact F1|]. rewrite F2.
      unfold pick. replace (inf_mag c top <=? j * 2 ^ (p - 1) + t0) with false by (rewrite IMV; unfold j; nia).
      rewrite CH. unfold j. lia.
Qed.

Lemma pow2_le_mono : forall a b, 0 <= a <= b -> 2 ^ a <= 2 ^ b.
Proof. intros. apply Z.pow_le_mono_r; lia. Qed.

Lemma coarse_multiple : forall g s t j tern, 0 <= j -> coarse g s (t * 2 ^ j) j tern = t.
Proof.
  intros g s t j tern Hj. pose proof (pow2_pos j Hj).
  replace (t * 2 ^ j) with (t * 2 ^ j + 0) by lia. rewrite coarse_val by lia.
  destruct g; cbn [Z.eqb negb andb b2z]; try lia.
  replace (2 ^ j <? 2 * 0) with false by lia. replace (2 ^ j =? 2 * 0) with false by lia. cbn; lia.
Qed.

(** mpfr_subnormalize is the coarse rounding. *)
Lemma subnormalize_coarse : forall c s m E tern, c_emin c <= E <= c_emin c + c_prec c - 2 ->
  subnormalize c s m E tern =
  let j := c_emin c + c_prec c - 1 - E in
  let '(m', E') := renorm (c_prec c) (coarse (c_rnd c) s m j tern * 2 ^ j) E in MFin s m' E'.
Proof.
  intros c s m E tern H. unfold subnormalize.
  replace ((c_emin c <=? E) && (E <=? c_emin c + c_prec c - 2)) with true by lia. unfold coarse. destruct (c_rnd c); reflexivity.
Qed.

Lemma coarse_bounds : forall g s Y j tern lo hi, 0 <= j -> lo * 2 ^ j <= Y <= hi * 2 ^ j ->
  lo <= coarse g s Y j tern <= hi.
Proof.
  intros g s Y j tern lo hi Hj H. pose proof (pow2_pos j Hj) as PJ.
  pose proof (Z.div_mod Y (2 ^ j) ltac:(lia)) as DM. pose proof (Z.mod_pos_bound Y (2 ^ j) PJ) as MB.
  assert (lo <= Y / 2 ^ j) by (apply Z.div_le_lower_bound; lia).
  assert (A : Y / 2 ^ j <= hi) by (apply Z.div_le_upper_bound; lia).
  unfold coarse. set (b := match g with RoundToNearest => _ | _ => _ end).
  destruct b eqn:B; cbn [b2z]; [|lia]. split; [lia|].
  enough (Y / 2 ^ j <> hi) by lia. intros Q.
  assert (R0 : Y mod 2 ^ j = 0) by nia. unfold b in B. rewrite R0 in B.
  destruct g; cbn [Z.eqb negb andb] in B; lia.
Qed.

(** Numbers below the smallest normal magnitude, with gradual underflow. *)
Lemma round_subnormal : forall c top s n d N D, ctx_ok c top -> c_sub c = true -> 0 < n -> 0 < d ->
  scaled n d (top - c_prec c) = (N, D) -> mag n d < top ->
  let v := mpfr_round c (NRat s n d) in
  exists k, 0 <= k < 2 ^ (c_prec c - 1) /\ V (c_prec c - 1) k * D <= N < V (c_prec c - 1) (k + 1) * D /\
    is_signed v = s /\ is_nan v = false /\ wfm c top v /\
    mag_pat (c_prec c) top (inf_mag c top) v = pick (c_prec c - 1) (inf_mag c top) (c_rnd c) s k N D.
Proof.
  intros c top s n d N D C SB Hn Hd HS HT v.
  destruct (prec_pow c top C) as [PP PH]. destruct C as (C1 & C2 & C3). rewrite SB in C3.
  pose proof (scaled_pos _ _ _ _ _ Hn Hd HS) as [PN PD].
  set (p := c_prec c) in *. set (E := mag n d) in *. set (j := top - E).
  destruct (scaled n d (E - p)) as [N1 D1] eqn:HS1.
  pose proof (scaled_pos _ _ _ _ _ Hn Hd HS1) as [PN1 PD1].
  pose proof (mag_spec n d p N1 D1 Hn Hd ltac:(lia) HS1) as [ML MU].
  assert (J : 1 <= j) by (unfold j; lia). pose proof (pow2_pos j ltac:(lia)) as PJ.
  assert (R : N1 * D = N * 2 ^ j * D1).
  { assert (HS' : scaled n d (top - p - j) = (N1, D1)) by (rewrite <- HS1; f_equal; unfold j; lia).
    exact (scaled_shift n d (top - p) j N D N1 D1 ltac:(lia) HS HS'). }
  pose proof (round_int_ratio (c_rnd c) s N1 D1 (N * 2 ^ j) D PD1 PD R) as RR.
  pose proof (round_int_bounds (c_rnd c) s N1 D1 (2 ^ (p - 1)) (2 ^ p) PD1 ML (Z.lt_le_incl _ _ MU)) as TB.
  pose proof (sgn_ratio (round_int (c_rnd c) s N1 D1) N1 D1 (N * 2 ^ j) D PD1 PD R) as SG.
  rewrite RR in TB, SG. set (t := round_int (c_rnd c) s (N * 2 ^ j) D) in *.
  pose proof (double_round (c_rnd c) s N D j PD J) as DR. cbv zeta in DR. fold t in DR. rewrite <- SG in DR.
  (* N < 2^(p-1) * D *)
  assert (NU : N * 2 ^ j < 2 ^ p * D).
  { apply (Z.mul_lt_mono_pos_r D1); [lia|]. rewrite <- R.
    replace (2 ^ p * D * D1) with (2 ^ p * D1 * D) by ring. apply Z.mul_lt_mono_pos_r; lia. }
  assert (J2 : 2 <= 2 ^ j) by (replace j with (j - 1 + 1) by lia; rewrite pow2_S by lia; pose proof (pow2_pos (j - 1)); lia).
  assert (NB : N < 2 ^ (p - 1) * D) by nia.
  pose proof (choose_sub (p - 1) (c_rnd c) s N D ltac:(lia) PD ltac:(lia) NB) as CH.
  pose proof (Z.div_mod N D ltac:(lia)) as DM. pose proof (Z.mod_pos_bound N D PD) as MB.
  assert (K0 : 0 <= N / D) by (apply Z.div_pos; lia).
  assert (K1 : N / D < 2 ^ (p - 1)) by (apply Z.div_lt_upper_bound; lia).
  exists (N / D). split; [lia|]. split.
  { rewrite !V_sub_top by lia. split; nia. }
  assert (PK : pick (p - 1) (inf_mag c top) (c_rnd c) s (N / D) N D = round_int (c_rnd c) s N D).
  { unfold pick. replace (inf_mag c top <=? N / D) with false by (unfold inf_mag; fold p; nia). exact CH. }
  rewrite PK, <- DR. clear PK CH.
  assert (VE : v = let '(m, E') := renorm p t E in finish c s m E' (Z.sgn (t * D1 - N1))).
  { unfold v, mpfr_round, rnd_set. fold p. fold E. rewrite HS1. rewrite RR. fold t.
    destruct (renorm p t E). reflexivity. }
  clearbody v. set (tern := Z.sgn (t * D1 - N1)) in *.
  assert (TERN : t = 2 ^ p -> 0 <= tern).
  { intros Q. unfold tern. apply Z.sgn_nonneg. rewrite Q. lia. }
  clearbody tern. clear SG RR R.
  set (cr := coarse (c_rnd c) s t j tern) in *.
  (* no range change, then the coarse rounding of m at shift i *)
  assert (SUBN : forall m E' i, c_emin c <= E' -> E' < top -> i = top - E' -> 2 ^ (p - 1) <= m < 2 ^ p ->
            let q := coarse (c_rnd c) s m i tern in
            let w := finish c s m E' tern in
            is_signed w = s /\ is_nan w = false /\ wfm c top w /\ mag_pat p top (inf_mag c top) w = q).
  { intros m E' i H1 H2 Hi Hm q w. unfold w, finish, check_range.
    replace (E' <? c_emin c) with false by lia. replace (c_emax c <? E') with false by lia. rewrite SB.
    rewrite subnormalize_coarse by (fold p; lia). fold p. cbv zeta.
    replace (c_emin c + p - 1 - E') with i by lia. fold q.
    assert (I1 : 1 <= i) by lia. assert (I2 : i <= p - 1) by lia.
    assert (PI : 2 ^ p = 2 ^ (p - i) * 2 ^ i) by (rewrite <- pow2_split by lia; f_equal; lia).
    assert (PI' : 2 ^ (p - 1) = 2 ^ (p - 1 - i) * 2 ^ i) by (rewrite <- pow2_split by lia; f_equal; lia).
    assert (QB : 2 ^ (p - 1 - i) <= q <= 2 ^ (p - i)) by (apply coarse_bounds; lia).
    pose proof (pow2_pos i ltac:(lia)) as PIp.
    unfold renorm. destruct (Z.eqb_spec (q * 2 ^ i) (2 ^ p)) as [F|F].
    - assert (Q : q = 2 ^ (p - i)) by nia.
      split; [reflexivity|]. split; [reflexivity|]. split.
      + cbn [wfm]. fold p. split; [lia|]. split; [lia|]. intros L.
        replace (2 ^ (p - 1)) with (2 ^ (p - 1 - (top - (E' + 1))) * 2 ^ (top - (E' + 1))) by (rewrite <- pow2_split by lia; f_equal; lia).
        apply Z.mod_mul. pose proof (pow2_pos (top - (E' + 1))). lia.
      + cbn [mag_pat]. unfold mpat. rewrite Q. destruct (Z.ltb_spec (E' + 1) top) as [L|L].
        * replace (2 ^ (p - 1)) with (2 ^ (p - i) * 2 ^ (top - (E' + 1))) by (rewrite <- pow2_split by lia; f_equal; lia).
          apply Z.div_mul. pose proof (pow2_pos (top - (E' + 1))). lia.
        * replace (E' + 1 - top) with 0 by lia. replace (p - i) with (p - 1) by lia. lia.
    - assert (Q : q < 2 ^ (p - i)) by nia.
      split; [reflexivity|]. split; [reflexivity|]. split.
      + cbn [wfm]. fold p. split; [nia|]. split; [lia|]. intros _. rewrite <- Hi. apply Z.mod_mul. lia.
      + cbn [mag_pat]. unfold mpat. replace (E' <? top) with true by lia. rewrite <- Hi. apply Z.div_mul. lia. }
  (* underflow: zero or the smallest number *)
  assert (MIN : finish c s (2 ^ (p - 1)) (c_emin c) tern = MFin s (2 ^ (p - 1)) (c_emin c)).
  { unfold finish, check_range. replace (c_emin c <? c_emin c) with false by lia.
    replace (c_emax c <? c_emin c) with false by lia. rewrite SB.
    rewrite subnormalize_coarse by (fold p; lia). fold p. cbv zeta. replace (c_emin c + p - 1 - c_emin c) with (p - 1) by lia.
    replace (2 ^ (p - 1)) with (1 * 2 ^ (p - 1)) at 1 by lia. rewrite coarse_multiple by lia. unfold renorm.
    replace (1 * 2 ^ (p - 1) =? 2 ^ p) with false by lia. f_equal. lia. }
  assert (UND : forall m E', E' < c_emin c ->
     let z := match c_rnd c with
              | RoundToNearest => (E' + 1 <? c_emin c) || ((m =? 2 ^ (p - 1)) && (0 <=? tern))
              | g => toward_zero g s end in
     finish c s m E' tern = if z then MZero s else MFin s (2 ^ (p - 1)) (c_emin c)).
  { intros m E' HE z. unfold finish at 1. unfold check_range. replace (E' <? c_emin c) with true by lia. fold p. fold z.
    destruct z; [reflexivity|]. unfold finish, check_range in MIN. replace (c_emin c <? c_emin c) with false in MIN by lia.
    replace (c_emax c <? c_emin c) with false in MIN by lia. exact MIN. }
  assert (WMIN : wfm c top (MFin s (2 ^ (p - 1)) (c_emin c)) /\
                 mag_pat p top (inf_mag c top) (MFin s (2 ^ (p - 1)) (c_emin c)) = 1).
  { cbn [wfm mag_pat]. unfold mpat. fold p. replace (c_emin c <? top) with true by lia.
    replace (top - c_emin c) with (p - 1) by lia. split; [split; [lia|]; split; [lia|]; intros _; apply Z.mod_same; lia|].
    apply Z.div_same. lia. }
  assert (UNDR : forall m E' q, E' < c_emin c -> q = 0 \/ q = 1 ->
     (match c_rnd c with
              | RoundToNearest => (E' + 1 <? c_emin c) || ((m =? 2 ^ (p - 1)) && (0 <=? tern))
              | g => toward_zero g s end = (q =? 0)) ->
     let w := finish c s m E' tern in
     is_signed w = s /\ is_nan w = false /\ wfm c top w /\ mag_pat p top (inf_mag c top) w = q).
  { intros m E' q HE Hq Hz w. unfold w. rewrite UND by lia. cbv zeta. rewrite Hz.
    destruct Hq as [-> | ->]; cbn [Z.eqb].
    - repeat split.
    - split; [reflexivity|]. split; [reflexivity|]. exact WMIN. }
  unfold renorm in VE. destruct (Z.eqb_spec t (2 ^ p)) as [T|T].
  - specialize (TERN T).
    destruct (Z_lt_le_dec (E + 1) top) as [L|L].
    + destruct (Z_lt_le_dec (E + 1) (c_emin c)) as [U|U].
      * (* 2^p at shift j > p *)
        subst v. apply UNDR; [lia| |].
        -- assert (0 <= cr <= 1); [|lia]. apply coarse_bounds; [lia|]. rewrite T.
           pose proof (pow2_le_mono p j ltac:(unfold j; lia)). lia.
        -- unfold cr. rewrite T. replace (2 ^ p) with (0 * 2 ^ j + 2 ^ p) at 1 by lia.
           assert (JP : p + 1 <= j) by (unfold j; lia).
           pose proof (pow2_le_mono (p + 1) j ltac:(lia)) as LE. rewrite pow2_S in LE by lia.
           rewrite coarse_val by lia.
           destruct (c_rnd c) eqn:G.
           ++ replace (2 ^ (p - 1) =? 2 ^ (p - 1)) with true by lia. replace (0 <=? tern) with true by lia.
              rewrite orb_true_r. replace (2 ^ j <? 2 * 2 ^ p) with false by lia. replace (tern <? 0) with false by lia.
              cbn [Z.odd]. rewrite andb_false_r. cbn [orb]. rewrite andb_false_r. reflexivity.
           ++ replace (2 ^ p =? 0) with false by lia. destruct (toward_zero RoundAwayZero s); reflexivity.
           ++ replace (2 ^ p =? 0) with false by lia. destruct (toward_zero RoundUp s); reflexivity.
           ++ replace (2 ^ p =? 0) with false by lia. destruct (toward_zero RoundDown s); reflexivity.
           ++ replace (2 ^ p =? 0) with false by lia. destruct (toward_zero RoundToZero s); reflexivity.
      * (* still subnormal *)
        assert (HH := SUBN (2 ^ (p - 1)) (E + 1) (j - 1) ltac:(lia) L ltac:(unfold j; lia) ltac:(lia)). cbv zeta in HH.
        rewrite <- VE in HH. replace cr with (coarse (c_rnd c) s (2 ^ (p - 1)) (j - 1) tern); [exact HH|].
        unfold cr. rewrite T.
        assert (JP : j <= p) by (unfold j; lia).
        replace (2 ^ (p - 1)) with (2 ^ (p - j) * 2 ^ (j - 1)) by (rewrite <- pow2_split by lia; f_equal; lia).
        replace (2 ^ p) with (2 ^ (p - j) * 2 ^ j) by (rewrite <- pow2_split by lia; f_equal; lia).
        now rewrite !coarse_multiple by lia.
    + (* the smallest normal *)
      assert (J1 : j = 1) by (unfold j; lia).
      assert (cr = 2 ^ (p - 1)) as ->.
      { unfold cr. rewrite T, J1, PP. rewrite (Z.mul_comm 2). apply (coarse_multiple _ _ (2 ^ (p - 1)) 1). lia. }
      assert (VV : v = MFin s (2 ^ (p - 1)) (E + 1)).
      { rewrite VE. unfold finish, check_range. replace (E + 1 <? c_emin c) with false by lia.
        replace (c_emax c <? E + 1) with false by lia. rewrite SB. unfold subnormalize. fold p.
        replace ((c_emin c <=? E + 1) && (E + 1 <=? c_emin c + p - 2)) with false by lia. reflexivity. }
      rewrite VV. split; [reflexivity|]. split; [reflexivity|]. split.
      * cbn [wfm]. fold p. lia.
      * cbn [mag_pat]. unfold mpat. replace (E + 1 <? top) with false by lia. replace (E + 1 - top) with 0 by lia. lia.
  - destruct (Z_lt_le_dec E (c_emin c)) as [U|U].
    + subst v. assert (JP : p <= j) by (unfold j; lia).
      pose proof (pow2_le_mono p j ltac:(lia)) as LE.
      apply UNDR; [lia| |].
      * assert (0 <= cr <= 1); [|lia]. apply coarse_bounds; lia.
      * unfold cr. replace t with (0 * 2 ^ j + t) at 2 by lia. rewrite coarse_val by lia.
        destruct (c_rnd c) eqn:G.
        -- destruct (Z_lt_le_dec p j) as [Q|Q].
           ++ pose proof (pow2_le_mono (p + 1) j ltac:(lia)) as LE'. rewrite pow2_S in LE' by lia.
              replace (E + 1 <? c_emin c) with true by (unfold j in Q; lia).
              replace (2 ^ j <? 2 * t) with false by lia. replace (2 ^ j =? 2 * t) with false by lia. reflexivity.
           ++ assert (JE : j = p) by lia. rewrite JE. replace (E + 1 <? c_emin c) with false by (unfold j in JE; lia).
              destruct (Z.eqb_spec t (2 ^ (p - 1))) as [M|M].
              ** replace (2 ^ p <? 2 * t) with false by lia. replace (2 ^ p =? 2 * t) with true by lia.
                 cbn [Z.odd orb andb]. rewrite andb_false_r, orb_false_r.
                 destruct (Z.ltb_spec tern 0); [replace (0 <=? tern) with false by lia|replace (0 <=? tern) with true by lia]; reflexivity.
              ** replace (2 ^ p <? 2 * t) with true by lia. reflexivity.
        -- replace (t =? 0) with false by lia. destruct (toward_zero RoundAwayZero s); reflexivity.
        -- replace (t =? 0) with false by lia. destruct (toward_zero RoundUp s); reflexivity.
        -- replace (t =? 0) with false by lia. destruct (toward_zero RoundDown s); reflexivity.
        -- replace (t =? 0) with false by lia. destruct (toward_zero RoundToZero s); reflexivity.
    + assert (HH := SUBN t E j U HT eq_refl ltac:(lia)). cbv zeta in HH. rewrite <- VE in HH. exact HH.
Qed.
