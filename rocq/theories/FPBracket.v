(** Every rounding takes one of the two representable neighbours (integer form). *)
From Coq Require Import Lia ZArith QArith ZifyBool.
From Verif Require Import PyBase BVModel BVSpec BVFacts FPModel FPSpec FPRoundFacts FPPatFacts FPEncFacts FPDecFacts.
Open Scope Z_scope.

(** Without gradual underflow, a number below the smallest normal becomes that or zero. *)
Lemma round_flush : forall c top s n d N D, ctx_ok c top -> c_sub c = false -> 0 < n -> 0 < d ->
  scaled n d (top - c_prec c) = (N, D) -> mag n d < top ->
  let v := mpfr_round c (NRat s n d) in
  let up := match c_rnd c with
            | RoundToNearest => 2 ^ (c_prec c - 1) * D <? 2 * N
            | g => negb (toward_zero g s) end in
  N < 2 ^ (c_prec c - 1) * D /\ v = if up then MFin s (2 ^ (c_prec c - 1)) top else MZero s.
Proof.
  intros c top s n d N D C SB Hn Hd HS HT v up.
  destruct (prec_pow c top C) as [PP PH]. destruct C as (C1 & C2 & C3). rewrite SB in C3.
  pose proof (scaled_pos _ _ _ _ _ Hn Hd HS) as [PN PD].
  set (p := c_prec c) in *. set (E := mag n d) in *. set (j := top - E).
  destruct (scaled n d (E - p)) as [N1 D1] eqn:HS1.
  pose proof (scaled_pos _ _ _ _ _ Hn Hd HS1) as [PN1 PD1].
  pose proof (mag_spec n d p N1 D1 Hn Hd ltac:(lia) HS1) as [ML MU]. fold E in ML, MU.
  assert (J : 1 <= j) by (unfold j; lia). pose proof (pow2_pos j ltac:(lia)) as PJ.
  assert (R : N1 * D = N * 2 ^ j * D1).
  { assert (HS' : scaled n d (top - p - j) = (N1, D1)) by (rewrite <- HS1; f_equal; unfold j; lia).
    exact (scaled_shift n d (top - p) j N D N1 D1 ltac:(lia) HS HS'). }
  assert (RB : N * 2 ^ j < 2 ^ p * D).
  { apply (Z.mul_lt_mono_pos_r D1); [lia|]. rewrite <- R. replace (2 ^ p * D * D1) with (2 ^ p * D1 * D) by ring.
    apply Z.mul_lt_mono_pos_r; lia. }
  assert (RL : 2 ^ (p - 1) * D <= N * 2 ^ j).
  { apply (Z.mul_le_mono_pos_r _ _ D1); [lia|]. rewrite <- R. replace (2 ^ (p - 1) * D * D1) with (2 ^ (p - 1) * D1 * D) by ring.
    apply Z.mul_le_mono_nonneg_r; lia. }
  assert (J2 : 2 ^ j = 2 * 2 ^ (j - 1)) by (rewrite <- pow2_S by lia; f_equal; lia).
  pose proof (pow2_pos (j - 1) ltac:(lia)) as PJ1.
  assert (NB : N * 2 ^ (j - 1) < 2 ^ (p - 1) * D) by (rewrite PP, J2 in RB; lia).
  assert (NB' : N < 2 ^ (p - 1) * D) by nia.
  split; [exact NB'|].
  pose proof (round_int_bounds (c_rnd c) s N1 D1 (2 ^ (p - 1)) (2 ^ p) PD1 ML (Z.lt_le_incl _ _ MU)) as TB.
  unfold v, mpfr_round, rnd_set. fold p. fold E. rewrite HS1.
  assert (TINC : round_int (c_rnd c) s N1 D1 = 2 ^ p -> incr (c_rnd c) s (N1 / D1) (N1 mod D1) D1 = true).
  { intros T. unfold round_int in T. destruct (incr _ _ _ _ _); [reflexivity|]. cbn [b2z] in T.
    assert (N1 / D1 < 2 ^ p) by (apply Z.div_lt_upper_bound; lia). lia. }
  assert (TE : N1 = 2 ^ (p - 1) * D1 -> round_int (c_rnd c) s N1 D1 = 2 ^ (p - 1)).
  { intros ->. apply round_int_exact. lia. }
  set (t := round_int (c_rnd c) s N1 D1) in *.
  assert (FIN : forall m E' tern, finish c s m E' tern = check_range c s m E' tern).
  { intros m E' tern. unfold finish. rewrite SB. destruct (check_range c s m E' tern); reflexivity. }
  destruct (Z.eq_dec j 1) as [J1|J1].
  - (* E = top - 1 *)
    assert (EE : E = top - 1) by (unfold j in J1; lia). rewrite J1 in R. change (2 ^ 1) with 2 in R.
    assert (HALF : 2 ^ (p - 1) * D < 2 * N <-> 2 ^ (p - 1) * D1 < N1).
    { split; intros H.
      - apply (Z.mul_lt_mono_pos_r D); [lia|]. rewrite R. nia.
      - apply (Z.mul_lt_mono_pos_r D1); [lia|]. replace (2 * N * D1) with (N1 * D) by lia. nia. }
    unfold renorm. destruct (Z.eqb_spec t (2 ^ p)) as [T|T].
    + rewrite FIN. unfold check_range. replace (E + 1 <? c_emin c) with false by lia. replace (c_emax c <? E + 1) with false by lia.
      assert (U : up = true).
      { unfold up. specialize (TINC T). destruct (c_rnd c) eqn:G.
        - apply Z.ltb_lt, HALF. destruct (Z.eq_dec N1 (2 ^ (p - 1) * D1)) as [X|X]; [specialize (TE X); lia|lia].
        - reflexivity.
        - apply incr_toward in TINC. cbv iota. now rewrite TINC.
        - apply incr_toward in TINC. cbv iota. now rewrite TINC.
        - apply incr_toward in TINC. cbv iota. now rewrite TINC. }
      rewrite U. f_equal. lia.
    + rewrite FIN. unfold check_range. replace (E <? c_emin c) with true by lia. fold p.
      replace (E + 1 <? c_emin c) with false by lia. cbn [orb]. rewrite <- C3.
      assert (U : match c_rnd c with RoundToNearest => (t =? 2 ^ (p - 1)) && (0 <=? Z.sgn (t * D1 - N1)) | g => toward_zero g s end = negb up).
      { unfold up. destruct (c_rnd c) eqn:G; try (rewrite negb_involutive; reflexivity).
        destruct (Z.ltb_spec (2 ^ (p - 1) * D) (2 * N)) as [L|L]; cbn [negb].
        - apply HALF in L. destruct (Z.eqb_spec t (2 ^ (p - 1))) as [T'|T']; [|reflexivity]. cbn [andb].
          rewrite T'. apply Z.leb_gt. rewrite Z.sgn_neg by lia. lia.
        - assert (X : N1 = 2 ^ (p - 1) * D1) by lia. specialize (TE X). rewrite TE, X, Z.eqb_refl, Z.sub_diag. reflexivity. }
      rewrite U. destruct up; reflexivity.
  - (* far below *)
    assert (J3 : 2 <= j) by lia.
    assert (PJ2 : 2 <= 2 ^ (j - 1)) by (pose proof (pow2_le_mono 1 (j - 1) ltac:(lia)) as X; change (2 ^ 1) with 2 in X; exact X).
    assert (NH : 2 * N < 2 ^ (p - 1) * D) by nia.
    assert (G : forall m E', (E' < c_emin c) -> (m = t /\ E' = E \/ m = 2 ^ (p - 1) /\ E' = E + 1 /\ t = 2 ^ p) ->
       finish c s m E' (Z.sgn (t * D1 - N1)) = if up then MFin s (2 ^ (p - 1)) top else MZero s).
    { intros m E' L HM. rewrite FIN. unfold check_range. replace (E' <? c_emin c) with true by lia. fold p. rewrite <- C3.
      assert (U : match c_rnd c with RoundToNearest => (E' + 1 <? top) || (m =? 2 ^ (p - 1)) && (0 <=? Z.sgn (t * D1 - N1))
                  | g => toward_zero g s end = negb up).
      { unfold up. destruct (c_rnd c) eqn:G; try (rewrite negb_involutive; reflexivity).
        replace (2 ^ (p - 1) * D <? 2 * N) with false by lia. cbn [negb].
        destruct HM as [[-> ->]|(-> & -> & T)].
        - replace (E + 1 <? top) with true by (unfold j in J3; lia). reflexivity.
        - rewrite Z.eqb_refl. cbn [andb]. apply orb_true_iff. right. apply Z.leb_le. apply Z.sgn_nonneg. rewrite T. lia. }
      rewrite U. destruct up; reflexivity. }
    unfold renorm. destruct (Z.eqb_spec t (2 ^ p)) as [T|T]; apply G; try lia; auto; unfold j in J3; lia.
Qed.

(** Magnitudes of representable patterns. *)
Definition repm (f : fmt) (k : Z) : Prop :=
  0 <= k < IM f /\ (f_ieee f = false -> k = 0 \/ 2 ^ f_mb f <= k).

(** N/D lies between the representable neighbours lo and hi, and kk is the one taken. *)
Definition goes_up (f : fmt) (g : gmode) (s : bool) (N D lo hi : Z) : bool :=
  match g with
  | RoundToNearest =>
      ((V (f_mb f) lo + V (f_mb f) hi) * D <? 2 * N)
      || (((V (f_mb f) lo + V (f_mb f) hi) * D =? 2 * N) && Z.odd lo)
  | _ => negb (N =? V (f_mb f) lo * D) && negb (toward_zero g s)
  end.
Definition neighbours (f : fmt) (N D lo hi : Z) : Prop :=
  repm f lo /\ (repm f hi \/ hi = IM f /\ lo = IM f - 1) /\ lo < hi /\
  (forall k, repm f k -> k <= lo \/ hi <= k) /\
  V (f_mb f) lo * D <= N < V (f_mb f) hi * D /\ (Z.odd lo = true -> Z.even hi = true).

Lemma IM_even f : okf f -> Z.even (IM f) = true /\ Z.odd (IM f - 1) = true.
Proof.
  intros [O1 O2]. assert (E : Z.even (IM f) = true).
  { unfold IM. rewrite Z.even_mul. replace (f_mb f) with (f_mb f - 1 + 1) by lia. rewrite pow2_S by lia.
    rewrite (Z.even_mul 2). cbn. apply orb_true_r. }
  split; [exact E|]. replace (IM f - 1) with (Z.pred (IM f)) by lia. rewrite Z.odd_pred. exact E.
Qed.

Lemma IM_big f : wide f -> 2 * 2 ^ f_mb f <= IM f.
Proof.
  intros [W1 W2]. unfold IM. pose proof (pow2_le_mono 2 (f_eb f) ltac:(lia)) as L. change (2 ^ 2) with 4 in L.
  pose proof (pow2_pos (f_mb f) ltac:(lia)). nia.
Qed.

Lemma round_cases f s n d N D : wide f -> 0 < n -> 0 < d -> scaled n d (top f - (f_mb f + 1)) = (N, D) ->
  let v := mpfr_round (fctx f) (NRat s n d) in
  let g := mode_2_gmpy2 (f_mode f) in
  let kk := mag_pat (f_mb f + 1) (top f) (IM f) v in
  is_signed v = s /\ is_nan v = false /\ wfv f v /\
  ((exists lo hi, neighbours f N D lo hi /\ kk = if goes_up f g s N D lo hi then hi else lo) \/
   V (f_mb f) (IM f) * D <= N /\ kk = if toward_zero g s then IM f - 1 else IM f).
Proof.
  intros W Hn Hd HS v g kk. pose proof (wide_okf f W) as O. pose proof (fctx_ok f W) as C.
  pose proof (IM_big f W) as IB. pose proof (IM_range f O) as (I1 & _ & _).
  pose proof O as [O1 O2]. pose proof (pow2_pos (f_mb f) ltac:(lia)) as PM.
  pose proof (scaled_pos _ _ _ _ _ Hn Hd HS) as [PN PD].
  assert (CP : c_prec (fctx f) = f_mb f + 1) by (rewrite fctx_eq by exact O; reflexivity).
  assert (CG : c_rnd (fctx f) = g) by (rewrite fctx_eq by exact O; reflexivity).
  assert (CS : c_sub (fctx f) = f_ieee f) by (rewrite fctx_eq by exact O; reflexivity).
  assert (PK : forall k, 0 <= k -> (f_ieee f = false -> 2 ^ f_mb f <= k) ->
     V (f_mb f) k * D <= N < V (f_mb f) (k + 1) * D ->
     is_signed v = s /\ is_nan v = false /\ wfv f v /\ kk = pick (f_mb f) (IM f) g s k N D ->
     is_signed v = s /\ is_nan v = false /\ wfv f v /\
     ((exists lo hi, neighbours f N D lo hi /\ kk = if goes_up f g s N D lo hi then hi else lo) \/
      V (f_mb f) (IM f) * D <= N /\ kk = if toward_zero g s then IM f - 1 else IM f)).
  { intros k K0 KI KB (R1 & R2 & R3 & R4). split; [exact R1|]. split; [exact R2|]. split; [exact R3|].
    unfold pick in R4. destruct (Z.leb_spec (IM f) k) as [L|L].
    - right. split; [|exact R4]. pose proof (V_le (f_mb f) O2 (IM f) k ltac:(lia)). nia.
    - left. exists k, (k + 1). split.
      + split; [split; [lia|auto]|]. split.
        { destruct (Z.eq_dec (k + 1) (IM f)) as [Q|Q]; [right; lia|left]. split; [lia|]. intros X. specialize (KI X). lia. }
        split; [lia|]. split; [intros k' _; lia|]. split; [exact KB|].
        intros OD. rewrite Z.add_1_r, Z.even_succ. exact OD.
      + rewrite R4. unfold choose. fold (goes_up f g s N D k (k + 1)). destruct (goes_up f g s N D k (k + 1)); cbn [b2z]; lia. }
  rewrite <- CP in HS.
  destruct (Z_lt_le_dec (mag n d) (top f)) as [L|L].
  - destruct (f_ieee f) eqn:IE.
    + destruct (round_subnormal (fctx f) (top f) s n d N D C CS Hn Hd HS L) as (k & K1 & K2 & K3 & K4 & K5 & K6).
      rewrite CP in K1, K2, K6. replace (f_mb f + 1 - 1) with (f_mb f) in * by lia. rewrite CG, (inf_mag_eq f O) in K6.
      apply (PK k); [lia|congruence|exact K2|]. auto.
    + destruct (round_flush (fctx f) (top f) s n d N D C CS Hn Hd HS L) as [NB VE].
      fold v in VE. rewrite CP, CG in VE. rewrite CP in NB. replace (f_mb f + 1 - 1) with (f_mb f) in * by lia.
      assert (WV : is_signed v = s /\ is_nan v = false /\ wfv f v).
      { rewrite VE. match goal with |- context [if ?b then MFin _ _ _ else _] => destruct b end; cbn [is_signed is_nan]; split; [reflexivity| |reflexivity|]; (split; [reflexivity|]).
        - unfold wfv. rewrite fctx_eq by exact O. cbn [wfm c_prec c_emin c_emax]. rewrite IE.
          replace (f_mb f + 1 - 1) with (f_mb f) by lia. rewrite pow2_S by lia. destruct C as (_ & C2 & _).
          rewrite fctx_eq in C2 by exact O. cbn [c_emax] in C2. lia.
        - exact I. }
      destruct WV as (V1 & V2 & V3). split; [exact V1|]. split; [exact V2|]. split; [exact V3|]. left.
      exists 0, (2 ^ f_mb f).
      assert (V0 : V (f_mb f) 0 = 0) by (apply V_sub; lia). assert (VT : V (f_mb f) (2 ^ f_mb f) = 2 ^ f_mb f) by (apply V_sub_top; lia).
      split.
      * unfold neighbours, repm. rewrite V0, VT. split; [split; [lia|auto]|]. split; [left; split; [lia|intros _; right; lia]|]. split; [lia|].
        split; [intros k [_ K]; specialize (K IE); lia|]. split; [lia|]. discriminate.
      * unfold kk. rewrite VE. unfold goes_up. rewrite V0, VT, Z.add_0_l, Z.mul_0_l. replace (N =? 0) with false by lia.
        rewrite andb_false_r, orb_false_r. cbn [negb andb].
        assert (MP : mpat (f_mb f + 1) (top f) (2 ^ f_mb f) (top f) = 2 ^ f_mb f).
        { unfold mpat. rewrite Z.ltb_irrefl. lia. }
        destruct g; match goal with |- context [if ?b then MFin _ _ _ else _] => destruct b end; cbn [mag_pat]; auto.
  - destruct (round_normal (fctx f) (top f) s n d N D C Hn Hd HS L) as (k & K1 & K2 & K3 & K4 & K5 & K6).
    rewrite CP in K1, K2, K6. replace (f_mb f + 1 - 1) with (f_mb f) in * by lia. rewrite CG, (inf_mag_eq f O) in K6.
    apply (PK k); [lia|auto|exact K2|]. auto.
Qed.

(** Every rounded value is one the format can hold. *)
Lemma round_wf f x : wide f -> num_ok x -> wfv f (mpfr_round (fctx f) x).
Proof.
  intros W Hx. destruct x as [s|s|s|s n d]; try exact I. destruct Hx as [Hn Hd].
  destruct (scaled n d (top f - (f_mb f + 1))) as [N D] eqn:HS. now destruct (round_cases f s n d N D W Hn Hd HS) as (_ & _ & H & _).
Qed.
Lemma op_store f r : wide f -> num_ok r -> fp_op f r = fp_init f r.
Proof.
  intros W R. unfold fp_op, fp_init. apply wrap_wf; [apply wide_okf, W|now apply round_wf].
Qed.
