(** mpfr_round meets the rounding specification. *)
From Coq Require Import Lia ZArith QArith Qpower Qabs ZifyBool.
From Verif Require Import PyBase BVModel BVSpec BVFacts FPModel FPSpec FPRoundFacts FPPatFacts FPEncFacts FPDecFacts FPBracket FPQFacts.
Open Scope Z_scope.

Definition enc (f : fmt) (s : bool) (k : Z) : Z := b2z s * 2 ^ (f_eb f + f_mb f) + k.

Lemma repm_range f k : okf f -> repm f k -> 0 <= k < 2 ^ (f_eb f + f_mb f).
Proof. intros O [H _]. pose proof (IM_range f O). lia. Qed.

Lemma div_IM f k : okf f -> 0 <= k < 2 ^ (f_eb f + f_mb f) -> (k / 2 ^ f_mb f <> all_ones f <-> k < IM f).
Proof.
  intros O K. pose proof O as [O1 O2]. pose proof (pow2_pos (f_mb f) ltac:(lia)) as PM. unfold all_ones, IM.
  rewrite pow2_split in K by lia.
  assert (L : k / 2 ^ f_mb f < 2 ^ f_eb f) by (apply Z.div_lt_upper_bound; lia).
  pose proof (Z.div_mod k (2 ^ f_mb f) ltac:(lia)) as DM. pose proof (Z.mod_pos_bound k (2 ^ f_mb f) PM) as MB.
  split; intros H; [|intros X; rewrite X in DM; lia]. assert (k / 2 ^ f_mb f <= 2 ^ f_eb f - 2) by lia. nia.
Qed.

Lemma rep_intro f s k : okf f -> repm f k -> representable f (enc f s k).
Proof.
  intros O R. pose proof (repm_range f k O R) as K. destruct (fields f s k O K) as (F1 & _ & F3 & F4 & _).
  destruct R as [R1 R2]. pose proof O as [O1 O2]. pose proof (pow2_pos (f_mb f) ltac:(lia)) as PM.
  unfold representable, pat_finite, pat_subnormal. unfold enc. split; [split; [exact F1|]|].
  - rewrite F3. apply div_IM; [exact O|exact K|lia].
  - intros I [S1 S2]. rewrite F3 in S1. rewrite F4 in S2. specialize (R2 I).
    apply Z.div_small_iff in S1; [|lia]. destruct R2 as [->|R2]; [apply S2; apply Z.mod_0_l; lia|lia].
Qed.

Lemma rep_inv f b : okf f -> representable f b ->
  exists s k, b = enc f s k /\ repm f k /\ (pat_value f b == inject_Z (W f s k) * unit f)%Q.
Proof.
  intros O [[P NE] NS]. destruct (split_pattern f b O P) as (k & K & B & KE).
  exists (pat_sign f b), k. split; [exact B|]. split.
  - destruct (fields f (pat_sign f b) k O K) as (_ & _ & F3 & F4 & _). rewrite <- B in F3, F4.
    split; [rewrite F3 in NE; apply div_IM in NE; auto; lia|].
    intros I. specialize (NS I). unfold pat_subnormal in NS. rewrite F3, F4 in NS.
    pose proof (pow2_pos (f_mb f) ltac:(destruct O; lia)) as PM.
    destruct (Z_lt_le_dec k (2 ^ f_mb f)) as [L|L]; [left|right; exact L].
    rewrite Z.div_small, Z.mod_small in NS by lia. lia.
  - rewrite B. rewrite pat_value_W by assumption. rewrite <- B. reflexivity.
Qed.

Lemma inf_intro f s : okf f -> is_pattern f (enc f s (IM f)) /\ pat_inf f (enc f s (IM f)).
Proof.
  intros O. pose proof (IM_range f O) as (I1 & I2 & I3). assert (K : 0 <= IM f < 2 ^ (f_eb f + f_mb f)) by lia.
  destruct (fields f s (IM f) O K) as (F1 & _ & F3 & F4 & _). split; [exact F1|]. unfold pat_inf, enc. rewrite F3, F4.
  rewrite <- (Z.add_0_r (IM f)). apply IM_div; [exact O|]. split; [lia|apply pow2_pos; destruct O; lia].
Qed.

Lemma enc_even f s k : okf f -> Z.even (enc f s k) = Z.even k.
Proof.
  intros [O1 O2]. unfold enc. rewrite Z.even_add, Z.even_mul.
  replace (Z.even (2 ^ (f_eb f + f_mb f))) with true; [rewrite orb_true_r; now destruct (Z.even k)|].
  symmetry. apply Z.even_pow. lia.
Qed.

Lemma W_mul f s k D : W f s k * D = sgnz s (V (f_mb f) k * D).
Proof. unfold W, sgnz. destruct s; ring. Qed.
Lemma W_abs f s k : okf f -> 0 <= k -> Z.abs (W f s k) = V (f_mb f) k.
Proof. intros [O1 O2] K. pose proof (V_nonneg (f_mb f) O2 k K). unfold W, sgnz. destruct s; lia. Qed.

Lemma threshold_cmp f s N D : wide f -> 0 < N -> 0 < D ->
  ((Qabs (inject_Z (sgnz s N) / inject_Z D * unit f) < overflow_threshold f)%Q <->
   2 * N < (V (f_mb f) (IM f - 1) + V (f_mb f) (IM f)) * D) /\
  ((overflow_threshold f <= Qabs (inject_Z (sgnz s N) / inject_Z D * unit f))%Q <->
   (V (f_mb f) (IM f - 1) + V (f_mb f) (IM f)) * D <= 2 * N).
Proof.
  intros Wf HN HD. pose proof (pow2q_pos (1 - bias f - f_mb f)) as UP. fold (unit f) in UP.
  set (T := V (f_mb f) (IM f - 1) + V (f_mb f) (IM f)).
  assert (E : (Qabs (inject_Z (sgnz s N) / inject_Z D * unit f) == inject_Z (2 * N) / inject_Z (2 * D) * unit f)%Q).
  { rewrite conv_abs by assumption. replace (Z.abs (sgnz s N)) with N by (destruct s; cbn [sgnz]; lia).
    rewrite !inject_Z_mult. field. intros X. apply (inject_Z_injective D 0) in X. lia. }
  assert (T' : (overflow_threshold f == inject_Z (T * D) / inject_Z (2 * D) * unit f)%Q).
  { rewrite threshold_W by exact Wf. fold T. rewrite !inject_Z_mult. field. intros X. apply (inject_Z_injective D 0) in X. lia. }
  assert (LE : (overflow_threshold f <= Qabs (inject_Z (sgnz s N) / inject_Z D * unit f))%Q <-> T * D <= 2 * N).
  { rewrite E, T'. apply conv_le2; [exact UP|lia]. }
  split; [|exact LE]. split; intros H.
  - apply Z.nle_gt. intros X. apply LE in X. revert X. now apply Qlt_not_le.
  - apply Qnot_le_lt. intros X. apply LE in X. lia.
Qed.

Lemma rounds_spec f s n d : wide f -> 0 < n -> 0 < d ->
  let b := pat f (mpfr_round (fctx f) (NRat s n d)) in
  match f_mode f with
  | RNA => rounds_away f (ratq s n d) b
  | r => rounds_to f r (ratq s n d) b
  end.
Proof.
  intros Wf Hn Hd b. pose proof (wide_okf f Wf) as O. pose proof O as [O1 O2].
  destruct (scaled n d (top f - (f_mb f + 1))) as [N D] eqn:HS.
  pose proof (scaled_pos _ _ _ _ _ Hn Hd HS) as [PN PD].
  destruct (round_cases f s n d N D Wf Hn Hd HS) as (V1 & V2 & V3 & RC).
  pose proof (ratq_M f s n d N D O Hd HS PD) as XQ. set (x := ratq s n d) in *.
  assert (B : b = enc f s (mag_pat (f_mb f + 1) (top f) (IM f) (mpfr_round (fctx f) (NRat s n d)))).
  { unfold b, pat, enc. rewrite V1. destruct (mpfr_round _ _); [discriminate|reflexivity..]. }
  set (kk := mag_pat _ _ _ _) in *. clearbody x b. clear V1 V2 V3 HS. subst b. clearbody kk.
  pose proof (pow2q_pos (1 - bias f - f_mb f)) as UP. fold (unit f) in UP.
  destruct (IM_even f O) as [IE IO]. pose proof (IM_range f O) as (I1 & I2 & _).
  pose proof (IM_big f Wf) as IB. pose proof (pow2_pos (f_mb f) ltac:(lia)) as PM.
  assert (RIM : repm f (IM f - 1)) by (split; lia).
  destruct (threshold_cmp f s N D Wf PN PD) as [TL TG].
  assert (SGN : forall k, 0 <= k < 2 ^ (f_eb f + f_mb f) -> is_pattern f (enc f s k) /\ (pat_sign f (enc f s k) = true <-> (x < 0)%Q)).
  { intros k K. destruct (fields f s k O K) as (F1 & F2 & _). split; [exact F1|]. unfold enc. rewrite F2, XQ, conv_neg by assumption.
    destruct s; cbn [sgnz]; lia. }
  (* the value at a pattern *)
  assert (VAL : forall k, repm f k -> (pat_value f (enc f s k) == inject_Z (W f s k) * unit f)%Q).
  { intros k R. apply pat_value_W; [exact O|]. now apply repm_range. }
  assert (POS : (0 < x)%Q <-> s = false). { rewrite XQ, conv_pos by assumption. destruct s; cbn [sgnz]; split; (lia || discriminate || auto). }
  assert (NEG : (x < 0)%Q <-> s = true). { rewrite XQ, conv_neg by assumption. destruct s; cbn [sgnz]; split; (lia || discriminate || auto). }
  (* an infinity after an overflow *)
  assert (INF : V (f_mb f) (IM f - 1) * D < N -> forall b', representable f b' -> (Qabs (pat_value f b') < Qabs x)%Q).
  { intros L b' R'. destruct (rep_inv f b' O R') as (s' & k' & -> & RK & ->). rewrite XQ, val_abs, conv_abs by assumption.
    rewrite conv_gt by assumption. rewrite W_abs by (auto; apply RK).
    replace (Z.abs (sgnz s N)) with N by (destruct s; cbn [sgnz]; lia).
    pose proof (V_le (f_mb f) O2 k' (IM f - 1) ltac:(destruct RK; lia)). nia. }
  assert (INFX : V (f_mb f) (IM f - 1) * D < N -> forall b', representable f b' ->
     if s then (x < pat_value f b')%Q else (pat_value f b' < x)%Q).
  { intros L b' R'. specialize (INF L b' R'). destruct s.
    - assert (X : (x < 0)%Q) by (apply NEG; reflexivity).
      apply Qnot_le_lt. intros Y. apply (Qlt_not_le _ _ INF).
      rewrite (Qabs_neg x) by (apply Qlt_le_weak, X). rewrite (Qabs_neg (pat_value f b')).
      + now apply Qopp_le_compat.
      + eapply Qle_trans; [exact Y|apply Qlt_le_weak, X].
    - assert (X : (0 < x)%Q) by (apply POS; reflexivity).
      apply Qnot_le_lt. intros Y. apply (Qlt_not_le _ _ INF).
      rewrite (Qabs_pos x) by (apply Qlt_le_weak, X). rewrite (Qabs_pos (pat_value f b')); [exact Y|].
      eapply Qle_trans; [apply Qlt_le_weak, X|exact Y]. }
  destruct (inf_intro f s O) as [PI QI].
  (* bounds of any representable magnitude *)
  assert (TERM : forall k', repm f k' -> 0 <= V (f_mb f) k' * D).
  { intros k' [R _]. pose proof (V_nonneg (f_mb f) O2 k' ltac:(lia)). nia. }
  destruct RC as [(lo & hi & NB & KK)|[OV KK]].
  - destruct NB as (RL & RH & LH & GAP & [NL NH] & EV).
    set (L := V (f_mb f) lo * D) in *. set (H := V (f_mb f) hi * D) in *.
    assert (SEP : forall k', repm f k' -> V (f_mb f) k' * D <= L \/ H <= V (f_mb f) k' * D).
    { intros k' R. destruct (GAP k' R) as [X|X]; [left|right].
      - pose proof (V_le (f_mb f) O2 k' lo ltac:(destruct R; lia)). unfold L. nia.
      - pose proof (V_le (f_mb f) O2 hi k' ltac:(destruct RL; lia)). unfold H. nia. }
    assert (STR : forall k', repm f k' -> V (f_mb f) k' * D = L -> k' = lo).
    { intros k' R X. destruct (Z.lt_trichotomy k' lo) as [Y|[Y|Y]]; [|exact Y|].
      - pose proof (V_lt (f_mb f) O2 k' lo ltac:(destruct R; lia)). unfold L in X. nia.
      - pose proof (V_lt (f_mb f) O2 lo k' ltac:(destruct RL; lia)). unfold L in X. nia. }
    assert (STRH : forall k', repm f k' -> V (f_mb f) k' * D = H -> k' = hi).
    { intros k' R X. destruct (Z.lt_trichotomy k' hi) as [Y|[Y|Y]]; [|exact Y|].
      - pose proof (V_lt (f_mb f) O2 k' hi ltac:(destruct R; lia)). unfold H in X. nia.
      - pose proof (V_lt (f_mb f) O2 hi k' ltac:(destruct RL; lia)). unfold H in X. nia. }
    pose proof (TERM lo RL) as L0. fold L in L0.
    assert (SUM : (V (f_mb f) lo + V (f_mb f) hi) * D = L + H) by (unfold L, H; ring).
    assert (INFH : repm f hi \/ hi = IM f /\ lo = IM f - 1 /\ ~ repm f hi).
    { destruct RH as [R|[R1 R2]]; [left; exact R|right]. split; [exact R1|]. split; [exact R2|]. intros [X _]. lia. }
    (* below the threshold unless hi = IM *)
    assert (BELOW : repm f hi -> 2 * N < (V (f_mb f) (IM f - 1) + V (f_mb f) (IM f)) * D).
    { intros [R _]. pose proof (V_le (f_mb f) O2 hi (IM f - 1) ltac:(destruct RL; lia)).
      pose proof (V_lt (f_mb f) O2 (IM f - 1) (IM f) ltac:(lia)). unfold H in NH. nia. }
    (* the finite case of each direction, for a chosen representable k *)
    assert (NEAR : forall k, repm f k -> 2 * N < (V (f_mb f) (IM f - 1) + V (f_mb f) (IM f)) * D ->
       (k = lo /\ 2 * N <= L + H \/ k = hi /\ L + H <= 2 * N) -> nearest f x (enc f s k)).
    { intros k R TH KC. split; [now apply rep_intro|]. split; [rewrite XQ; now apply TL|].
      intros b' R'. destruct (rep_inv f b' O R') as (s' & k' & -> & RK & ->). rewrite XQ, (VAL k R).
      rewrite !conv_dist by assumption. rewrite conv_le2 by assumption. rewrite !W_mul.
      pose proof (SEP k' RK) as SK. pose proof (TERM k' RK) as TK.
      assert (VK : V (f_mb f) k * D = L /\ 2 * N <= L + H \/ V (f_mb f) k * D = H /\ L + H <= 2 * N).
      { destruct KC as [[-> X]|[-> X]]; [left|right]; (split; [reflexivity|exact X]). }
      set (T := V (f_mb f) k * D) in *. set (T' := V (f_mb f) k' * D) in *.
      clear - SK TK VK NL NH L0. destruct s, s'; cbn [sgnz]; lia. }
    assert (TIE : forall k, repm f k -> (k = lo /\ 2 * N <= L + H \/ k = hi /\ L + H <= 2 * N) ->
       forall b', tie f x (enc f s k) b' -> 2 * N = L + H).
    { intros k R KC b' (R' & TE & TN). destruct (rep_inv f b' O R') as (s' & k' & -> & RK & PV).
      rewrite XQ, PV, (VAL k R) in TE. rewrite PV, (VAL k R) in TN. rewrite !conv_dist in TE by assumption.
      rewrite conv_eq2 in TE by assumption. rewrite val_eq in TN by assumption. rewrite !W_mul in TE.
      pose proof (SEP k' RK) as SK. pose proof (TERM k' RK) as TK.
      assert (TN' : sgnz s' (V (f_mb f) k' * D) <> sgnz s (V (f_mb f) k * D)).
      { rewrite <- !W_mul. intros X. apply TN. nia. }
      assert (VK : V (f_mb f) k * D = L /\ 2 * N <= L + H \/ V (f_mb f) k * D = H /\ L + H <= 2 * N).
      { destruct KC as [[-> X]|[-> X]]; [left|right]; (split; [reflexivity|exact X]). }
      set (T := V (f_mb f) k * D) in *. set (T' := V (f_mb f) k' * D) in *.
      clear - SK TK VK NL NH L0 TE TN' PN. destruct s, s'; cbn [sgnz] in *; lia. }
    assert (LOW : forall b', representable f b' -> (Qabs (pat_value f b') <= Qabs x)%Q ->
       (Qabs (pat_value f b') <= Qabs (pat_value f (enc f s lo)))%Q).
    { intros b' R'. destruct (rep_inv f b' O R') as (s' & k' & -> & RK & ->). rewrite XQ, (VAL lo RL), !val_abs, conv_abs by assumption.
      rewrite conv_ge, val_le by assumption. rewrite !W_abs by (auto; apply RK || apply RL).
      replace (Z.abs (sgnz s N)) with N by (destruct s; cbn [sgnz]; lia). intros X.
      destruct (SEP k' RK) as [Y|Y]; [unfold L in Y; nia|lia]. }
    assert (LOWX : (Qabs (pat_value f (enc f s lo)) <= Qabs x)%Q).
    { rewrite XQ, (VAL lo RL), val_abs, conv_abs by assumption. rewrite conv_ge by assumption. rewrite W_abs by (auto; apply RL).
      replace (Z.abs (sgnz s N)) with N by (destruct s; cbn [sgnz]; lia). exact NL. }
    (* rounding towards the side of zero *)
    assert (TZ : if s then (x <= pat_value f (enc f s lo))%Q /\
                      (forall b', representable f b' -> (x <= pat_value f b')%Q -> (pat_value f (enc f s lo) <= pat_value f b')%Q)
                 else (pat_value f (enc f s lo) <= x)%Q /\
                      (forall b', representable f b' -> (pat_value f b' <= x)%Q -> (pat_value f b' <= pat_value f (enc f s lo))%Q)).
    { destruct s; (split; [rewrite XQ, (VAL lo RL); first [rewrite conv_le by assumption | rewrite conv_ge by assumption]; rewrite W_mul; cbn [sgnz]; fold L; lia|]);
        intros b' R'; destruct (rep_inv f b' O R') as (s' & k' & -> & RK & ->); rewrite XQ, (VAL lo RL);
        rewrite val_le by assumption; first [rewrite conv_le by assumption | rewrite conv_ge by assumption]; rewrite W_mul; intros X;
        pose proof (SEP k' RK) as SK; pose proof (TERM k' RK) as TK.
      - assert (Y : W f true lo * D <= W f s' k' * D).
        { rewrite !W_mul. fold L. destruct s'; cbn [sgnz] in *; lia. } nia.
      - assert (Y : W f s' k' * D <= W f false lo * D).
        { rewrite !W_mul. fold L. destruct s'; cbn [sgnz] in *; lia. } nia. }
    (* rounding away from zero to a representable number *)
    assert (AWX : forall k, repm f k -> (k = lo /\ N = L \/ k = hi /\ L < N) ->
      if s then (pat_value f (enc f s k) <= x)%Q /\
                      (forall b', representable f b' -> (pat_value f b' <= x)%Q -> (pat_value f b' <= pat_value f (enc f s k))%Q)
                 else (x <= pat_value f (enc f s k))%Q /\
                      (forall b', representable f b' -> (x <= pat_value f b')%Q -> (pat_value f (enc f s k) <= pat_value f b')%Q)).
    { intros k R KC.
      assert (VK : V (f_mb f) k * D = L /\ N = L \/ V (f_mb f) k * D = H /\ L < N).
      { destruct KC as [[-> X]|[-> X]]; [left|right]; (split; [reflexivity|exact X]). }
      set (T := V (f_mb f) k * D) in *.
      destruct s; (split; [rewrite XQ, (VAL k R); first [rewrite conv_le by assumption | rewrite conv_ge by assumption]; rewrite W_mul; cbn [sgnz]; fold T; lia|]);
        intros b' R'; destruct (rep_inv f b' O R') as (s' & k' & -> & RK & ->); rewrite XQ, (VAL k R);
        rewrite val_le by assumption; first [rewrite conv_le by assumption | rewrite conv_ge by assumption]; rewrite W_mul; intros X;
        pose proof (SEP k' RK) as SK; pose proof (TERM k' RK) as TK.
      - assert (Y : W f s' k' * D <= W f true k * D).
        { rewrite !W_mul. fold T. destruct s'; cbn [sgnz] in *; lia. } nia.
      - assert (Y : W f false k * D <= W f s' k' * D).
        { rewrite !W_mul. fold T. destruct s'; cbn [sgnz] in *; lia. } nia. }
    assert (AWAY : forall k, repm f k -> (k = lo /\ N = L \/ k = hi /\ L < N) ->
       (Qabs x <= Qabs (pat_value f (enc f s k)))%Q /\
       forall b', representable f b' -> (Qabs x <= Qabs (pat_value f b'))%Q -> (Qabs (pat_value f (enc f s k)) <= Qabs (pat_value f b'))%Q).
    { intros k R KC.
      assert (VK : V (f_mb f) k * D = L /\ N = L \/ V (f_mb f) k * D = H /\ L < N).
      { destruct KC as [[-> X]|[-> X]]; [left|right]; (split; [reflexivity|exact X]). }
      rewrite XQ, (VAL k R), val_abs, conv_abs by assumption. rewrite conv_le by assumption. rewrite W_abs by (auto; apply R).
      replace (Z.abs (sgnz s N)) with N by (destruct s; cbn [sgnz]; lia). split; [lia|].
      intros b' R'. destruct (rep_inv f b' O R') as (s' & k' & -> & RK & ->). rewrite XQ, (VAL k R), !val_abs, conv_abs, conv_le, val_le by assumption.
      rewrite !W_abs by (auto; apply RK || apply R). replace (Z.abs (sgnz s N)) with N by (destruct s; cbn [sgnz]; lia). intros X. pose proof (SEP k' RK) as SK.
      assert (Y : V (f_mb f) k * D <= V (f_mb f) k' * D) by lia. nia. }
    pose proof (repm_range f lo O RL) as KL.
    assert (KH : 0 <= hi < 2 ^ (f_eb f + f_mb f)) by (destruct INFH as [R|[R _]]; [now apply repm_range|lia]).
    assert (LOIM : hi = IM f -> V (f_mb f) (IM f - 1) * D = L) by (intros X; destruct INFH as [[R _]|(_ & -> & _)]; [lia|reflexivity]).
    unfold goes_up in KK. rewrite SUM in KK. fold L in KK.
    destruct (f_mode f); cbn [mode_2_gmpy2 toward_zero negb] in KK.
    + (* RNE *)
      assert (S : is_pattern f (enc f s kk) /\ (pat_sign f (enc f s kk) = true <-> (x < 0)%Q)).
      { apply SGN. rewrite KK. destruct (_ || _); assumption. }
      destruct S as [S1 S2]. split; [exact S1|]. split; [exact S2|].
      destruct ((L + H <? 2 * N) || (L + H =? 2 * N) && Z.odd lo) eqn:U; subst kk.
      * assert (U' : L + H <= 2 * N) by lia.
        destruct INFH as [RHH|(-> & EL & _)].
        -- left. split; [apply NEAR; auto|]. intros b' T. rewrite enc_even by exact O. apply TIE in T; auto.
           apply EV. lia.
        -- right. split; [|exact QI]. rewrite XQ. apply TG. unfold L, H in U'. rewrite EL in U'. lia.
      * assert (U' : 2 * N <= L + H) by lia.
        assert (TH : 2 * N < (V (f_mb f) (IM f - 1) + V (f_mb f) (IM f)) * D).
        { destruct INFH as [RHH|(EH & EL & _)]; [now apply BELOW|]. rewrite <- EL, <- EH, SUM. rewrite EL in U. rewrite IO in U. lia. }
        left. split; [apply NEAR; auto|]. intros b' T. rewrite enc_even by exact O. apply TIE in T; auto.
        rewrite <- Z.negb_odd. destruct (Z.odd lo); [lia|reflexivity].
    + (* RNA *)
      assert (S : is_pattern f (enc f s kk) /\ (pat_sign f (enc f s kk) = true <-> (x < 0)%Q)).
      { apply SGN. rewrite KK. destruct (_ && _); assumption. }
      destruct S as [S1 S2]. split; [exact S1|]. split; [exact S2|]. rewrite andb_true_r in KK.
      destruct (Z.eqb_spec N L) as [E|E]; cbn [negb] in KK; subst kk.
      * left. split; [now apply rep_intro|]. apply AWAY; auto.
      * destruct INFH as [RHH|(EH & EL & _)].
        -- left. split; [now apply rep_intro|]. apply AWAY; auto. right. split; [reflexivity|lia].
        -- right. rewrite EH. split; [exact QI|]. apply INF. rewrite (LOIM EH). lia.
    + (* RTP *)
      assert (S : is_pattern f (enc f s kk) /\ (pat_sign f (enc f s kk) = true <-> (x < 0)%Q)).
      { apply SGN. rewrite KK. destruct (_ && _); assumption. }
      destruct S as [S1 S2]. split; [exact S1|]. split; [exact S2|].
      destruct s; cbn [negb] in KK; [rewrite andb_false_r in KK|rewrite andb_true_r in KK].
      * subst kk. left. split; [now apply rep_intro|]. exact TZ.
      * destruct (Z.eqb_spec N L) as [E|E]; cbn [negb] in KK; subst kk.
        -- left. split; [now apply rep_intro|]. apply AWX; auto.
        -- destruct INFH as [RHH|(EH & EL & _)].
           ++ left. split; [now apply rep_intro|]. apply AWX; auto. right. split; [reflexivity|lia].
           ++ right. rewrite EH. split; [exact QI|]. split; [now apply POS|]. apply INFX. rewrite (LOIM EH). lia.
    + (* RTN *)
      assert (S : is_pattern f (enc f s kk) /\ (pat_sign f (enc f s kk) = true <-> (x < 0)%Q)).
      { apply SGN. rewrite KK. destruct (_ && _); assumption. }
      destruct S as [S1 S2]. split; [exact S1|]. split; [exact S2|]. rewrite negb_involutive in KK.
      destruct s; cbn [negb] in KK; [rewrite andb_true_r in KK|rewrite andb_false_r in KK].
      * destruct (Z.eqb_spec N L) as [E|E]; cbn [negb] in KK; subst kk.
        -- left. split; [now apply rep_intro|]. apply AWX; auto.
        -- destruct INFH as [RHH|(EH & EL & _)].
           ++ left. split; [now apply rep_intro|]. apply AWX; auto. right. split; [reflexivity|lia].
           ++ right. rewrite EH. split; [exact QI|]. split; [now apply NEG|]. apply INFX. rewrite (LOIM EH). lia.
      * subst kk. left. split; [now apply rep_intro|]. exact TZ.
    + (* RTZ *)
      rewrite andb_false_r in KK. subst kk. destruct (SGN lo KL) as [S1 S2]. split; [exact S1|]. split; [exact S2|].
      split; [now apply rep_intro|]. split; [exact LOWX|exact LOW].
  - (* beyond the largest finite number *)
    pose proof (V_lt (f_mb f) O2 (IM f - 1) (IM f) ltac:(lia)) as VL.
    assert (OV' : V (f_mb f) (IM f - 1) * D < N) by nia.
    assert (OVT : (V (f_mb f) (IM f - 1) + V (f_mb f) (IM f)) * D <= 2 * N) by nia.
    assert (KI : 0 <= IM f < 2 ^ (f_eb f + f_mb f)) by lia.
    assert (KI1 : 0 <= IM f - 1 < 2 ^ (f_eb f + f_mb f)) by lia.
    assert (MAX : forall b', representable f b' -> (Qabs (pat_value f b') <= Qabs (pat_value f (enc f s (IM f - 1))))%Q).
    { intros b' R'. destruct (rep_inv f b' O R') as (s' & k' & -> & RK & ->). rewrite (VAL _ RIM), !val_abs by assumption.
      rewrite val_le by assumption. rewrite !W_abs by (auto; apply RK || lia). apply V_le; [exact O2|destruct RK; lia]. }
    assert (MAXX : if s then (pat_value f (enc f s (IM f - 1)) <= 0)%Q else (0 <= pat_value f (enc f s (IM f - 1)))%Q).
    { pose proof (V_nonneg (f_mb f) O2 (IM f - 1) ltac:(lia)) as VN.
      destruct s; rewrite (VAL _ RIM); setoid_replace 0%Q with (inject_Z 0 * unit f)%Q by (rewrite Qmult_0_l; reflexivity);
        rewrite val_le by assumption; unfold W; cbn [sgnz]; lia. }
    assert (MAXS : forall b', representable f b' -> if s then (pat_value f (enc f s (IM f - 1)) <= pat_value f b')%Q
                                                  else (pat_value f b' <= pat_value f (enc f s (IM f - 1)))%Q).
    { intros b' R'. specialize (MAX b' R'). destruct s.
      - rewrite (Qabs_neg (pat_value f (enc f true _))) in MAX by exact MAXX.
        pose proof (Qle_Qabs (- pat_value f b')) as X. rewrite Qabs_opp in X.
        apply Qopp_le_compat in X. rewrite Qopp_involutive in X. apply Qopp_le_compat in MAX. rewrite Qopp_involutive in MAX.
        eapply Qle_trans; [exact MAX|exact X].
      - rewrite (Qabs_pos (pat_value f (enc f false _))) in MAX by exact MAXX.
        eapply Qle_trans; [apply Qle_Qabs|exact MAX]. }
    pose proof (INF OV') as INF'. pose proof (INFX OV') as INFX'.
    pose proof (rep_intro f s _ O RIM) as RMX.
    destruct (f_mode f); cbn [mode_2_gmpy2 toward_zero] in KK.
    + subst kk. destruct (SGN _ KI) as [S1 S2]. split; [exact S1|]. split; [exact S2|].
      right. split; [|exact QI]. rewrite XQ. now apply TG.
    + subst kk. destruct (SGN _ KI) as [S1 S2]. split; [exact S1|]. split; [exact S2|]. right. auto.
    + destruct s; subst kk.
      * destruct (SGN _ KI1) as [S1 S2]. split; [exact S1|]. split; [exact S2|]. left. split; [exact RMX|].
        split; [apply Qlt_le_weak, (INFX' _ RMX)|]. intros b' R' _. apply MAXS, R'.
      * destruct (SGN _ KI) as [S1 S2]. split; [exact S1|]. split; [exact S2|]. right. split; [exact QI|]. split; [now apply POS|exact INFX'].
    + destruct s; cbn [negb] in KK; subst kk.
      * destruct (SGN _ KI) as [S1 S2]. split; [exact S1|]. split; [exact S2|]. right. split; [exact QI|]. split; [now apply NEG|exact INFX'].
      * destruct (SGN _ KI1) as [S1 S2]. split; [exact S1|]. split; [exact S2|]. left. split; [exact RMX|].
        split; [apply Qlt_le_weak, (INFX' _ RMX)|]. intros b' R' _. apply MAXS, R'.
    + subst kk. destruct (SGN _ KI1) as [S1 S2]. split; [exact S1|]. split; [exact S2|]. split; [exact RMX|].
      split; [apply Qlt_le_weak, INF', RMX|]. intros b' R' _. apply MAX, R'.
Qed.
