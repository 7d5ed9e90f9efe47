(** reinterpret_as_bv and reinterpret_from_bv; exactly representable numbers. *)
From Coq Require Import Lia ZArith QArith ZifyBool.
From Verif Require Import PyBase BVModel BVSpec BVFacts BVOps FPModel FPSpec FPRoundFacts FPPatFacts.
Open Scope Z_scope.

Definition top (f : fmt) : Z := 3 - 2 ^ (f_eb f - 1).
Definition IM (f : fmt) : Z := (2 ^ f_eb f - 1) * 2 ^ f_mb f.
Definition okf (f : fmt) : Prop := 1 <= f_eb f /\ 1 <= f_mb f.
Definition wfv (f : fmt) (v : mpfr) : Prop := wfm (fctx f) (top f) v.

Lemma okf_fmt f : fmt_ok f = true <-> okf f.
Proof. unfold fmt_ok, okf. lia. Qed.
Lemma wide_okf f : wide f -> okf f.
Proof. unfold wide, okf. lia. Qed.

Lemma fctx_eq f : okf f -> fctx f =
  Ctx (f_mb f + 1) (if f_ieee f then top f - f_mb f else top f) (2 ^ (f_eb f - 1)) (mode_2_gmpy2 (f_mode f)) (f_ieee f).
Proof.
  intros [H1 H2]. unfold fctx, top. rewrite Z.shiftl_1_l. f_equal. destruct (f_ieee f); lia.
Qed.

Lemma emax_pos f : okf f -> 1 <= 2 ^ (f_eb f - 1) /\ 2 ^ f_eb f = 2 * 2 ^ (f_eb f - 1).
Proof.
  intros [H1 H2]. pose proof (pow2_pos (f_eb f - 1) ltac:(lia)). split; [lia|].
  rewrite <- pow2_S by lia. f_equal. lia.
Qed.

Lemma fctx_ok f : wide f -> ctx_ok (fctx f) (top f).
Proof.
  intros H. pose proof (wide_okf f H) as H'. rewrite fctx_eq by exact H'.
  pose proof (pow2_le_mono 1 (f_eb f - 1) ltac:(unfold wide in H; lia)) as L. change (2 ^ 1) with 2 in L.
  destruct H as [H1 H2]. unfold ctx_ok, top. cbn [c_prec c_emax c_sub c_emin].
  split; [lia|]. split; [lia|]. destruct (f_ieee f); unfold top; lia.
Qed.

Lemma inf_mag_eq f : okf f -> inf_mag (fctx f) (top f) = IM f.
Proof.
  intros H. pose proof (emax_pos f H) as [E1 E2]. rewrite fctx_eq by exact H. unfold inf_mag, IM, top.
  cbn [c_prec c_emax]. replace (f_mb f + 1 - 1) with (f_mb f) by lia. rewrite E2. f_equal. lia.
Qed.

(** The pattern of a value. *)
Definition pat (f : fmt) (v : mpfr) : Z :=
  b2z (is_signed v) * 2 ^ (f_eb f + f_mb f)
  + match v with MNaN _ => IM f + 1 | _ => mag_pat (f_mb f + 1) (top f) (IM f) v end.

Lemma mpat_range f m E s : okf f -> wfv f (MFin s m E) -> E <= 2 ^ (f_eb f - 1) ->
  0 < mpat (f_mb f + 1) (top f) m E < 2 ^ (f_eb f + f_mb f) /\
  (mpat (f_mb f + 1) (top f) m E / 2 ^ f_mb f =
     if E <? top f then 0 else E - top f + 1) /\
  (mpat (f_mb f + 1) (top f) m E mod 2 ^ f_mb f =
     if E <? top f then m / 2 ^ (top f - E) else m - 2 ^ f_mb f).
Proof.
  intros O W HE. pose proof (emax_pos f O) as [E1 E2]. unfold wfv in W. rewrite fctx_eq in W by exact O.
  destruct O as [O1 O2].
  cbn [wfm c_prec c_emin c_emax] in W. destruct W as (W1 & W2 & W3).
  replace (f_mb f + 1 - 1) with (f_mb f) in W1 by lia.
  pose proof (pow2_pos (f_mb f) ltac:(lia)) as PM. rewrite pow2_S in W1 by lia.
  rewrite pow2_split by lia. unfold mpat. replace (f_mb f + 1 - 1) with (f_mb f) by lia.
  destruct (Z.ltb_spec E (top f)) as [L|L].
  - specialize (W3 L). set (j := top f - E) in *.
    assert (J : 1 <= j) by (unfold j; lia). pose proof (pow2_pos j ltac:(lia)) as PJ.
    assert (IE : f_ieee f = true) by (destruct (f_ieee f); [reflexivity|lia]). rewrite IE in W2.
    assert (JM : j <= f_mb f) by (unfold j; lia).
    assert (PMJ : 2 ^ f_mb f = 2 ^ (f_mb f - j) * 2 ^ j) by (rewrite <- pow2_split by lia; f_equal; lia).
    assert (J2 : 2 <= 2 ^ j) by (replace j with (j - 1 + 1) by lia; rewrite pow2_S by lia; pose proof (pow2_pos (j - 1)); lia).
    assert (Q0 : 0 < m / 2 ^ j).
    { apply Z.lt_le_trans with (2 ^ (f_mb f - j)); [apply pow2_pos; lia|]. apply Z.div_le_lower_bound; lia. }
    assert (Q1 : m / 2 ^ j < 2 ^ f_mb f) by (apply Z.div_lt_upper_bound; nia).
    split; [split; [lia|nia]|]. rewrite Z.div_small, Z.mod_small by lia. auto.
  - split; [split; [nia|]|].
    + rewrite E2. unfold top in *. nia.
    + replace ((E - top f) * 2 ^ f_mb f + m) with (m - 2 ^ f_mb f + (E - top f + 1) * 2 ^ f_mb f) by ring.
      rewrite Z.div_add, Z.mod_add, Z.div_small, Z.mod_small by lia. lia.
Qed.

Lemma IM_range f : okf f -> 0 < IM f /\ IM f + 1 < 2 ^ (f_eb f + f_mb f) /\ IM f + 2 ^ f_mb f = 2 ^ (f_eb f + f_mb f).
Proof.
  intros O. pose proof (emax_pos f O) as [E1 E2]. destruct O as [O1 O2]. unfold IM. rewrite pow2_split by lia.
  pose proof (pow2_le_mono 1 (f_mb f) ltac:(lia)) as L. change (2 ^ 1) with 2 in L. nia.
Qed.

Lemma pat_range f v : okf f -> wfv f v -> 0 <= pat f v < 2 ^ f_size f.
Proof.
  intros O W. pose proof (IM_range f O) as (I1 & I2 & I3). unfold f_size.
  replace (1 + f_eb f + f_mb f) with (f_eb f + f_mb f + 1) by lia. destruct O as [O1 O2]. rewrite pow2_S by lia.
  assert (M : 0 <= match v with MNaN _ => IM f + 1 | _ => mag_pat (f_mb f + 1) (top f) (IM f) v end < 2 ^ (f_eb f + f_mb f)).
  { destruct v; cbn [mag_pat]; try lia. destruct (mpat_range f m E s (conj O1 O2) W) as [R _]; [|lia].
    unfold wfv in W. rewrite fctx_eq in W by (split; assumption). cbn [wfm c_emax] in W. lia. }
  unfold pat. destruct (is_signed v); cbn [b2z]; lia.
Qed.

(** Building the pattern from its three fields. *)
Lemma cat3 : forall f e m s, okf f -> 0 <= e < 2 ^ f_eb f -> 0 <= m < 2 ^ f_mb f ->
  (a <- concat (BV (BVC KBV (f_mb f)) m) (VBV (BV (BVC KBV (f_eb f)) e)) ;;
   concat a (VBV (BV (BVC KBV 1) (b2z s)))) =
  Ok (BV (BVC KBV (f_size f)) (b2z s * 2 ^ (f_eb f + f_mb f) + (e * 2 ^ f_mb f + m))).
Proof.
  intros f e m s [O1 O2] He Hm.
  assert (W1 : wf (BV (BVC KBV (f_mb f)) m)) by (split; cbn; lia).
  assert (W2 : wf (BV (BVC KBV (f_eb f)) e)) by (split; cbn; lia).
  assert (W3 : wf (BV (BVC KBV 1) (b2z s))) by (split; cbn; [lia|destruct s; cbn; lia]).
  rewrite concat_spec by auto. cbn [bind bsize bcls csize bval bkind ck].
  assert (W4 : wf (BV (BVC KBV (f_mb f + f_eb f)) (m + e * 2 ^ f_mb f))).
  { split; cbn [bcls csize bval]; [lia|]. rewrite pow2_split by lia. nia. }
  rewrite concat_spec by auto. cbn [bsize bcls csize bval bkind ck].
  f_equal. f_equal; [f_equal; unfold f_size; lia|]. rewrite (Z.add_comm (f_mb f) (f_eb f)). lia.
Qed.

Lemma construct_int k n z : 0 <= n -> construct k n (VInt z) = Ok (BV (BVC k n) (z mod 2 ^ n)).
Proof. intros H. apply construct_converts; [exact H|constructor]. Qed.

Lemma neg1_mod n : 0 <= n -> (-1) mod 2 ^ n = 2 ^ n - 1.
Proof.
  intros H. pose proof (pow2_pos n H). symmetry. apply Z.mod_unique with (-1); lia.
Qed.

Lemma signbit s : construct KBV 1 (VBool s) = Ok (BV (BVC KBV 1) (b2z s)).
Proof. destruct s; reflexivity. Qed.

Lemma neg_signed_mod m n (s : bool) : 0 <= n -> 0 <= m ->
  (if s then bvneg (BV (BVC KBV n) (sgnz s m mod 2 ^ n)) else BV (BVC KBV n) (sgnz s m mod 2 ^ n)) =
  BV (BVC KBV n) (m mod 2 ^ n).
Proof.
  intros Hn Hm. destruct s; cbn [sgnz]; [|reflexivity]. unfold bvneg. rewrite mk_eq by exact Hn. cbn [bcls csize].
  f_equal. unfold as_uint. cbn [bval]. pose proof (pow2_pos n Hn) as P.
  unfold Z.lnot. replace (Z.pred (- (- m mod 2 ^ n)) + 1) with (- (- m mod 2 ^ n)) by lia.
  rewrite <- (Z.sub_0_l (- m mod 2 ^ n)). rewrite Zminus_mod_idemp_r. f_equal. lia.
Qed.

Lemma bit_length_le z n : 0 <= z < 2 ^ n -> 0 <= n -> (bit_length z <=? n) = true.
Proof.
  intros H Hn. unfold bit_length. destruct (Z.eqb_spec z 0); [lia|]. rewrite Z.abs_eq by lia.
  assert (Z.log2 z < n) by (apply Z.log2_lt_pow2; lia). lia.
Qed.

Lemma as_bv_spec f v : okf f -> wfv f v ->
  reinterpret_as_bv (FPV f v) = Ok (BV (BVC KBV (f_size f)) (pat f v)).
Proof.
  intros O W. pose proof (emax_pos f O) as [E1 E2]. pose proof O as [O1 O2].
  pose proof (pow2_pos (f_mb f) ltac:(lia)) as PM. pose proof (pow2_le_mono 1 (f_mb f) ltac:(lia)) as PM2. change (2 ^ 1) with 2 in PM2.
  unfold reinterpret_as_bv, fp_is_zero, fp_is_infinite, fp_is_NaN. cbn [fv_fmt fv_val]. rewrite signbit. cbn [bind].
  destruct v as [s|s|s|s m E]; cbn [is_zero is_infinite is_nan is_signed orb].
  - rewrite !construct_int by lia. rewrite neg1_mod by lia. cbn [bind]. rewrite (Z.mod_small 1) by lia.
    rewrite cat3 by (assumption || lia). reflexivity.
  - rewrite !construct_int by lia. rewrite neg1_mod by lia. cbn [bind]. rewrite (Z.mod_small 0) by lia.
    rewrite cat3 by (assumption || lia). unfold pat. cbn [is_signed mag_pat]. unfold IM. rewrite Z.add_0_r. reflexivity.
  - rewrite construct_int by (unfold f_size; lia). cbn [bind]. rewrite Z.mod_0_l by (unfold f_size; pose proof (pow2_pos (1 + f_eb f + f_mb f - 1)); lia).
    assert (W1 : wf (BV (BVC KBV (f_size f - 1)) 0)) by (split; cbn; [unfold f_size; lia|split; [lia|apply pow2_pos; unfold f_size; lia]]).
    assert (W3 : wf (BV (BVC KBV 1) (b2z s))) by (split; cbn; [lia|destruct s; cbn; lia]).
    rewrite concat_spec by auto. cbn [bsize bcls csize bval bkind ck]. f_equal. f_equal; [f_equal; lia|].
    unfold pat. cbn [is_signed mag_pat]. replace (f_size f - 1) with (f_eb f + f_mb f) by (unfold f_size; lia). lia.
  - assert (HE : E <= 2 ^ (f_eb f - 1)) by (unfold wfv in W; rewrite fctx_eq in W by exact O; cbn [wfm c_emax] in W; lia).
    destruct (mpat_range f m E s O W HE) as (R1 & R2 & R3).
    unfold as_mantissa_exp. rewrite Z.shiftl_1_l.
    assert (CP : c_prec (fctx f) = f_mb f + 1) by (rewrite fctx_eq by exact O; reflexivity). rewrite CP.
    replace (E - (f_mb f + 1) + f_mb f) with (E - 1) by lia.
    replace (1 - (2 ^ (f_eb f - 1) - 1)) with (top f - 1) by (unfold top; lia).
    replace (E - 1 <? top f - 1) with (E <? top f) by lia.
    unfold wfv in W. rewrite fctx_eq in W by exact O. cbn [wfm c_prec c_emin c_emax] in W. destruct W as (W1 & W2 & W3).
    replace (f_mb f + 1 - 1) with (f_mb f) in W1 by lia. rewrite pow2_S in W1 by lia.
    assert (SB : bv_bool (BV (BVC KBV 1) (b2z s)) = Ok s) by (destruct s; reflexivity).
    assert (FIN : forall mi e mm, 0 <= e < 2 ^ f_eb f -> 0 <= mm -> mi = sgnz s mm ->
      (if negb (bit_length e <=? f_eb f) then Raise EAssertion else
        b <- bv_bool (BV (BVC KBV 1) (b2z s)) ;;
        man <- construct KBV (f_mb f + 1) (VInt mi) ;;
        let man := if (b : bool) then bvneg man else man in
        exp_bits <- construct KBV (f_eb f) (VInt e) ;;
        mantissa_bits <- getitem_slice man None (Some (f_mb f)) None ;;
        a <- concat mantissa_bits (VBV exp_bits) ;; concat a (VBV (BV (BVC KBV 1) (b2z s)))) =
      Ok (BV (BVC KBV (f_size f)) (b2z s * 2 ^ (f_eb f + f_mb f) + (e * 2 ^ f_mb f + mm mod 2 ^ f_mb f)))).
    { intros mi e mm He Hmm ->. rewrite bit_length_le by lia. cbn [negb]. rewrite SB. cbn [bind].
      rewrite !construct_int by lia. cbn [bind]. cbv zeta. rewrite neg_signed_mod by lia.
      rewrite (Z.mod_small e) by lia.
      assert (MW : wf (BV (BVC KBV (f_mb f + 1)) (mm mod 2 ^ (f_mb f + 1)))).
      { split; cbn [bcls csize bval]; [lia|]. apply Z.mod_pos_bound, pow2_pos. lia. }
      rewrite getitem_slice_plain by (auto; left; reflexivity). cbv zeta. cbn [bsize bcls csize bval bkind ck].
      replace (f_mb f <? 0) with false by lia.
      replace (Z.max 0 (Z.min (f_mb f + 1) (f_mb f))) with (f_mb f) by lia.
      replace (Z.max 0 (f_mb f - 0)) with (f_mb f) by lia. cbn [bind].
      rewrite Z.pow_0_r, Z.div_1_r. rewrite pow2_S by lia. rewrite (Z.mul_comm 2), Z.rem_mul_r by lia.
      rewrite (Z.mul_comm (2 ^ f_mb f) (_ mod 2)), Z.mod_add, Z.mod_mod by lia.
      apply cat3; [exact O|lia|apply Z.mod_pos_bound; lia]. }
    unfold pat. cbn [is_signed mag_pat].
    destruct (Z.ltb_spec E (top f)) as [L|L].
    + assert (IE : f_ieee f = true) by (destruct (f_ieee f); [reflexivity|lia]). rewrite IE. cbn [negb].
      replace (top f - 1 - (E - 1)) with (top f - E) by lia.
      rewrite (FIN _ 0 (m / 2 ^ (top f - E))).
      * f_equal. f_equal. unfold mpat. replace (E <? top f) with true by lia.
        unfold mpat in R1, R3. replace (E <? top f) with true in * by lia. rewrite R3. lia.
      * lia.
      * apply Z.div_pos; [lia|apply pow2_pos; lia].
      * rewrite Z.shiftr_div_pow2 by lia. destruct s; cbn [sgnz]; [|reflexivity].
        rewrite Z.div_opp_l_z; [reflexivity|pose proof (pow2_pos (top f - E)); lia|apply W3; exact L].
    + replace (E - 1 + (2 ^ (f_eb f - 1) - 1)) with (E - top f + 1) by (unfold top; lia).
      rewrite (FIN _ (E - top f + 1) m).
      * f_equal. f_equal. unfold mpat in *. replace (E <? top f) with false in * by lia.
        replace (f_mb f + 1 - 1) with (f_mb f) by lia.
        replace (m mod 2 ^ f_mb f) with (m - 2 ^ f_mb f); [lia|].
        symmetry. symmetry. apply Z.mod_unique with 1; lia.
      * rewrite E2. unfold top in *. lia.
      * lia.
      * reflexivity.
Qed.

(** ** Exactly representable numbers *)
Definition dy (s : bool) (n e : Z) : num :=
  if 0 <=? e then NRat s (n * 2 ^ e) 1 else NRat s n (2 ^ (- e)).

Lemma mnum_dy p s m E : mnum p (MFin s m E) = dy s m (E - p).
Proof.
  unfold mnum, dy. replace (0 <=? E - p) with (p <=? E) by lia.
  replace (- (E - p)) with (p - E) by lia. reflexivity.
Qed.

Lemma dy_parts s n e : exists a d, dy s n e = NRat s a d /\ (0 < n -> 0 < a) /\ 0 < d /\
  forall e' N D, e' <= e -> scaled a d e' = (N, D) -> N = n * 2 ^ (e - e') * D.
Proof.
  unfold dy. destruct (Z.leb_spec 0 e) as [H|H].
  - exists (n * 2 ^ e), 1. split; [reflexivity|]. pose proof (pow2_pos e H). split; [nia|]. split; [lia|].
    intros e' N D L. unfold scaled. destruct (Z.leb_spec 0 e') as [H'|H']; intros Q; pose proof (f_equal fst Q) as QN; pose proof (f_equal snd Q) as QD; cbn [fst snd] in QN, QD; rewrite <- QN, <- QD.
    + replace (2 ^ e) with (2 ^ (e - e') * 2 ^ e') by (rewrite <- pow2_split by lia; f_equal; lia). ring.
    + replace (e - e') with (e + - e') by lia. rewrite pow2_split by lia. ring.
  - exists n, (2 ^ (- e)). split; [reflexivity|]. pose proof (pow2_pos (- e) ltac:(lia)). split; [lia|]. split; [lia|].
    intros e' N D L. unfold scaled. destruct (Z.leb_spec 0 e') as [H'|H']; intros Q; pose proof (f_equal fst Q) as QN; pose proof (f_equal snd Q) as QD; cbn [fst snd] in QN, QD; rewrite <- QN, <- QD; [lia|].
    replace (2 ^ (- e')) with (2 ^ (e - e') * 2 ^ (- e)) by (rewrite <- pow2_split by lia; f_equal; lia). ring.
Qed.

Lemma mag_unique n d e j N D : 0 < n -> 0 < d -> 1 <= j -> scaled n d e = (N, D) ->
  2 ^ (j - 1) * D <= N < 2 ^ j * D -> mag n d = e + j.
Proof.
  intros Hn Hd Hj HS B. pose proof (scaled_pos _ _ _ _ _ Hn Hd HS) as [PN PD].
  set (E := mag n d).
  assert (T : forall i, 1 <= i -> forall N' D', scaled n d (E - i) = (N', D') -> 2 ^ (i - 1) * D' <= N' < 2 ^ i * D').
  { intros i Hi N' D' H. exact (mag_spec n d i N' D' Hn Hd Hi H). }
  (* compare at the lower of the two scales *)
  destruct (Z_lt_le_dec (E - e) 1) as [L|L].
  - (* e >= E: at scale E-1 the number is below 2, at scale e it is at least 1 *)
    destruct (scaled n d (E - 1)) as [N' D'] eqn:HS'. specialize (T 1 ltac:(lia) N' D' HS').
    pose proof (scaled_pos _ _ _ _ _ Hn Hd HS') as [PN' PD'].
    assert (HS2 : scaled n d (e - (e - (E - 1))) = (N', D')) by (rewrite <- HS'; f_equal; lia).
    pose proof (scaled_shift n d e (e - (E - 1)) N D N' D' ltac:(lia) HS HS2) as R.
    pose proof (pow2_pos (j - 1) ltac:(lia)). pose proof (pow2_le_mono 1 (e - (E - 1)) ltac:(lia)) as LL.
    change (2 ^ 1) with 2 in *. exfalso.
    assert (X1 : D <= N) by nia.
    generalize dependent (2 ^ (e - (E - 1))). intros q R LL.
    assert (X2 : 2 * D <= N * q) by nia.
    assert (X2' : 2 * D * D' <= N * q * D') by (apply Z.mul_le_mono_nonneg_r; lia).
    assert (X3 : N' * D < 2 * D' * D) by nia. lia.
  - assert (HS2 : scaled n d (E - (E - e)) = (N, D)) by (rewrite <- HS; f_equal; lia).
    specialize (T (E - e) L N D HS2).
    assert (E - e = j); [|lia].
    assert (X1 : 2 ^ (E - e - 1) < 2 ^ j) by nia. assert (X2 : 2 ^ (j - 1) < 2 ^ (E - e)) by nia.
    apply Z.pow_lt_mono_r_iff in X1; [|lia|lia]. apply Z.pow_lt_mono_r_iff in X2; lia.
Qed.

(** A number m*2^(E-p) with 2^(p-1) <= m < 2^p is kept when E and m fit the context. *)
Lemma round_exact_ratio c tp s m E x d N D : 2 <= c_prec c ->
  (if c_sub c then tp = c_emin c + c_prec c - 1 else tp = c_emin c) ->
  wfm c tp (MFin s m E) -> 0 < x -> 0 < d -> scaled x d (E - c_prec c) = (N, D) -> N = m * D ->
  mpfr_round c (NRat s x d) = MFin s m E.
Proof.
  intros P2 HT (W1 & W2 & W3) Ha Hd HSS HN.
  pose proof (pow2_pos (c_prec c - 1) ltac:(lia)) as PH.
  assert (PP : 2 ^ c_prec c = 2 * 2 ^ (c_prec c - 1)) by (rewrite <- pow2_S by lia; f_equal; lia).
  pose proof (scaled_pos _ _ _ _ _ Ha Hd HSS) as [PN PD].
  assert (MG : mag x d = E).
  { rewrite (mag_unique x d (E - c_prec c) (c_prec c) N D); try lia; auto. rewrite HN.
    split; [apply Z.mul_le_mono_nonneg_r; lia|apply Z.mul_lt_mono_pos_r; lia]. }
  unfold mpfr_round, rnd_set. rewrite MG, HSS, HN. rewrite round_int_exact by lia.
  unfold renorm. replace (m =? 2 ^ c_prec c) with false by lia. rewrite Z.sub_diag. cbn [Z.sgn].
  unfold finish, check_range. replace (E <? c_emin c) with false by lia. replace (c_emax c <? E) with false by lia.
  destruct (c_sub c); [|reflexivity]. unfold subnormalize.
  destruct ((c_emin c <=? E) && (E <=? c_emin c + c_prec c - 2)) eqn:B; [|reflexivity].
  assert (L : E < tp) by lia. specialize (W3 L). rewrite HT in W3.
  set (Dd := 2 ^ (c_emin c + c_prec c - 1 - E)) in *. assert (PDd : 0 < Dd) by (apply pow2_pos; lia).
  rewrite W3.
  assert (U : match c_rnd c with
      | RoundToNearest => (Dd <? 2 * 0) || (Dd =? 2 * 0) && ((0 <? 0) || (0 =? 0) && Z.odd (m / Dd))
      | g => negb (0 =? 0) && negb (toward_zero g s) end = false).
  { destruct (c_rnd c); try reflexivity. replace (Dd <? 2 * 0) with false by lia. replace (Dd =? 2 * 0) with false by lia. reflexivity. }
  rewrite U. cbn [b2z]. rewrite Z.add_0_r.
  assert (M : m / Dd * Dd = m) by (pose proof (Z.div_mod m Dd ltac:(lia)); lia). rewrite M.
  unfold renorm. replace (m =? 2 ^ c_prec c) with false by lia. reflexivity.
Qed.
Lemma round_exact c tp s m E a : 2 <= c_prec c ->
  (if c_sub c then tp = c_emin c + c_prec c - 1 else tp = c_emin c) ->
  wfm c tp (MFin s m E) ->
  (exists n e i, 0 <= i /\ m = n * 2 ^ i /\ e - i = E - c_prec c /\ a = dy s n e) ->
  mpfr_round c a = MFin s m E.
Proof.
  intros P2 HT HW (n & e & i & Hi & Hm & He & ->). pose proof HW as (W1 & W2 & W3).
  pose proof (pow2_pos (c_prec c - 1) ltac:(lia)) as PH. pose proof (pow2_pos i Hi) as PI.
  assert (Hn : 0 < n) by nia.
  destruct (dy_parts s n e) as (x & d & -> & Ha & Hd & HS). specialize (Ha Hn).
  destruct (scaled x d (E - c_prec c)) as [N D] eqn:HSS.
  assert (HN : N = m * D). { rewrite (HS (E - c_prec c) N D ltac:(lia) HSS). rewrite Hm. replace (e - (E - c_prec c)) with i by lia. reflexivity. }
  now apply (round_exact_ratio c tp s m E x d N D).
Qed.

Lemma round_mnum f v : okf f -> wfv f v -> mpfr_round (fctx f) (mnum (c_prec (fctx f)) v) = v.
Proof.
  intros O W. destruct v as [s|s|s|s m E]; try reflexivity.
  rewrite mnum_dy. eapply round_exact with (tp := top f); [| |exact W|].
  - rewrite fctx_eq by exact O. cbn [c_prec]. unfold okf in O. lia.
  - rewrite fctx_eq by exact O. cbn [c_prec c_sub c_emin]. destruct (f_ieee f); lia.
  - exists m, (E - c_prec (fctx f)), 0. split; [lia|]. split; [cbn; lia|]. split; [lia|reflexivity].
Qed.
