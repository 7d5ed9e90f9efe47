(** Quotients rounded to nearest in a wider type and then in a narrow one. *)
From Coq Require Import Lia ZArith QArith Qpower Qabs ZifyBool Lqa.
From Verif Require Import PyBase BVModel BVSpec BVFacts BVOps FPModel FPSpec FPRoundFacts FPPatFacts FPEncFacts FPDecFacts FPBracket FPQFacts FPRoundSpec FPInst FPArith FPMore FPProofs FPAlgFacts FPAlgProofs FPExFacts FPExProofs FPErrFacts FPErrProofs FloatSpec FloatProofs FPWideFacts.
Open Scope Z_scope.

(** Twice a number half-way between the value +-L and the next one away from zero. *)
Definition mid (m h K : Z) : Prop := exists L j t, cv m h L j t /\ Z.abs K = (2 * t + 1) * 2 ^ j.

Lemma next_value m h V jv tv V' j' t' : 1 <= m -> cv m h V jv tv -> cv m h V' j' t' -> 0 <= V < V' -> V + 2 ^ jv <= V'.
Proof.
  intros M CV CV' L. pose proof CV as (EV & JV & TV & NV & UV). pose proof CV' as (EV' & JV' & TV' & _ & UV').
  assert (J : jv <= j').
  { destruct NV as [->|T]; [lia|]. apply (cv_exp m h V' j' t' jv M JV CV'). rewrite pow2_split by lia.
    assert (2 ^ m * 2 ^ jv <= tv * 2 ^ jv) by (apply Z.mul_le_mono_nonneg_r; [pose proof (pow2_pos jv); lia|lia]). lia. }
  destruct (multiple V tv jv jv EV ltac:(lia)) as [a Ea]. destruct (multiple V' t' j' jv EV' ltac:(lia)) as [b Eb].
  pose proof (pow2_pos jv JV). assert (a < b) by (apply (mul_lt_inv a b (2 ^ jv)); lia).
  assert ((a + 1) * 2 ^ jv <= b * 2 ^ jv) by (apply Z.mul_le_mono_nonneg_r; lia). lia.
Qed.
Lemma next_rep f V j t : wide f -> f_ieee f = true -> cv (f_mb f) (hi f) V j t -> 0 <= V -> V + 2 ^ j <= top (f_mb f) (hi f) -> repv f (inject_Z (V + 2 ^ j) * unit f).
Proof.
  intros W IE (EV & JV & TV & _) P B. pose proof W as [_ M]. apply uv_rep; auto. pose proof (pow2_pos j JV).
  replace (V + 2 ^ j) with ((t + 1) * 2 ^ j) in * by lia. apply uv_mul; lia.
Qed.
Lemma repv_opp f q : wide f -> repv f q -> repv f (- q).
Proof.
  intros W R. destruct (repv_instance f q W R) as (x & I & V). apply (value_repv f (fp_neg x)); [now apply wide_okf|apply inst_good; [exact W|now apply I_neg]|now apply (fneg_value f)].
Qed.
(** 2q compared with a half-way point given in units *)
Definition half_units (f : fmt) (K : Z) : Q := (1 # 2) * (inject_Z K * unit f).

Lemma between_pos f p p' v v' V jv tv V' j' t' : wide f -> f_ieee f = true -> f_mode f = RNE -> rx f p (XFin v) -> rx f p' (XFin v') ->
  (v == inject_Z V * unit f)%Q -> (v' == inject_Z V' * unit f)%Q -> cv (f_mb f) (hi f) V jv tv -> cv (f_mb f) (hi f) V' j' t' -> 0 <= V < V' ->
  exists K, mid (f_mb f) (hi f) K /\ (p <= half_units f K)%Q /\ (half_units f K <= p')%Q.
Proof.
  intros W IE MO X X' QV QV' CV CV' L. pose proof W as [_ M]. pose proof (next_value (f_mb f) (hi f) V jv tv V' j' t' M CV CV' L) as NX. pose proof (unit_pos f) as UP.
  pose proof CV as (EV & JV & TV & _). pose proof CV' as (_ & _ & _ & _ & UV'). pose proof (pow2_pos jv JV) as PJ.
  pose proof (next_rep f V jv tv W IE CV ltac:(lia) ltac:(lia)) as RS.
  cbn [rx] in X, X'. rewrite MO in X, X'. destruct X as (RV & _ & NE). destruct X' as (RV' & _ & NE').
  exists (2 * V + 2 ^ jv). split; [exists V, jv, tv; split; [exact CV|]; lia|]. unfold half_units.
  assert (E1 : (inject_Z (2 * V + 2 ^ jv) * unit f == inject_Z V * unit f + inject_Z (V + 2 ^ jv) * unit f)%Q).
  { rewrite <- Qmult_plus_distr_l, <- inject_Z_plus. replace (V + (V + 2 ^ jv)) with (2 * V + 2 ^ jv) by lia. reflexivity. }
  rewrite E1. rewrite <- QV. assert (S1 : (inject_Z (V + 2 ^ jv) * unit f <= v')%Q) by (rewrite QV'; now apply units_le).
  assert (S2 : (v < inject_Z (V + 2 ^ jv) * unit f)%Q). { apply Qnot_le_lt. rewrite QV. intros H. apply units_le in H. lia. }
  specialize (NE _ RS). specialize (NE' _ RV). split; qabs; lra.
Qed.
Lemma rx_value_cv f p v : wide f -> rx f p (XFin v) -> exists V j t, (v == inject_Z V * unit f)%Q /\ cv (f_mb f) (hi f) V j t.
Proof. intros W [R _]. destruct (repv_instance f v W R) as (x & I & X). exact (value_cv f x v W I X). Qed.
Lemma rx_opp f p v : wide f -> f_mode f = RNE -> rx f p (XFin v) -> rx f (- p) (XFin (- v)).
Proof.
  intros W MO (R & X). cbn [rx]. rewrite MO in *. destruct X as [T NE]. split; [now apply repv_opp|]. split; [now rewrite Qabs_opp|].
  intros r Rr. specialize (NE (- r)%Q (repv_opp f r W Rr)). assert (E1 : (- p - - v == - (p - v))%Q) by ring. assert (E2 : (- p - r == - (p - - r))%Q) by ring. rewrite E1, E2, !Qabs_opp. exact NE.
Qed.
Lemma cv_opp m h V j t : cv m h V j t -> cv m h (- V) j t.
Proof. unfold cv. now rewrite Z.abs_opp. Qed.
Lemma mid_opp m h K : mid m h K -> mid m h (- K).
Proof. intros (L & j & t & C & E). exists L, j, t. now rewrite Z.abs_opp. Qed.
Lemma between_fin f p p' v v' : wide f -> f_ieee f = true -> f_mode f = RNE -> rx f p (XFin v) -> rx f p' (XFin v') -> (v < v')%Q ->
  exists K, mid (f_mb f) (hi f) K /\ (p <= half_units f K)%Q /\ (half_units f K <= p')%Q.
Proof.
  intros W IE MO X X' L. destruct (rx_value_cv f p v W X) as (V & j & t & QV & CV). destruct (rx_value_cv f p' v' W X') as (V' & j' & t' & QV' & CV').
  pose proof (unit_pos f) as UP. pose proof W as [_ M]. destruct (hi_top f W) as [_ H0].
  assert (LV : V < V'). { apply Znot_ge_lt. intros H. apply Z.ge_le, (units_le f) in H. lra. }
  destruct (Z_le_gt_dec 0 V) as [P|P]; [apply (between_pos f p p' v v' V j t V' j' t'); auto|].
  destruct (Z_le_gt_dec V' 0) as [P'|P'].
  - destruct (between_pos f (- p') (- p) (- v') (- v) (- V') j' t' (- V) j t) as (K & MK & K1 & K2); auto using rx_opp, cv_opp; [rewrite QV', inject_Z_opp; ring|rewrite QV, inject_Z_opp; ring|lia|].
    exists (- K). split; [now apply mid_opp|]. assert (E : (half_units f (- K) == - half_units f K)%Q) by (unfold half_units; rewrite inject_Z_opp; ring). rewrite E. split; lra.
  - exists 1. pose proof (top_bounds f W) as TB. pose proof (pow2_pos (f_mb f + hi f) ltac:(lia)) as PT. pose proof (pow2_pos (f_mb f + 1) ltac:(lia)) as PM.
    split; [exists 0, 0, 0; split; [unfold cv; rewrite Z.abs_0; repeat split; lia|reflexivity]|].
    pose proof (repv_0 f (wide_okf f W)) as R0. cbn [rx] in X, X'. rewrite MO in X, X'. destruct X as (_ & _ & NE). destruct X' as (_ & _ & NE'). specialize (NE _ R0). specialize (NE' _ R0).
    assert (V1 : (v <= - unit f)%Q). { rewrite QV. setoid_replace (- unit f)%Q with (inject_Z (-1) * unit f)%Q by (change (inject_Z (-1)) with (-1)%Q; ring). apply units_le. lia. }
    assert (V2 : (unit f <= v')%Q). { rewrite QV'. setoid_replace (unit f) with (inject_Z 1 * unit f)%Q at 1 by (change (inject_Z 1) with 1%Q; ring). apply units_le. lia. }
    unfold half_units. change (inject_Z 1) with 1%Q. split; qabs; lra.
Qed.
(** The overflow threshold is such a point too. *)
Lemma mid_top f : wide f -> exists K, mid (f_mb f) (hi f) K /\ (half_units f K == overflow_threshold f)%Q.
Proof.
  intros W. pose proof W as [_ M]. destruct (hi_top f W) as [HT H0]. destruct (V_IM f W) as (V1 & V2 & BI). fold (hi f) in V2. rewrite <- HT in V2.
  exists (V (f_mb f) (IM f - 1) + V (f_mb f) (IM f)). split.
  - pose proof (pow2_pos (hi f) H0) as PH. pose proof (pow2_pos (f_mb f + 1) ltac:(lia)) as PM. pose proof (pow2_le_mono (f_mb f) (f_mb f + 1) ltac:(lia)).
    exists (top (f_mb f) (hi f)), (hi f), (2 ^ (f_mb f + 1) - 1).
    assert (T0 : 0 <= top (f_mb f) (hi f)) by (unfold top; apply Z.mul_nonneg_nonneg; lia).
    assert (PW : 2 ^ f_mb f * 2 = 2 ^ (f_mb f + 1)) by (rewrite pow2_split by lia; reflexivity). pose proof (pow2_le_mono 1 (f_mb f) ltac:(lia)) as P2. change (2 ^ 1) with 2 in P2.
    split; [unfold cv; rewrite Z.abs_eq by exact T0; repeat split; [unfold top; ring|lia..]|].
    rewrite <- HT. assert (EV : V (f_mb f) (IM f) = top (f_mb f) (hi f) + 2 ^ hi f) by lia. rewrite EV, Z.abs_eq by lia. unfold top. ring.
  - rewrite (threshold_W f W). unfold half_units. change (inject_Z 2) with 2%Q. field.
Qed.
Lemma between f p p' e e' : wide f -> f_ieee f = true -> f_mode f = RNE -> rx f p e -> rx f p' e' -> ext_lt e e' ->
  exists K, mid (f_mb f) (hi f) K /\ (p <= half_units f K)%Q /\ (half_units f K <= p')%Q.
Proof.
  intros W IE MO X X' L. destruct (mid_top f W) as (K & MK & EK). pose proof (thr_pos f W) as TP.
  assert (EN : (half_units f (- K) == - half_units f K)%Q) by (unfold half_units; rewrite inject_Z_opp; ring).
  assert (FB : forall q v, rx f q (XFin v) -> (Qabs q < overflow_threshold f)%Q) by (intros q v (_ & H); rewrite MO in H; tauto).
  assert (IB : forall q s, rx f q (XInf s) -> if s then (q <= - overflow_threshold f)%Q else (overflow_threshold f <= q)%Q).
  { intros q s (S & _ & H). rewrite MO in H. destruct s; qabs; lra. }
  destruct e as [[|]|v], e' as [[|]|v']; cbn [ext_lt] in L; try contradiction; try discriminate; try (destruct L; discriminate).
  - exists K. split; [exact MK|]. pose proof (IB _ _ X) as B1. pose proof (IB _ _ X') as B2. cbv iota in B1, B2. rewrite EK. split; lra.
  - exists (- K). split; [now apply mid_opp|]. pose proof (IB _ _ X) as B1. pose proof (FB _ _ X') as B2. cbv iota in B1. rewrite EN, EK. apply Qabs_Qlt_condition in B2. split; lra.
  - exists K. split; [exact MK|]. pose proof (FB _ _ X) as B1. pose proof (IB _ _ X') as B2. cbv iota in B2. rewrite EK. apply Qabs_Qlt_condition in B1. split; lra.
  - apply (between_fin f p p' v v'); auto.
Qed.

(** ** A quotient is not close to such a point *)
Lemma quotient_gap m h gg A B ja ta jb tb K : 1 <= m -> 0 <= gg -> cv m h A ja ta -> cv m h B jb tb -> B <> 0 ->
  forall L j t, cv m h L j t -> Z.abs K = (2 * t + 1) * 2 ^ j -> 2 * (A * 2 ^ gg) <> K * B ->
  Z.abs B * 2 ^ j <= Z.abs (2 * (A * 2 ^ gg) - K * B) * 2 ^ (m + 1).
Proof.
  intros M G (EA & JA & TA & _) (EB & JB & TB & _) NB L j t (_ & J & T & _) EK NE.
  pose proof (pow2_pos j J) as PJ. pose proof (pow2_pos jb JB) as PB. pose proof (pow2_pos (m + 1) ltac:(lia)) as PM.
  set (X := 2 * (A * 2 ^ gg)) in *. set (Y := K * B) in *.
  assert (EX : Z.abs X = ta * 2 ^ (ja + gg + 1)). { unfold X. rewrite !Z.abs_mul, EA, (Z.abs_eq (2 ^ gg)), (pow2_split (ja + gg)), (pow2_split ja) by (try lia; pose proof (pow2_pos gg); lia). change (Z.abs 2) with 2. change (2 ^ 1) with 2. ring. }
  assert (EY : Z.abs Y = ((2 * t + 1) * tb) * 2 ^ (j + jb)). { unfold Y. rewrite Z.abs_mul, EK, EB, pow2_split by lia. ring. }
  assert (KEY : forall i, 0 <= i -> i <= ja + gg + 1 -> i <= j + jb -> 2 ^ i <= Z.abs (X - Y)).
  { intros i I I1 I2. destruct (multiple X ta (ja + gg + 1) i EX ltac:(lia)) as [x Ex]. destruct (multiple Y ((2 * t + 1) * tb) (j + jb) i EY ltac:(lia)) as [y Ey].
    pose proof (pow2_pos i I). assert (E : X - Y = (x - y) * 2 ^ i) by (rewrite Ex, Ey; ring). rewrite E, Z.abs_mul, (Z.abs_eq (2 ^ i)) by lia.
    apply mul_ge_1; [|lia]. assert (x <> y) by (intros ->; congruence). lia. }
  destruct (Z_le_gt_dec (j + jb) (ja + gg + 1)) as [C|C].
  - specialize (KEY (j + jb) ltac:(lia) ltac:(lia) ltac:(lia)). rewrite pow2_split in KEY by lia. rewrite EB.
    apply Z.le_trans with (2 ^ (m + 1) * 2 ^ jb * 2 ^ j); [apply Z.mul_le_mono_nonneg_r; [lia|apply Z.mul_le_mono_nonneg_r; lia]|].
    replace (2 ^ (m + 1) * 2 ^ jb * 2 ^ j) with (2 ^ j * 2 ^ jb * 2 ^ (m + 1)) by ring. apply Z.mul_le_mono_nonneg_r; lia.
  - specialize (KEY (ja + gg + 1) ltac:(lia) ltac:(lia) ltac:(lia)). set (D := Z.abs (X - Y)) in *.
    assert (X1 : Z.abs X <= (2 ^ (m + 1) - 1) * D). { rewrite EX. apply Z.mul_le_mono_nonneg; [lia|lia|pose proof (pow2_pos (ja + gg + 1)); lia|exact KEY]. }
    assert (Y1 : Z.abs Y <= D * 2 ^ (m + 1)) by (unfold D in *; lia).
    apply Z.le_trans with (Z.abs Y); [|exact Y1]. unfold Y. rewrite Z.abs_mul, EK. rewrite (Z.mul_comm (Z.abs B)). apply Z.mul_le_mono_nonneg_r; [lia|].
    apply mul_ge_1; lia.
Qed.
Lemma mid_rep f g K L j t : wide f -> wide g -> roomy f g -> f_ieee g = true -> cv (f_mb f) (hi f) L j t -> Z.abs K = (2 * t + 1) * 2 ^ j ->
  exists d, (0 < d)%Q /\ (inject_Z (2 ^ (f_mb f + 1)) * ((2 # 1) * d) == inject_Z (2 ^ j) * unit f)%Q /\
    repv g (half_units f K) /\ repv g (half_units f K + d) /\ repv g (half_units f K - d).
Proof.
  intros W W' R IE CL EK. destruct (roomy_bias f g W W' R) as [B1 B2]. destruct R as [_ R]. pose proof W as [_ M]. pose proof W' as [_ M'].
  set (k := bias g + f_mb g - (bias f + f_mb f)). assert (K0 : f_mb f + 2 <= k) by (unfold k; lia). pose proof CL as (EL & J & T & NL & UL).
  set (e := j + k - f_mb f - 2). assert (E0 : 0 <= e) by (unfold e; lia). pose proof (unit_pos g) as UG. pose proof (pow2_pos e E0) as PE.
  assert (JH : j <= hi f).
  { destruct (hi_top f W) as [_ H0]. destruct NL as [->|NL]; [exact H0|]. pose proof (top_bounds f W) as [_ TB].
    assert (2 ^ (f_mb f + j) < 2 ^ (f_mb f + 1 + hi f)) as LT by (rewrite (pow2_split (f_mb f) j) by lia; pose proof (Z.mul_le_mono_nonneg_r _ _ (2 ^ j) ltac:(pose proof (pow2_pos j); lia) NL); lia).
    apply pow_lt_inv in LT; lia. }
  pose proof (unit_ratio f g k eq_refl ltac:(lia)) as UR.
  set (n := Z.sgn K * (2 * t + 1) * 2 ^ (f_mb f + 1)).
  assert (EN : 2 * (n * 2 ^ e) = K * 2 ^ k).
  { unfold n. replace (K * 2 ^ k) with (Z.sgn K * (2 * t + 1) * 2 ^ (j + k)); [|rewrite pow2_split by lia; rewrite <- (Z.abs_sgn K) at 2; rewrite EK; ring].
    replace (j + k) with (1 + (f_mb f + 1) + e) by (unfold e; lia). rewrite !pow2_split by lia. change (2 ^ 1) with 2. ring. }
  assert (EH : (half_units f K == inject_Z (n * 2 ^ e) * unit g)%Q).
  { assert (E2 : (2 * inject_Z (n * 2 ^ e) == inject_Z K * inject_Z (2 ^ k))%Q) by (change 2%Q with (inject_Z 2); rewrite <- !inject_Z_mult, EN; reflexivity).
    unfold half_units. rewrite UR. transitivity ((1 # 2) * (inject_Z K * inject_Z (2 ^ k)) * unit g)%Q; [ring|]. rewrite <- E2. ring. }
  assert (RP : forall s, -1 <= s <= 1 -> repv g (inject_Z ((n + s) * 2 ^ e) * unit g)%Q).
  { intros s S. apply uv_rep; [exact W'|exact IE|].
    assert (NB : Z.abs (n + s) <= (t + 1) * 2 ^ (f_mb f + 2)).
    { pose proof (pow2_pos (f_mb f + 1) ltac:(lia)) as P1. assert (2 ^ (f_mb f + 2) = 2 * 2 ^ (f_mb f + 1)) as -> by (replace (f_mb f + 2) with (1 + (f_mb f + 1)) by lia; rewrite pow2_split by lia; reflexivity).
      assert (Z.abs n <= (2 * t + 1) * 2 ^ (f_mb f + 1)).
      { unfold n. rewrite !Z.abs_mul, (Z.abs_eq (2 * t + 1)), (Z.abs_eq (2 ^ (f_mb f + 1))) by lia. apply Z.mul_le_mono_nonneg_r; [lia|]. transitivity (1 * (2 * t + 1)); [apply Z.mul_le_mono_nonneg_r; lia|lia]. }
      lia. }
    assert (NB2 : Z.abs (n + s) <= 2 ^ (2 * f_mb f + 3)).
    { apply (Z.le_trans _ _ _ NB). replace (2 * f_mb f + 3) with (f_mb f + 1 + (f_mb f + 2)) by lia. rewrite (pow2_split (f_mb f + 1)) by lia. apply Z.mul_le_mono_nonneg_r; [pose proof (pow2_pos (f_mb f + 2)); lia|lia]. }
    apply uv_mul; [lia|lia| |].
    - apply (Z.le_trans _ _ _ NB2). apply pow2_le_mono. lia.
    - rewrite Z.abs_mul, (Z.abs_eq (2 ^ e)) by lia. pose proof (top_bounds g W') as [TG _]. apply Z.le_trans with (2 ^ (f_mb g + hi g)); [|exact TG].
      apply Z.le_trans with (2 ^ (2 * f_mb f + 3) * 2 ^ e); [apply Z.mul_le_mono_nonneg_r; lia|]. rewrite <- pow2_split by lia. apply pow2_le_mono. unfold e, k, hi in *. lia. }
  exists (inject_Z (2 ^ e) * unit g)%Q. split; [|split; [|split; [|split]]].
  - apply Qmult_lt_0_compat; [now apply inj_pos|exact UG].
  - rewrite UR. change (2 # 1)%Q with (inject_Z 2). rewrite !Qmult_assoc, <- !inject_Z_mult, <- pow2_split by lia.
    replace (j + k) with (1 + (f_mb f + 1) + e) by (unfold e; lia). rewrite !pow2_split by lia. change (2 ^ 1) with 2. replace (2 * (2 ^ f_mb f * 2) * 2 ^ e) with (2 ^ f_mb f * 2 * 2 * 2 ^ e) by ring. reflexivity.
  - apply (repv_wd g (inject_Z ((n + 0) * 2 ^ e) * unit g)%Q); [rewrite EH, Z.add_0_r; reflexivity|apply RP; lia].
  - apply (repv_wd g (inject_Z ((n + 1) * 2 ^ e) * unit g)%Q); [|apply RP; lia]. rewrite EH, Z.mul_add_distr_r, inject_Z_plus, Z.mul_1_l. ring.
  - apply (repv_wd g (inject_Z ((n + -1) * 2 ^ e) * unit g)%Q); [|apply RP; lia]. rewrite EH, Z.mul_add_distr_r, inject_Z_plus. replace (-1 * 2 ^ e) with (- 2 ^ e) by ring. rewrite inject_Z_opp. ring.
Qed.
Lemma mid_cross f g q e2 A B ja ta jb tb K : wide f -> wide g -> roomy f g -> f_ieee g = true -> cv (f_mb f) (hi f) A ja ta -> cv (f_mb f) (hi f) B jb tb -> B <> 0 ->
  (inject_Z B * q == inject_Z (A * 2 ^ gg f) * unit f)%Q -> rx g q e2 -> mid (f_mb f) (hi f) K ->
  repv g (half_units f K) /\ ((q < half_units f K)%Q -> ext_lt e2 (XFin (half_units f K))) /\ ((half_units f K < q)%Q -> ext_lt (XFin (half_units f K)) e2).
Proof.
  intros W W' R IE CA CB NB EQ X2 (L & j & t & CL & EK). pose proof W as [_ M]. destruct (mid_rep f g K L j t W W' R IE CL EK) as (d & DP & ED & R0 & R1 & R2). split; [exact R0|].
  assert (GAP : ~ (q == half_units f K)%Q -> (d <= Qabs (q - half_units f K))%Q).
  { intros NE. assert (NI : 2 * (A * 2 ^ gg f) <> K * B).
    { intros H. apply NE. assert (BZ : ~ (inject_Z B == 0)%Q) by (intros H1; apply (inject_Z_injective B 0) in H1; contradiction).
      apply (Qmult_inj_l _ _ (inject_Z B) BZ). rewrite EQ. unfold half_units.
      assert (E : (inject_Z 2 * inject_Z (A * 2 ^ gg f) == inject_Z K * inject_Z B)%Q) by (rewrite <- !inject_Z_mult, H; reflexivity). change (inject_Z 2) with 2%Q in E.
      transitivity ((1 # 2) * ((2 # 1) * inject_Z (A * 2 ^ gg f)) * unit f)%Q; [ring|]. rewrite E. ring. }
    pose proof (quotient_gap (f_mb f) (hi f) (gg f) A B ja ta jb tb K M ltac:(pose proof (gg_pos f W); lia) CA CB NB L j t CL EK NI) as H.
    apply (units_le f) in H. rewrite !inject_Z_mult in H. set (P := inject_Z (2 ^ (f_mb f + 1))) in *.
    assert (EA : (inject_Z (Z.abs (2 * (A * 2 ^ gg f) - K * B)) * unit f == inject_Z (Z.abs B) * ((2 # 1) * Qabs (q - half_units f K)))%Q).
    { rewrite <- units_abs. assert (E1 : (inject_Z (2 * (A * 2 ^ gg f) - K * B) * unit f == inject_Z B * ((2 # 1) * (q - half_units f K)))%Q).
      { rewrite inj_sub, (inject_Z_mult 2), (inject_Z_mult K). change (inject_Z 2) with 2%Q. unfold half_units. transitivity ((2 # 1) * (inject_Z B * q) - inject_Z K * inject_Z B * unit f)%Q; [rewrite EQ; ring|ring]. }
      rewrite E1, !Qabs_Qmult. assert (E2 : (Qabs (inject_Z B) == inject_Z (Z.abs B))%Q).
      { destruct (Z.abs_spec B) as [[S ->]|[S ->]]; [apply Qabs_pos; change 0%Q with (inject_Z 0); rewrite <- Zle_Qle; lia|rewrite inject_Z_opp; apply Qabs_neg; change 0%Q with (inject_Z 0); rewrite <- Zle_Qle; lia]. }
      rewrite E2. change (Qabs (2 # 1)) with (2 # 1)%Q. reflexivity. }
    assert (PB : (0 < inject_Z (Z.abs B))%Q) by (apply inj_pos; lia). assert (PP : (0 < P)%Q) by (apply inj_pos, pow2_pos; lia).
    assert (H2 : (inject_Z (Z.abs B) * (P * ((2 # 1) * d)) <= inject_Z (Z.abs B) * (P * ((2 # 1) * Qabs (q - half_units f K))))%Q).
    { rewrite ED. setoid_replace (inject_Z (Z.abs B) * (P * ((2 # 1) * Qabs (q - half_units f K))))%Q with (P * (inject_Z (Z.abs B) * ((2 # 1) * Qabs (q - half_units f K))))%Q by ring. rewrite <- EA.
      setoid_replace (P * (inject_Z (Z.abs (2 * (A * 2 ^ gg f) - K * B)) * unit f))%Q with (inject_Z (Z.abs (2 * (A * 2 ^ gg f) - K * B)) * P * unit f)%Q by ring.
      setoid_replace (inject_Z (Z.abs B) * (inject_Z (2 ^ j) * unit f))%Q with (inject_Z (Z.abs B) * inject_Z (2 ^ j) * unit f)%Q by ring. exact H. }
    apply Qmult_le_l in H2; [|exact PB]. apply Qmult_le_l in H2; [|exact PP]. lra. }
  split; intros LT.
  - assert (G : (d <= Qabs (q - half_units f K))%Q) by (apply GAP; lra). rewrite Qabs_neg in G by lra.
    pose proof (rx_above g q e2 _ W' X2 R2 ltac:(lra)) as [Y|Y]; destruct e2 as [s|c]; cbn [ext_lt ext_eq] in *; try contradiction; auto; lra.
  - assert (G : (d <= Qabs (q - half_units f K))%Q) by (apply GAP; lra). rewrite Qabs_pos in G by lra.
    pose proof (rx_below g q e2 _ W' X2 R1 ltac:(lra)) as [Y|Y]; destruct e2 as [s|c]; cbn [ext_lt ext_eq] in *; try contradiction; auto; lra.
Qed.

(** ** Putting it together *)
Lemma finish f g q c e1 e3 z r : wide f -> wide g -> ~ (q == 0)%Q -> instance f z -> instance g r -> correct f q z -> correct g q r ->
  xvalue z e1 -> fvalue r c -> xvalue (fp_init f (fnum r)) e3 -> ext_eq e1 e3 -> fp_init f (fnum r) = z.
Proof.
  intros W W' NZ Iz Ir CZ CR V1 V2 V3 E. pose proof (inst_good f z W Iz) as Gz. pose proof (inst_good g r W' Ir) as Gr. set (w := fp_init f (fnum r)) in *.
  assert (Iw : instance f w) by (apply I_init; exact (nval_ok _ _ (fnum_val g r c (wide_okf g W') Gr V2))). pose proof (inst_good f w W Iw) as Gw.
  destruct e1 as [s1|v1], e3 as [s3|v3]; cbn [ext_eq] in E; try contradiction.
  - subst s3. now rewrite (inf_shape f z s1 Iz W V1), (inf_shape f w s1 Iw W V3).
  - cbn [xvalue] in V1, V3. apply (same_object f w z v3 v1); auto; [now symmetry|].
    pose proof (conv_signed f g r W W' Ir (fvalue_not_nan r c V2)) as S. fold w in S. rewrite S.
    pose proof (correct_signed f q z W Gz CZ NZ) as S1. pose proof (correct_signed g q r W' Gr CR NZ) as S2.
    destruct (is_signed (fv_val r)), (is_signed (fv_val z)); auto; [symmetry; apply S1, S2; reflexivity|apply S2, S1; reflexivity].
Qed.
Lemma ext_cases a b : ext_eq a b \/ ext_lt a b \/ ext_lt b a.
Proof.
  destruct a as [[|]|p], b as [[|]|q]; cbn [ext_eq ext_lt]; auto.
  destruct (Qlt_le_dec p q) as [H|H]; [auto|]. destruct (Qlt_le_dec q p) as [H'|H']; [auto|]. left. lra.
Qed.
(** q and its rounding in g compare alike with all half-way points of f, so f does not tell them apart. *)
Lemma nearest_back f g q z r n : wide f -> wide g -> f_ieee f = true -> f_mode f = RNE ->
  (forall e2 K, rx g q e2 -> mid (f_mb f) (hi f) K -> repv g (half_units f K) /\ ((q < half_units f K)%Q -> ext_lt e2 (XFin (half_units f K))) /\ ((half_units f K < q)%Q -> ext_lt (XFin (half_units f K)) e2)) ->
  nval n q -> z = fp_init f n -> instance g r -> correct g q r ->
  let w := fp_init f (fnum r) in (~ (q == 0)%Q -> w = z) /\ ((q == 0)%Q -> fvalue w 0 /\ fvalue z 0).
Proof.
  intros W W' IE MO CROSS N EZ Ir CR w. pose proof (inst_good g r W' Ir) as Gr.
  assert (Iz : instance f z) by (subst z; apply I_init; exact (nval_ok _ _ N)). assert (CZ : correct f q z) by (subst z; now apply init_correct). pose proof (inst_good f z W Iz) as Gz.
  destruct (correct_x g q r W' Gr CR) as (e2 & V2 & X2). destruct (correct_x f q z W Gz CZ) as (e1 & V1 & X1). destruct e2 as [s|c].
  - (* overflow of the wide type *)
    assert (NZ : ~ (q == 0)%Q) by (destruct X2 as (S & _); destruct s; lra). split; [intros _|intros H; contradiction].
    destruct (mid_top f W) as (K & MK & EK). pose proof (thr_pos f W) as TP. assert (RT : repv g (half_units f K)) by (apply (CROSS _ K X2 MK)).
    destruct X2 as (S & ALL & _). specialize (ALL _ RT). rewrite EK, (Qabs_pos (overflow_threshold f)) in ALL by lra.
    assert (E1 : e1 = XInf s).
    { destruct e1 as [s1|v1]; cbn [rx] in X1; rewrite MO in X1; [|exfalso; destruct X1 as (_ & X1 & _); lra]. destruct X1 as (S1 & _). f_equal. destruct s, s1; auto; lra. }
    subst e1. unfold w. rewrite (inf_shape f z s Iz W V1), (inf_shape g r s Ir W' V2). reflexivity.
  - cbn [xvalue] in V2. destruct (Qeq_dec q c) as [EQ|NE].
    + apply (exact_back f g q z r n); auto. apply (repv_wd g c); [now symmetry|]. exact (value_repv g r c (wide_okf g W') Gr V2).
    + assert (NZ : ~ (q == 0)%Q). { intros H. apply NE. pose proof (zero_value g q r W' Ir CR H) as V0. rewrite H. symmetry. now apply (fvalue_eq r). }
      split; [intros _|intros H; contradiction]. pose proof (fnum_val g r c (wide_okf g W') Gr V2) as NV.
      assert (Iw : instance f w) by (apply I_init; exact (nval_ok _ _ NV)). pose proof (init_correct f _ c W NV) as CW. fold w in CW.
      destruct (correct_x f c w W (inst_good f w W Iw) CW) as (e3 & V3 & X3).
      apply (finish f g q c e1 e3); auto.
      assert (NO : forall K, mid (f_mb f) (hi f) K -> ~ ((q <= half_units f K)%Q /\ (half_units f K <= c)%Q) /\ ~ ((c <= half_units f K)%Q /\ (half_units f K <= q)%Q)).
      { intros K MK. destruct (CROSS _ K X2 MK) as (RK & C1 & C2). cbn [ext_lt] in C1, C2.
        assert (EX : ~ (q == half_units f K)%Q). { intros H. apply NE. assert (RQ : repv g q) by (apply (repv_wd g (half_units f K)); [now symmetry|exact RK]). pose proof (exact_rep g q r W' Ir RQ CR) as VQ. now apply (fvalue_eq r). }
        split; intros [L1 L2].
        - assert (q < half_units f K)%Q as LT by (apply Qnot_le_lt; intros H; apply EX; lra). apply C1 in LT. lra.
        - assert (half_units f K < q)%Q as LT by (apply Qnot_le_lt; intros H; apply EX; lra). apply C2 in LT. lra. }
      destruct (ext_cases e1 e3) as [E|[E|E]]; [exact E|exfalso..].
      * destruct (between f q c e1 e3 W IE MO X1 X3 E) as (K & MK & L1 & L2). apply (proj1 (NO K MK)). tauto.
      * destruct (between f c q e3 e1 W IE MO X3 X1 E) as (K & MK & L1 & L2). apply (proj2 (NO K MK)). tauto.
Qed.
