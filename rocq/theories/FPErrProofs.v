(** Proofs of the theorems stated in FPErrProps.v. *)
From Coq Require Import Lia ZArith QArith Qpower Qabs ZifyBool Lqa.
From Verif Require Import PyBase BVModel BVSpec BVFacts BVOps FPModel FPSpec FPRoundFacts FPPatFacts FPEncFacts FPDecFacts FPBracket FPQFacts FPRoundSpec FPInst FPArith FPMore FPProofs FP2Proofs FPAlgFacts FPAlgProofs FPExFacts FPExProofs FPErrFacts FPTwoSumFacts.
Open Scope Z_scope.

Lemma correct_fin f q z c : wide f -> instance f z -> correct f q z -> fvalue z c -> exists v, (v == c)%Q /\ rx f q (XFin v).
Proof.
  intros W Iz C V. destruct (correct_x f q z W (inst_good f z W Iz) C) as (e & X & RX). destruct e as [s|v]; cbn [xvalue] in X.
  - exfalso. destruct X as [X _]. destruct V as (v & V & _). unfold fp_is_infinite in X. destruct (fv_val z); discriminate.
  - exists v. split; [|exact RX]. destruct X as (v1 & E1 & Q1). destruct V as (v2 & E2 & Q2). rewrite E1 in E2. injection E2 as <-. rewrite <- Q1. exact Q2.
Qed.

Lemma fma_inst f x y w z : instance f x -> instance f y -> instance f w -> fp_fma x (AFP y) (AFP w) = Ok z -> instance f z.
Proof.
  intros Ix Iy Iw E. apply (I_fma f x (AFP y) (AFP w) z); auto; intros v [H|H]; try discriminate; injection H as <-; assumption.
Qed.

Lemma C114_sum_pf : forall f x y s a b c,
  wide f -> f_ieee f = true -> f_mode f = RNE -> instance f x -> instance f y -> fvalue x a -> fvalue y b ->
  fp_add x (AFP y) = Ok s -> fvalue s c ->
  (exists e, instance f e /\ fvalue e (a + b - c)) /\
  ((Qabs b <= Qabs a)%Q -> exists t e, fp_sub s (AFP x) = Ok t /\ fvalue t (c - a) /\ fp_sub y (AFP t) = Ok e /\ fvalue e (a + b - c)).
Proof.
  assert (FAST : forall f x y s a b c,
    wide f -> f_ieee f = true -> f_mode f = RNE -> instance f x -> instance f y -> fvalue x a -> fvalue y b ->
    fp_add x (AFP y) = Ok s -> fvalue s c -> (Qabs b <= Qabs a)%Q ->
    exists t e, fp_sub s (AFP x) = Ok t /\ fvalue t (c - a) /\ fp_sub y (AFP t) = Ok e /\ fvalue e (a + b - c)).
  { intros f x y s a b c W IE MO Ix Iy VA VB ES VC LE. pose proof (wide_okf f W) as O. pose proof W as [_ M1]. destruct (hi_top f W) as [_ H0].
    destruct (C71_arithmetic_pf f x y a b W Ix Iy VA VB) as ((z & EZ & CO) & _). rewrite ES in EZ. injection EZ as <-.
    assert (Is : instance f s) by (apply (bin_inst f fp_add x y); auto; cbn; tauto).
    destruct (correct_fin f _ s c W Is CO VC) as (v & QV & RX).
    destruct (value_cv f x a W Ix VA) as (A & ja & ta & QA & CA). destruct (value_cv f y b W Iy VB) as (B & jb & tb & QB & CB). destruct (value_cv f s c W Is VC) as (C & jc & tc & QC & CC).
    assert (QN : (a + b == inject_Z (A + B) * unit f)%Q) by (rewrite QA, QB, inject_Z_plus; ring).
    assert (NE : near (f_mb f) (hi f) (A + B) 1 C).
    { apply (rx_near f (a + b)%Q v); auto; [rewrite QV; exact QC|lia|]. rewrite QN. change (inject_Z 1) with 1%Q. ring. }
    assert (QR : (a + b - c == inject_Z (A + B - C) * unit f)%Q) by (rewrite QN, QC, inj_sub; ring).
    assert (LAB : Z.abs B <= Z.abs A) by (apply (units_le f); rewrite <- !units_abs, <- QA, <- QB; exact LE).
    assert (NEAR : forall r, repv f r -> (Qabs (a + b - c) <= Qabs (a + b - r))%Q).
    { intros r R. cbn [rx] in RX. rewrite MO in RX. destruct RX as (_ & _ & RX). specialize (RX r R). rewrite QV in RX. exact RX. }
    assert (LB : Z.abs (A + B - C) <= Z.abs B).
    { apply (units_le f). rewrite <- !units_abs, <- QR, <- QB. assert (E : (b == a + b - a)%Q) by ring. rewrite E at 2. apply NEAR, (value_repv f x a O (inst_good f x W Ix) VA). }
    pose proof (fast_sum (f_mb f) (hi f) M1 H0 A B C ja ta jb tb jc tc CA CB CC NE LAB LB) as UT.
    pose proof (sum_error (f_mb f) (hi f) M1 H0 A B C ja ta jb tb jc tc CA CB CC NE ltac:(lia) LB) as UE.
    assert (RT : repv f (c - a)%Q) by (apply (repv_wd f (inject_Z (C - A) * unit f)%Q); [rewrite QC, QA, inj_sub; ring|now apply uv_rep]).
    destruct (C71_arithmetic_pf f s x c a W Is Ix VC VA) as (_ & (t & ET & CT) & _).
    assert (It : instance f t) by (apply (bin_inst f fp_sub s x); auto; cbn; tauto).
    pose proof (exact_rep f _ t W It RT CT) as VT.
    destruct (C71_arithmetic_pf f y t b (c - a) W Iy It VB VT) as (_ & (e & EE & CE) & _).
    exists t, e. split; [exact ET|]. split; [exact VT|]. split; [exact EE|].
    apply (fvalue_wd e (b - (c - a))%Q); [ring|]. apply (exact_rep f _ e W); [apply (bin_inst f fp_sub y t); auto; cbn; tauto| |exact CE].
    apply (repv_wd f (inject_Z (A + B - C) * unit f)%Q); [rewrite <- QR; ring|now apply uv_rep]. }
  intros f x y s a b c W IE MO Ix Iy VA VB ES VC. split; [|intros LE; apply (FAST f x y s a b c); auto].
  assert (Is : instance f s) by (apply (bin_inst f fp_add x y); auto; cbn; tauto).
  destruct (Qlt_le_dec (Qabs a) (Qabs b)) as [L|L].
  - assert (ES' : fp_add y (AFP x) = Ok s) by (rewrite <- ES; symmetry; apply (C110_commutative_pf f x y x W Ix Iy Ix)).
    destruct (FAST f y x s b a c W IE MO Iy Ix VB VA ES' VC) as (t & e & ET & VT & EE & VE); [lra|]. exists e.
    assert (It : instance f t) by (apply (bin_inst f fp_sub s y); auto; cbn; tauto).
    split; [apply (bin_inst f fp_sub x t); auto; cbn; tauto|]. apply (fvalue_wd e (b + a - c)%Q); [ring|exact VE].
  - destruct (FAST f x y s a b c W IE MO Ix Iy VA VB ES VC L) as (t & e & ET & VT & EE & VE). exists e.
    assert (It : instance f t) by (apply (bin_inst f fp_sub s x); auto; cbn; tauto).
    split; [apply (bin_inst f fp_sub y t); auto; cbn; tauto|exact VE].
Qed.

Lemma near_round f q z c p C : wide f -> f_ieee f = true -> f_mode f = RNE -> instance f z -> correct f q z -> fvalue z c ->
  (q == inject_Z p * unit f)%Q -> (c == inject_Z C * unit f)%Q ->
  near (f_mb f) (hi f) p 1 C /\ forall r, uv (f_mb f) (hi f) r -> Z.abs (p - C) <= Z.abs (p - r).
Proof.
  intros W IE MO Iz CO VC QN QC. destruct (correct_fin f _ z c W Iz CO VC) as (v & QV & RX). split.
  - apply (rx_near f q v); auto; [rewrite QV; exact QC|lia|]. rewrite QN. change (inject_Z 1) with 1%Q. ring.
  - intros r U. cbn [rx] in RX. rewrite MO in RX. destruct RX as (_ & _ & RX). specialize (RX _ (uv_rep f r W IE U)).
    apply (units_le f). rewrite <- !units_abs, !inj_sub.
    assert (E1 : ((inject_Z p - inject_Z C) * unit f == q - v)%Q) by (rewrite QV, QN, QC; ring).
    assert (E2 : ((inject_Z p - inject_Z r) * unit f == q - inject_Z r * unit f)%Q) by (rewrite QN; ring).
    rewrite E1, E2. exact RX.
Qed.

Lemma C114_two_sum_pf : forall f x y s x' a b c d,
  wide f -> f_ieee f = true -> f_mode f = RNE -> instance f x -> instance f y -> fvalue x a -> fvalue y b ->
  fp_add x (AFP y) = Ok s -> fvalue s c -> fp_sub s (AFP y) = Ok x' -> fvalue x' d ->
  exists y' dx dy e,
    fp_sub s (AFP x') = Ok y' /\ fvalue y' (c - d) /\ fp_sub x (AFP x') = Ok dx /\ fvalue dx (a - d) /\
    fp_sub y (AFP y') = Ok dy /\ fvalue dy (b - (c - d)) /\ fp_add dx (AFP dy) = Ok e /\ fvalue e (a + b - c).
Proof.
  intros f x y s x' a b c d W IE MO Ix Iy VA VB ES VC EX VD. pose proof W as [_ M1]. destruct (hi_top f W) as [_ H0].
  destruct (C71_arithmetic_pf f x y a b W Ix Iy VA VB) as ((z & EZ & CO) & _). rewrite ES in EZ. injection EZ as <-.
  assert (Is : instance f s) by (apply (bin_inst f fp_add x y); auto; cbn; tauto).
  destruct (C71_arithmetic_pf f s y c b W Is Iy VC VB) as (_ & (z & EZ & CX) & _). rewrite EX in EZ. injection EZ as <-.
  assert (Ix' : instance f x') by (apply (bin_inst f fp_sub s y); auto; cbn; tauto).
  destruct (value_cv f x a W Ix VA) as (A & ja & ta & QA & CA). destruct (value_cv f y b W Iy VB) as (B & jb & tb & QB & CB).
  destruct (value_cv f s c W Is VC) as (C & jc & tc & QC & CC). destruct (value_cv f x' d W Ix' VD) as (D & jd & td & QD & CD).
  destruct (near_round f (a + b)%Q s c (A + B) C W IE MO Is CO VC) as (N1 & L1); [rewrite QA, QB, inject_Z_plus; ring|exact QC|].
  destruct (near_round f (c - b)%Q x' d (C - B) D W IE MO Ix' CX VD) as (N2 & L2); [rewrite QC, QB, inj_sub; ring|exact QD|].
  destruct (two_sum (f_mb f) (hi f) M1 H0 A B C D ja ta jb tb jc tc jd td CA CB CC CD N1 N2 L1 L2) as (U1 & U2 & U3 & U4).
  destruct (C71_arithmetic_pf f s x' c d W Is Ix' VC VD) as (_ & (y' & EY & CY) & _).
  assert (Iy' : instance f y') by (apply (bin_inst f fp_sub s x'); auto; cbn; tauto).
  assert (VY : fvalue y' (c - d)) by (apply (exact_rep f _ y' W Iy'); [apply (repv_wd f (inject_Z (C - D) * unit f)%Q); [rewrite QC, QD, inj_sub; ring|now apply uv_rep]|exact CY]).
  destruct (C71_arithmetic_pf f x x' a d W Ix Ix' VA VD) as (_ & (dx & EDX & CDX) & _).
  assert (Idx : instance f dx) by (apply (bin_inst f fp_sub x x'); auto; cbn; tauto).
  assert (VDX : fvalue dx (a - d)) by (apply (exact_rep f _ dx W Idx); [apply (repv_wd f (inject_Z (A - D) * unit f)%Q); [rewrite QA, QD, inj_sub; ring|now apply uv_rep]|exact CDX]).
  destruct (C71_arithmetic_pf f y y' b (c - d) W Iy Iy' VB VY) as (_ & (dy & EDY & CDY) & _).
  assert (Idy : instance f dy) by (apply (bin_inst f fp_sub y y'); auto; cbn; tauto).
  assert (VDY : fvalue dy (b - (c - d))) by (apply (exact_rep f _ dy W Idy); [apply (repv_wd f (inject_Z (B - (C - D)) * unit f)%Q); [rewrite QB, QC, QD, !inj_sub; ring|now apply uv_rep]|exact CDY]).
  destruct (C71_arithmetic_pf f dx dy (a - d) (b - (c - d)) W Idx Idy VDX VDY) as ((e & EE & CE) & _).
  exists y', dx, dy, e. do 7 (split; [assumption|]). apply (fvalue_wd e (a - d + (b - (c - d)))%Q); [ring|].
  apply (exact_rep f _ e W); [apply (bin_inst f fp_add dx dy); auto; cbn; tauto| |exact CE].
  apply (repv_wd f (inject_Z (A + B - C) * unit f)%Q); [rewrite QA, QB, QC, QD, inj_sub, inject_Z_plus; ring|now apply uv_rep].
Qed.

Lemma C114_two_sum_refuted_pf : exists f x y s x' y' dx dy e a b c,
  wide f /\ f_ieee f = true /\ f_mode f = RNE /\ instance f x /\ instance f y /\ fvalue x a /\ fvalue y b /\
  fp_add x (AFP y) = Ok s /\ fvalue s c /\ fp_sub s (AFP y) = Ok x' /\ fp_is_infinite x' = true /\
  fp_sub s (AFP x') = Ok y' /\ fp_sub x (AFP x') = Ok dx /\ fp_sub y (AFP y') = Ok dy /\
  fp_add dx (AFP dy) = Ok e /\ fp_is_NaN e = true.
Proof.
  set (f := Fmt 5 10 RNE true). exists f, (fp_init f (NRat false 65504 1)), (fp_init f (NRat true 48 1)), (fp_init f (NRat false 65472 1)).
  do 5 eexists. exists 65504%Q, (-48)%Q, 65472%Q.
  split; [split; cbn; lia|]. do 2 (split; [reflexivity|]). do 2 (split; [apply I_init; split; reflexivity|]).
  do 2 (split; [eexists; split; [vm_compute; reflexivity|vm_compute; reflexivity]|]). split; [vm_compute; reflexivity|].
  split; [eexists; split; [vm_compute; reflexivity|vm_compute; reflexivity]|].
  split; [vm_compute; reflexivity|]. split; [vm_compute; reflexivity|]. split; [vm_compute; reflexivity|]. split; [vm_compute; reflexivity|].
  split; [vm_compute; reflexivity|]. split; [vm_compute; reflexivity|]. vm_compute. reflexivity.
Qed.

Lemma C114_difference_pf : forall f x y s a b c,
  wide f -> f_ieee f = true -> f_mode f = RNE -> instance f x -> instance f y -> fvalue x a -> fvalue y b ->
  fp_sub x (AFP y) = Ok s -> fvalue s c ->
  (exists e, instance f e /\ fvalue e (a - b - c)) /\
  ((Qabs b <= Qabs a)%Q -> exists t e, fp_sub s (AFP x) = Ok t /\ fvalue t (c - a) /\ fp_sub (fp_neg y) (AFP t) = Ok e /\ fvalue e (a - b - c)).
Proof.
  intros f x y s a b c W IE MO Ix Iy VA VB ES VC. rewrite (proj1 (C110_subtraction_pf f x y W Ix Iy)) in ES.
  pose proof (fneg_value f y b W Iy VB) as VN.
  destruct (C114_sum_pf f x (fp_neg y) s a (- b) c W IE MO Ix (I_neg f y Iy) VA VN ES VC) as ((e & Ie & Ve) & H). split.
  - exists e. split; [exact Ie|]. apply (fvalue_wd e (a + - b - c)%Q); [ring|exact Ve].
  - intros L. destruct H as (t & e' & E1 & V1 & E2 & V2); [rewrite Qabs_opp; exact L|]. exists t, e'. do 3 (split; [assumption|]).
    apply (fvalue_wd e' (a + - b - c)%Q); [ring|exact V2].
Qed.

Lemma C114_sum_refuted_pf : forall r, In r [RNA; RTP; RTN; RTZ] -> exists f x y s a b c,
  f_mode f = r /\ wide f /\ f_ieee f = true /\ instance f x /\ instance f y /\ fvalue x a /\ fvalue y b /\
  fp_add x (AFP y) = Ok s /\ fvalue s c /\ forall e, instance f e -> ~ fvalue e (a + b - c).
Proof.
  assert (NV : forall f e q N, wide f -> instance f e -> fvalue e q -> (q == inject_Z N * unit f)%Q -> Z.odd N = true -> 2 ^ (f_mb f + 1) <= Z.abs N -> False).
  { intros f e q N W Ie V Q OD BIG. destruct (value_units f e q W Ie V) as (A & j & t & QA & EA & J & T & _).
    assert (A = N) by (apply (val_eq (unit f) (unit_pos f)); rewrite <- QA; exact Q). subst A.
    destruct (Z.eq_dec j 0) as [->|NJ]; [change (2 ^ 0) with 1 in EA; lia|].
    replace j with (j - 1 + 1) in EA by lia. rewrite pow2_S in EA by lia. assert (Z.even N = true); [|rewrite <- Z.negb_odd, OD in *; discriminate].
    apply Z.even_spec. exists (Z.sgn N * (t * 2 ^ (j - 1))). assert (N = Z.sgn N * Z.abs N) by lia. lia. }
  intros r H.
  assert (P : forall s y b c N, let f := Fmt 5 10 r true in let x := fp_init f (NRat false 1 1) in let yy := fp_init f (NRat y 1 (2 ^ 24)) in
    fvalue yy b -> fp_add x (AFP yy) = Ok s -> fvalue s c -> (1 + b - c == inject_Z N * unit f)%Q -> Z.odd N = true -> 2 ^ 11 <= Z.abs N ->
    exists f x y s a b c,
      f_mode f = r /\ wide f /\ f_ieee f = true /\ instance f x /\ instance f y /\ fvalue x a /\ fvalue y b /\
      fp_add x (AFP y) = Ok s /\ fvalue s c /\ forall e, instance f e -> ~ fvalue e (a + b - c)).
  { intros s y b c N f x yy VB ES VC Q OD BIG. exists f, x, yy, s, 1%Q, b, c. split; [reflexivity|]. assert (Wf : wide f) by (split; cbn; lia).
    split; [exact Wf|]. split; [reflexivity|]. do 2 (split; [apply I_init; split; reflexivity|]).
    split; [unfold x, f; cbn [In] in H; destruct H as [<-|[<-|[<-|[<-|[]]]]]; (eexists; split; [vm_compute; reflexivity|vm_compute; reflexivity])|].
    split; [exact VB|]. split; [exact ES|]. split; [exact VC|]. intros e Ie V. exact (NV f e _ N Wf Ie V Q OD BIG). }
  cbn [In] in H. destruct H as [<-|[<-|[<-|[<-|[]]]]].
  - apply (P (fp_init (Fmt 5 10 RNA true) (NRat false 1025 1024)) false (1 # 2 ^ 24)%Q (1025 # 1024)%Q (- 16383)); try (vm_compute; reflexivity); try (eexists; split; [vm_compute; reflexivity|vm_compute; reflexivity]). vm_compute; congruence.
  - apply (P (fp_init (Fmt 5 10 RTP true) (NRat false 1025 1024)) false (1 # 2 ^ 24)%Q (1025 # 1024)%Q (- 16383)); try (vm_compute; reflexivity); try (eexists; split; [vm_compute; reflexivity|vm_compute; reflexivity]). vm_compute; congruence.
  - apply (P (fp_init (Fmt 5 10 RTN true) (NRat false 2047 2048)) true (- (1 # 2 ^ 24))%Q (2047 # 2048)%Q 8191); try (vm_compute; reflexivity); try (eexists; split; [vm_compute; reflexivity|vm_compute; reflexivity]). vm_compute; congruence.
  - apply (P (fp_init (Fmt 5 10 RTZ true) (NRat false 2047 2048)) true (- (1 # 2 ^ 24))%Q (2047 # 2048)%Q 8191); try (vm_compute; reflexivity); try (eexists; split; [vm_compute; reflexivity|vm_compute; reflexivity]). vm_compute; congruence.
Qed.

Lemma C114_product_pf : forall f x y z v w a b c m u k,
  wide f -> f_ieee f = true -> instance f x -> instance f y -> instance f v -> instance f w ->
  fvalue x a -> fvalue y b -> fvalue v m -> fvalue w u ->
  fp_mul x (AFP y) = Ok z -> fvalue z c ->
  (Qabs (a * b) <= Qabs m)%Q -> (a * b == inject_Z k * u)%Q ->
  exists e, fp_fma x (AFP y) (AFP (fp_neg z)) = Ok e /\ fvalue e (a * b - c).
Proof.
  intros f x y z v w a b c m u k W IE Ix Iy Iv Iw VA VB VM VU EZ VC LM EK. pose proof W as [_ M1]. destruct (hi_top f W) as [_ H0]. pose proof (gg_pos f W) as G.
  destruct (C71_arithmetic_pf f x y a b W Ix Iy VA VB) as (_ & _ & (z' & EZ' & CO) & _). rewrite EZ in EZ'. injection EZ' as <-.
  assert (Iz : instance f z) by (apply (bin_inst f fp_mul x y); auto; cbn; tauto).
  destruct (correct_fin f _ z c W Iz CO VC) as (vv & QV & RX).
  destruct (value_cv f x a W Ix VA) as (A & ja & ta & QA & CA). destruct (value_cv f y b W Iy VB) as (B & jb & tb & QB & CB). destruct (value_cv f z c W Iz VC) as (C & jc & tc & QC & CC).
  destruct (value_cv f v m W Iv VM) as (MM & jm & tm & QM & CM). destruct (value_cv f w u W Iw VU) as (U & ju & tu & QU & _).
  set (N := k * U). assert (QN : (a * b == inject_Z N * unit f)%Q) by (rewrite EK, QU; unfold N; rewrite inject_Z_mult; ring).
  assert (NE : near (f_mb f) (hi f) N 1 C).
  { apply (rx_near f (a * b)%Q vv); auto; [rewrite QV; exact QC|lia|]. rewrite QN. change (inject_Z 1) with 1%Q. ring. }
  assert (LN : Z.abs N <= top (f_mb f) (hi f)).
  { destruct CM as (_ & _ & _ & _ & BM). apply Z.le_trans with (2 := BM). apply (units_le f). rewrite <- !units_abs, <- QN, <- QM. exact LM. }
  assert (NG : N * 2 ^ gg f = A * B).
  { apply (sq_eq f). rewrite <- unit_sq by exact W. rewrite <- QN, QA, QB, inject_Z_mult. ring. }
  assert (AG : Z.abs N * 2 ^ gg f = ta * tb * (2 ^ ja * 2 ^ jb)).
  { destruct CA as (EA & _), CB as (EB & _). pose proof (pow2_pos (gg f) ltac:(lia)). rewrite <- (Z.abs_eq (2 ^ gg f)) by lia. rewrite <- Z.abs_mul, NG, Z.abs_mul, EA, EB. ring. }
  destruct CA as (EA & JA & TA & _), CB as (EB & JB & TB & _).
  assert (TT : ta * tb < 2 ^ (2 * f_mb f + 2)).
  { replace (2 * f_mb f + 2) with ((f_mb f + 1) + (f_mb f + 1)) by lia. rewrite pow2_split by lia. apply Z.mul_lt_mono_nonneg; lia. }
  assert (SH : exists i n, 0 <= i /\ N = n * 2 ^ i /\ Z.abs n < 2 ^ (2 * f_mb f + 2)).
  { pose proof (pow2_pos (gg f) ltac:(lia)) as PG. rewrite <- pow2_split in AG by lia. destruct (Z_le_gt_dec (gg f) (ja + jb)) as [L|L].
    - exists (ja + jb - gg f). assert (EN : Z.abs N = ta * tb * 2 ^ (ja + jb - gg f)).
      { apply (Z.mul_reg_r _ _ (2 ^ gg f)); [lia|]. rewrite AG. replace (ja + jb) with ((ja + jb - gg f) + gg f) at 1 by lia. rewrite pow2_split by lia. ring. }
      destruct (multiple N (ta * tb) (ja + jb - gg f) (ja + jb - gg f) EN ltac:(lia)) as (n & NN). exists n. split; [lia|]. split; [exact NN|].
      pose proof (pow2_pos (ja + jb - gg f) ltac:(lia)) as PI.
      assert (Z.abs n = ta * tb); [|lia]. apply (Z.mul_reg_r _ _ (2 ^ (ja + jb - gg f))); [lia|]. rewrite <- EN, NN at 1. rewrite Z.abs_mul, (Z.abs_eq (2 ^ _)) by lia. reflexivity.
    - exists 0, N. split; [lia|]. split; [rewrite Z.mul_1_r; reflexivity|]. apply Z.le_lt_trans with (2 := TT).
      apply (mul_le_inv _ _ (2 ^ gg f)); [exact PG|]. rewrite AG. pose proof (pow2_le_mono (ja + jb) (gg f) ltac:(lia)). apply mul_mono_l; [apply Z.mul_nonneg_nonneg; lia|assumption]. }
  destruct SH as (i & n & I & EN & SN).
  pose proof (product_error (f_mb f) (hi f) M1 H0 N C jc tc n i NE CC LN I EN SN) as UE.
  pose proof (fneg_value f z c W Iz VC) as VN. assert (In' : instance f (fp_neg z)) by now apply I_neg.
  destruct (C71_fma_pf f x y (fp_neg z) a b (- c) W Ix Iy In' VA VB VN) as (e & EE & CE). exists e. split; [exact EE|].
  apply (exact_rep f _ e W); [exact (fma_inst f x y (fp_neg z) e Ix Iy In' EE)| |exact CE].
  apply (repv_wd f (inject_Z (N - C) * unit f)%Q); [rewrite QN, QC, inj_sub; ring|now apply uv_rep].
Qed.

Lemma C114_product_refuted_pf : exists f x y z a b c e,
  wide f /\ f_ieee f = true /\ f_mode f = RNE /\ instance f x /\ instance f y /\ fvalue x a /\ fvalue y b /\
  fp_mul x (AFP y) = Ok z /\ fvalue z c /\ (Qabs (a * b) <= Qabs a)%Q /\
  fp_fma x (AFP y) (AFP (fp_neg z)) = Ok e /\ ~ fvalue e (a * b - c).
Proof.
  exists (Fmt 5 10 RNE true), (fp_init (Fmt 5 10 RNE true) (NRat false 1025 (2 ^ 20))), (fp_init (Fmt 5 10 RNE true) (NRat false 1025 (2 ^ 20))),
    (fp_init (Fmt 5 10 RNE true) (NRat false 16 (2 ^ 24))), (1025 # 2 ^ 20)%Q, (1025 # 2 ^ 20)%Q, (16 # 2 ^ 24)%Q, (FPV (Fmt 5 10 RNE true) (MZero false)).
  split; [split; cbn; lia|]. do 2 (split; [reflexivity|]). do 2 (split; [apply I_init; split; reflexivity|]).
  do 2 (split; [eexists; split; [vm_compute; reflexivity|vm_compute; reflexivity]|]). split; [vm_compute; reflexivity|].
  split; [eexists; split; [vm_compute; reflexivity|vm_compute; reflexivity]|]. split; [vm_compute; congruence|]. split; [vm_compute; reflexivity|].
  intros (q & E & H). vm_compute in E. injection E as <-. vm_compute in H. discriminate.
Qed.

Lemma C114_quotient_pf : forall f x y z v w a b c m u k,
  wide f -> f_ieee f = true -> instance f x -> instance f y -> instance f v -> instance f w ->
  fvalue x a -> fvalue y b -> fvalue v m -> fvalue w u -> ~ (b == 0)%Q -> ~ (u == 0)%Q ->
  fp_div x (AFP y) = Ok z -> fvalue z c ->
  (Qabs u <= Qabs (a / b))%Q -> (Qabs (a / b) <= Qabs m)%Q -> (c * b == inject_Z k * u)%Q ->
  exists e, fp_fma (fp_neg z) (AFP y) (AFP x) = Ok e /\ fvalue e (a - c * b).
Proof.
  intros f x y z v w a b c m u k W IE Ix Iy Iv Iw VA VB VM VU NB NU EZ VC LU LM EK. pose proof W as [_ M1]. destruct (hi_top f W) as [_ H0]. pose proof (gg_pos f W) as G.
  destruct (C71_arithmetic_pf f x y a b W Ix Iy VA VB) as (_ & _ & _ & DV). destruct (DV NB) as (z' & EZ' & CO). rewrite EZ in EZ'. injection EZ' as <-.
  assert (Iz : instance f z) by (apply (bin_inst f fp_div x y); auto; cbn; tauto).
  destruct (correct_fin f _ z c W Iz CO VC) as (vv & QV & RX).
  destruct (value_cv f x a W Ix VA) as (A & ja & ta & QA & CA). destruct (value_cv f y b W Iy VB) as (B & jb & tb & QB & CB). destruct (value_cv f z c W Iz VC) as (C & jc & tc & QC & CC).
  destruct (value_cv f v m W Iv VM) as (MM & jm & tm & QM & CM). destruct (value_cv f w u W Iw VU) as (U & ju & tu & QU & _).
  assert (ZNB : B <> 0) by (intros ->; apply NB; rewrite QB; change (inject_Z 0) with 0%Q; ring).
  assert (ZNU : U <> 0) by (intros ->; apply NU; rewrite QU; change (inject_Z 0) with 0%Q; ring).
  assert (PB : (0 < Qabs b)%Q) by (absq b; lra).
  assert (AB : (Qabs (a / b) * Qabs b == Qabs a)%Q) by (rewrite <- Qabs_Qmult; assert (E : (a / b * b == a)%Q) by (field; exact NB); rewrite E; reflexivity).
  set (K := k * U).
  assert (KG : K * 2 ^ gg f = C * B).
  { apply (sq_eq f). rewrite <- unit_sq by exact W. rewrite inject_Z_mult. transitivity (c * b)%Q; [rewrite EK, QU; unfold K; rewrite inject_Z_mult; ring|rewrite QC, QB; ring]. }
  assert (NE : near (f_mb f) (hi f) (Z.sgn B * (A * 2 ^ gg f)) (Z.abs B) C).
  { apply (rx_near f (a / b)%Q vv); auto; [rewrite QV; exact QC|lia|]. destruct (unit_one f W) as (U1 & _ & _). fold (gg f) in U1.
    assert (E : (inject_Z (Z.sgn B * (A * 2 ^ gg f)) * unit f == inject_Z (Z.sgn B * A))%Q).
    { rewrite !inject_Z_mult. transitivity (inject_Z (Z.sgn B) * inject_Z A * (inject_Z (2 ^ gg f) * unit f))%Q; [ring|]. rewrite <- U1. ring. }
    rewrite E. assert (SB : Z.abs B = Z.sgn B * B) by lia. rewrite SB, !inject_Z_mult.
    assert (BU : ~ (inject_Z B * unit f == 0)%Q) by (rewrite <- QB; exact NB). pose proof (unit_pos f) as UP.
    rewrite QA, QB. field. split; [intros X; rewrite X in UP; discriminate|intros X; apply BU; rewrite X; ring]. }
  assert (LO : Z.abs B <= Z.abs A * 2 ^ gg f).
  { assert (X : Z.abs U * Z.abs B <= Z.abs A * 2 ^ gg f).
    { apply (sq_le f). rewrite <- unit_sq by exact W. rewrite <- units_abs, <- QA, <- AB. apply Qle_trans with (Qabs u * Qabs b)%Q; [|apply Qmult_le_compat_r; [exact LU|apply Qabs_nonneg]].
      rewrite QU, QB, !units_abs, inject_Z_mult. apply Qle_lteq. right. ring. }
    apply Z.le_trans with (2 := X). apply mul_ge_1; lia. }
  assert (UP : Z.abs A * 2 ^ gg f <= top (f_mb f) (hi f) * Z.abs B).
  { assert (X : Z.abs A * 2 ^ gg f <= Z.abs MM * Z.abs B).
    { apply (sq_le f). rewrite <- unit_sq by exact W. rewrite <- units_abs, <- QA, <- AB. apply Qle_trans with (Qabs m * Qabs b)%Q; [apply Qmult_le_compat_r; [exact LM|apply Qabs_nonneg]|].
      rewrite QM, QB, !units_abs, inject_Z_mult. apply Qle_lteq. right. ring. }
    destruct CM as (_ & _ & _ & _ & BM). apply Z.le_trans with (1 := X). apply Z.mul_le_mono_nonneg_r; lia. }
  pose proof (quotient_error (f_mb f) (hi f) M1 A B C K ja ta jb tb jc tc (gg f) G CA CB CC ZNB NE KG (conj LO UP)) as UE.
  pose proof (fneg_value f z c W Iz VC) as VN. assert (In' : instance f (fp_neg z)) by now apply I_neg.
  destruct (C71_fma_pf f (fp_neg z) y x (- c) b a W In' Iy Ix VN VB VA) as (e & EE & CE). exists e. split; [exact EE|].
  apply (fvalue_wd e (- c * b + a)%Q); [ring|].
  apply (exact_rep f _ e W); [exact (fma_inst f (fp_neg z) y x e In' Iy Ix EE)| |exact CE].
  apply (repv_wd f (inject_Z (A - K) * unit f)%Q); [|now apply uv_rep].
  assert (E : (c * b == inject_Z K * unit f)%Q) by (rewrite EK, QU; unfold K; rewrite inject_Z_mult; ring).
  transitivity (a - c * b)%Q; [rewrite E, QA, inj_sub; ring|ring].
Qed.

Lemma C114_compliance_refuted_pf : exists f x y s t e a b c,
  wide f /\ f_ieee f = false /\ f_mode f = RNE /\ instance f x /\ instance f y /\ fvalue x a /\ fvalue y b /\ (Qabs b <= Qabs a)%Q /\
  fp_add x (AFP y) = Ok s /\ fvalue s c /\ fp_sub s (AFP x) = Ok t /\ fp_sub y (AFP t) = Ok e /\ ~ fvalue e (a + b - c).
Proof.
  exists (Fmt 5 10 RNE false), (fp_init (Fmt 5 10 RNE false) (NRat false 2048 (2 ^ 24))), (fp_init (Fmt 5 10 RNE false) (NRat false 1025 (2 ^ 24))),
    (fp_init (Fmt 5 10 RNE false) (NRat false 3072 (2 ^ 24))), (fp_init (Fmt 5 10 RNE false) (NRat false 1024 (2 ^ 24))), (FPV (Fmt 5 10 RNE false) (MZero false)),
    (2048 # 2 ^ 24)%Q, (1025 # 2 ^ 24)%Q, (3072 # 2 ^ 24)%Q.
  split; [split; cbn; lia|]. do 2 (split; [reflexivity|]). do 2 (split; [apply I_init; split; reflexivity|]).
  do 2 (split; [eexists; split; [vm_compute; reflexivity|vm_compute; reflexivity]|]). split; [vm_compute; congruence|]. split; [vm_compute; reflexivity|].
  split; [eexists; split; [vm_compute; reflexivity|vm_compute; reflexivity]|]. do 2 (split; [vm_compute; reflexivity|]).
  intros (q & E & H). vm_compute in E. injection E as <-. vm_compute in H. discriminate.
Qed.
