(** Proofs of the theorems stated in FPExProps.v. *)
From Coq Require Import Lia ZArith QArith Qpower Qabs ZifyBool Lqa.
From Verif Require Import PyBase BVModel BVSpec BVFacts BVOps FPModel FPSpec FPRoundFacts FPPatFacts FPEncFacts FPDecFacts FPBracket FPQFacts FPRoundSpec FPInst FPArith FPMore FPProofs FP2Proofs FPAlgFacts FPAlgProofs FPExFacts.
Open Scope Z_scope.



Lemma exact_rep f q z : wide f -> instance f z -> repv f q -> correct f q z -> fvalue z q.
Proof.
  intros W Iz R C. destruct (correct_x f q z W (inst_good f z W Iz) C) as (e & X & RX).
  pose proof (rx_exact f q e W RX R) as E. destruct e as [s|v]; cbn [ext_eq xvalue] in *; [contradiction|]. apply (fvalue_wd z v); [exact E|exact X].
Qed.

Lemma integral_close r q k : integral r q k -> (Qabs (q - inject_Z k) < 1)%Q.
Proof. destruct r; cbn [integral]; intros [H1 H2]; lra. Qed.

Lemma close_eq n k : (Qabs (inject_Z n - inject_Z k) < 1)%Q -> n = k.
Proof.
  intros H. rewrite <- inj_sub in H. apply Qabs_Qlt_condition in H. destruct H as [H1 H2].
  change (- (1))%Q with (inject_Z (-1)) in H1. change 1%Q with (inject_Z 1) in H2. rewrite <- Zlt_Qlt in H1, H2. lia.
Qed.

Lemma close_small q k m : (Qabs (q - inject_Z k) < 1)%Q -> (Qabs q <= inject_Z m)%Q -> Z.abs k <= m.
Proof.
  intros H L. apply Qabs_Qlt_condition in H. apply Qabs_Qle_condition in L.
  assert (A : (inject_Z k < inject_Z (m + 1))%Q) by (rewrite inject_Z_plus; change (inject_Z 1) with 1%Q; lra).
  assert (B : (inject_Z (- (m + 1)) < inject_Z k)%Q) by (rewrite inject_Z_opp, inject_Z_plus; change (inject_Z 1) with 1%Q; lra).
  rewrite <- Zlt_Qlt in A, B. lia.
Qed.

Lemma C111_close_pf : forall f x y a b,
  wide f -> f_ieee f = true -> instance f x -> instance f y -> fvalue x a -> fvalue y b ->
  (0 <= a * b)%Q -> (Qabs a <= 2 * Qabs b)%Q -> (Qabs b <= 2 * Qabs a)%Q ->
  exists z, fp_sub x (AFP y) = Ok z /\ fvalue z (a - b).
Proof.
  intros f x y a b W IE Ix Iy VA VB S L1 L2. destruct (C71_arithmetic_pf f x y a b W Ix Iy VA VB) as (_ & (z & E & C) & _).
  exists z. split; [exact E|]. apply (exact_rep f _ z W); [apply (bin_inst f fp_sub x y); auto; cbn; tauto| |exact C].
  assert (SG : ((0 <= a)%Q /\ (0 <= b)%Q) \/ ((a <= 0)%Q /\ (b <= 0)%Q)).
  { destruct (Qlt_le_dec a 0) as [A|A].
    - right. split; [lra|]. destruct (Qlt_le_dec 0 b) as [B|B]; [|exact B]. assert (0 < (- a) * b)%Q by (apply Qmult_lt_0_compat; lra). lra.
    - destruct (Qlt_le_dec b 0) as [B|B]; [|left; split; assumption]. right. split; [|lra].
      destruct (Qlt_le_dec 0 a) as [A'|A']; [|exact A']. assert (0 < a * (- b))%Q by (apply Qmult_lt_0_compat; lra). lra. }
  apply (small_value f x y a b (a - b) 1 (-1)); auto; [change (inject_Z 1) with 1%Q; change (inject_Z (-1)) with (- (1))%Q; ring|..].
  - destruct SG as [[A B]|[A B]]; [rewrite (Qabs_pos a), (Qabs_pos b) in *; auto|rewrite (Qabs_neg a), (Qabs_neg b) in *; auto]; absq (a - b)%Q; lra.
  - destruct SG as [[A B]|[A B]]; [rewrite (Qabs_pos a), (Qabs_pos b) in *; auto|rewrite (Qabs_neg a), (Qabs_neg b) in *; auto]; absq (a - b)%Q; lra.
Qed.

Lemma C111_close_refuted_pf : exists f x y a b z,
  wide f /\ f_ieee f = false /\ instance f x /\ instance f y /\ fvalue x a /\ fvalue y b /\
  (0 < a)%Q /\ (0 < b)%Q /\ (a <= 2 * b)%Q /\ (b <= 2 * a)%Q /\ fp_sub x (AFP y) = Ok z /\ ~ fvalue z (a - b).
Proof.
  exists (Fmt 5 10 RNE false), (fp_init (Fmt 5 10 RNE false) (NRat false 1025 (2 ^ 24))), (fp_init (Fmt 5 10 RNE false) (NRat false 1024 (2 ^ 24))),
    (1025 # 2 ^ 24)%Q, (1024 # 2 ^ 24)%Q, (FPV (Fmt 5 10 RNE false) (MZero false)).
  split; [split; cbn; lia|]. split; [reflexivity|]. do 2 (split; [apply I_init; split; reflexivity|]).
  do 2 (split; [eexists; split; [vm_compute; reflexivity|vm_compute; reflexivity]|]). do 4 (split; [vm_compute; congruence|]). split; [vm_compute; reflexivity|].
  intros (q & E & H). vm_compute in E. injection E as <-. vm_compute in H. discriminate.
Qed.

Lemma C111_double_pf : forall f x two v a c,
  wide f -> instance f x -> instance f two -> instance f v -> fvalue x a -> fvalue two 2 -> fvalue v c ->
  (2 * Qabs a <= Qabs c)%Q ->
  (exists z, fp_add x (AFP x) = Ok z /\ fvalue z (2 * a)) /\ (exists z, fp_mul x (AFP two) = Ok z /\ fvalue z (2 * a)).
Proof.
  intros f x two v a c W Ix I2 Iv VA V2 VC L. pose proof (double_value f x v a c W Ix Iv VA VC L) as R.
  destruct (C71_arithmetic_pf f x x a a W Ix Ix VA VA) as ((z & E & C) & _).
  destruct (C71_arithmetic_pf f x two a 2 W Ix I2 VA V2) as (_ & _ & (z' & E' & C') & _). split.
  - exists z. split; [exact E|]. apply (fvalue_wd z (a + a)%Q); [ring|]. apply (exact_rep f _ z W); auto. apply (bin_inst f fp_add x x); auto; cbn; tauto.
  - exists z'. split; [exact E'|]. apply (fvalue_wd z' (a * 2)%Q); [ring|]. apply (exact_rep f _ z' W); auto; [apply (bin_inst f fp_mul x two); auto; cbn; tauto|].
    apply (repv_wd f (a + a)%Q); [ring|exact R].
Qed.

Lemma C111_rem_pf : forall f x y a b,
  wide f -> f_ieee f = true -> instance f x -> instance f y -> fvalue x a -> fvalue y b -> ~ (b == 0)%Q ->
  exists z k, fp_rem x (AFP y) = Ok z /\ fvalue z (a - inject_Z k * b) /\
    (2 * Qabs (a - inject_Z k * b) <= Qabs b)%Q /\ ((2 * Qabs (a - inject_Z k * b) == Qabs b)%Q -> Z.even k = true).
Proof.
  intros f x y a b W IE Ix Iy VA VB NZ. destruct (C71_rem_pf f x y a b W Ix Iy VA VB NZ) as (z & k & E & C & L & T).
  exists z, k. split; [exact E|]. split; [|split; assumption]. apply (exact_rep f _ z W); [apply (bin_inst f fp_rem x y); auto; cbn; tauto| |exact C].
  set (r := (a - inject_Z k * b)%Q) in *.
  apply (small_value f x y a b r 1 (- k)); auto; [unfold r; rewrite inject_Z_opp; change (inject_Z 1) with 1%Q; ring| |absq r; absq b; lra].
  destruct (Qlt_le_dec (Qabs a) (Qabs r)) as [X|X]; [exfalso|exact X].
  assert (K : (Qabs (inject_Z k * b) < Qabs b)%Q).
  { assert (Q : (inject_Z k * b == a - r)%Q) by (unfold r; ring). rewrite Q. eapply Qle_lt_trans; [apply Qabs_triangle_reverse_aux || apply (Qabs_triangle a (- r))|]. rewrite Qabs_opp. lra. }
  assert (K0 : k = 0).
  { rewrite Qabs_Qmult in K. destruct (Z.eq_dec k 0) as [K0|K0]; [exact K0|exfalso].
    assert (J : (1 <= Qabs (inject_Z k))%Q). { change (Qabs (inject_Z k)) with (inject_Z (Z.abs k)). change 1%Q with (inject_Z 1). rewrite <- Zle_Qle. lia. }
    pose proof (Qmult_le_compat_r 1 _ (Qabs b) J (Qabs_nonneg b)) as M. lra. }
  assert (RA : (r == a)%Q) by (unfold r; rewrite K0; change (inject_Z 0) with 0%Q; ring). rewrite RA in X. lra.
Qed.

Lemma C111_rem_refuted_pf : exists f x y a b z,
  wide f /\ f_ieee f = false /\ instance f x /\ instance f y /\ fvalue x a /\ fvalue y b /\ (0 < b)%Q /\
  fp_rem x (AFP y) = Ok z /\ forall k, ~ fvalue z (a - inject_Z k * b).
Proof.
  exists (Fmt 5 10 RNE false), (fp_init (Fmt 5 10 RNE false) (NRat false 1025 (2 ^ 24))), (fp_init (Fmt 5 10 RNE false) (NRat false 1024 (2 ^ 24))),
    (1025 # 2 ^ 24)%Q, (1024 # 2 ^ 24)%Q, (FPV (Fmt 5 10 RNE false) (MZero false)).
  split; [split; cbn; lia|]. split; [reflexivity|]. do 2 (split; [apply I_init; split; reflexivity|]).
  do 2 (split; [eexists; split; [vm_compute; reflexivity|vm_compute; reflexivity]|]). split; [reflexivity|]. split; [vm_compute; reflexivity|].
  intros k (q & E & H). vm_compute in E. injection E as <-.
  assert (X : (inject_Z (1025 - k * 1024) == 0)%Q).
  { rewrite inj_sub, inject_Z_mult. assert (M : ((1025 # 2 ^ 24) - inject_Z k * (1024 # 2 ^ 24) == (inject_Z 1025 - inject_Z k * inject_Z 1024) * (1 # 2 ^ 24))%Q).
    { change (1025 # 2 ^ 24) with (inject_Z 1025 * (1 # 2 ^ 24))%Q. change (1024 # 2 ^ 24) with (inject_Z 1024 * (1 # 2 ^ 24))%Q. ring. }
    rewrite M in H. symmetry in H. change (0 # 1)%Q with 0%Q in H. apply Qmult_integral in H. destruct H as [H|H]; [exact H|discriminate]. }
  unfold Qeq in X. cbn [Qnum Qden inject_Z] in X. lia.
Qed.

Lemma C111_integral_pf : forall f x a,
  wide f -> instance f x -> fvalue x a ->
  exists k, integral (f_mode f) a k /\
    (fvalue (fp_round_to_integral x) (inject_Z k) \/
     (xvalue (fp_round_to_integral x) (XInf (k <? 0)) /\ forall y b, instance f y -> fvalue y b -> (Qabs b < Qabs (inject_Z k))%Q)) /\
    (forall n, (a == inject_Z n)%Q -> fp_round_to_integral x = x).
Proof.
  intros f x a W Ix VA. pose proof (wide_okf f W) as O. pose proof (inst_good f x W Ix) as G.
  destruct (C71_integral_pf f x a W Ix VA) as (k & C & IN). exists k. split; [exact IN|]. pose proof (integral_close _ _ _ IN) as CL.
  set (z := fp_round_to_integral x) in *. assert (Iz : instance f z) by now apply I_rint.
  assert (EX : forall n, (a == inject_Z n)%Q -> n = k) by (intros n Q; apply close_eq; rewrite <- Q; exact CL).
  assert (RN : forall n, (a == inject_Z n)%Q -> repv f (inject_Z k)).
  { intros n Q. rewrite <- (EX n Q). apply (repv_wd f a); [exact Q|]. apply (value_repv f x a O G VA). }
  split.
  - assert (D : repv f (inject_Z k) \/ (overflow_threshold f <= Qabs (inject_Z k))%Q).
    { destruct (big_integer f x a W Ix VA) as [B|(n & Q)]; [|left; exact (RN n Q)]. apply integer_dich; [exact W|]. apply (close_small a k); assumption. }
    destruct D as [R|T]; [left; apply (exact_rep f _ z W); assumption|right].
    assert (BEL : (Qabs a < overflow_threshold f)%Q) by (apply (repv_below f a W), (value_repv f x a O G VA)).
    split.
    + destruct (correct_x f _ z W (inst_good f z W Iz) C) as (e & X & RX). destruct e as [s|v].
      * destruct RX as (S & _). destruct s.
        -- change 0%Q with (inject_Z 0) in S. rewrite <- Zlt_Qlt in S. replace (k <? 0) with true by lia. exact X.
        -- change 0%Q with (inject_Z 0) in S. rewrite <- Zlt_Qlt in S. replace (k <? 0) with false by lia. exact X.
      * exfalso. destruct RX as [RV RX]. pose proof (repv_below f v W RV) as BV. destruct (f_mode f); cbn [integral] in IN.
        -- lra.
        -- destruct RX as [R1 R2]. absq (inject_Z k); [destruct (R1 ltac:(lra))|destruct (R2 ltac:(lra))]; absq v; lra.
        -- destruct RX as [R1 _]. destruct IN as [I1 _]. absq (inject_Z k); absq v; absq a; lra.
        -- destruct RX as [R1 _]. destruct IN as [I1 _]. absq (inject_Z k); absq v; absq a; lra.
        -- destruct IN as [I1 _]. lra.
    + intros y b Iy VB. pose proof (repv_below f b W (value_repv f y b O (inst_good f y W Iy) VB)). lra.
  - intros n Q. pose proof (exact_rep f _ z W Iz (RN n Q) C) as V. rewrite <- (EX n Q) in V.
    destruct (Qeq_dec a 0) as [Z|NZ].
    + assert (V0 : fvalue z 0) by (apply (fvalue_wd z (inject_Z n)); [lra|exact V]). apply (fv0 f z W Iz) in V0. unfold fp_is_zero in V0.
      pose proof (inst_good f z W Iz) as (FZ & _). destruct (fv_val z) as [s|s|s|s m e] eqn:EZ; try discriminate.
      destruct (C71_zero_sign_pf f x x a a W Ix Ix VA VA) as (_ & _ & _ & _ & _ & _ & _ & SG). fold z in SG.
      assert (ZZ : z = FPV f (MZero s)) by (destruct z as [fz vz]; cbn in EZ, FZ; congruence). specialize (SG s ZZ).
      apply (same_object f z x 0 a W (inst_good f z W Iz) G); auto; [apply (fvalue_wd z (inject_Z n)); [lra|exact V]|lra|]. rewrite EZ. cbn [is_signed]. exact SG.
    + apply (same_object_nz f z x (inject_Z n) a W (inst_good f z W Iz) G V VA); lra.
Qed.

Lemma C111_sqrt_pf : forall f x v a r,
  wide f -> instance f x -> instance f v -> fvalue x a -> fvalue v r -> (0 < r)%Q -> (r * r == a)%Q -> fp_sqrt x = v.
Proof.
  intros f x v a r W Ix Iv VA VR P E. pose proof (wide_okf f W) as O.
  assert (PA : (0 < a)%Q) by (rewrite <- E; apply Qmult_lt_0_compat; exact P).
  pose proof (C73_exact_pf f x a r W Ix VA PA ltac:(lra) E) as C. assert (Is : instance f (fp_sqrt x)) by now apply I_sqrt.
  pose proof (exact_of f r (fp_sqrt x) v W Is Iv VR C) as V.
  apply (same_object_nz f _ v r r W (inst_good f _ W Is) (inst_good f v W Iv) V VR); lra.
Qed.
