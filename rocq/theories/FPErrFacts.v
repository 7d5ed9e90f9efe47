(** The rounding error of an operation, in units of the smallest subnormal. *)
From Coq Require Import Lia ZArith QArith Qpower Qabs ZifyBool Lqa.
From Verif Require Import PyBase BVModel BVSpec BVFacts BVOps FPModel FPSpec FPRoundFacts FPPatFacts FPEncFacts FPDecFacts FPBracket FPQFacts FPRoundSpec FPInst FPArith FPMore FPProofs FPAlgFacts FPAlgProofs FPExFacts.
Open Scope Z_scope.

(** Numbers t * 2^j with t up to 2^(m+1) and j >= 0, up to the largest with j = h. *)
Definition top (m h : Z) : Z := 2 ^ h * (2 ^ (m + 1) - 1).
Definition uv (m h N : Z) : Prop := Z.abs N <= top m h /\ exists j t, 0 <= j /\ 0 <= t <= 2 ^ (m + 1) /\ Z.abs N = t * 2 ^ j.
Definition cv (m h N j t : Z) : Prop :=
  Z.abs N = t * 2 ^ j /\ 0 <= j /\ 0 <= t < 2 ^ (m + 1) /\ (j = 0 \/ 2 ^ m <= t) /\ Z.abs N <= top m h.
(** C is p/d rounded, in some direction. *)
Definition near (m h p d C : Z) : Prop := forall r, uv m h r -> (r * d <= p -> r <= C) /\ (p <= r * d -> C <= r).

Lemma cv_uv m h N j t : cv m h N j t -> uv m h N.
Proof. intros (E & J & T & _ & B). split; [exact B|]. exists j, t. repeat split; try lia. Qed.

Lemma multiple N t j i : Z.abs N = t * 2 ^ j -> 0 <= i <= j -> exists c, N = c * 2 ^ i.
Proof.
  intros E H. exists (Z.sgn N * (t * 2 ^ (j - i))). assert (S : N = Z.sgn N * Z.abs N) by lia. rewrite S at 1. rewrite E.
  replace j with ((j - i) + i) at 1 by lia. rewrite Z.pow_add_r by lia. ring.
Qed.

Lemma uv_mul m h q j : 1 <= m -> 0 <= j -> Z.abs q <= 2 ^ (m + 1) -> Z.abs (q * 2 ^ j) <= top m h -> uv m h (q * 2 ^ j).
Proof.
  intros M J Q B. split; [exact B|]. exists j, (Z.abs q). pose proof (pow2_pos j J). split; [exact J|]. split; [lia|]. rewrite Z.abs_mul. f_equal. lia.
Qed.

Lemma pow_lt_inv a b : 0 <= b -> 2 ^ a < 2 ^ b -> a < b.
Proof. intros B H. destruct (Z_lt_le_dec a b) as [L|L]; [exact L|]. pose proof (pow2_le_mono b a ltac:(lia)). lia. Qed.

(** The exponent of a number at least 2^(m+j). *)
Lemma cv_exp m h N jn t j : 1 <= m -> 0 <= j -> cv m h N jn t -> 2 ^ (m + j) <= Z.abs N -> j <= jn.
Proof.
  intros M J (E & JN & T & _) L. rewrite E in L. pose proof (pow2_pos jn JN) as P.
  assert (X : 2 ^ (m + j) < 2 ^ (m + 1 + jn)). { rewrite (pow2_split (m + 1) jn) by lia. nia. }
  apply pow_lt_inv in X; lia.
Qed.

Lemma mul_le_inv a b c : 0 < c -> a * c <= b * c -> a <= b.
Proof. intros C H. apply (Z.mul_le_mono_pos_r a b c); assumption. Qed.
Lemma mul_lt_inv a b c : 0 < c -> a * c < b * c -> a < b.
Proof. intros C H. apply (Z.mul_lt_mono_pos_r c a b); assumption. Qed.
Lemma mul_ge_1 a b : 1 <= a -> 0 <= b -> b <= a * b.
Proof. nia. Qed.
Lemma mul_mono_l a b c : 0 <= c -> a <= b -> c * a <= c * b.
Proof. nia. Qed.

Section ROUND.
  Variables m h : Z.
  Hypothesis M1 : 1 <= m.
  Hypothesis H0 : 0 <= h.

  Lemma near_exact p d C N : 0 < d -> near m h p d C -> uv m h N -> N * d = p -> C = N.
  Proof. intros D NE U E. destruct (NE N U) as [A B]. specialize (A ltac:(lia)). specialize (B ltac:(lia)). lia. Qed.

  (** the error is less than the step *)
  Lemma grid p d C j : 0 < d -> near m h p d C -> uv m h C -> 0 <= j ->
    Z.abs p <= 2 ^ (m + 1 + j) * d -> Z.abs p <= top m h * d -> Z.abs (p - C * d) < 2 ^ j * d.
  Proof.
    intros D NE [UC _] J L1 L2. pose proof (pow2_pos j J) as P. set (s := 2 ^ j) in *. rewrite (pow2_split (m + 1) j) in L1 by lia. fold s in L1.
    pose proof (pow2_pos (m + 1) ltac:(lia)) as PM. set (X := 2 ^ (m + 1)) in *. set (T := top m h) in *.
    set (q := p / (d * s)). assert (DS : 0 < d * s) by nia.
    pose proof (Z.div_mod p (d * s) ltac:(lia)) as DM. pose proof (Z.mod_pos_bound p (d * s) DS) as MB. fold q in DM. set (r := p mod (d * s)) in *.
    assert (EP : p = (q * s) * d + r) by (rewrite DM; ring).
    assert (Q1 : - X <= q). { assert (- (X * (d * s)) < (q + 1) * (d * s)) by nia. nia. }
    destruct (Z.eq_dec r 0) as [R0|R0].
    - assert (U : uv m h (q * s)).
      { apply uv_mul; auto; [fold X; assert (q * (d * s) <= X * (d * s)) by nia; nia|]. fold s T.
        assert (Z.abs (q * s) * d <= T * d). { rewrite <- (Z.abs_eq d) at 1 by lia. rewrite <- Z.abs_mul. rewrite EP in L2. replace (q * s * d + r) with (q * s * d) in L2 by lia. exact L2. }
        nia. }
      rewrite (near_exact p d C (q * s) D NE U) by lia. replace (p - q * s * d) with 0 by lia. nia.
    - assert (Q2 : q + 1 <= X). { assert (q * (d * s) < X * (d * s)) by nia. nia. }
      assert (LO : q * s <= C).
      { destruct (Z_lt_le_dec (q * s) (- T)) as [G|G]; [lia|].
        assert (q * s < T). { assert (q * s * d < T * d) by lia. nia. }
        assert (U : uv m h (q * s)) by (apply uv_mul; auto; fold X s T; lia). apply (NE _ U). lia. }
      assert (HI : C <= (q + 1) * s).
      { destruct (Z_lt_le_dec T ((q + 1) * s)) as [G|G]; [lia|].
        assert (- T < (q + 1) * s). { assert (- T * d < (q + 1) * s * d) by nia. nia. }
        assert (U : uv m h ((q + 1) * s)) by (apply uv_mul; auto; fold X s T; lia). apply (NE _ U). nia. }
      assert (q * s * d <= C * d) by nia. assert (C * d <= (q + 1) * s * d) by nia. nia.
  Qed.

  (** numbers at least 2^(m+j) are rounded to such numbers *)
  Lemma grid_low p d C j : 0 < d -> near m h p d C -> 0 <= j -> 2 ^ (m + j) * d <= Z.abs p -> Z.abs p <= top m h * d -> 2 ^ (m + j) <= Z.abs C.
  Proof.
    intros D NE J L1 L2. pose proof (pow2_pos (m + j) ltac:(lia)) as P.
    assert (B : 2 ^ (m + j) <= top m h) by nia.
    assert (U : forall e, Z.abs e = 1 -> uv m h (e * 2 ^ m * 2 ^ j)).
    { intros e EE. apply uv_mul; auto.
      - rewrite Z.abs_mul, EE. pose proof (pow2_pos m ltac:(lia)). rewrite (Z.abs_eq (2 ^ m)) by lia. rewrite pow2_S by lia. lia.
      - rewrite <- Z.mul_assoc, <- pow2_split, Z.abs_mul, EE, Z.abs_eq by lia. lia. }
    assert (F : forall e, e * 2 ^ m * 2 ^ j = e * 2 ^ (m + j)) by (intros e; rewrite <- Z.mul_assoc, <- pow2_split by lia; reflexivity).
    destruct (Z_lt_le_dec p 0) as [S|S].
    - pose proof (NE _ (U (-1) eq_refl)) as [_ X]. rewrite F in X. specialize (X ltac:(lia)). lia.
    - pose proof (NE _ (U 1 eq_refl)) as [X _]. rewrite F in X. specialize (X ltac:(lia)). lia.
  Qed.

  (** the step at p/d *)
  Lemma step p d : 0 < d -> exists j, 0 <= j /\ Z.abs p <= 2 ^ (m + 1 + j) * d /\ (j = 0 \/ 2 ^ (m + j) * d <= Z.abs p).
  Proof.
    intros D. assert (G : forall n : nat, Z.abs p <= 2 ^ (m + 1 + Z.of_nat n) * d ->
      exists j, 0 <= j /\ Z.abs p <= 2 ^ (m + 1 + j) * d /\ (j = 0 \/ 2 ^ (m + j) * d <= Z.abs p)).
    { induction n as [|n IH]; intros L.
      - exists 0. split; [lia|]. split; [exact L|]. now left.
      - destruct (Z_le_gt_dec (Z.abs p) (2 ^ (m + 1 + Z.of_nat n) * d)) as [K|K]; [exact (IH K)|].
        exists (Z.of_nat (Datatypes.S n)). split; [lia|]. split; [exact L|]. right. replace (m + Z.of_nat (Datatypes.S n)) with (m + 1 + Z.of_nat n) by lia. lia. }
    apply (G (Z.to_nat (Z.abs p))). rewrite Z2Nat.id by lia.
    assert (Z.abs p < 2 ^ Z.abs p) by (apply Z.pow_gt_lin_r; lia). pose proof (pow2_le_mono (Z.abs p) (m + 1 + Z.abs p) ltac:(lia)). nia.
  Qed.

  (** ** products *)
  Lemma product_error N C jc tc n i : near m h N 1 C -> cv m h C jc tc -> Z.abs N <= top m h ->
    0 <= i -> N = n * 2 ^ i -> Z.abs n < 2 ^ (2 * m + 2) -> uv m h (N - C).
  Proof.
    intros NE CC B I EN SN. destruct (step N 1 ltac:(lia)) as (j & J & L1 & L2).
    pose proof (grid N 1 C j ltac:(lia) NE (cv_uv _ _ _ _ _ CC) J L1 ltac:(lia)) as ER. rewrite !Z.mul_1_r in *.
    assert (Z0 : N - C = 0 -> uv m h (N - C)).
    { intros ->. split; [cbn; unfold top; pose proof (pow2_pos h H0); pose proof (pow2_pos (m + 1) ltac:(lia)); nia|]. exists 0, 0. pose proof (pow2_pos (m + 1) ltac:(lia)). repeat split; lia. }
    pose proof (pow2_pos j J) as PJ. pose proof (pow2_pos i I) as PI. pose proof (pow2_pos m ltac:(lia)) as PM.
    destruct L2 as [->|L2]; [apply Z0; change (2 ^ 0) with 1 in ER; lia|].
    pose proof (grid_low N 1 C j ltac:(lia) NE J ltac:(lia) ltac:(lia)) as CL. pose proof (cv_exp m h C jc tc j M1 J CC CL) as JC.
    destruct CC as (EC & JC0 & TC & _ & BC).
    destruct (Z_le_gt_dec i j) as [IJ|IJ].
    - destruct (multiple C tc jc i EC ltac:(lia)) as (c & ECC).
      assert (X : j <= m + 1 + i).
      { assert (Y : 2 ^ (m + j) < 2 ^ (2 * m + 2 + i)). { rewrite (pow2_split (2 * m + 2) i) by lia. rewrite EN, Z.abs_mul, (Z.abs_eq (2 ^ i)) in L2 by lia. nia. }
        apply pow_lt_inv in Y; lia. }
      replace (N - C) with ((n - c) * 2 ^ i) in * by (rewrite EN, ECC; ring). apply uv_mul; auto.
      + pose proof (pow2_le_mono j (m + 1 + i) ltac:(lia)) as Y. rewrite (pow2_split (m + 1) i) in Y by lia. rewrite Z.abs_mul, (Z.abs_eq (2 ^ i)) in ER by lia.
        apply Z.lt_le_incl, (Z.mul_lt_mono_pos_r (2 ^ i)); lia.
      + rewrite pow2_split in L2 by lia. nia.
    - apply Z0. destruct (multiple C tc jc j EC ltac:(lia)) as (c & ECC).
      assert (XN : exists k, N = k * 2 ^ j). { exists (n * 2 ^ (i - j)). rewrite EN. replace i with ((i - j) + j) at 1 by lia. rewrite pow2_split by lia. ring. }
      destruct XN as (k & EK). replace (N - C) with ((k - c) * 2 ^ j) in * by (rewrite EK, ECC; ring). rewrite Z.abs_mul, (Z.abs_eq (2 ^ j)) in ER by lia.
      assert (Z.abs (k - c) < 1) by (apply (Z.mul_lt_mono_pos_r (2 ^ j)); lia). replace (k - c) with 0 by lia. reflexivity.
  Qed.

  (** ** quotients: A = q B with q in units of 2^-g *)
  Lemma quotient_error A B C K ja ta jb tb jc tc g : 0 < g ->
    cv m h A ja ta -> cv m h B jb tb -> cv m h C jc tc -> B <> 0 ->
    near m h (Z.sgn B * (A * 2 ^ g)) (Z.abs B) C -> K * 2 ^ g = C * B ->
    Z.abs B <= Z.abs A * 2 ^ g <= top m h * Z.abs B -> uv m h (A - K).
  Proof.
    intros G CA CB CC NB NE EK [LO UP]. set (d := Z.abs B) in *. set (p := Z.sgn B * (A * 2 ^ g)) in *.
    assert (D : 0 < d) by (unfold d; lia). pose proof (pow2_pos g ltac:(lia)) as PG.
    assert (AP : Z.abs p = Z.abs A * 2 ^ g). { unfold p. rewrite Z.abs_mul, Z.abs_mul, (Z.abs_eq (2 ^ g)) by lia. assert (Z.abs (Z.sgn B) = 1) by lia. lia. }
    rewrite <- AP in LO, UP. destruct (step p d D) as (j & J & L1 & L2).
    pose proof (grid p d C j D NE (cv_uv _ _ _ _ _ CC) J L1 UP) as ER.
    assert (EE : Z.abs (p - C * d) = Z.abs (A - K) * 2 ^ g).
    { replace (p - C * d) with (Z.sgn B * ((A - K) * 2 ^ g)). - rewrite !Z.abs_mul, (Z.abs_eq (2 ^ g)) by lia. assert (Z.abs (Z.sgn B) = 1) by lia. lia.
      - unfold p, d. assert (S : Z.abs B = Z.sgn B * B) by lia. rewrite S. rewrite Z.mul_sub_distr_r, EK. ring. }
    rewrite EE in ER. clear EE.
    pose proof (pow2_pos j J) as PJ. pose proof (pow2_pos m ltac:(lia)) as PM.
    pose proof CB as (EB & JB & TB & CB' & BB). fold d in EB. pose proof (pow2_pos jb JB) as PB.
    assert (TB1 : 1 <= tb) by (destruct (Z.eq_dec tb 0) as [->|]; lia).
    assert (PM1 : 1 <= 2 ^ m) by lia.
    assert (SMALL : Z.abs (A - K) <= Z.abs A).
    { apply (mul_le_inv _ _ (2 ^ g)); [exact PG|]. rewrite <- AP. destruct L2 as [->|L2]; [change (2 ^ 0) with 1 in ER; lia|].
      rewrite pow2_split, <- Z.mul_assoc in L2 by lia. pose proof (mul_ge_1 (2 ^ m) (2 ^ j * d) PM1 ltac:(apply Z.lt_le_incl, Z.mul_pos_pos; lia)). lia. }
    pose proof CA as (_ & _ & _ & _ & BA).
    set (k := j + jb - g). destruct (Z_le_gt_dec k 0) as [KN|KP].
    - split; [lia|]. exists 0, (Z.abs (A - K)). split; [lia|]. split; [|rewrite Z.mul_1_r; reflexivity]. split; [lia|].
      assert (X : 2 ^ (j + jb) <= 2 ^ g) by (apply pow2_le_mono; unfold k in *; lia). rewrite pow2_split in X by lia.
      assert (Y : Z.abs (A - K) * 2 ^ g < tb * 2 ^ g).
      { eapply Z.lt_le_trans; [exact ER|]. rewrite EB. replace (2 ^ j * (tb * 2 ^ jb)) with (tb * (2 ^ j * 2 ^ jb)) by ring. apply mul_mono_l; lia. }
      apply mul_lt_inv in Y; lia.
    - assert (KE : 2 ^ j * 2 ^ jb = 2 ^ k * 2 ^ g) by (rewrite <- !pow2_split by lia; f_equal; unfold k; lia).
      pose proof (pow2_pos k ltac:(lia)) as PK.
      assert (JA : k <= ja).
      { apply (cv_exp m h A ja ta k M1 ltac:(lia) CA). rewrite pow2_split by lia. apply (mul_le_inv _ _ (2 ^ g)); [exact PG|]. rewrite <- AP, <- Z.mul_assoc, <- KE. destruct L2 as [->|L2].
        - change (2 ^ 0) with 1 in *. rewrite Z.mul_1_l in *. assert (2 ^ m <= tb) by (destruct CB' as [->|X]; [unfold k in KP; lia|exact X]).
          eapply Z.le_trans; [|exact LO]. rewrite EB. apply Z.mul_le_mono_nonneg_r; lia.
        - eapply Z.le_trans; [|exact L2]. rewrite pow2_split, <- Z.mul_assoc, EB by lia. apply mul_mono_l; [lia|]. apply mul_mono_l; [lia|]. apply mul_ge_1; lia. }
      assert (JC : exists c, C = c * 2 ^ j).
      { destruct L2 as [->|L2]; [exists C; change (2 ^ 0) with 1; lia|]. pose proof (grid_low p d C j D NE J L2 UP) as CL.
        pose proof (cv_exp m h C jc tc j M1 J CC CL) as JC. destruct CC as (EC & JC0 & _). apply (multiple C tc jc j EC). lia. }
      destruct JC as (c & EC). destruct (multiple B tb jb jb EB ltac:(lia)) as (b & EBB). destruct CA as (EA & JA0 & _). destruct (multiple A ta ja k EA ltac:(lia)) as (a & EAA).
      assert (KK : K = c * b * 2 ^ k).
      { apply (Z.mul_cancel_r _ _ (2 ^ g)); [lia|]. rewrite EK, EC, EBB. replace (c * 2 ^ j * (b * 2 ^ jb)) with (c * b * (2 ^ j * 2 ^ jb)) by ring. rewrite KE. ring. }
      assert (RE : A - K = (a - c * b) * 2 ^ k) by (rewrite EAA, KK; ring). rewrite RE in *. apply uv_mul; auto; [lia| |lia].
      rewrite Z.abs_mul, (Z.abs_eq (2 ^ k)) in ER by lia.
      assert (Y : Z.abs (a - c * b) * (2 ^ k * 2 ^ g) < tb * (2 ^ k * 2 ^ g)).
      { rewrite Z.mul_assoc. eapply Z.lt_le_trans; [exact ER|]. rewrite EB, <- KE. apply Z.eq_le_incl. ring. }
      apply mul_lt_inv in Y; [lia|apply Z.mul_pos_pos; lia].
  Qed.

  (** ** sums *)
  Lemma top_pos : 0 < top m h.
  Proof. unfold top. pose proof (pow2_pos h H0). pose proof (pow2_le_mono 1 (m + 1) ltac:(lia)) as X. change (2 ^ 1) with 2 in X. apply Z.mul_pos_pos; lia. Qed.
  Lemma uv_0 : uv m h 0.
  Proof. pose proof top_pos. pose proof (pow2_pos (m + 1) ltac:(lia)). split; [cbn; lia|]. exists 0, 0. repeat split; lia. Qed.
  Lemma uv_top e : Z.abs e = 1 -> uv m h (e * top m h).
  Proof.
    intros E. pose proof top_pos as P. unfold top in *. pose proof (pow2_pos (m + 1) ltac:(lia)) as Q.
    replace (e * (2 ^ h * (2 ^ (m + 1) - 1))) with (e * (2 ^ (m + 1) - 1) * 2 ^ h) by ring. apply uv_mul; auto.
    - rewrite Z.abs_mul, E. lia.
    - replace (e * (2 ^ (m + 1) - 1) * 2 ^ h) with (e * (2 ^ h * (2 ^ (m + 1) - 1))) by ring. rewrite Z.abs_mul, E. unfold top. lia.
  Qed.
  Lemma top_low : 2 ^ (m + h) <= top m h.
  Proof. unfold top. rewrite pow2_split, pow2_S, (Z.mul_comm (2 ^ m)) by lia. pose proof (pow2_pos m ltac:(lia)). pose proof (pow2_pos h H0). apply mul_mono_l; lia. Qed.
  Lemma cv_top N j t : cv m h N j t -> j <= h.
  Proof.
    intros (E & J & T & C & B). destruct C as [->|C]; [exact H0|]. pose proof (pow2_pos j J) as P. pose proof (pow2_pos h H0) as PH.
    assert (X : 2 ^ (m + j) < 2 ^ (m + 1 + h)).
    { apply Z.le_lt_trans with (Z.abs N). - rewrite E, pow2_split by lia. apply Z.mul_le_mono_nonneg_r; lia.
      - unfold top in B. rewrite (pow2_split (m + 1) h), Z.mul_comm by lia. apply Z.le_lt_trans with (1 := B). apply Z.mul_lt_mono_pos_l; lia. }
    apply pow_lt_inv in X; lia.
  Qed.

  Lemma sum_shape A B C ja ta jb tb jc tc i : cv m h A ja ta -> cv m h B jb tb -> cv m h C jc tc -> i = Z.min ja jb ->
    near m h (A + B) 1 C ->
    C = A + B \/ (top m h < Z.abs (A + B) /\ C = Z.sgn (A + B) * top m h /\ i <= jc) \/
    (Z.abs (A + B) <= top m h /\ 2 ^ (m + 1 + i) <= Z.abs C /\ i + 1 <= jc).
  Proof.
    intros CA CB CC EI NE. set (N := A + B) in *. pose proof CA as (EA & JA & TA & _ & BA). pose proof CB as (EB & JB & TB & _ & BB).
    destruct (multiple A ta ja i EA ltac:(lia)) as (a & EAA). destruct (multiple B tb jb i EB ltac:(lia)) as (b & EBB).
    assert (EN : N = (a + b) * 2 ^ i) by (unfold N; rewrite EAA, EBB; ring). pose proof (pow2_pos i ltac:(lia)) as PI.
    destruct (Z_le_gt_dec (Z.abs N) (top m h)) as [L|G].
    - destruct (Z_le_gt_dec (Z.abs N) (2 ^ (m + 1 + i))) as [S|S].
      + left. apply (near_exact N 1 C N); [lia|exact NE| |lia]. rewrite EN in *. apply uv_mul; auto; [lia|].
        apply (mul_le_inv _ _ (2 ^ i)); [exact PI|]. rewrite Z.abs_mul, (Z.abs_eq (2 ^ i)) in S by lia. rewrite pow2_split in S by lia. exact S.
      + right. right. split; [exact L|].
        assert (CL : 2 ^ (m + (i + 1)) <= Z.abs C). { apply (grid_low N 1 C (i + 1)); [lia|exact NE|lia| |lia]. replace (m + (i + 1)) with (m + 1 + i) by lia. lia. }
        split; [replace (m + 1 + i) with (m + (i + 1)) by lia; exact CL|]. apply (cv_exp m h C jc tc (i + 1) M1); [lia|exact CC|exact CL].
    - right. left. split; [lia|]. pose proof top_pos as TP. pose proof CC as (_ & _ & _ & _ & BC).
      assert (E : C = Z.sgn N * top m h).
      { destruct (NE _ (uv_top 1 eq_refl)) as [X1 _]. destruct (NE _ (uv_top (-1) eq_refl)) as [_ X2].
        destruct (Z_lt_le_dec N 0) as [S|S]; [specialize (X2 ltac:(lia)); replace (Z.sgn N) with (-1) by lia|specialize (X1 ltac:(lia)); replace (Z.sgn N) with 1 by lia]; lia. }
      split; [exact E|]. pose proof (cv_top A ja ta CA). assert (h <= jc); [|lia].
      apply (cv_exp m h C jc tc h M1 H0 CC). pose proof top_low. rewrite E, Z.abs_mul. assert (Z.abs (Z.sgn N) = 1) by lia. lia.
  Qed.

  Lemma sum_error A B C ja ta jb tb jc tc : cv m h A ja ta -> cv m h B jb tb -> cv m h C jc tc ->
    near m h (A + B) 1 C -> Z.abs (A + B - C) <= Z.abs A -> Z.abs (A + B - C) <= Z.abs B -> uv m h (A + B - C).
  Proof.
    intros CA CB CC NE LA LB. set (i := Z.min ja jb).
    pose proof (sum_shape A B C ja ta jb tb jc tc i CA CB CC eq_refl NE) as SH.
    destruct (Z.eq_dec C (A + B)) as [->|NX]; [rewrite Z.sub_diag; apply uv_0|].
    assert (JC : i <= jc) by (destruct SH as [?|[(_ & _ & ?)|(_ & _ & ?)]]; [congruence|lia|lia]).
    pose proof CA as (EA & JA & TA & _ & BA). pose proof CB as (EB & JB & TB & _ & BB). pose proof CC as (EC & JC0 & _).
    destruct (multiple A ta ja i EA ltac:(lia)) as (a & EAA). destruct (multiple B tb jb i EB ltac:(lia)) as (b & EBB). destruct (multiple C tc jc i EC ltac:(lia)) as (c & ECC).
    pose proof (pow2_pos i ltac:(lia)) as PI.
    assert (RE : A + B - C = (a + b - c) * 2 ^ i) by (rewrite EAA, EBB, ECC; ring). rewrite RE in *. apply uv_mul; auto; [lia| |lia].
    rewrite Z.abs_mul, (Z.abs_eq (2 ^ i)) in LA, LB by lia. rewrite EA in LA. rewrite EB in LB.
    destruct (Z.min_spec ja jb) as [[_ MI]|[_ MI]]; fold i in MI; rewrite <- MI in *.
    - apply mul_le_inv in LA; lia.
    - apply mul_le_inv in LB; lia.
  Qed.

  Lemma fast_sum A B C ja ta jb tb jc tc : cv m h A ja ta -> cv m h B jb tb -> cv m h C jc tc ->
    near m h (A + B) 1 C -> Z.abs B <= Z.abs A -> Z.abs (A + B - C) <= Z.abs B -> uv m h (C - A).
  Proof.
    intros CA CB CC NE LE LR. pose proof CA as (EA & JA & TA & _ & BA). pose proof CB as (EB & JB & TB & CB' & BB). pose proof CC as (EC & JC0 & _ & _ & BC).
    assert (JJ : jb <= ja).
    { destruct CB' as [->|X]; [exact JA|]. apply (cv_exp m h A ja ta jb M1 JB CA). apply Z.le_trans with (2 := LE). rewrite EB, pow2_split by lia.
      pose proof (pow2_pos jb JB). apply Z.mul_le_mono_nonneg_r; lia. }
    pose proof (sum_shape A B C ja ta jb tb jc tc jb CA CB CC ltac:(lia) NE) as SH. pose proof (pow2_pos jb JB) as PB.
    destruct SH as [E|[(G & E & JC)|(L & CL & JC)]].
    - replace (C - A) with B by lia. exact (cv_uv _ _ _ _ _ CB).
    - assert (D : Z.abs (C - A) <= Z.abs B). { destruct (Z_lt_le_dec (A + B) 0) as [S|S]; [replace (Z.sgn (A + B)) with (-1) in E by lia|replace (Z.sgn (A + B)) with 1 in E by lia]; lia. }
      destruct (multiple A ta ja jb EA ltac:(lia)) as (a & EAA). destruct (multiple C tc jc jb EC ltac:(lia)) as (c & ECC).
      assert (RE : C - A = (c - a) * 2 ^ jb) by (rewrite EAA, ECC; ring). rewrite RE in *. apply uv_mul; auto; [|lia].
      rewrite Z.abs_mul, (Z.abs_eq (2 ^ jb)), EB in D by lia. apply mul_le_inv in D; lia.
    - destruct (Z.eq_dec ja jb) as [EJ|NJ].
      + assert (N2 : Z.abs (A + B) <= 2 ^ (m + 1 + (jb + 1)) * 1).
        { rewrite EJ in EA. rewrite (pow2_split (m + 1) (jb + 1)), (pow2_S jb) by lia.
          assert (ta * 2 ^ jb <= 2 ^ (m + 1) * 2 ^ jb) by (apply Z.mul_le_mono_nonneg_r; lia). assert (tb * 2 ^ jb <= 2 ^ (m + 1) * 2 ^ jb) by (apply Z.mul_le_mono_nonneg_r; lia). lia. }
        pose proof (grid (A + B) 1 C (jb + 1) ltac:(lia) NE (cv_uv _ _ _ _ _ CC) ltac:(lia) N2 ltac:(lia)) as ER. rewrite !Z.mul_1_r, (pow2_S jb) in ER by lia.
        destruct (multiple A ta ja jb EA ltac:(lia)) as (a & EAA). destruct (multiple B tb jb jb EB ltac:(lia)) as (b & EBB). destruct (multiple C tc jc jb EC ltac:(lia)) as (c & ECC).
        assert (RE : A + B - C = (a + b - c) * 2 ^ jb) by (rewrite EAA, EBB, ECC; ring). rewrite RE, Z.abs_mul, (Z.abs_eq (2 ^ jb)) in ER by lia.
        apply mul_lt_inv in ER; [|lia].
        assert (BT : Z.abs b = tb). { apply (Z.mul_reg_r _ _ (2 ^ jb)); [lia|]. rewrite <- EB, EBB, Z.abs_mul, (Z.abs_eq (2 ^ jb)) by lia. reflexivity. }
        assert (RD : C - A = (c - a) * 2 ^ jb) by (rewrite EAA, ECC; ring). rewrite RD. assert (K : Z.abs (c - a) <= 2 ^ (m + 1)) by lia.
        apply uv_mul; auto. rewrite Z.abs_mul, (Z.abs_eq (2 ^ jb)) by lia. apply Z.le_trans with (2 := BC). apply Z.le_trans with (2 := CL).
        rewrite (pow2_split (m + 1) jb) by lia. apply Z.mul_le_mono_nonneg_r; lia.
      + destruct (multiple A ta ja (jb + 1) EA ltac:(lia)) as (a & EAA). destruct (multiple C tc jc (jb + 1) EC ltac:(lia)) as (c & ECC).
        assert (D : Z.abs (C - A) <= tb * 2 ^ (jb + 1)) by (rewrite pow2_S by lia; lia).
        assert (RD : C - A = (c - a) * 2 ^ (jb + 1)) by (rewrite EAA, ECC; ring). pose proof (pow2_pos (jb + 1) ltac:(lia)) as P1.
        assert (DT : Z.abs (C - A) <= top m h).
        { apply Z.le_trans with (1 := D). unfold top. rewrite Z.mul_comm. pose proof (cv_top A ja ta CA) as JH. pose proof (pow2_le_mono (jb + 1) h ltac:(lia)) as PL.
          apply Z.mul_le_mono_nonneg; lia. }
        rewrite RD in *. apply uv_mul; auto; [lia|]. rewrite Z.abs_mul, (Z.abs_eq (2 ^ (jb + 1))) in D by lia. apply mul_le_inv in D; lia.
  Qed.
End ROUND.

(** ** values of a type *)
Definition hi (f : fmt) : Z := 2 * bias f - 1.
Lemma hi_top f : wide f -> top (f_mb f) (hi f) = V (f_mb f) (IM f - 1) /\ 0 <= hi f.
Proof.
  intros Wf. destruct (V_IM f Wf) as (_ & E & B). destruct Wf as [_ M]. unfold hi. split; [|lia]. rewrite E. unfold top.
  rewrite Z.mul_sub_distr_l, <- pow2_split by lia. replace (2 * bias f - 1 + (f_mb f + 1)) with (f_mb f + 2 * bias f) by lia. lia.
Qed.
Lemma value_cv f x a : wide f -> instance f x -> fvalue x a ->
  exists A j t, (a == inject_Z A * unit f)%Q /\ cv (f_mb f) (hi f) A j t.
Proof.
  intros Wf Ix VA. destruct (value_units f x a Wf Ix VA) as (A & j & t & Q & E & J & T & C & B & _). exists A, j, t. split; [exact Q|].
  unfold cv. rewrite (proj1 (hi_top f Wf)). tauto.
Qed.
Lemma uv_rep f N : wide f -> f_ieee f = true -> uv (f_mb f) (hi f) N -> repv f (inject_Z N * unit f)%Q.
Proof.
  intros Wf IE (B & U). apply unit_value_rep; [now apply wide_okf|]. rewrite (proj1 (hi_top f Wf)) in B. split; [exact B|]. split; [congruence|exact U].
Qed.
Lemma rx_near f q v p d C : wide f -> f_ieee f = true -> rx f q (XFin v) -> (v == inject_Z C * unit f)%Q -> 0 < d ->
  (inject_Z d * q == inject_Z p * unit f)%Q -> near (f_mb f) (hi f) p d C.
Proof.
  intros Wf IE RX EV D EQ r U. pose proof (uv_rep f r Wf IE U) as R. pose proof (unit_pos f) as UP.
  assert (DP : (0 < inject_Z d)%Q) by (change 0%Q with (inject_Z 0); rewrite <- Zlt_Qlt; exact D).
  assert (EL : forall A B, (inject_Z d * A <= inject_Z d * B)%Q -> (A <= B)%Q) by (intros A B H; now apply Qmult_le_l in H).
  split; intros L.
  - assert (X : (inject_Z r * unit f <= q)%Q).
    { apply EL. rewrite EQ, Qmult_assoc, <- inject_Z_mult. apply units_le. lia. }
    pose proof (rx_below f q _ _ Wf RX R X) as [Y|Y]; cbn [ext_lt ext_eq] in Y; rewrite EV in Y; apply (units_le f); lra.
  - assert (X : (q <= inject_Z r * unit f)%Q).
    { apply EL. rewrite EQ, Qmult_assoc, <- inject_Z_mult. apply units_le. lia. }
    pose proof (rx_above f q _ _ Wf RX R X) as [Y|Y]; cbn [ext_lt ext_eq] in Y; rewrite EV in Y; apply (units_le f); lra.
Qed.
(** products of two numbers of units *)
Definition gg (f : fmt) : Z := bias f + f_mb f - 1.
Lemma gg_pos f : wide f -> 0 < gg f.
Proof. intros Wf. destruct (V_IM f Wf) as (_ & _ & B). destruct Wf. unfold gg. lia. Qed.
Lemma unit_sq f X : wide f -> (inject_Z X * unit f == inject_Z (X * 2 ^ gg f) * (unit f * unit f))%Q.
Proof. intros Wf. destruct (unit_one f Wf) as (U & _ & _). fold (gg f) in U. rewrite inject_Z_mult. transitivity (inject_Z X * unit f * 1)%Q; [ring|]. rewrite U at 1. ring. Qed.
Lemma sq_pos f : (0 < unit f * unit f)%Q.
Proof. pose proof (unit_pos f). now apply Qmult_lt_0_compat. Qed.
Lemma sq_eq f X Y : (inject_Z X * (unit f * unit f) == inject_Z Y * (unit f * unit f))%Q -> X = Y.
Proof. apply (val_eq _ (sq_pos f)). Qed.
Lemma sq_le f X Y : (inject_Z X * (unit f * unit f) <= inject_Z Y * (unit f * unit f))%Q -> X <= Y.
Proof. apply (val_le _ (sq_pos f)). Qed.
Lemma fneg_value f x a : wide f -> instance f x -> fvalue x a -> fvalue (fp_neg x) (- a).
Proof.
  intros W Ix VA. pose proof (wide_okf f W) as O. pose proof (inst_good f x W Ix) as G.
  destruct (value_rep f x a O G VA) as (NN & _). destruct (neg_good f x W G NN) as [-> _]. destruct VA as (v & VA1 & VA2). destruct G as (F & _). rewrite F in VA1.
  destruct (fv_val x) as [s|s|s|s m E]; cbn [mpfr_value] in VA1; try discriminate; injection VA1 as <-.
  - exists 0%Q. split; [reflexivity|lra].
  - eexists. split; [reflexivity|]. cbn [fv_fmt]. rewrite <- VA2. destruct s; cbn [negb sgnq]; ring.
Qed.
