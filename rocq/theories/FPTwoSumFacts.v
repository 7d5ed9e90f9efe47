(** Facts for C114: the six-operation sum. Nothing here is part of the model or of a
    specification. The vocabulary is that of FPErrFacts.v, in units of the smallest value. *)
From Coq Require Import Lia ZArith QArith Qpower Qabs ZifyBool Lqa.
From Verif Require Import PyBase BVModel BVSpec BVFacts BVOps FPModel FPSpec FPRoundFacts FPPatFacts FPEncFacts FPDecFacts FPBracket FPQFacts FPRoundSpec FPInst FPArith FPMore FPProofs FPAlgFacts FPAlgProofs FPExFacts FPErrFacts.
Open Scope Z_scope.

Lemma abs_sgn x t : 0 < t -> t < Z.abs x -> Z.abs (Z.sgn x * t) = t.
Proof. intros. rewrite Z.abs_mul. assert (Z.abs (Z.sgn x) = 1) by lia. lia. Qed.
Lemma abs_back A B C T : Z.abs A <= T -> Z.abs B <= T -> T < Z.abs (A + B) -> C = Z.sgn (A + B) * T -> Z.abs (C - B) <= T.
Proof. intros HA HB HT E. destruct (Z_lt_le_dec (A + B) 0) as [S|S]; [replace (Z.sgn (A + B)) with (-1) in E by lia|replace (Z.sgn (A + B)) with 1 in E by lia]; lia. Qed.
Lemma abs_two A B C D : Z.abs (C - B - D) <= Z.abs (C - B - A) -> Z.abs (A - D) <= 2 * Z.abs (A + B - C).
Proof. lia. Qed.
Lemma abs_mul_pow a k : 0 <= k -> Z.abs (a * 2 ^ k) = Z.abs a * 2 ^ k.
Proof. intros. pose proof (pow2_pos k H). rewrite Z.abs_mul, (Z.abs_eq (2 ^ k)) by lia. reflexivity. Qed.

Section TWOSUM.
  Variables m h : Z.
  Hypothesis M1 : 1 <= m.
  Hypothesis H0 : 0 <= h.

  Lemma cv_opp N j t : cv m h N j t -> cv m h (- N) j t.
  Proof. unfold cv. rewrite Z.abs_opp. auto. Qed.
  Lemma uv_opp N : uv m h N -> uv m h (- N).
  Proof. unfold uv. rewrite Z.abs_opp. auto. Qed.
  Lemma uv_eq N K : uv m h N -> N = K -> uv m h K.
  Proof. intros U <-. exact U. Qed.

  Lemma cv_order A B ja ta jb tb : cv m h A ja ta -> cv m h B jb tb -> Z.abs B <= Z.abs A -> jb <= ja.
  Proof.
    intros CA CB LE. pose proof CA as (_ & JA & _). pose proof CB as (EB & JB & TB & CB' & _). destruct CB' as [->|X]; [exact JA|].
    apply (cv_exp m h A ja ta jb M1 JB CA). apply Z.le_trans with (2 := LE). rewrite EB, pow2_split by lia.
    pose proof (pow2_pos jb JB). apply Z.mul_le_mono_nonneg_r; lia.
  Qed.

  Lemma back_diff A B C D ja ta jb tb jc tc jd td :
    cv m h A ja ta -> cv m h B jb tb -> cv m h C jc tc -> cv m h D jd td ->
    near m h (A + B) 1 C -> near m h (C - B) 1 D ->
    Z.abs (A + B - C) <= Z.abs B -> Z.abs (A - D) <= 2 * Z.abs (A + B - C) ->
    Z.abs B <= Z.abs A -> uv m h (A - D).
  Proof.
    intros CA CB CC CD NC ND DB DD LE. pose proof (cv_order A B ja ta jb tb CA CB LE) as JJ.
    pose proof (sum_error m h M1 H0 A B C ja ta jb tb jc tc CA CB CC NC ltac:(lia) DB) as UE.
    destruct (Z.eq_dec D (C - B)) as [ED|NX]; [apply (uv_eq (A + B - C)); [exact UE|lia]|].
    destruct (Z.eq_dec C (A + B)) as [EC|NE].
    { exfalso. apply NX. apply (near_exact m h (C - B) 1 D (C - B)); [lia|exact ND| |lia]. apply (uv_eq A); [exact (cv_uv _ _ _ _ _ CA)|lia]. }
    pose proof CA as (EA & JA & TA & _ & BA). pose proof CB as (EB & JB & TB & _ & BB). pose proof CD as (EDD & JD & _ & _ & BD).
    pose proof (cv_top m h M1 H0 A ja ta CA) as JAH. pose proof (pow2_pos jb JB) as PB. pose proof (pow2_pos h H0) as PH.
    pose proof (pow2_le_mono 2 (m + 1) ltac:(lia)) as P4. change (2 ^ 2) with 4 in P4.
    pose proof (sum_shape m h M1 H0 A B C ja ta jb tb jc tc jb CA CB CC ltac:(lia) NC) as S1. destruct S1 as [?|S1]; [congruence|].
    assert (JC : jb <= jc) by (destruct S1 as [(_ & _ & ?)|(_ & _ & ?)]; lia).
    pose proof (sum_shape m h M1 H0 C (- B) D jc tc jb tb jd td jb CC (cv_opp _ _ _ CB) CD ltac:(lia) ND) as S2.
    replace (C + - B) with (C - B) in S2 by lia. destruct S2 as [?|S2]; [congruence|].
    assert (JDB : h <= jd \/ jb + 1 <= jd).
    { destruct S2 as [(G & E & _)|(_ & _ & ?)]; [left|now right]. pose proof (top_low m h M1 H0) as TL.
      apply (cv_exp m h D jd td h M1 H0 CD). rewrite E, (abs_sgn (C - B) (top m h) (top_pos m h M1 H0) G). exact TL. }
    destruct (Z.eq_dec ja jb) as [EJ|NJ].
    - subst ja. assert (JD' : jb <= jd) by lia.
      destruct (multiple A ta jb jb EA ltac:(lia)) as (a & EAA). destruct (multiple D td jd jb EDD ltac:(lia)) as (d & EDX).
      assert (SUM : Z.abs (A + B) <= (2 ^ (m + 1) - 1) * 2 ^ (jb + 1)).
      { rewrite (pow2_S jb) by exact JB. assert (ta * 2 ^ jb <= (2 ^ (m + 1) - 1) * 2 ^ jb) by (apply Z.mul_le_mono_nonneg_r; lia).
        assert (tb * 2 ^ jb <= (2 ^ (m + 1) - 1) * 2 ^ jb) by (apply Z.mul_le_mono_nonneg_r; lia). pose proof (Z.abs_triangle A B) as TR. clear - EA EB H H1 TR. lia. }
      destruct S1 as [(G & E & _)|(L & CL & _)].
      + exfalso. assert (JH : jb = h).
        { destruct (Z.eq_dec jb h) as [X|X]; [exact X|exfalso]. pose proof (pow2_le_mono (jb + 1) h ltac:(lia)) as Y. unfold top in G.
          assert ((2 ^ (m + 1) - 1) * 2 ^ (jb + 1) <= (2 ^ (m + 1) - 1) * 2 ^ h) by (apply mul_mono_l; [clear - P4; lia|exact Y]). rewrite Z.mul_comm in G. clear - H G SUM. lia. }
        assert (CB0 : Z.abs (C - B) <= top m h).
        { exact (abs_back A B C (top m h) BA BB G E). }
        destruct S2 as [(G2 & _)|(_ & DL & _)]; [clear - G2 CB0; lia|]. rewrite JH, (pow2_split (m + 1) h) in DL by lia. unfold top in BD.
        assert (2 ^ h * (2 ^ (m + 1) - 1) = 2 ^ (m + 1) * 2 ^ h - 2 ^ h) by ring. clear - H DL BD PH. lia.
      + assert (N2 : Z.abs (A + B) <= 2 ^ (m + 1 + (jb + 1)) * 1).
        { rewrite (pow2_split (m + 1) (jb + 1)) by lia. pose proof (pow2_pos (jb + 1) ltac:(lia)).
          assert ((2 ^ (m + 1) - 1) * 2 ^ (jb + 1) <= 2 ^ (m + 1) * 2 ^ (jb + 1)) by (apply Z.mul_le_mono_nonneg_r; [clear - H; lia|clear; lia]). clear - H1 SUM. lia. }
        pose proof (grid m h M1 (A + B) 1 C (jb + 1) ltac:(clear; lia) NC (cv_uv _ _ _ _ _ CC) ltac:(clear - JB; lia) N2 ltac:(clear - L; lia)) as ER. rewrite !Z.mul_1_r, (pow2_S jb) in ER by exact JB.
        assert (RE : A - D = (a - d) * 2 ^ jb) by (rewrite EAA, EDX; ring).
        assert (K : Z.abs (a - d) < 4). { apply (mul_lt_inv _ _ (2 ^ jb)); [exact PB|]. rewrite <- abs_mul_pow, <- RE by exact JB. clear - ER DD. lia. }
        rewrite RE. apply uv_mul; auto; [clear - K P4; lia|]. rewrite abs_mul_pow by exact JB. unfold top. rewrite (Z.mul_comm (2 ^ h)).
        pose proof (pow2_le_mono jb h ltac:(clear - JB JAH; lia)) as Y. clear - K P4 Y PB. apply Z.mul_le_mono_nonneg; lia.
    - pose proof (pow2_pos (jb + 1) ltac:(lia)) as P1.
      destruct (multiple A ta ja (jb + 1) EA ltac:(clear - JJ NJ JB; lia)) as (a & EAA). destruct (multiple D td jd (jb + 1) EDD ltac:(clear - JJ NJ JAH JB JDB; lia)) as (d & EDX).
      assert (DX : Z.abs (A - D) <= tb * 2 ^ (jb + 1)) by (rewrite (pow2_S jb) by exact JB; clear - DD DB EB; lia).
      assert (RE : A - D = (a - d) * 2 ^ (jb + 1)) by (rewrite EAA, EDX; ring).
      assert (DT : Z.abs (A - D) <= top m h).
      { apply Z.le_trans with (1 := DX). unfold top. rewrite Z.mul_comm. pose proof (pow2_le_mono (jb + 1) h ltac:(clear - JJ NJ JAH JB; lia)) as PL. clear - PL P1 TB. apply Z.mul_le_mono_nonneg; lia. }
      rewrite RE in *. apply uv_mul; auto; [clear - JB; lia|]. rewrite abs_mul_pow in DX by (clear - JB; lia). apply mul_le_inv in DX; [clear - DX TB; lia|exact P1].
  Qed.

  Lemma two_sum A B C D ja ta jb tb jc tc jd td :
    cv m h A ja ta -> cv m h B jb tb -> cv m h C jc tc -> cv m h D jd td ->
    near m h (A + B) 1 C -> near m h (C - B) 1 D ->
    (forall r, uv m h r -> Z.abs (A + B - C) <= Z.abs (A + B - r)) ->
    (forall r, uv m h r -> Z.abs (C - B - D) <= Z.abs (C - B - r)) ->
    uv m h (C - D) /\ uv m h (A - D) /\ uv m h (B - (C - D)) /\ uv m h (A + B - C).
  Proof.
    intros CA CB CC CD NC ND N1 N2. pose proof (cv_uv _ _ _ _ _ CA) as UA. pose proof (cv_uv _ _ _ _ _ CB) as UB. pose proof (cv_uv _ _ _ _ _ CC) as UC.
    pose proof (N1 A UA) as DB. pose proof (N1 B UB) as DA. replace (A + B - A) with B in DB by lia. replace (A + B - B) with A in DA by lia.
    pose proof (sum_error m h M1 H0 A B C ja ta jb tb jc tc CA CB CC NC DA DB) as UE.
    assert (EX : uv m h (C - B) -> D = C - B) by (intros U; apply (near_exact m h (C - B) 1 D (C - B)); [lia|exact ND|exact U|lia]).
    assert (FIN : D = C - B -> uv m h (C - D) /\ uv m h (A - D) /\ uv m h (B - (C - D)) /\ uv m h (A + B - C)).
    { intros ->. split; [apply (uv_eq B); [exact UB|lia]|]. split; [apply (uv_eq (A + B - C)); [exact UE|lia]|]. split; [apply (uv_eq 0); [now apply uv_0|lia]|exact UE]. }
    destruct (Z_le_gt_dec (Z.abs A) (Z.abs B)) as [L|L].
    { apply FIN, EX. apply (fast_sum m h M1 H0 B A C jb tb ja ta jc tc CB CA CC); [now rewrite Z.add_comm|exact L|]. replace (B + A - C) with (A + B - C) by lia. exact DA. }
    destruct (Z_le_gt_dec (Z.abs B) (Z.abs C)) as [LC|LC].
    - pose proof (N2 C UC) as E1. replace (C - B - C) with (- B) in E1 by lia. rewrite Z.abs_opp in E1.
      assert (ND' : near m h (C + - B) 1 D) by exact ND.
      pose proof (fast_sum m h M1 H0 C (- B) D jc tc jb tb jd td CC (cv_opp _ _ _ CB) CD ND' ltac:(rewrite Z.abs_opp; exact LC) ltac:(rewrite Z.abs_opp; replace (C + - B - D) with (C - B - D) by lia; exact E1)) as U1.
      pose proof (sum_error m h M1 H0 C (- B) D jc tc jb tb jd td CC (cv_opp _ _ _ CB) CD ND' ltac:(replace (C + - B - D) with (C - B - D) by lia; lia) ltac:(rewrite Z.abs_opp; replace (C + - B - D) with (C - B - D) by lia; exact E1)) as U2.
      split; [apply (uv_eq (- (D - C))); [now apply uv_opp|lia]|]. split; [|split; [apply (uv_eq (- (C + - B - D))); [now apply uv_opp|lia]|exact UE]].
      pose proof (N2 A UA) as E2. apply (back_diff A B C D ja ta jb tb jc tc jd td); auto; [now apply abs_two|clear - L; lia].
    - apply FIN, EX. pose proof (cv_order A B ja ta jb tb CA CB ltac:(lia)) as JJ.
      destruct (sum_shape m h M1 H0 A B C ja ta jb tb jc tc jb CA CB CC ltac:(lia) NC) as [E|[(G & E & _)|(_ & CL & _)]].
      + apply (uv_eq A); [exact UA|lia].
      + exfalso. destruct CB as (_ & _ & _ & _ & BB). pose proof (top_pos m h M1 H0). rewrite E, (abs_sgn (A + B) (top m h) H G) in LC. clear - LC BB. lia.
      + exfalso. destruct CB as (EB & JB & TB & _). rewrite (pow2_split (m + 1) jb) in CL by lia. pose proof (pow2_pos jb JB).
        assert (tb * 2 ^ jb <= 2 ^ (m + 1) * 2 ^ jb) by (apply Z.mul_le_mono_nonneg_r; lia). lia.
  Qed.
End TWOSUM.
