(** Integers, in units of the smallest subnormal, that are values of a type. *)
From Coq Require Import Lia ZArith QArith Qpower Qabs ZifyBool Lqa.
From Verif Require Import PyBase BVModel BVSpec BVFacts BVOps FPModel FPSpec FPRoundFacts FPPatFacts FPEncFacts FPDecFacts FPBracket FPQFacts FPRoundSpec FPInst FPArith FPMore FPProofs FPAlgFacts FPAlgProofs.
Open Scope Z_scope.

Lemma V_parts mb k : 1 <= mb -> 0 <= k ->
  exists j t, 0 <= j /\ 0 <= t < 2 ^ (mb + 1) /\ V mb k = t * 2 ^ j /\ (j = 0 \/ 2 ^ mb <= t).
Proof.
  intros M K. pose proof (pow2_pos mb ltac:(lia)) as P. pose proof (Z.mod_pos_bound k (2 ^ mb) P) as MB.
  pose proof (Z.div_pos k (2 ^ mb) K P) as DP. unfold V. rewrite pow2_S by lia. destruct (Z.eqb_spec (k / 2 ^ mb) 0) as [E|E].
  - exists 0, (k mod 2 ^ mb). repeat split; try lia.
  - exists (k / 2 ^ mb - 1), (2 ^ mb + k mod 2 ^ mb). repeat split; try lia.
Qed.

Lemma V_make mb j t : 1 <= mb -> 0 <= j -> 0 <= t <= 2 ^ (mb + 1) -> exists k, 0 <= k /\ V mb k = t * 2 ^ j.
Proof.
  intros M J. revert t. pattern j. apply natlike_ind; [| |exact J]; clear j J.
  - intros t T. pose proof (pow2_pos mb ltac:(lia)) as P. destruct (Z_lt_le_dec t (2 ^ mb)) as [L|L].
    + exists t. split; [lia|]. rewrite V_sub by lia. lia.
    + exists (0 * 2 ^ mb + t). split; [lia|]. apply V_sig; lia.
  - intros j J IH t T. pose proof (pow2_pos mb ltac:(lia)) as P. destruct (Z_lt_le_dec t (2 ^ mb)) as [L|L].
    + destruct (IH (2 * t)) as (k & K & E); [rewrite pow2_S by lia; lia|]. exists k. split; [exact K|]. rewrite E, <- Z.add_1_r, pow2_S by lia. lia.
    + exists (Z.succ j * 2 ^ mb + t). split; [lia|]. apply V_sig; lia.
Qed.

(** N units are a value of the type f. *)
Definition unit_value (f : fmt) (N : Z) : Prop :=
  Z.abs N <= V (f_mb f) (IM f - 1) /\ (f_ieee f = false -> N = 0 \/ 2 ^ f_mb f <= Z.abs N) /\
  exists j t, 0 <= j /\ 0 <= t <= 2 ^ (f_mb f + 1) /\ Z.abs N = t * 2 ^ j.

Lemma unit_value_rep f N : okf f -> unit_value f N -> repv f (inject_Z N * unit f)%Q.
Proof.
  intros O (B & NC & j & t & J & T & E). pose proof O as [O1 O2]. pose proof (IM_range f O) as (I1 & _).
  pose proof (pow2_pos (f_mb f) ltac:(lia)) as P.
  destruct (V_make (f_mb f) j t O2 J T) as (k & K & KE). rewrite <- E in KE.
  assert (R : repm f k).
  { split.
    - destruct (Z_lt_le_dec k (IM f)) as [L|L]; [lia|]. pose proof (V_lt (f_mb f) O2 (IM f - 1) k ltac:(lia)). lia.
    - intros IE. destruct (NC IE) as [Z|Z].
      + left. destruct (Z.eq_dec k 0) as [X|X]; [exact X|]. pose proof (V_lt (f_mb f) O2 0 k ltac:(lia)) as L. rewrite (V_sub _ 0) in L by lia. lia.
      + right. destruct (Z_lt_le_dec k (2 ^ f_mb f)) as [L|L]; [|exact L]. rewrite V_sub in KE by lia. lia. }
  exists (enc f (N <? 0) k). split; [now apply rep_intro|]. unfold enc. rewrite pat_value_W by (auto; now apply repm_range).
  replace (W f (N <? 0) k) with N; [reflexivity|]. unfold W, sgnz. rewrite KE. destruct (Z.ltb_spec N 0); lia.
Qed.

(** The value of an instance, in units. *)
Lemma value_units f x a : wide f -> instance f x -> fvalue x a ->
  exists N j t, (a == inject_Z N * unit f)%Q /\ Z.abs N = t * 2 ^ j /\ 0 <= j /\ 0 <= t < 2 ^ (f_mb f + 1) /\ (j = 0 \/ 2 ^ f_mb f <= t) /\
    Z.abs N <= V (f_mb f) (IM f - 1) /\ (f_ieee f = false -> N = 0 \/ 2 ^ f_mb f <= Z.abs N).
Proof.
  intros Wf Ix VA. pose proof (wide_okf f Wf) as O. pose proof O as [O1 O2].
  destruct (value_rep f x a O (instance_good f x Wf Ix) VA) as (_ & _ & R & Q). destruct (rep_inv f _ O R) as (s & k & _ & RK & VB).
  pose proof RK as [K NC]. destruct (V_parts (f_mb f) k O2 ltac:(lia)) as (j & t & J & T & E & C).
  exists (W f s k), j, t. split; [rewrite <- Q; exact VB|]. rewrite W_abs by (auto; lia). split; [exact E|]. split; [exact J|]. split; [exact T|]. split; [exact C|].
  split; [apply V_le; lia|]. intros IE. pose proof (pow2_pos (f_mb f) ltac:(lia)) as P. destruct (NC IE) as [Z|Z].
  - left. subst k. unfold W. rewrite V_sub by lia. destruct s; reflexivity.
  - right. pose proof (V_le (f_mb f) O2 (2 ^ f_mb f) k ltac:(lia)) as L. rewrite V_sub_top in L by lia. exact L.
Qed.

Lemma unit_pos f : (0 < unit f)%Q.
Proof. apply pow2q_pos. Qed.
Lemma units_le f N M : (inject_Z N * unit f <= inject_Z M * unit f)%Q <-> N <= M.
Proof. apply (val_le (unit f) (unit_pos f)). Qed.
Lemma units_abs f N : (Qabs (inject_Z N * unit f) == inject_Z (Z.abs N) * unit f)%Q.
Proof. apply (val_abs (unit f) (unit_pos f)). Qed.

(** A combination that is no larger than either number is a value. *)
Lemma small_value f x y a b N u v :
  wide f -> f_ieee f = true -> instance f x -> instance f y -> fvalue x a -> fvalue y b ->
  (N == inject_Z u * a + inject_Z v * b)%Q -> (Qabs N <= Qabs a)%Q -> (Qabs N <= Qabs b)%Q -> repv f N.
Proof.
  intros Wf IE Ix Iy VA VB EN LA LB. pose proof (wide_okf f Wf) as O. pose proof O as [O1 O2].
  destruct (value_units f x a Wf Ix VA) as (A & ja & ta & QA & EA & JA & TA & _ & BA & _).
  destruct (value_units f y b Wf Iy VB) as (B & jb & tb & QB & EB & JB & TB & _ & BB & _).
  set (R := u * A + v * B).
  assert (ER : (N == inject_Z R * unit f)%Q). { rewrite EN, QA, QB. unfold R. rewrite inject_Z_plus, !inject_Z_mult. ring. }
  assert (RA : Z.abs R <= Z.abs A). { apply (units_le f). rewrite <- !units_abs, <- ER, <- QA. exact LA. }
  assert (RB : Z.abs R <= Z.abs B). { apply (units_le f). rewrite <- !units_abs, <- ER, <- QB. exact LB. }
  apply (repv_wd f (inject_Z R * unit f)%Q); [now symmetry|]. apply unit_value_rep; [exact O|]. split; [lia|]. split; [congruence|].
  assert (MUL : forall t j M, 0 <= j -> Z.abs M = t * 2 ^ j -> forall i, 0 <= i <= j -> exists c, M = c * 2 ^ i).
  { intros t j M J E i Hi. exists (Z.sgn M * (t * 2 ^ (j - i))). assert (SG : M = Z.sgn M * Z.abs M) by lia. rewrite SG at 1. rewrite E.
    replace j with ((j - i) + i) at 1 by lia. rewrite Z.pow_add_r by lia. ring. }
  set (i := Z.min ja jb). assert (I0 : 0 <= i) by (unfold i; lia). pose proof (pow2_pos i I0) as PI.
  destruct (MUL ta ja A JA EA i ltac:(unfold i; lia)) as (ca & CA). destruct (MUL tb jb B JB EB i ltac:(unfold i; lia)) as (cb & CB).
  exists i, (Z.abs (u * ca + v * cb)). split; [exact I0|].
  assert (ABS : Z.abs R = Z.abs (u * ca + v * cb) * 2 ^ i).
  { unfold R. rewrite CA, CB. replace (u * (ca * 2 ^ i) + v * (cb * 2 ^ i)) with ((u * ca + v * cb) * 2 ^ i) by ring. rewrite Z.abs_mul, (Z.abs_eq (2 ^ i)) by lia. reflexivity. }
  split; [|exact ABS]. split; [lia|].
  destruct (Z.min_spec ja jb) as [[_ M]|[_ M]]; fold i in M; rewrite <- M in *.
  - rewrite ABS, EA in RA. apply Z.mul_le_mono_pos_r in RA; [lia|exact PI].
  - rewrite ABS, EB in RB. apply Z.mul_le_mono_pos_r in RB; [lia|exact PI].
Qed.

(** Twice a value, if not too large. *)
Lemma double_value f x v a c : wide f -> instance f x -> instance f v -> fvalue x a -> fvalue v c ->
  (2 * Qabs a <= Qabs c)%Q -> repv f (a + a)%Q.
Proof.
  intros Wf Ix Iv VA VC L. pose proof (wide_okf f Wf) as O. pose proof O as [O1 O2].
  destruct (value_units f x a Wf Ix VA) as (A & ja & ta & QA & EA & JA & TA & _ & BA & NA).
  destruct (value_units f v c Wf Iv VC) as (C & jc & tc & QC & EC & JC & TC & _ & BC & _).
  assert (LC : 2 * Z.abs A <= Z.abs C).
  { apply (units_le f). rewrite <- units_abs, <- QC, inject_Z_mult, <- Qmult_assoc, <- units_abs, <- QA. exact L. }
  apply (repv_wd f (inject_Z (2 * A) * unit f)%Q); [rewrite QA, inject_Z_mult; change (inject_Z 2) with 2%Q; ring|].
  apply unit_value_rep; [exact O|]. split; [lia|]. split; [intros IE; destruct (NA IE); lia|].
  exists (ja + 1), ta. split; [lia|]. split; [lia|]. rewrite pow2_S by lia. lia.
Qed.

(** Integers. *)
Lemma unit_one f : wide f -> (1 == inject_Z (2 ^ (bias f + f_mb f - 1)) * unit f)%Q /\ 0 <= bias f + f_mb f - 1 /\ 2 ^ f_mb f <= 2 ^ (bias f + f_mb f - 1).
Proof.
  intros [W1 W2]. unfold unit, bias.
  assert (B : 1 <= 2 ^ (f_eb f - 1) - 1). { pose proof (pow2_le_mono 1 (f_eb f - 1) ltac:(lia)) as H. change (2 ^ 1) with 2 in H. lia. }
  split; [|split; [lia|apply pow2_le_mono; lia]]. rewrite <- pow2q_int by lia. rewrite <- pow2q_add.
  match goal with |- (_ == pow2 ?e)%Q => replace e with 0 by lia end. reflexivity.
Qed.
(** The value of an instance is an integer, or smaller than 2^mb. *)
Lemma big_integer f x a : wide f -> instance f x -> fvalue x a -> (Qabs a <= inject_Z (2 ^ f_mb f))%Q \/ exists k, (a == inject_Z k)%Q.
Proof.
  intros Wf Ix VA. pose proof (wide_okf f Wf) as O. pose proof O as [O1 O2].
  destruct (value_units f x a Wf Ix VA) as (A & ja & ta & QA & EA & JA & TA & _ & BA & NA).
  destruct (unit_one f Wf) as (U1 & U2 & U3). set (e := bias f + f_mb f - 1) in *. pose proof (pow2_pos e U2) as PE. pose proof (unit_pos f) as UP.
  destruct (Z_lt_le_dec ja e) as [L|L].
  - left. rewrite QA, units_abs. apply Qle_trans with (inject_Z (2 ^ f_mb f) * (inject_Z (2 ^ e) * unit f))%Q; [|rewrite <- U1; apply Qle_lteq; right; ring].
    rewrite Qmult_assoc, <- inject_Z_mult. apply units_le. rewrite EA.
    assert (2 ^ ja * 2 <= 2 ^ e). { pose proof (pow2_le_mono (ja + 1) e ltac:(lia)) as H. rewrite pow2_S in H by lia. lia. }
    rewrite pow2_S in TA by lia. pose proof (pow2_pos ja JA). nia.
  - right. exists (Z.sgn A * (ta * 2 ^ (ja - e))). rewrite QA. assert (SG : A = Z.sgn A * Z.abs A) by lia. rewrite SG at 1. rewrite EA.
    replace ja with ((ja - e) + e) at 1 by lia. rewrite Z.pow_add_r by lia.
    replace (Z.sgn A * (ta * (2 ^ (ja - e) * 2 ^ e))) with (Z.sgn A * (ta * 2 ^ (ja - e)) * 2 ^ e) by ring.
    rewrite inject_Z_mult, <- Qmult_assoc, <- U1. ring.
Qed.
(** Integers up to 2^mb in size are values, unless they are above the range. *)
Lemma integer_value f k v c : wide f -> Z.abs k <= 2 ^ f_mb f -> instance f v -> fvalue v c -> (Qabs (inject_Z k) <= Qabs c)%Q -> repv f (inject_Z k).
Proof.
  intros Wf K Iv VC L. pose proof (wide_okf f Wf) as O. pose proof O as [O1 O2].
  destruct (value_units f v c Wf Iv VC) as (C & jc & tc & QC & EC & JC & TC & _ & BC & _).
  destruct (unit_one f Wf) as (U1 & U2 & U3). set (e := bias f + f_mb f - 1) in *. pose proof (pow2_pos e U2) as PE.
  assert (EK : (inject_Z k == inject_Z (k * 2 ^ e) * unit f)%Q) by (rewrite inject_Z_mult, <- Qmult_assoc, <- U1; ring).
  assert (AB : Z.abs (k * 2 ^ e) = Z.abs k * 2 ^ e) by (rewrite Z.abs_mul, (Z.abs_eq (2 ^ e)) by lia; reflexivity).
  assert (LC : Z.abs (k * 2 ^ e) <= Z.abs C). { apply (units_le f). rewrite <- !units_abs, <- EK, <- QC. exact L. }
  apply (repv_wd f (inject_Z (k * 2 ^ e) * unit f)%Q); [now symmetry|]. apply unit_value_rep; [exact O|]. split; [lia|]. split.
  - intros _. rewrite AB. destruct (Z.eq_dec k 0) as [->|N]; [left; lia|right; nia].
  - exists e, (Z.abs k). split; [exact U2|]. split; [|exact AB]. pose proof (pow2_pos (f_mb f) ltac:(lia)). rewrite pow2_S by lia. lia.
Qed.
(** The largest value. *)
Lemma max_value f : wide f -> exists c, repv f c /\ (0 <= c)%Q /\ forall r, repv f r -> (Qabs r <= c)%Q.
Proof.
  intros Wf. pose proof (wide_okf f Wf) as O. pose proof O as [O1 O2]. pose proof (IM_range f O) as (I1 & _). pose proof (IM_big f Wf) as IB. pose proof (pow2_pos (f_mb f) ltac:(lia)) as P.
  exists (inject_Z (V (f_mb f) (IM f - 1)) * unit f)%Q. assert (R : repm f (IM f - 1)) by (split; lia). split; [|split].
  - exists (enc f false (IM f - 1)). split; [now apply rep_intro|]. unfold enc. rewrite pat_value_W by (auto; now apply repm_range). reflexivity.
  - pose proof (V_nonneg (f_mb f) O2 (IM f - 1) ltac:(lia)) as N. apply Qmult_le_0_compat; [|pose proof (unit_pos f); lra]. change 0%Q with (inject_Z 0). rewrite <- Zle_Qle. exact N.
  - intros r (b & RB & Q). destruct (rep_inv f b O RB) as (s & k & _ & RK & VB). rewrite <- Q, VB, units_abs. apply units_le. rewrite W_abs by (auto; apply RK).
    apply (V_le (f_mb f) O2). destruct RK. lia.
Qed.
(** An integer up to 2^mb in size is a value or overflows. *)
Lemma integer_dich f k : wide f -> Z.abs k <= 2 ^ f_mb f ->
  repv f (inject_Z k) \/ (overflow_threshold f <= Qabs (inject_Z k))%Q.
Proof.
  intros Wf K. pose proof (wide_okf f Wf) as O. pose proof O as [O1 O2]. destruct (V_IM f Wf) as (VI & VM & B).
  destruct (unit_one f Wf) as (U1 & U2 & U3). set (e := bias f + f_mb f - 1) in *. pose proof (pow2_pos e U2) as PE.
  assert (EK : (inject_Z k == inject_Z (k * 2 ^ e) * unit f)%Q) by (rewrite inject_Z_mult, <- Qmult_assoc, <- U1; ring).
  assert (AB : Z.abs (k * 2 ^ e) = Z.abs k * 2 ^ e) by (rewrite Z.abs_mul, (Z.abs_eq (2 ^ e)) by lia; reflexivity).
  destruct (Z_le_gt_dec (Z.abs (k * 2 ^ e)) (V (f_mb f) (IM f - 1))) as [L|G].
  - left. apply (repv_wd f (inject_Z (k * 2 ^ e) * unit f)%Q); [now symmetry|]. apply unit_value_rep; [exact O|]. split; [exact L|]. split.
    + intros _. rewrite AB. destruct (Z.eq_dec k 0) as [->|N]; [left; lia|right; nia].
    + exists e, (Z.abs k). split; [exact U2|]. split; [|exact AB]. pose proof (pow2_pos (f_mb f) ltac:(lia)). rewrite pow2_S by lia. lia.
  - right. assert (BIG : V (f_mb f) (IM f) <= Z.abs (k * 2 ^ e)).
    { rewrite AB in *. rewrite VM in G. rewrite VI in *.
      assert (SP : 2 ^ (f_mb f + 2 * bias f) = 2 ^ (bias f + 1) * 2 ^ e) by (rewrite <- pow2_split by lia; f_equal; unfold e; lia).
      destruct (Z_le_gt_dec (2 * bias f - 1) e) as [C|C].
      - pose proof (pow2_le_mono (2 * bias f - 1) e ltac:(lia)) as P. rewrite SP in *.
        assert (2 ^ (bias f + 1) <= Z.abs k); [|nia]. assert (2 ^ (bias f + 1) - 1 < Z.abs k); [|lia]. nia.
      - exfalso. pose proof (pow2_le_mono (2 * bias f - 1) (f_mb f + 2 * bias f - 1) ltac:(lia)) as P1.
        assert (P2 : 2 ^ (f_mb f + 2 * bias f) = 2 * 2 ^ (f_mb f + 2 * bias f - 1)) by (rewrite <- pow2_S by lia; f_equal; lia).
        pose proof (pow2_le_mono (f_mb f + e) (f_mb f + 2 * bias f - 1) ltac:(lia)) as P3. rewrite pow2_split in P3 by lia. nia. }
    rewrite EK, units_abs, (threshold_W f Wf). pose proof (unit_pos f) as UP.
    pose proof (V_lt (f_mb f) O2 (IM f - 1) (IM f)) as VL. pose proof (IM_range f O) as (I1 & _). specialize (VL ltac:(lia)).
    apply Qmult_le_compat_r; [|lra]. apply Qle_shift_div_r; [reflexivity|]. rewrite <- inject_Z_mult. rewrite <- Zle_Qle. lia.
Qed.
Lemma abs_cases q : ((0 <= q)%Q /\ (Qabs q == q)%Q) \/ ((q <= 0)%Q /\ (Qabs q == - q)%Q).
Proof. destruct (Qlt_le_dec q 0); [right; split; [lra|apply Qabs_neg; lra]|left; split; [lra|apply Qabs_pos; lra]]. Qed.
Ltac absq a := let P := fresh in let E := fresh in destruct (abs_cases a) as [[P E]|[P E]]; rewrite ?E in *.
