(** Proofs of the theorems stated in FP2Props.v. *)
From Coq Require Import Lia ZArith QArith Qpower Qabs ZifyBool.
From Verif Require Import PyBase BVModel BVSpec BVFacts BVOps FPModel FPSpec FPRoundFacts FPPatFacts FPEncFacts FPDecFacts FPSqrtFacts FPBracket FPQFacts FPRoundSpec FPInst FPArith FPSqrtSpec FPMore FPRandFacts.
Open Scope Z_scope.

Lemma C73_sqrt_pf : forall f x a,
  wide f -> instance f x -> fvalue x a -> (0 < a)%Q -> correct_sqrt f a (fp_sqrt x).
Proof.
  intros f x a W I HA PA. pose proof (wide_okf f W) as O. pose proof (instance_good f x W I) as G.
  rewrite (sqrt_eq f x W G). pose proof (fnum_val f x a O G HA) as N. destruct N as [s q H|s n d q Hn Hd H].
  - exfalso. rewrite H in PA. now apply Qlt_irrefl in PA.
  - destruct s.
    + exfalso. rewrite H in PA. revert PA. rewrite ratq_z by exact Hd. cbn [sgnz].
      unfold Qlt, Qdiv, Qmult, Qinv, inject_Z. destruct d; cbn; lia.
    + apply (correct_sqrt_wd f (inject_Z n / inject_Z d)); [symmetry; exact H|]. now apply sqrt_correct.
Qed.

Lemma C73_exact_pf : forall f x a r,
  wide f -> instance f x -> fvalue x a -> (0 < a)%Q -> (0 <= r)%Q -> (r * r == a)%Q -> correct f r (fp_sqrt x).
Proof.
  intros f x a r W I HA PA R E. apply (correct_sqrt_root f a); auto. now apply C73_sqrt_pf.
Qed.

Lemma C73_special_pf : forall f x,
  wide f -> instance f x ->
  let nan := if f_ieee f then FPV f (MNaN false) else FPV f (MInf false) in
  (fp_is_zero x = true -> fp_sqrt x = x) /\
  (xvalue x (XInf false) -> fp_sqrt x = x) /\
  (fp_is_negative x = true -> fp_sqrt x = nan) /\
  (fp_is_NaN x = true -> fp_sqrt x = nan).
Proof.
  intros f x W I nan. pose proof (instance_good f x W I) as G. rewrite (sqrt_eq f x W G).
  assert (NN : fp_store f (MNaN false) = nan) by (unfold nan, fp_store; destruct (f_ieee f); reflexivity).
  destruct G as (F & _ & NA). destruct x as [f' v]. cbn [fv_fmt fv_val] in *. subst f'.
  unfold xvalue, fp_is_zero, fp_is_infinite, fp_is_negative, fp_is_NaN, fnum. cbn [fv_val fv_fmt].
  destruct v as [s|s|s|s m E]; cbn [mnum is_zero is_infinite is_nan is_signed]; (split; [try discriminate|split; [intros [X Y]; try discriminate|split; [|try discriminate]]]);
    cbn [num_cmp cmp_lt mpfr_sqrt]; try discriminate; try (intros _; exact NN); try reflexivity.
  - subst s. reflexivity.
  - destruct s; [intros _; exact NN|discriminate].
  - destruct (c_prec (fctx f) <=? E), s; cbn [num_cmp cmp_lt mpfr_sqrt]; try discriminate; intros _; exact NN.
Qed.

Lemma C74_value_pf : forall f x a g n,
  wide f -> instance f x -> fvalue x a -> 0 <= n ->
  exists k, (Qabs (a - inject_Z k) < 1)%Q /\
    to_ubv g x n = Ok (BV (BVC KBV n) (k mod 2 ^ n)) /\
    to_sbv g x n = Ok (BV (BVC KSInt n) (k mod 2 ^ n)).
Proof.
  intros f x a g n W I HA Hn. pose proof (wide_okf f W) as O. pose proof (instance_good f x W I) as G.
  destruct (int_spec g _ a (fnum_val f x a O G HA)) as (k & E & B). exists k. split; [exact B|].
  unfold to_ubv, to_sbv, to_bv, sized. replace (n <? 0) with false by lia. cbn [bind]. rewrite E. cbn [bind].
  pose proof (construct_int KBV n k Hn) as C1. pose proof (construct_int KSInt n k Hn) as C2.
  unfold construct, sized in C1, C2. replace (n <? 0) with false in C1, C2 by lia. split; assumption.
Qed.

Lemma C74_integral_pf : forall f x z g n,
  wide f -> instance f x -> fvalue x (inject_Z z) -> 0 <= n ->
  to_ubv g x n = Ok (BV (BVC KBV n) (z mod 2 ^ n)) /\
  to_sbv g x n = Ok (BV (BVC KSInt n) (z mod 2 ^ n)).
Proof.
  intros f x z g n W I HA Hn. destruct (C74_value_pf f x _ g n W I HA Hn) as (k & B & E).
  apply close_eq in B. subst k. exact E.
Qed.

Lemma C74_fits_pf : forall f x z g n,
  wide f -> instance f x -> fvalue x (inject_Z z) ->
  (0 <= n -> 0 <= z < 2 ^ n -> exists y, to_ubv g x n = Ok y /\ as_uint y = z) /\
  (1 <= n -> - 2 ^ (n - 1) <= z < 2 ^ (n - 1) -> exists y, to_sbv g x n = Ok y /\ as_sint y = Ok z).
Proof.
  intros f x z g n W I HA. split; intros Hn Z0.
  - destruct (C74_integral_pf f x z g n W I HA Hn) as [E _]. eexists. split; [exact E|]. unfold as_uint. cbn [bval]. now apply Z.mod_small.
  - destruct (C74_integral_pf f x z g n W I HA ltac:(lia)) as [_ E]. eexists. split; [exact E|].
    pose proof (pow2_S (n - 1) ltac:(lia)) as PS. replace (n - 1 + 1) with n in PS by lia.
    pose proof (pow2_pos (n - 1) ltac:(lia)) as PP.
    rewrite as_sint_spec; [|split; [cbn; lia|apply Z.mod_pos_bound; cbn; lia]|cbn; lia].
    unfold bsize, signed. cbn [bval bcls csize]. f_equal. destruct (Z_lt_le_dec z 0).
    + rewrite <- (Z.mod_unique z (2 ^ n) (-1) (z + 2 ^ n)) by lia. replace (_ <? _) with false by lia. lia.
    + rewrite Z.mod_small by lia. replace (_ <? _) with true by lia. lia.
Qed.

Lemma C74_errors_pf : forall x g n,
  (n < 0 -> to_ubv g x n = Raise EValueError /\ to_sbv g x n = Raise EValueError) /\
  (0 <= n -> fp_is_NaN x = true -> to_ubv g x n = Raise EValueError /\ to_sbv g x n = Raise EValueError) /\
  (0 <= n -> fp_is_infinite x = true -> to_ubv g x n = Raise EOverflow /\ to_sbv g x n = Raise EOverflow).
Proof.
  intros x g n. unfold to_ubv, to_sbv, to_bv, sized. split; [|split].
  - intros L. replace (n <? 0) with true by lia. split; reflexivity.
  - intros L N. replace (n <? 0) with false by lia. cbn [bind]. unfold fp_is_NaN, fnum in *. destruct (fv_val x); try discriminate. split; reflexivity.
  - intros L N. replace (n <? 0) with false by lia. cbn [bind]. unfold fp_is_infinite, fnum in *. destruct (fv_val x); try discriminate. split; reflexivity.
Qed.

Lemma C75_normal_partial_pf : forall f u s e j,
  wide f -> f_eb f <= f_mb f + 2 -> random_ok f false e = true ->
  0 <= j < 2 ^ f_mb f -> num_value u (inject_Z j / inject_Z (2 ^ f_mb f)) ->
  exists b, reinterpret_as_bv (fp_random f u s e) = Ok (BV (BVC KBV (f_size f)) b) /\
    is_pattern f b /\ pat_sign f b = s /\ pat_exp f b = e + bias f /\ pat_man f b = j.
Proof.
  intros f u s e j W EB RO J HU. pose proof (wide_okf f W) as O.
  unfold random_ok in RO. rewrite Z.shiftl_1_l in RO. fold (bias f) in RO.
  assert (U : nval u (inject_Z j / inject_Z (2 ^ f_mb f))).
  { destruct u; try contradiction; [|destruct HU as (? & ? & ?)]; constructor; assumption. }
  rewrite (random_value f _ s e j W EB J U) by lia.
  pose proof (pow2_S (f_mb f) ltac:(destruct W; lia)) as PS.
  assert (WF : wfv f (MFin s (2 ^ f_mb f + j) (e + 1))) by (apply wf_norm; [exact W|lia|unfold top, bias in *; lia]).
  eexists. split; [apply as_bv_spec; assumption|]. destruct (pat_of f _ O WF) as (P & S & F). split; [exact P|]. split; [exact S|].
  replace (e + 1 <? top f) with false in F by (unfold top, bias in *; lia). destruct F as (F1 & F2 & _). rewrite F1, F2.
  unfold top, bias. lia.
Qed.

Lemma C75_refuted_pf : exists f u s e q,
  wide f /\ f_ieee f = true /\ random_ok f false e = true /\
  num_value u q /\ (0 <= q)%Q /\ (q < 1)%Q /\
  fp_is_infinite (fp_random f u s e) = true.
Proof.
  exists (Fmt 5 10 RNE true), (NRat false 2047 2048), false, 15, (2047 # 2048).
  split; [split; vm_compute; congruence|]. split; [reflexivity|]. split; [vm_compute; reflexivity|].
  split; [split; [lia|split; [lia|vm_compute; reflexivity]]|]. split; [vm_compute; congruence|].
  split; [vm_compute; reflexivity|vm_compute; reflexivity].
Qed.
