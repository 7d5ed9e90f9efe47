(** Proofs of the theorems stated in FPWideProps.v. *)
From Coq Require Import Lia ZArith QArith Qpower Qabs ZifyBool Lqa.
From Verif Require Import PyBase BVModel BVSpec BVFacts BVOps FPModel FPSpec FPRoundFacts FPPatFacts FPEncFacts FPDecFacts FPBracket FPQFacts FPRoundSpec FPInst FPArith FPMore FPProofs FPSqrtSpec FP2Proofs FPAlgFacts FPAlgProofs FPExFacts FPExProofs FPErrFacts FPErrProofs FloatModel FloatSpec FloatProofs FPWideSpec FPWideFacts FPQuotFacts FPRootFacts.
Open Scope Z_scope.

Lemma op_init k h x y a b q : wide k -> instance k x -> instance k y -> fvalue x a -> fvalue y b -> exact_result h a b q ->
  exists n, h x (AFP y) = Ok (fp_init k n) /\ nval n q.
Proof.
  intros W I I' HA HB H. pose proof (wide_okf k W) as O. pose proof (instance_good k x W I) as G. pose proof (instance_good k y W I') as G'.
  pose proof (fnum_val k x a O G HA) as NA. pose proof (fnum_val k y b O G' HB) as NB.
  destruct H as [[-> ->]|[[-> ->]|[[-> ->]|(-> & NZ & ->)]]]; unfold fp_add, fp_sub, fp_mul, fp_div.
  - rewrite (arith_eq k) by auto using add_ok. eexists. split; [reflexivity|now apply nval_add].
  - rewrite (arith_eq k) by auto using sub_ok. eexists. split; [reflexivity|now apply nval_sub].
  - rewrite (arith_eq k) by auto using mul_ok. eexists. split; [reflexivity|now apply nval_mul].
  - rewrite (arith_eq k) by auto using div_ok. eexists. split; [reflexivity|now apply nval_div].
Qed.

Lemma widened f g x a : wide f -> wide g -> fits f g -> instance f x -> fvalue x a ->
  exists x', fp_new (Some g) (PFP x) = Ok x' /\ instance g x' /\ fvalue x' a.
Proof.
  intros W W' F I V. destruct (widen_good f g x W W' F (inst_good f x W I)) as (_ & _ & C & _). exists (fp_init g (fnum x)). split; [reflexivity|].
  split; [apply I_init, (nval_ok _ a), (fnum_val f); auto using wide_okf, inst_good|now apply C].
Qed.

Lemma eq_values f w z e e' : wide f -> instance f w -> instance f z -> xvalue w e -> xvalue z e' -> ext_eq e e' -> fp_eq w (AFP z) = Ok true.
Proof.
  intros W Iw Iz VW VZ E. destruct (C70_order_pf f w z e e' W Iw Iz VW VZ) as (lt & le & gt & ge & eq & ne & _ & _ & _ & _ & H & _ & _ & _ & _ & _ & HE & _).
  rewrite H. f_equal. now apply HE.
Qed.

Lemma same_intro f q w z : wide f -> instance f w -> instance f z -> correct f q z ->
  ((~ (q == 0)%Q -> w = z) /\ ((q == 0)%Q -> fvalue w 0 /\ fvalue z 0)) -> same_result q w z.
Proof.
  intros W Iw Iz C [H1 H2]. split; [exact H1|]. destruct (Qeq_dec q 0) as [Z|NZ].
  - destruct (H2 Z) as [VW VZ]. apply (eq_values f w z (XFin 0) (XFin 0)); auto. cbn [ext_eq]. reflexivity.
  - rewrite (H1 NZ). destruct (correct_x f q z W (inst_good f z W Iz) C) as (e & X & _). apply (eq_values f z z e e); auto. destruct e; cbn [ext_eq]; reflexivity.
Qed.

Lemma via_run f g h x y a b q : wide f -> wide g -> fits f g -> instance f x -> instance f y -> fvalue x a -> fvalue y b -> exact_result h a b q ->
  (forall r n, instance g r -> correct g q r -> nval n q ->
     let w := fp_init f (fnum r) in let z := fp_init f n in (~ (q == 0)%Q -> w = z) /\ ((q == 0)%Q -> fvalue w 0 /\ fvalue z 0)) ->
  exists w z, via f g h x y = Ok w /\ h x (AFP y) = Ok z /\ same_result q w z.
Proof.
  intros W W' F Ix Iy VA VB EX BACK. destruct (op_init f h x y a b q W Ix Iy VA VB EX) as (n & EZ & NZ).
  destruct (widened f g x a W W' F Ix VA) as (x' & EX' & Ix' & VA'). destruct (widened f g y b W W' F Iy VB) as (y' & EY' & Iy' & VB').
  destruct (op_init g h x' y' a b q W' Ix' Iy' VA' VB' EX) as (m & ER & MZ).
  assert (Ir : instance g (fp_init g m)) by (apply I_init; exact (nval_ok _ _ MZ)). pose proof (init_correct g m q W' MZ) as CR.
  assert (Iz : instance f (fp_init f n)) by (apply I_init; exact (nval_ok _ _ NZ)).
  exists (fp_init f (fnum (fp_init g m))), (fp_init f n). split; [|split; [exact EZ|]].
  - unfold via. rewrite EX', EY'. cbn [bind]. rewrite ER. reflexivity.
  - apply (same_intro f); auto; [|now apply init_correct]. apply I_init. apply (fnum_ok g); auto using wide_okf, inst_good.
Qed.

Lemma C115_directed_pf : forall f g h x y a b q,
  wide f -> wide g -> fits f g -> f_mode g = f_mode f -> f_mode f <> RNE ->
  instance f x -> instance f y -> fvalue x a -> fvalue y b -> exact_result h a b q ->
  exists w z, via f g h x y = Ok w /\ h x (AFP y) = Ok z /\ same_result q w z.
Proof.
  intros f g h x y a b q W W' F M D Ix Iy VA VB EX. apply (via_run f g h x y a b q); auto. intros r n Ir CR N.
  apply (directed_back f g q); auto; [apply I_init; exact (nval_ok _ _ N)|now apply init_correct].
Qed.

Lemma C115_directed_fma_pf : forall f g x y u a b c,
  wide f -> wide g -> fits f g -> f_mode g = f_mode f -> f_mode f <> RNE ->
  instance f x -> instance f y -> instance f u -> fvalue x a -> fvalue y b -> fvalue u c ->
  exists x' y' u' r w z, fp_new (Some g) (PFP x) = Ok x' /\ fp_new (Some g) (PFP y) = Ok y' /\ fp_new (Some g) (PFP u) = Ok u' /\
    fp_fma x' (AFP y') (AFP u') = Ok r /\ fp_new (Some f) (PFP r) = Ok w /\ fp_fma x (AFP y) (AFP u) = Ok z /\ same_result (a * b + c) w z.
Proof.
  intros f g x y u a b c W W' F M D Ix Iy Iu VA VB VC.
  destruct (widened f g x a W W' F Ix VA) as (x' & EX' & Ix' & VA'). destruct (widened f g y b W W' F Iy VB) as (y' & EY' & Iy' & VB'). destruct (widened f g u c W W' F Iu VC) as (u' & EU' & Iu' & VC').
  destruct (C71_fma_pf f x y u a b c W Ix Iy Iu VA VB VC) as (z & EZ & CZ). destruct (C71_fma_pf g x' y' u' a b c W' Ix' Iy' Iu' VA' VB' VC') as (r & ER & CR).
  pose proof (fma_inst f x y u z Ix Iy Iu EZ) as Iz. pose proof (fma_inst g x' y' u' r Ix' Iy' Iu' ER) as Ir.
  exists x', y', u', r, (fp_init f (fnum r)), z. do 6 (split; [assumption || reflexivity|]).
  apply (same_intro f); auto; [apply I_init; apply (fnum_ok g); auto using wide_okf, inst_good|]. now apply (directed_back f g).
Qed.

Lemma C115_directed_sqrt_pf : forall f g x a,
  wide f -> wide g -> fits f g -> f_mode g = f_mode f -> f_mode f <> RNE -> instance f x -> fvalue x a -> (0 < a)%Q ->
  exists x', fp_new (Some g) (PFP x) = Ok x' /\ fp_new (Some f) (PFP (fp_sqrt x')) = Ok (fp_sqrt x).
Proof.
  intros f g x a W W' F M D Ix VA P. destruct (widened f g x a W W' F Ix VA) as (x' & EX' & Ix' & VA'). exists x'. split; [exact EX'|].
  pose proof (C73_sqrt_pf f x a W Ix VA P) as CZ. pose proof (C73_sqrt_pf g x' a W' Ix' VA' P) as CR.
  cbn [fp_new arg_num rmap bind]. f_equal.
  assert (K : exists q, ~ (q == 0)%Q /\ correct f q (fp_sqrt x) /\ correct g q (fp_sqrt x')).
  { assert (SQ : forall p q, (0 <= p)%Q -> (0 <= q)%Q -> (p * p < q * q)%Q -> (p < q)%Q).
    { intros p q P0 Q0 L. destruct (Qlt_le_dec p q) as [|X]; [assumption|]. exfalso. assert (q * q <= p * p)%Q by (apply (Qle_trans _ (q * p)); [rewrite (Qmult_comm q p); apply Qmult_le_compat_r; assumption|apply Qmult_le_compat_r; assumption]). lra. }
    assert (RT : forall r, (0 <= r)%Q -> (r * r == a)%Q -> (0 < r)%Q) by (intros r R0 R1; apply (SQ 0%Q r); lra).
    destruct CZ as [(r & R0 & R1 & C)|(lo & hi & L0 & H0 & L1 & H1 & C)], CR as [(r' & R0' & R1' & C')|(lo' & hi' & L0' & H0' & L1' & H1' & C')].
    - exists r. pose proof (RT r R0 R1). split; [lra|]. split; [exact C|]. apply (correct_wd g r'); [|exact C'].
      destruct (Qlt_le_dec r r') as [X|X]; [exfalso|destruct (Qlt_le_dec r' r) as [Y|Y]; [exfalso|lra]].
      + pose proof (proj2 (Qmult_lt_r r r' r ltac:(lra)) X). pose proof (proj2 (Qmult_lt_r r r' r' ltac:(lra)) X). lra.
      + assert (0 < r')%Q by (apply RT; assumption). pose proof (proj2 (Qmult_lt_r r' r r ltac:(lra)) Y). pose proof (proj2 (Qmult_lt_r r' r r' ltac:(lra)) Y). lra.
    - exists r. pose proof (RT r R0 R1). split; [lra|]. split; [exact C|]. apply C'; apply SQ; lra.
    - exists r'. pose proof (RT r' R0' R1'). split; [lra|]. split; [apply C; apply SQ; lra|exact C'].
    - assert (A1 : (lo < hi)%Q) by (apply SQ; lra). assert (A2 : (lo < hi')%Q) by (apply SQ; lra). assert (A3 : (lo' < hi)%Q) by (apply SQ; lra). assert (A4 : (lo' < hi')%Q) by (apply SQ; lra).
      assert (MX : exists l, (lo <= l)%Q /\ (lo' <= l)%Q /\ (l < hi)%Q /\ (l < hi')%Q) by (destruct (Qlt_le_dec lo lo'); [exists lo'|exists lo]; repeat split; lra).
      destruct MX as (l & B1 & B2 & B3 & B4).
      assert (MN : exists u, (l < u)%Q /\ (u <= hi)%Q /\ (u <= hi')%Q) by (destruct (Qlt_le_dec hi hi'); [exists hi|exists hi']; repeat split; lra).
      destruct MN as (u & B5 & B6 & B7). exists ((l + u) * (1 # 2))%Q. split; [lra|]. split; [apply C; lra|apply C'; lra]. }
  destruct K as (q & NZ & CZ' & CR'). destruct (directed_back f g q (fp_sqrt x) (fp_sqrt x') W W' F M D (I_sqrt f x Ix) (I_sqrt g x' Ix') CZ' CR') as [H _]. now apply H.
Qed.

Lemma C115_product_pf : forall f g x y a b,
  wide f -> wide g -> f_eb f + 2 <= f_eb g -> 2 * f_mb f + 3 <= f_mb g -> f_ieee g = true ->
  instance f x -> instance f y -> fvalue x a -> fvalue y b ->
  exists w z, via f g fp_mul x y = Ok w /\ fp_mul x (AFP y) = Ok z /\ same_result (a * b) w z.
Proof.
  intros f g x y a b W W' E1 E2 IE Ix Iy VA VB. assert (F : fits f g) by (destruct W as [_ M]; split; [lia|split; [lia|auto]]).
  apply (via_run f g fp_mul x y a b); auto; [right; right; left; auto|]. intros r n Ir CR N. apply (exact_back f g (a * b)%Q _ r n); auto.
  destruct (value_cv f x a W Ix VA) as (A & ja & ta & QA & CA). destruct (value_cv f y b W Iy VB) as (B & jb & tb & QB & CB).
  apply (repv_wd g (inject_Z (A * B) * (unit f * unit f))%Q); [rewrite QA, QB, inject_Z_mult; ring|]. apply (wide_prod f g A ja ta B jb tb); auto. split; assumption.
Qed.

Lemma C115_sum_pf : forall f g h x y a b q,
  wide f -> wide g -> f_eb f + 2 <= f_eb g -> 2 * f_mb f + 3 <= f_mb g -> f_ieee g = true -> f_mode f = RNE ->
  instance f x -> instance f y -> fvalue x a -> fvalue y b -> (h = fp_add /\ q = a + b \/ h = fp_sub /\ q = a - b)%Q ->
  exists w z, via f g h x y = Ok w /\ h x (AFP y) = Ok z /\ same_result q w z.
Proof.
  intros f g h x y a b q W W' E1 E2 IE MO Ix Iy VA VB H. assert (F : fits f g) by (destruct W as [_ M]; split; [lia|split; [lia|auto]]). pose proof (wide_okf f W) as O.
  apply (via_run f g h x y a b); auto; [unfold exact_result; tauto|]. intros r n Ir CR N.
  destruct (value_cv f x a W Ix VA) as (A & ja & ta & QA & CA).
  assert (RA : repv f (inject_Z A * unit f)) by (apply (repv_wd f a); [exact QA|exact (value_repv f x a O (inst_good f x W Ix) VA)]).
  assert (Y : exists y2 b2, instance f y2 /\ fvalue y2 b2 /\ (q == a + b2)%Q).
  { destruct H as [[_ ->]|[_ ->]]; [exists y, b; repeat split; auto; reflexivity|]. exists (fp_neg y), (- b)%Q. split; [now apply I_neg|]. split; [now apply (fneg_value f)|ring]. }
  destruct Y as (y2 & b2 & Iy2 & VB2 & EQ). destruct (value_cv f y2 b2 W Iy2 VB2) as (B & jb & tb & QB & CB).
  assert (RB : repv f (inject_Z B * unit f)) by (apply (repv_wd f b2); [exact QB|exact (value_repv f y2 b2 O (inst_good f y2 W Iy2) VB2)]).
  apply (sum_back f g A ja ta B jb tb q _ r n); auto; [split; assumption|]. rewrite EQ, QA, QB, inject_Z_plus. ring.
Qed.

Lemma C115_quotient_pf : forall f g x y a b,
  wide f -> wide g -> f_eb f + 2 <= f_eb g -> 2 * f_mb f + 3 <= f_mb g -> f_ieee f = true -> f_ieee g = true -> f_mode f = RNE ->
  instance f x -> instance f y -> fvalue x a -> fvalue y b -> ~ (b == 0)%Q ->
  exists w z, via f g fp_div x y = Ok w /\ fp_div x (AFP y) = Ok z /\ same_result (a / b) w z.
Proof.
  intros f g x y a b W W' E1 E2 IEf IE MO Ix Iy VA VB NZ. assert (F : fits f g) by (destruct W as [_ M]; split; [lia|split; [lia|auto]]).
  apply (via_run f g fp_div x y a b); auto; [right; right; right; auto|]. intros r n Ir CR N.
  destruct (value_cv f x a W Ix VA) as (A & ja & ta & QA & CA). destruct (value_cv f y b W Iy VB) as (B & jb & tb & QB & CB).
  assert (NB : B <> 0) by (intros ->; apply NZ; rewrite QB; change (inject_Z 0) with 0%Q; ring).
  apply (nearest_back f g (a / b)%Q _ r n); auto. intros e2 K X2 MK. apply (mid_cross f g (a / b)%Q e2 A B ja ta jb tb K); auto; [split; assumption|].
  pose proof (unit_pos f) as UP. assert (EB : (inject_Z B * unit f * (a / b) == a)%Q) by (rewrite <- QB; field; exact NZ).
  assert (U0 : ~ (unit f == 0)%Q) by lra. apply (Qmult_inj_l _ _ (unit f) U0). transitivity (inject_Z B * unit f * (a / b))%Q; [ring|]. rewrite EB, QA, (unit_sq f A W). ring.
Qed.

Lemma C115_sqrt_pf : forall f g x a,
  wide f -> wide g -> f_eb f + 2 <= f_eb g -> 2 * f_mb f + 4 <= f_mb g -> f_ieee f = true -> f_ieee g = true -> f_mode f = RNE ->
  instance f x -> fvalue x a -> (0 < a)%Q ->
  exists x', fp_new (Some g) (PFP x) = Ok x' /\ fp_new (Some f) (PFP (fp_sqrt x')) = Ok (fp_sqrt x).
Proof.
  intros f g x a W W' E1 E2 IEf IE MO Ix VA P. assert (F : fits f g) by (destruct W as [_ M]; split; [lia|split; [lia|auto]]).
  destruct (widened f g x a W W' F Ix VA) as (x' & EX' & Ix' & VA'). exists x'. split; [exact EX'|].
  cbn [fp_new arg_num rmap bind]. f_equal. now apply (root_back f g x x' a).
Qed.

Lemma C115_double_rounding_refuted_pf : exists f g x y w z,
  wide f /\ wide g /\ fits f g /\ f_mb f + 2 = f_mb g /\ f_mode f = RNE /\ f_mode g = RNE /\ f_ieee f = true /\ f_ieee g = true /\
  instance f x /\ instance f y /\ fvalue x 1 /\ fvalue y (17 # 32768) /\
  via f g fp_add x y = Ok w /\ fvalue w 1 /\ fp_add x (AFP y) = Ok z /\ fvalue z (1025 # 1024).
Proof.
  exists (Fmt 5 10 RNE true), (Fmt 8 12 RNE true), (fp_init (Fmt 5 10 RNE true) (NRat false 1 1)), (fp_init (Fmt 5 10 RNE true) (NRat false 17 32768)).
  do 2 eexists. split; [split; cbn; lia|]. split; [split; cbn; lia|]. split; [repeat split; cbn; auto; lia|].
  do 5 (split; [reflexivity|]). split; [apply I_init; cbn; lia|]. split; [apply I_init; cbn; lia|].
  split; [eexists; split; [vm_compute; reflexivity|reflexivity]|]. split; [eexists; split; [vm_compute; reflexivity|reflexivity]|].
  split; [vm_compute; reflexivity|]. split; [eexists; split; [vm_compute; reflexivity|reflexivity]|].
  split; [vm_compute; reflexivity|]. eexists; split; [vm_compute; reflexivity|reflexivity].
Qed.

Lemma C115_directions_refuted_pf : exists f g x y w z,
  wide f /\ wide g /\ fits f g /\ f_mode f = RTP /\ f_mode g = RTZ /\ f_ieee f = true /\ f_ieee g = true /\
  instance f x /\ instance f y /\ fvalue x 1 /\ fvalue y (1 # 16384) /\
  via f g fp_add x y = Ok w /\ fvalue w 1 /\ fp_add x (AFP y) = Ok z /\ fvalue z (1025 # 1024).
Proof.
  exists (Fmt 5 10 RTP true), (Fmt 8 11 RTZ true), (fp_init (Fmt 5 10 RTP true) (NRat false 1 1)), (fp_init (Fmt 5 10 RTP true) (NRat false 1 16384)).
  do 2 eexists. split; [split; cbn; lia|]. split; [split; cbn; lia|]. split; [repeat split; cbn; auto; lia|].
  do 4 (split; [reflexivity|]). split; [apply I_init; cbn; lia|]. split; [apply I_init; cbn; lia|].
  split; [eexists; split; [vm_compute; reflexivity|reflexivity]|]. split; [eexists; split; [vm_compute; reflexivity|reflexivity]|].
  split; [vm_compute; reflexivity|]. split; [eexists; split; [vm_compute; reflexivity|reflexivity]|].
  split; [vm_compute; reflexivity|]. eexists; split; [vm_compute; reflexivity|reflexivity].
Qed.

Lemma C115_fma_refuted_pf : exists f g x y u x' y' u' r w z,
  wide f /\ wide g /\ f_eb f + 2 <= f_eb g /\ 2 * f_mb f + 3 <= f_mb g /\ f_mode f = RNE /\ f_mode g = RNE /\ f_ieee f = true /\ f_ieee g = true /\
  instance f x /\ instance f y /\ instance f u /\ fvalue x 3 /\ fvalue y 683 /\ fvalue u (1 # 16384) /\
  fp_new (Some g) (PFP x) = Ok x' /\ fp_new (Some g) (PFP y) = Ok y' /\ fp_new (Some g) (PFP u) = Ok u' /\
  fp_fma x' (AFP y') (AFP u') = Ok r /\ fp_new (Some f) (PFP r) = Ok w /\ fvalue w 2048 /\
  fp_fma x (AFP y) (AFP u) = Ok z /\ fvalue z 2050.
Proof.
  exists (Fmt 5 10 RNE true), (Fmt 8 23 RNE true), (fp_init (Fmt 5 10 RNE true) (NRat false 3 1)), (fp_init (Fmt 5 10 RNE true) (NRat false 683 1)), (fp_init (Fmt 5 10 RNE true) (NRat false 1 16384)).
  do 6 eexists. split; [split; cbn; lia|]. split; [split; cbn; lia|]. do 2 (split; [cbn; lia|]). do 4 (split; [reflexivity|]).
  do 3 (split; [apply I_init; cbn; lia|]). do 3 (split; [eexists; split; [vm_compute; reflexivity|reflexivity]|]).
  do 5 (split; [vm_compute; reflexivity|]). split; [eexists; split; [vm_compute; reflexivity|reflexivity]|].
  split; [vm_compute; reflexivity|]. eexists; split; [vm_compute; reflexivity|reflexivity].
Qed.
