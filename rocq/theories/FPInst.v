(** What every instance of a floating point type satisfies. *)
From Coq Require Import Lia ZArith QArith Qpower Qabs ZifyBool.
From Verif Require Import PyBase BVModel BVSpec BVFacts BVOps FPModel FPSpec FPRoundFacts FPPatFacts FPEncFacts FPDecFacts FPSqrtFacts FPBracket FPQFacts FPRoundSpec.
Open Scope Z_scope.

(** ** Exact operations keep numbers well formed *)
Lemma add_ok g x y : num_ok x -> num_ok y -> num_ok (num_add g x y).
Proof.
  destruct x as [|s|s|s n d], y as [|s'|s'|s' n' d']; cbn [num_add num_ok]; intros; auto;
    try (destruct (eqb s s'); exact I).
  destruct (Z.eqb_spec (sgnz s n * d' + sgnz s' n' * d) 0); cbn [num_ok]; [exact I|nia].
Qed.
Lemma neg_ok x : num_ok x -> num_ok (num_neg x).
Proof. destruct x; auto. Qed.
Lemma sub_ok g x y : num_ok x -> num_ok y -> num_ok (num_sub g x y).
Proof. intros. apply add_ok; auto. now apply neg_ok. Qed.
Lemma mul_ok x y : num_ok x -> num_ok y -> num_ok (num_mul x y).
Proof. destruct x, y; cbn [num_mul num_ok]; intros; auto. nia. Qed.
Lemma div_ok x y : num_ok x -> num_ok y -> num_ok (num_div x y).
Proof. destruct x, y; cbn [num_div num_ok]; intros; auto. nia. Qed.
Lemma min_ok x y : num_ok x -> num_ok y -> num_ok (num_min x y).
Proof. destruct x, y; unfold num_min; intros; auto; repeat match goal with |- context [if ?b then _ else _] => destruct b end; auto. Qed.
Lemma max_ok x y : num_ok x -> num_ok y -> num_ok (num_max x y).
Proof. destruct x, y; unfold num_max; intros; auto; repeat match goal with |- context [if ?b then _ else _] => destruct b end; auto. Qed.
Lemma rem_ok x y : num_ok x -> num_ok y -> num_ok (num_rem x y).
Proof.
  destruct x as [|s|s|s n d], y as [|s'|s'|s' n' d']; cbn [num_rem num_ok]; intros; auto.
  set (r := n * d' - _). destruct (Z.eqb_spec r 0); cbn [num_ok]; [exact I|]. nia.
Qed.
Lemma rint_ok g x : num_ok x -> num_ok (num_rint g x).
Proof.
  destruct x as [|s|s|s n d]; cbn [num_rint num_ok]; auto. intros [Hn Hd].
  pose proof (Z.div_pos n d ltac:(lia) Hd). unfold round_int.
  destruct (Z.eqb_spec (n / d + b2z (incr g s (n / d) (n mod d) d)) 0); cbn [num_ok]; [exact I|].
  destruct (incr _ _ _ _ _); cbn [b2z] in *; lia.
Qed.

Definition good (f : fmt) (x : fpv) : Prop :=
  fv_fmt x = f /\ wfv f (fv_val x) /\ (f_ieee f = false -> is_nan (fv_val x) = false).

Lemma mnum_ok f v : okf f -> wfv f v -> num_ok (mnum (c_prec (fctx f)) v).
Proof.
  intros O W. destruct v as [s|s|s|s m E]; try exact I. unfold wfv in W. rewrite fctx_eq in * by exact O.
  cbn [wfm c_prec c_emin c_emax] in *. destruct O as [O1 O2]. destruct W as (W1 & _).
  pose proof (pow2_pos (f_mb f + 1 - 1) ltac:(lia)). unfold mnum.
  destruct (Z.leb_spec (f_mb f + 1) E); cbn [num_ok].
  - pose proof (pow2_pos (E - (f_mb f + 1)) ltac:(lia)). nia.
  - pose proof (pow2_pos (f_mb f + 1 - E) ltac:(lia)). lia.
Qed.
Lemma fnum_ok f x : okf f -> good f x -> num_ok (fnum x).
Proof. intros O (F & W & _). unfold fnum. rewrite F. now apply mnum_ok. Qed.

Lemma store_good f v : wfv f v -> good f (fp_store f v).
Proof.
  intros W. unfold fp_store. destruct (is_nan v && negb (f_ieee f)) eqn:B.
  - destruct (is_signed v); (split; [reflexivity|split; [exact I|auto]]).
  - split; [reflexivity|]. split; [exact W|]. cbn [fv_val]. intros F. rewrite F in B. cbn [negb] in B. now rewrite andb_true_r in B.
Qed.
Lemma init_good f x : wide f -> num_ok x -> good f (fp_init f x).
Proof. intros W H. apply store_good. now apply round_wf. Qed.
Lemma op_good f x : wide f -> num_ok x -> good f (fp_op f x).
Proof. intros W H. rewrite op_store by assumption. now apply init_good. Qed.

Lemma abs_eq x f : wide f -> good f x -> fp_abs x =
  (if cmp_ge (num_cmp (fnum x) (NZero false)) then fp_store f (fv_val x) else fp_init f (num_neg (fnum x))).
Proof.
  intros W G. pose proof (wide_okf f W) as O. destruct G as (F & V & N). unfold fp_abs. rewrite F.
  rewrite wrap_wf by assumption. rewrite op_store; [reflexivity|exact W|]. apply neg_ok, (fnum_ok f); [exact O|split; auto].
Qed.
Lemma neg_eq x f : wide f -> good f x -> fp_neg x = fp_init f (num_neg (fnum x)).
Proof.
  intros W G. unfold fp_neg. pose proof G as (F & _). rewrite F. apply op_store; [exact W|]. apply neg_ok, (fnum_ok f); [apply wide_okf, W|exact G].
Qed.

Lemma coerce_good f a y : wide f -> (forall z, a = AFP z -> good f z) -> (forall z, a = ANum z -> num_ok z) ->
  fp_coerce f a = Ok y -> good f y.
Proof.
  intros W HA HN. destruct a as [z|z]; cbn [fp_coerce].
  - destruct (negb (fmt_eqb (fv_fmt z) f)); [discriminate|]. intros E; inv E. now apply HA.
  - intros E; inv E. apply init_good; auto.
Qed.

Lemma arith_good f h x a y : wide f -> (forall g p q, num_ok p -> num_ok q -> num_ok (h g p q)) -> good f x ->
  (forall z, a = AFP z -> good f z) -> (forall z, a = ANum z -> num_ok z) ->
  arith h x a = Ok y -> exists z, fp_coerce f a = Ok z /\ good f z /\
    y = fp_init f (h (mode_2_gmpy2 (f_mode f)) (fnum x) (fnum z)).
Proof.
  intros W HH G HA HN. unfold arith, fp_cast. pose proof G as (F & _). rewrite F.
  destruct (fp_coerce f a) as [z|] eqn:C; cbn [bind]; [|discriminate]. intros E. injection E as E. subst y.
  pose proof (coerce_good f a z W HA HN C) as GZ. exists z. split; [reflexivity|]. split; [exact GZ|].
  apply op_store; [exact W|]. apply HH; apply (fnum_ok f); auto using wide_okf.
Qed.

Lemma sqrt_wf f x : wide f -> num_ok x -> wfv f (mpfr_sqrt (fctx f) x).
Proof.
  intros W N. destruct x as [s|[|]|s|[|] n d]; try exact I. destruct N as [Hn Hd].
  assert (P : 1 <= c_prec (fctx f)) by (rewrite fctx_eq by (apply wide_okf, W); cbn [c_prec]; destruct W; lia).
  destruct (mpfr_sqrt_like (fctx f) n d P Hn Hd) as (qn & qd & P1 & P2 & ->). apply round_wf; [exact W|split; assumption].
Qed.
Lemma sqrt_eq f x : wide f -> good f x -> fp_sqrt x = fp_store f (mpfr_sqrt (fctx f) (fnum x)).
Proof.
  intros W G. pose proof (wide_okf f W) as O. unfold fp_sqrt. pose proof G as (F & _). rewrite F.
  apply wrap_wf; [exact O|]. apply sqrt_wf; [exact W|]. now apply (fnum_ok f).
Qed.

Lemma pow_ok x y : num_ok x -> num_ok y -> num_ok (num_pow x y).
Proof.
  destruct x as [sx|sx|sx|[|] n d], y as [s|s|s|s a b]; cbn [num_pow num_ok]; intros; try exact I; try lia.
  assert (0 <= a / b) by (apply Z.div_pos; lia).
  destruct s; cbn [num_ok]; split; apply Z.pow_pos_nonneg; lia.
Qed.
Lemma of_int_ok z : num_ok (num_of_int z).
Proof. unfold num_of_int. destruct (Z.eqb_spec z 0); cbn [num_ok]; [exact I|lia]. Qed.
Lemma rd_ok f x : wide f -> num_ok x -> num_ok (mnum (c_prec (fctx f)) (mpfr_round (fctx f) x)).
Proof. intros W H. apply mnum_ok; [apply wide_okf, W|now apply round_wf]. Qed.
Lemma random_good f u s e : wide f -> num_ok u -> good f (fp_random f u s e).
Proof.
  intros W U. unfold fp_random. apply op_good; [exact W|].
  apply mul_ok; apply rd_ok; try exact W.
  - apply mul_ok; [apply rd_ok; [exact W|apply add_ok; [exact U|cbn; lia]]|cbn; lia].
  - apply pow_ok; apply rd_ok; try exact W; [cbn; lia|apply of_int_ok].
Qed.

Lemma instance_good f x : wide f -> instance f x -> good f x.
Proof.
  intros W. pose proof (wide_okf f W) as O. induction 1 as [x N|b y B1 B2 E|x _ G|x _ G|u s e U|x _ G|x _ G|h x a y IN _ G _ HA HN E|x a c y _ G _ HA HN E].
  - now apply init_good.
  - unfold reinterpret_from_bv in E. destruct (Z.eqb_spec (f_size f) (bsize b)) as [S|S]; cbn [negb] in E; [|discriminate].
    destruct b as [[k n] b]. unfold bsize in *. cbn [bcls csize bval] in *. subst n.
    assert (P : is_pattern f b) by exact B2. pose proof (from_bv_spec f k b O P) as Q.
    unfold reinterpret_from_bv in Q. unfold bsize in Q. cbn [bcls csize] in Q. rewrite Z.eqb_refl in Q. cbn [negb] in Q.
    unfold bsize in E. cbn [bcls csize] in E.
    rewrite Q in E. inv E. split; [reflexivity|]. split; [now apply dec_wf|]. cbn [fv_val]. intros IE. unfold dec. rewrite IE.
    repeat match goal with |- context [if ?b then _ else _] => destruct b end; reflexivity.
  - rewrite (abs_eq x f W G). destruct (cmp_ge _).
    + apply store_good. apply G.
    + apply init_good; [exact W|]. apply neg_ok, (fnum_ok f); assumption.
  - rewrite (neg_eq x f W G). apply init_good; [exact W|]. apply neg_ok, (fnum_ok f); assumption.
  - now apply random_good.
  - rewrite (sqrt_eq f x W G). apply store_good, sqrt_wf; [exact W|]. now apply (fnum_ok f).
  - unfold fp_round_to_integral. pose proof G as (F & _). rewrite F. apply op_good; [exact W|]. apply rint_ok, (fnum_ok f); assumption.
  - assert (A : forall h', (forall g p q, num_ok p -> num_ok q -> num_ok (h' g p q)) -> arith h' x a = Ok y -> good f y).
    { intros h' HH E'. destruct (arith_good f h' x a y W HH G HA HN E') as (z & _ & GZ & ->).
      apply init_good; [exact W|]. apply HH; apply (fnum_ok f); auto. }
    cbn [In] in IN. destruct IN as [<-|[<-|[<-|[<-|[<-|[<-|[<-|[]]]]]]]]; revert E; apply A; intros g p q;
      [apply add_ok|apply sub_ok|apply mul_ok|apply div_ok|apply rem_ok|apply min_ok|apply max_ok].
  - unfold fp_fma in E. pose proof G as (F & _). rewrite F in E.
    destruct (fp_coerce f a) as [za|] eqn:CA; cbn [bind] in E; [|discriminate].
    destruct (fp_coerce f c) as [zc|] eqn:CC; cbn [bind] in E; [|discriminate]. injection E as E. subst y.
    assert (GA : good f za) by (apply (coerce_good f a za W); auto; intros z ->; apply HA || apply HN; auto).
    assert (GC : good f zc) by (apply (coerce_good f c zc W); auto; intros z ->; apply HA || apply HN; auto).
    apply op_good; [exact W|]. apply add_ok; [apply mul_ok|]; apply (fnum_ok f); auto.
Qed.

(** ** Classes *)
Lemma sub_spec f v : okf f -> wfv f v ->
  fp_is_subnormal (FPV f v) = Ok (match v with MFin _ _ E => E <? top f | _ => false end).
Proof.
  intros O W. pose proof (emax_pos f O) as [E1 E2]. unfold fp_is_subnormal. rewrite as_bv_spec by assumption. cbn [bind fv_fmt].
  pose proof (pat_range f v O W) as PR. pose proof O as [O1 O2]. pose proof (pow2_pos (f_eb f) ltac:(lia)) as PE.
  assert (WP : wf (BV (BVC KBV (f_size f)) (pat f v))) by (split; cbn [bcls csize bval]; [unfold f_size; lia|exact PR]).
  rewrite getitem_slice_plain by auto. cbv zeta. change (bsize (BV _ _)) with (f_size f). cbn [bval bkind bcls ck].
  replace (f_mb f <? 0) with false by lia. change (-1 <? 0) with true. cbv iota.
  replace (Z.max 0 (Z.min (f_size f) (f_mb f))) with (f_mb f) by (unfold f_size; lia).
  replace (Z.max 0 (Z.min (f_size f) (-1 + f_size f))) with (f_size f - 1) by (unfold f_size; lia).
  replace (Z.max 0 (f_size f - 1 - f_mb f)) with (f_eb f) by (unfold f_size; lia). cbn [bind].
  fold (pat_exp f (pat f v)).
  assert (RE : 0 <= pat_exp f (pat f v) < 2 ^ f_eb f) by (apply Z.mod_pos_bound; lia).
  rewrite (bveq_spec _ (VInt 0) (0 mod 2 ^ f_eb f)).
  2:{ split; cbn [bcls csize bval]; lia. }
  2:{ apply Op_conv; [congruence|constructor]. }
  rewrite Z.mod_0_l by lia. cbn [bind bval].
  destruct (pat_of f v O W) as (_ & _ & F). unfold fp_is_zero. cbn [fv_val].
  destruct v as [s|s|s|s m E]; cbn [is_zero negb]; unfold all_ones in *.
  - destruct F as [-> _]. replace (_ =? 0) with false by lia. reflexivity.
  - destruct F as [-> _]. replace (_ =? 0) with false by lia. reflexivity.
  - rewrite andb_false_r. reflexivity.
  - destruct (Z.ltb_spec E (top f)) as [L|L].
    + destruct F as (-> & _ & _ & -> & _). reflexivity.
    + destruct F as (-> & _ & F). replace (_ =? 0) with false by lia. reflexivity.
Qed.

(** ** Values *)
Lemma value_pat f v : okf f -> wfv f v -> is_nan v = false -> is_infinite v = false ->
  representable f (pat f v) /\ exists q, mpfr_value (f_mb f + 1) v = Some q /\ (q == pat_value f (pat f v))%Q.
Proof.
  intros O W NN NI. destruct (pat_of f v O W) as (P & S & F). pose proof (emax_pos f O) as [E1 E2].
  pose proof O as [O1 O2]. pose proof (pow2_pos (f_mb f) ltac:(lia)) as PM.
  unfold representable, pat_finite, pat_subnormal.
  destruct v as [s|s|s|s m E]; try discriminate.
  - destruct F as [F1 F2]. unfold pat_value. rewrite F1, F2. unfold all_ones.
    split; [split; [split; [exact P|lia]|intros _ [_ X]; lia]|].
    exists 0%Q. split; [reflexivity|]. cbn [Z.eqb]. unfold sgnq. destruct (pat_sign _ _); rewrite Qmult_0_l; reflexivity.
  - cbn [is_signed] in S. destruct (Z.ltb_spec E (top f)) as [L|L].
    + destruct F as (F1 & F2 & F3 & F4 & F5). unfold pat_value. rewrite F1, F2, S. unfold all_ones.
      split; [split; [split; [exact P|lia]|congruence]|].
      eexists. split; [reflexivity|]. cbn [Z.eqb].
      unfold wfv in W. rewrite fctx_eq in W by exact O. cbn [wfm c_prec c_emin c_emax] in W. destruct W as (W1 & W2 & W3).
      specialize (W3 L). set (j := top f - E) in *. pose proof (pow2_pos j ltac:(unfold j; lia)) as PJ.
      assert (M : m = m / 2 ^ j * 2 ^ j) by (pose proof (Z.div_mod m (2 ^ j) ltac:(lia)); lia).
      assert (Q : (inject_Z m * pow2 (E - (f_mb f + 1)) == inject_Z (m / 2 ^ j) * pow2 (1 - bias f - f_mb f))%Q).
      { rewrite M at 1. rewrite inject_Z_mult, <- pow2q_int by (unfold j; lia). rewrite <- Qmult_assoc, <- pow2q_add.
        replace (j + (E - (f_mb f + 1))) with (1 - bias f - f_mb f) by (unfold j, bias, top; lia). reflexivity. }
      unfold sgnq. destruct s; rewrite Q; reflexivity.
    + destruct F as (F1 & F2 & F3). unfold pat_value. rewrite F1, F2, S. 
      split; [split; [split; [exact P|lia]|intros _ [X _]; lia]|].
      eexists. split; [reflexivity|]. replace (E - top f + 1 =? 0) with false by lia.
      replace (2 ^ f_mb f + (m - 2 ^ f_mb f)) with m by lia.
      replace (E - top f + 1 - bias f - f_mb f) with (E - (f_mb f + 1)) by (unfold bias, top; lia). reflexivity.
Qed.

(** The specification leaves a representable value alone. *)
Lemma rep_below f b : wide f -> representable f b -> (Qabs (pat_value f b) < overflow_threshold f)%Q.
Proof.
  intros Wf R. pose proof (wide_okf f Wf) as O. destruct (rep_inv f b O R) as (s & k & -> & [RK _] & ->).
  pose proof (pow2q_pos (1 - bias f - f_mb f)) as UP. fold (unit f) in UP.
  rewrite val_abs by exact UP. rewrite W_abs by (auto; lia). rewrite threshold_W by exact Wf. rewrite conv_gt by (auto; lia).
  pose proof O as [O1 O2]. pose proof (IM_range f O). pose proof (V_le (f_mb f) O2 k (IM f - 1) ltac:(lia)).
  pose proof (V_lt (f_mb f) O2 (IM f - 1) (IM f) ltac:(lia)). lia.
Qed.

Lemma rounded_exact f x b b0 : wide f -> representable f b0 -> (x == pat_value f b0)%Q -> rounded f x b ->
  representable f b /\ (pat_value f b == x)%Q.
Proof.
  intros Wf R0 X. pose proof (rep_below f b0 Wf R0) as TB. rewrite <- X in TB. unfold rounded.
  assert (NEAR : nearest f x b -> representable f b /\ (pat_value f b == x)%Q).
  { intros (R & _ & H). split; [exact R|]. specialize (H b0 R0). setoid_replace (x - pat_value f b0)%Q with 0%Q in H by (rewrite X; ring).
    assert (Z0 : (Qabs (x - pat_value f b) == 0)%Q) by (apply Qle_antisym; [exact H|apply Qabs_nonneg]).
    assert (Z1 : (x - pat_value f b == 0)%Q).
    { revert Z0. apply Qabs_case; intros _ Z0; [exact Z0|]. rewrite <- (Qopp_involutive (x - _)), Z0. reflexivity. }
    rewrite <- (Qplus_0_r (pat_value f b)), <- Z1. ring. }
  assert (NOV : ~ overflows f x b) by (intros [H _]; apply (Qlt_not_le _ _ TB H)).
  assert (SAME : (pat_value f b * x >= 0)%Q -> (Qabs (pat_value f b) == Qabs x)%Q -> (pat_value f b == x)%Q).
  { intros SG AE. revert AE. apply Qabs_case; intros A; apply Qabs_case; intros B E.
    - exact E.
    - destruct (Qeq_dec x 0) as [X0|X0]; [rewrite X0 in *; rewrite E; reflexivity|].
      exfalso. assert (XN : (0 < - x)%Q).
      { apply Qnot_le_lt. intros Y. apply X0. apply Qle_antisym; [exact B|]. apply Qopp_le_compat in Y. rewrite Qopp_involutive in Y. exact Y. }
      rewrite E in SG. assert (Y : (0 < - x * - x)%Q) by (apply Qmult_lt_0_compat; exact XN).
      assert (Y2 : (- x * x == - (- x * - x))%Q) by ring. rewrite Y2 in SG.
      apply Qopp_le_compat in SG. rewrite Qopp_involutive in SG. apply (Qlt_not_le _ _ Y). exact SG.
    - destruct (Qeq_dec x 0) as [X0|X0]; [rewrite X0 in *; rewrite <- (Qopp_involutive (pat_value f b)), E; reflexivity|].
      exfalso. assert (XP : (0 < x)%Q) by (apply Qnot_le_lt; intros Y; apply X0; now apply Qle_antisym).
      assert (PV : (pat_value f b == - x)%Q) by (rewrite <- E; ring). rewrite PV in SG.
      assert (Y : (0 < x * x)%Q) by (apply Qmult_lt_0_compat; exact XP).
      assert (Y2 : (- x * x == - (x * x))%Q) by ring. rewrite Y2 in SG.
      apply Qopp_le_compat in SG. rewrite Qopp_involutive in SG. apply (Qlt_not_le _ _ Y). exact SG.
    - rewrite <- (Qopp_involutive (pat_value f b)), E. ring. }
  assert (SGN : (pat_sign f b = true <-> (x < 0)%Q) -> (pat_value f b * x >= 0)%Q).
  { intros H. unfold pat_value. set (mm := if pat_exp f b =? 0 then _ else _).
    assert (MM : (0 <= mm)%Q).
    { unfold mm. assert (PB : 0 <= pat_man f b) by (unfold pat_man; apply Z.mod_pos_bound; pose proof (pow2_pos (f_mb f)); destruct Wf; lia).
      pose proof (pow2_pos (f_mb f) ltac:(destruct Wf; lia)).
      destruct (_ =? 0); apply Qmult_le_0_compat; try (apply Qlt_le_weak, pow2q_pos);
        change 0%Q with (inject_Z 0); rewrite <- Zle_Qle; lia. }
    destruct (pat_sign f b); cbn [sgnq].
    - assert (XN : (x < 0)%Q) by (apply H; reflexivity). setoid_replace (- mm * x)%Q with (mm * - x)%Q by ring.
      apply Qmult_le_0_compat; [exact MM|]. apply Qlt_le_weak in XN. apply Qopp_le_compat in XN. exact XN.
    - assert (XP : (0 <= x)%Q) by (apply Qnot_lt_le; intros Y; apply H in Y; discriminate).
      apply Qmult_le_0_compat; assumption. }
  destruct (f_mode f); intros (P & S & H).
  - destruct H as [[H _]|H]; [now apply NEAR|contradiction].
  - destruct H as [(R & A & H)|[_ H]].
    + split; [exact R|]. apply SAME; [now apply SGN|]. apply Qle_antisym; [|exact A].
      specialize (H b0 R0). rewrite <- X in H. apply H. apply Qle_refl.
    + exfalso. specialize (H b0 R0). rewrite <- X in H. now apply Qlt_irrefl in H.
  - destruct H as [(R & A & H)|(_ & _ & H)].
    + split; [exact R|]. apply Qle_antisym; [|exact A]. specialize (H b0 R0). rewrite <- X in H. apply H. apply Qle_refl.
    + exfalso. specialize (H b0 R0). rewrite <- X in H. now apply Qlt_irrefl in H.
  - destruct H as [(R & A & H)|(_ & _ & H)].
    + split; [exact R|]. apply Qle_antisym; [exact A|]. specialize (H b0 R0). rewrite <- X in H. apply H. apply Qle_refl.
    + exfalso. specialize (H b0 R0). rewrite <- X in H. now apply Qlt_irrefl in H.
  - destruct H as (R & A & H). split; [exact R|]. apply SAME; [now apply SGN|]. apply Qle_antisym; [exact A|].
    specialize (H b0 R0). rewrite <- X in H. apply H. apply Qle_refl.
Qed.
