(** Remainder, rounding to an integer, minimum and maximum. *)
From Coq Require Import Lia ZArith QArith Qpower Qabs ZifyBool.
From Verif Require Import PyBase BVModel BVSpec BVFacts BVOps FPModel FPSpec FPRoundFacts FPPatFacts FPEncFacts FPDecFacts FPBracket FPQFacts FPRoundSpec FPInst FPArith.
Open Scope Z_scope.

Lemma init_fnum f x : okf f -> good f x -> fp_init f (fnum x) = x.
Proof.
  intros O (F & W & N). unfold fp_init, fnum. rewrite F, round_mnum by assumption. unfold fp_store.
  destruct (is_nan (fv_val x)) eqn:E; cbn [andb].
  - destruct (f_ieee f) eqn:IE; [|specialize (N eq_refl); congruence]. cbn [negb]. destruct x; cbn in *; now subst.
  - destruct x; cbn in *; now subst.
Qed.

Lemma round_int_nearest N D : 0 < D ->
  let t := round_int RoundToNearest false N D in
  2 * Z.abs (N - t * D) <= D /\ (2 * Z.abs (N - t * D) = D -> Z.even t = true).
Proof.
  intros HD t. unfold t, round_int, incr. pose proof (Z.div_mod N D ltac:(lia)) as DM. pose proof (Z.mod_pos_bound N D HD) as MB.
  set (q := N / D) in *. set (r := N mod D) in *.
  destruct (Z.ltb_spec D (2 * r)) as [L|L]; cbn [orb b2z].
  - split; lia.
  - destruct (Z.eqb_spec D (2 * r)) as [E|E]; cbn [andb].
    + destruct (Z.odd q) eqn:OQ; cbn [b2z]; (split; [lia|]); intros _.
      * rewrite Z.add_1_r, Z.even_succ. exact OQ.
      * rewrite Z.add_0_r, <- Z.negb_odd, OQ. reflexivity.
    + cbn [b2z]. split; lia.
Qed.
Lemma round_int_directed g s N D : 0 < D -> g <> RoundToNearest ->
  let t := round_int g s N D in
  Z.abs (N - t * D) < D /\ if toward_zero g s then t * D <= N else N <= t * D.
Proof.
  intros HD HG t. unfold t, round_int, incr. pose proof (Z.div_mod N D ltac:(lia)) as DM. pose proof (Z.mod_pos_bound N D HD) as MB.
  set (q := N / D) in *. set (r := N mod D) in *.
  destruct g; [congruence|..]; destruct (toward_zero _ s); cbn [negb]; rewrite ?andb_false_r, ?andb_true_r;
    destruct (Z.eqb_spec r 0); cbn [negb b2z]; split; lia.
Qed.

Lemma abs_half_le q : (Qabs q <= 1 # 2)%Q <-> (2 * Qabs q <= 1)%Q.
Proof.
  split; intros H.
  - setoid_replace 1%Q with (2 * (1 # 2))%Q by reflexivity. rewrite Qmult_comm, (Qmult_comm 2). apply Qmult_le_compat_r; [exact H|discriminate].
  - apply (Qmult_le_r _ _ 2); [reflexivity|]. setoid_replace ((1 # 2) * 2)%Q with 1%Q by reflexivity. rewrite Qmult_comm. exact H.
Qed.

(** Facts about inject_Z a / inject_Z D. *)
Lemma frac_abs a D : 0 < D -> (Qabs (inject_Z a / inject_Z D) == inject_Z (Z.abs a) / inject_Z D)%Q.
Proof. intros H. pose proof (conv_abs 1 a D ltac:(reflexivity) H) as E. rewrite !Qmult_1_r in E. exact E. Qed.
Lemma frac_le a b D : 0 < D -> (inject_Z a / inject_Z D <= inject_Z b / inject_Z D)%Q <-> a <= b.
Proof. intros H. pose proof (conv_le2 1 D ltac:(reflexivity) H a b) as E. rewrite !Qmult_1_r in E. exact E. Qed.
Lemma frac_lt a b D : 0 < D -> (inject_Z a / inject_Z D < inject_Z b / inject_Z D)%Q <-> a < b.
Proof.
  intros H. split; intros X.
  - apply Z.nle_gt. intros Y. apply (frac_le _ _ D H) in Y. revert Y. now apply Qlt_not_le.
  - apply Qnot_le_lt. intros Y. apply frac_le in Y; lia.
Qed.
Lemma frac_int k D : 0 < D -> (inject_Z k == inject_Z (k * D) / inject_Z D)%Q.
Proof. intros H. rewrite inject_Z_mult. field. now apply inj_nz. Qed.
Lemma frac_sub a b D : 0 < D -> (inject_Z a / inject_Z D - inject_Z b / inject_Z D == inject_Z (a - b) / inject_Z D)%Q.
Proof. intros H. rewrite inj_sub. field. now apply inj_nz. Qed.
Lemma frac_eq a b D : 0 < D -> (inject_Z a / inject_Z D == inject_Z b / inject_Z D)%Q <-> a = b.
Proof. intros H. pose proof (conv_eq2 1 D ltac:(reflexivity) H a b) as E. rewrite !Qmult_1_r in E. exact E. Qed.
Lemma frac_scale a D k : 0 < D -> 0 < k -> (inject_Z a / inject_Z D == inject_Z (a * k) / inject_Z (D * k))%Q.
Proof. intros H H'. rewrite !inject_Z_mult. field. split; now apply inj_nz. Qed.

Lemma even_sgnz s k : Z.even (sgnz s k) = Z.even k.
Proof. destruct s; [apply Z.even_opp|reflexivity]. Qed.

Lemma rint_spec r x q : nval x q ->
  exists k, nval (num_rint (mode_2_gmpy2 r) x) (inject_Z k) /\ integral r q k.
Proof.
  intros [s q0 H|s n d q0 Hn Hd H]; cbn [num_rint].
  - exists 0. split; [constructor; reflexivity|].
    assert (E : (q0 - inject_Z 0 == 0)%Q) by (rewrite H; reflexivity).
    unfold integral. destruct r; rewrite E, ?H; split; try reflexivity; try (intros X; discriminate X); discriminate.
  - rewrite ratq_z in H by exact Hd. set (g := mode_2_gmpy2 r). set (t := round_int g s n d).
    exists (sgnz s t). pose proof (Z.div_pos n d ltac:(lia) Hd) as QP.
    assert (T0 : 0 <= t) by (unfold t, round_int; destruct (incr _ _ _ _ _); cbn [b2z]; lia).
    split.
    { destruct (Z.eqb_spec t 0) as [T|T].
      - constructor. rewrite T. destruct s; reflexivity.
      - constructor; [lia|lia|]. rewrite ratq_z by lia. field. }
    assert (DI : (q0 - inject_Z (sgnz s t) == inject_Z (sgnz s n - sgnz s t * d) / inject_Z d)%Q).
    { rewrite H, (frac_int (sgnz s t) d Hd), frac_sub by exact Hd. reflexivity. }
    assert (AB : Z.abs (sgnz s n - sgnz s t * d) = Z.abs (n - t * d)) by (destruct s; cbn [sgnz]; lia).
    assert (DA : (Qabs (q0 - inject_Z (sgnz s t)) == inject_Z (Z.abs (n - t * d)) / inject_Z d)%Q).
    { rewrite DI, frac_abs, AB by exact Hd. reflexivity. }
    assert (D1 : Z.abs (n - t * d) < d -> (Qabs (q0 - inject_Z (sgnz s t)) < 1)%Q).
    { intros L. rewrite DA. setoid_replace 1%Q with (inject_Z d / inject_Z d)%Q by (field; now apply inj_nz). now apply frac_lt. }
    assert (AQ : (Qabs q0 == inject_Z n / inject_Z d)%Q).
    { rewrite H, frac_abs by exact Hd. replace (Z.abs (sgnz s n)) with n by (destruct s; cbn [sgnz]; lia). reflexivity. }
    assert (AK : (Qabs (inject_Z (sgnz s t)) == inject_Z (t * d) / inject_Z d)%Q).
    { rewrite (frac_int (sgnz s t) d Hd), frac_abs by exact Hd.
      replace (Z.abs (sgnz s t * d)) with (t * d) by (destruct s; cbn [sgnz]; nia). reflexivity. }
    unfold integral. destruct r.
    + assert (TE : t = round_int RoundToNearest false n d) by reflexivity.
      destruct (round_int_nearest n d Hd) as [N1 N2]. rewrite <- TE in *. rewrite even_sgnz.
      assert (HF : (1 # 2 == inject_Z d / inject_Z (d * 2))%Q) by (rewrite inject_Z_mult; field; now apply inj_nz).
      rewrite DA, (frac_scale _ d 2), HF by lia. rewrite frac_le, frac_eq by lia. split; [lia|]. intros X. apply N2. lia.
    + destruct (round_int_directed RoundAwayZero s n d Hd ltac:(discriminate)) as [N1 N2]. split; [|now apply D1].
      rewrite AQ, AK. apply frac_le; [exact Hd|]. exact N2.
    + destruct (round_int_directed RoundUp s n d Hd ltac:(discriminate)) as [N1 N2]. split; [|now apply D1].
      rewrite H, (frac_int (sgnz s t) d Hd). apply frac_le; [exact Hd|]. cbn [toward_zero] in N2. fold t in N2. destruct s; cbn [sgnz]; unfold t, g, mode_2_gmpy2; lia.
    + destruct (round_int_directed RoundDown s n d Hd ltac:(discriminate)) as [N1 N2]. split; [|now apply D1].
      rewrite H, (frac_int (sgnz s t) d Hd). apply frac_le; [exact Hd|]. cbn [toward_zero] in N2. destruct s; cbn [sgnz negb] in *; unfold t, g, mode_2_gmpy2; lia.
    + destruct (round_int_directed RoundToZero s n d Hd ltac:(discriminate)) as [N1 N2]. split; [|now apply D1].
      rewrite AQ, AK. apply frac_le; [exact Hd|]. exact N2.
Qed.

Lemma rem_spec x y a b : nval x a -> nval y b -> ~ (b == 0)%Q ->
  exists k, nval (num_rem x y) (a - inject_Z k * b)%Q /\
    (2 * Qabs (a - inject_Z k * b) <= Qabs b)%Q /\
    ((2 * Qabs (a - inject_Z k * b) == Qabs b)%Q -> Z.even k = true).
Proof.
  intros [s q H|s n d q Hn Hd H] [s' q' H'|s' n' d' q' Hn' Hd' H'] NZ; cbn [num_rem]; try contradiction.
  - exists 0. assert (E : (q - inject_Z 0 * q' == 0)%Q) by (rewrite H; ring). split; [constructor; exact E|].
    rewrite E. split; [apply Qabs_nonneg|reflexivity].
  - rewrite ratq_z in H, H' by assumption.
    set (k0 := round_int RoundToNearest false (n * d') (d * n')). set (r := n * d' - k0 * (d * n')).
    destruct (round_int_nearest (n * d') (d * n') ltac:(nia)) as [N1 N2]. fold k0 in N1, N2. fold r in N1, N2.
    exists (sgnz (xorb s s') k0).
    assert (E : (q - inject_Z (sgnz (xorb s s') k0) * q' == inject_Z (sgnz s r) / inject_Z (d * d'))%Q).
    { rewrite H, H'. unfold r.
      replace (sgnz s (n * d' - k0 * (d * n'))) with (sgnz s n * d' - sgnz (xorb s s') k0 * sgnz s' n' * d) by (destruct s, s'; cbn [xorb sgnz]; ring).
      rewrite inj_sub, !inject_Z_mult. field. split; now apply inj_nz. }
    assert (QB : (Qabs q' == inject_Z (d * n') / inject_Z (d * d'))%Q).
    { rewrite H', frac_abs by exact Hd'. replace (Z.abs (sgnz s' n')) with n' by (destruct s'; cbn [sgnz]; lia).
      rewrite !inject_Z_mult. field. split; now apply inj_nz. }
    assert (QA : (2 * Qabs (q - inject_Z (sgnz (xorb s s') k0) * q') == inject_Z (2 * Z.abs r) / inject_Z (d * d'))%Q).
    { rewrite E, frac_abs by nia. replace (Z.abs (sgnz s r)) with (Z.abs r) by (destruct s; cbn [sgnz]; lia).
      rewrite (inject_Z_mult 2). field. apply inj_nz. nia. }
    split; [|split].
    + destruct (Z.eqb_spec r 0) as [R|R].
      * constructor. rewrite E, R. destruct s; reflexivity.
      * constructor; [lia|nia|]. rewrite E, ratq_z by nia.
        replace (sgnz (xorb s (r <? 0)) (Z.abs r)) with (sgnz s r); [reflexivity|].
        destruct (Z.ltb_spec r 0); destruct s; cbn [xorb sgnz]; lia.
    + rewrite QA, QB. apply frac_le; [nia|lia].
    + rewrite QA, QB. rewrite frac_eq by nia. rewrite even_sgnz. intros X. apply N2. lia.
Qed.

Lemma min_spec x y a b : nval x a -> nval y b ->
  (num_min x y = x /\ (a <= b)%Q) \/ (num_min x y = y /\ (b <= a)%Q).
Proof.
  intros HX HY. pose proof (nval_cmp x y a b HX HY) as C.
  assert (D : (if cmp_le (num_cmp x y) then (a <= b)%Q else (b <= a)%Q)).
  { rewrite C. destruct (Qcompare a b) eqn:E; cbn [cmp_le].
    - apply Qeq_alt in E. rewrite E. apply Qle_refl.
    - apply Qlt_alt in E. apply Qlt_le_weak, E.
    - apply Qgt_alt in E. apply Qlt_le_weak, E. }
  destruct HX as [s q H|s n d q Hn Hd H], HY as [s' q' H'|s' n' d' q' Hn' Hd' H']; cbn [num_min].
  - destruct s; [left|right]; (split; [reflexivity|rewrite H, H'; apply Qle_refl]).
  - destruct (cmp_le _); auto.
  - destruct (cmp_le _); auto.
  - destruct (cmp_le _); auto.
Qed.
Lemma max_spec x y a b : nval x a -> nval y b ->
  (num_max x y = x /\ (b <= a)%Q) \/ (num_max x y = y /\ (a <= b)%Q).
Proof.
  intros HX HY. pose proof (nval_cmp x y a b HX HY) as C.
  assert (D : (if cmp_le (num_cmp x y) then (a <= b)%Q else (b <= a)%Q)).
  { rewrite C. destruct (Qcompare a b) eqn:E; cbn [cmp_le].
    - apply Qeq_alt in E. rewrite E. apply Qle_refl.
    - apply Qlt_alt in E. apply Qlt_le_weak, E.
    - apply Qgt_alt in E. apply Qlt_le_weak, E. }
  destruct HX as [s q H|s n d q Hn Hd H], HY as [s' q' H'|s' n' d' q' Hn' Hd' H']; cbn [num_max].
  - destruct s; [right|left]; (split; [reflexivity|rewrite H, H'; apply Qle_refl]).
  - destruct (cmp_le _); auto.
  - destruct (cmp_le _); auto.
  - destruct (cmp_le _); auto.
Qed.
