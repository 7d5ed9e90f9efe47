(** Computing in a wider type and rounding the result back. *)
From Coq Require Import Lia ZArith QArith Qpower Qabs ZifyBool Lqa.
From Verif Require Import PyBase BVModel BVSpec BVFacts BVOps FPModel FPSpec FPRoundFacts FPPatFacts FPEncFacts FPDecFacts FPBracket FPQFacts FPRoundSpec FPInst FPArith FPMore FPProofs FPAlgFacts FPAlgProofs FPExFacts FPExProofs FPErrFacts FPErrProofs FloatSpec FloatProofs.
Open Scope Z_scope.

(** ** Rounding depends on the number, not on the fraction it is given as *)
Lemma scaled_mul n d k e N D : scaled n d e = (N, D) -> scaled (n * k) (d * k) e = (N * k, D * k).
Proof. unfold scaled. destruct (0 <=? e); intros H; injection H as <- <-; f_equal; ring. Qed.
Lemma mag_mul n d k : 0 < n -> 0 < d -> 0 < k -> mag (n * k) (d * k) = mag n d.
Proof.
  intros Hn Hd Hk. destruct (scaled n d (mag n d - 1)) as [N D] eqn:E. pose proof (mag_spec n d 1 N D Hn Hd ltac:(lia) E) as B.
  rewrite (mag_unique (n * k) (d * k) (mag n d - 1) 1 (N * k) (D * k)); [lia| | |lia|now apply scaled_mul|]; [apply Z.mul_pos_pos; lia|apply Z.mul_pos_pos; lia|].
  change (2 ^ (1 - 1)) with 1 in *. change (2 ^ 1) with 2 in *. destruct B as [B1 B2]. split.
  - rewrite Z.mul_assoc. apply Z.mul_le_mono_nonneg_r; lia.
  - rewrite Z.mul_assoc. apply Z.mul_lt_mono_pos_r; lia.
Qed.
Lemma round_int_mul g s N D k : 0 < D -> 0 < k -> round_int g s (N * k) (D * k) = round_int g s N D.
Proof.
  intros HD Hk. unfold round_int. rewrite Z.div_mul_cancel_r, Zmult_mod_distr_r by lia. f_equal. f_equal. unfold incr.
  assert (E0 : (N mod D * k =? 0) = (N mod D =? 0)). { pose proof (Z.mod_pos_bound N D HD). destruct (Z.eqb_spec (N mod D) 0) as [->|H0]; [reflexivity|]. apply Z.eqb_neq. apply Z.neq_mul_0. lia. }
  assert (E1 : (D * k <? 2 * (N mod D * k)) = (D <? 2 * (N mod D))).
  { replace (2 * (N mod D * k)) with (2 * (N mod D) * k) by ring. destruct (Z.ltb_spec D (2 * (N mod D))) as [L|L]; [apply Z.ltb_lt, Z.mul_lt_mono_pos_r; lia|apply Z.ltb_ge, Z.mul_le_mono_nonneg_r; lia]. }
  assert (E2 : (D * k =? 2 * (N mod D * k)) = (D =? 2 * (N mod D))).
  { replace (2 * (N mod D * k)) with (2 * (N mod D) * k) by ring. destruct (Z.eqb_spec D (2 * (N mod D))) as [<-|L]; [apply Z.eqb_refl|apply Z.eqb_neq; intros X; apply Z.mul_reg_r in X; lia]. }
  rewrite E0, E1, E2. reflexivity.
Qed.
Lemma round_mul c s n d k : 0 < n -> 0 < d -> 0 < k -> mpfr_round c (NRat s (n * k) (d * k)) = mpfr_round c (NRat s n d).
Proof.
  intros Hn Hd Hk. cbn [mpfr_round]. unfold rnd_set. rewrite mag_mul by assumption. destruct (scaled n d (mag n d - c_prec c)) as [N D] eqn:E.
  pose proof (scaled_pos _ _ _ _ _ Hn Hd E) as [PN PD]. rewrite (scaled_mul n d k _ N D E), round_int_mul by assumption.
  destruct (renorm _ _ _) as [m E']. replace (round_int (c_rnd c) s N D * (D * k) - N * k) with ((round_int (c_rnd c) s N D * D - N) * k) by ring.
  rewrite Z.sgn_mul, (Z.sgn_pos k), Z.mul_1_r by lia. reflexivity.
Qed.
Lemma init_value f r r' q : nval r q -> nval r' q -> ~ (q == 0)%Q -> fp_init f r = fp_init f r'.
Proof.
  intros X X' NZ. destruct X as [s q H|s n d q Hn Hd H]; [now destruct NZ|]. inversion X' as [s' q' H' E1 E2|s' n' d' q' Hn' Hd' H' E1 E2]; subst; [now destruct NZ|].
  unfold fp_init. f_equal. clear X'.
  assert (E : (ratq s n d == ratq s' n' d')%Q) by (rewrite <- H; exact H'). clear H H' NZ.
  assert (P : forall m e, 0 < m -> 0 < e -> (0 < inject_Z m / inject_Z e)%Q).
  { intros m e Hm He. apply Qlt_shift_div_l; [now apply inj_pos|]. rewrite Qmult_0_l. now apply inj_pos. }
  pose proof (P n d Hn Hd) as P1. pose proof (P n' d' Hn' Hd') as P2. unfold ratq, sgnq in E.
  assert (S : s = s') by (destruct s, s'; auto; exfalso; lra). subst s'.
  assert (F : (inject_Z n / inject_Z d == inject_Z n' / inject_Z d')%Q) by (destruct s; lra).
  assert (Y : n * d' = n' * d).
  { apply inject_Z_injective. rewrite !inject_Z_mult. pose proof (inj_nz d Hd) as D1. pose proof (inj_nz d' Hd') as D2.
    transitivity (inject_Z n / inject_Z d * (inject_Z d * inject_Z d'))%Q; [field; exact D1|]. rewrite F. field. exact D2. }
  rewrite <- (round_mul _ s n d d') by assumption. rewrite Y, (Z.mul_comm d d'). apply round_mul; assumption.
Qed.

(** ** The sign of a result *)
Lemma correct_signed f q z : wide f -> good f z -> correct f q z -> ~ (q == 0)%Q -> (is_signed (fv_val z) = true <-> (q < 0)%Q).
Proof.
  intros W G (c & A & _ & C1) NZ. specialize (C1 NZ). pose proof (wide_okf f W) as O. pose proof G as (F & V & _).
  destruct z as [fz vz]. cbn [fv_fmt fv_val] in *. subst fz. pose proof (as_bv_spec f vz O V) as B. rewrite B in A. injection A as <-.
  destruct (pat_of f vz O V) as (_ & PS & _). rewrite <- PS. unfold rounded in C1. destruct (f_mode f); destruct C1 as (_ & S & _); exact S.
Qed.
Lemma init_special f s : fp_init f (NInf s) = FPV f (MInf s) /\ fp_init f (NZero s) = FPV f (MZero s).
Proof. split; reflexivity. Qed.
Lemma nval_exists q : exists n, nval n q.
Proof.
  destruct (Qeq_dec q 0) as [Z|NZ]; [exists (NZero false); now constructor|].
  destruct q as [n d]. exists (NRat (n <? 0) (Z.abs n) (Z.pos d)). assert (NN : n <> 0) by (intros ->; apply NZ; reflexivity).
  constructor; [lia|lia|]. unfold ratq, sgnq. rewrite (Qmake_Qdiv n d). destruct (Z.ltb_spec n 0) as [L|L].
  - rewrite Z.abs_neq, inject_Z_opp by lia. field. apply inj_nz. lia.
  - rewrite Z.abs_eq by lia. reflexivity.
Qed.
Lemma repv_instance f q : wide f -> repv f q -> exists x, instance f x /\ fvalue x q.
Proof.
  intros W R. destruct (nval_exists q) as [n N]. exists (fp_init f n). assert (I : instance f (fp_init f n)) by (apply I_init; exact (nval_ok n q N)).
  split; [exact I|]. apply (exact_rep f q); auto. now apply init_correct.
Qed.
Lemma repv_fits f g q : wide f -> wide g -> fits f g -> repv f q -> repv g q.
Proof.
  intros W W' F R. destruct (repv_instance f q W R) as (x & I & V). destruct (widen_good f g x W W' F (inst_good f x W I)) as (_ & _ & C & _).
  specialize (C q V). apply (value_repv g _ q (wide_okf g W')) in C; [exact C|]. apply inst_good; [exact W'|]. apply I_init.
  apply (nval_ok _ q), (fnum_val f); auto using wide_okf, inst_good.
Qed.

(** ** Two roundings in one direction *)
Lemma ext_anti a b : ext_le a b -> ext_le b a -> ext_eq a b.
Proof. unfold ext_le. destruct a as [[|]|p], b as [[|]|q]; cbn [ext_lt ext_eq]; intros [H|H] [H'|H']; try contradiction; try discriminate; try reflexivity; try lra. Qed.
Definition up (q : Q) (e : ext) : Prop := match e with XFin v => (q <= v)%Q | XInf s => s = false end.
Definition down (q : Q) (e : ext) : Prop := match e with XFin v => (v <= q)%Q | XInf s => s = true end.
Lemma rx_dir f q e : rx f q e ->
  match f_mode f with
  | RNE => True
  | RTP => up q e
  | RTN => down q e
  | RTZ => ((0 <= q)%Q -> down q e) /\ ((q <= 0)%Q -> up q e)
  | RNA => ((0 <= q)%Q -> up q e) /\ ((q <= 0)%Q -> down q e)
  end.
Proof.
  unfold up, down. destruct e as [s|v]; cbn [rx]; destruct (f_mode f); intros H; try tauto; repeat split; intros; try (now destruct H as (_ & _ & []));
    try (destruct H as [H _]; destruct s; [|reflexivity]; lra); try (destruct H as [H _]; destruct s; [reflexivity|]; lra);
    try (destruct H as (_ & H1 & H2); try (now apply H1); try (now apply H2)).
Qed.
Lemma compose_up f q c e1 e3 : wide f -> (q <= c)%Q -> rx f q e1 -> rx f c e3 -> (forall r, repv f r -> (q <= r)%Q -> (c <= r)%Q) ->
  up q e1 -> up c e3 -> ext_eq e1 e3.
Proof.
  intros W L X1 X3 LEAST U1 U3. apply ext_anti.
  - destruct e3 as [s|v]; cbn [up] in U3.
    + subst s. unfold ext_le. destruct e1 as [[|]|p]; cbn [ext_lt ext_eq]; auto.
    + assert (R : repv f v) by (cbn [rx] in X3; tauto). apply (rx_above f q e1 v W X1 R). lra.
  - destruct e1 as [s|v]; cbn [up] in U1.
    + subst s. unfold ext_le. destruct e3 as [[|]|p]; cbn [ext_lt ext_eq]; auto.
    + assert (R : repv f v) by (cbn [rx] in X1; tauto). apply (rx_above f c e3 v W X3 R). now apply LEAST.
Qed.
Lemma compose_down f q c e1 e3 : wide f -> (c <= q)%Q -> rx f q e1 -> rx f c e3 -> (forall r, repv f r -> (r <= q)%Q -> (r <= c)%Q) ->
  down q e1 -> down c e3 -> ext_eq e1 e3.
Proof.
  intros W L X1 X3 LEAST U1 U3. apply ext_anti.
  - destruct e1 as [s|v]; cbn [down] in U1.
    + subst s. unfold ext_le. destruct e3 as [[|]|p]; cbn [ext_lt ext_eq]; auto.
    + assert (R : repv f v) by (cbn [rx] in X1; tauto). apply (rx_below f c e3 v W X3 R). now apply LEAST.
  - destruct e3 as [s|v]; cbn [down] in U3.
    + subst s. unfold ext_le. destruct e1 as [[|]|p]; cbn [ext_lt ext_eq]; auto.
    + assert (R : repv f v) by (cbn [rx] in X3; tauto). apply (rx_below f q e1 v W X1 R). lra.
Qed.
Lemma rx_compose f g q c e1 e3 : wide f -> f_mode g = f_mode f -> f_mode f <> RNE -> (forall r, repv f r -> repv g r) ->
  rx f q e1 -> rx g q (XFin c) -> rx f c e3 -> ext_eq e1 e3.
Proof.
  intros W M D SUB X1 X2 X3. pose proof (rx_dir f q e1 X1) as D1. pose proof (rx_dir f c e3 X3) as D3. cbn [rx] in X2. rewrite M in X2. destruct X2 as [RC X2].
  destruct (f_mode f) eqn:MF; [contradiction| | | |].
  - destruct X2 as [P N]. destruct (Qlt_le_dec q 0) as [L|L].
    + destruct N as [N1 N2]; [lra|]. apply (compose_down f q c); auto; [apply D1; lra|apply D3; lra].
    + destruct P as [P1 P2]; [lra|]. apply (compose_up f q c); auto; [apply D1; lra|apply D3; lra].
  - destruct X2 as [P1 P2]. apply (compose_up f q c); auto.
  - destruct X2 as [P1 P2]. apply (compose_down f q c); auto.
  - destruct X2 as [P N]. destruct (Qlt_le_dec q 0) as [L|L].
    + destruct N as (N0 & N1 & N2); [lra|]. apply (compose_up f q c); auto; [apply D1; lra|apply D3; lra].
    + destruct P as (P0 & P1 & P2); [lra|]. apply (compose_down f q c); auto; [apply D1; lra|apply D3; lra].
Qed.
Lemma rx_compose_inf f g q s e1 : f_mode g = f_mode f -> f_mode f <> RNE -> (forall r, repv f r -> repv g r) ->
  rx f q e1 -> rx g q (XInf s) -> e1 = XInf s.
Proof.
  intros M D SUB X1 X2. cbn [rx] in X2. rewrite M in X2. destruct X2 as (S & A & X2). assert (B : forall r, repv f r -> (Qabs r < Qabs q)%Q) by auto.
  destruct e1 as [s1|v]; cbn [rx] in X1.
  - destruct X1 as (S1 & _). f_equal. destruct s, s1; auto; lra.
  - exfalso. destruct X1 as [R X1]. specialize (B v R).
    assert (T : if s then (v <= q)%Q else (q <= v)%Q).
    { destruct (f_mode f); [contradiction| | | |contradiction]; [|subst s; tauto..]. destruct X1 as [P N]. destruct s; [apply N|apply P]; lra. }
    destruct s; qabs; lra.
Qed.

(** Converting never changes the sign. *)
Lemma conv_signed f g r : wide f -> wide g -> instance g r -> fp_is_NaN r = false -> is_signed (fv_val (fp_init f (fnum r))) = is_signed (fv_val r).
Proof.
  intros W W' I N. pose proof (inst_good g r W' I) as G. pose proof (wide_okf g W') as O.
  destruct r as [g' v] eqn:ER. destruct v as [s|s|s|s m E]; [discriminate|reflexivity|reflexivity|]. rewrite <- ER in *.
  assert (V : exists c, fvalue r c /\ ~ (c == 0)%Q).
  { destruct G as (F & WF & _). subst r. cbn [fv_fmt fv_val] in *. subst g'. eexists. split; [eexists; split; [reflexivity|reflexivity]|].
    unfold wfv in WF. rewrite fctx_eq in WF by exact O. cbn [wfm c_prec] in WF. destruct O as [O1 O2]. pose proof (pow2_pos (f_mb g + 1 - 1) ltac:(lia)) as P.
    pose proof (inj_pos m ltac:(lia)) as PM. pose proof (pow2q_pos (E - (f_mb g + 1))) as PE. pose proof (Qmult_lt_0_compat _ _ PM PE) as PP. cbn [fv_fmt].
    destruct s; cbn [sgnq]; lra. }
  destruct V as (c & V & NZ). pose proof (fnum_val g r c O G V) as NV.
  assert (I2 : instance f (fp_init f (fnum r))) by (apply I_init; exact (nval_ok _ _ NV)).
  pose proof (correct_signed f c _ W (inst_good f _ W I2) (init_correct f _ c W NV) NZ) as S1. pose proof (value_signed g r c O G V NZ) as S2.
  destruct (is_signed (fv_val (fp_init f (fnum r)))), (is_signed (fv_val r)); auto.
  - symmetry. apply S2, S1. reflexivity.
  - apply S1, S2. reflexivity.
Qed.
Lemma inf_shape f z s : instance f z -> wide f -> xvalue z (XInf s) -> z = FPV f (MInf s).
Proof.
  intros I W [X S]. pose proof (inst_good f z W I) as (F & _). destruct z as [f' v]. cbn [fv_fmt fv_val] in *. subst f'. unfold fp_is_infinite in X. cbn [fv_val] in *.
  destruct v; cbn [is_infinite is_signed] in *; try discriminate. now subst.
Qed.
Lemma fvalue_not_nan x q : fvalue x q -> fp_is_NaN x = false.
Proof. intros (v & H & _). unfold fp_is_NaN. now destruct (fv_val x). Qed.
Lemma zero_value f q z : wide f -> instance f z -> correct f q z -> (q == 0)%Q -> fvalue z 0.
Proof.
  intros W I C Z. apply (fvalue_wd z q); [exact Z|]. apply (exact_rep f q z W I); [|exact C]. apply (repv_wd f 0%Q); [now symmetry|]. apply repv_0, wide_okf, W.
Qed.
Lemma directed_back f g q z r : wide f -> wide g -> fits f g -> f_mode g = f_mode f -> f_mode f <> RNE ->
  instance f z -> instance g r -> correct f q z -> correct g q r ->
  let w := fp_init f (fnum r) in (~ (q == 0)%Q -> w = z) /\ ((q == 0)%Q -> fvalue w 0 /\ fvalue z 0).
Proof.
  intros W W' F M D Iz Ir CZ CR w. pose proof (inst_good f z W Iz) as Gz. pose proof (inst_good g r W' Ir) as Gr. pose proof (wide_okf g W') as O'. pose proof (wide_okf f W) as O.
  split.
  - intros NZ. destruct (correct_x f q z W Gz CZ) as (e1 & V1 & X1). destruct (correct_x g q r W' Gr CR) as (e2 & V2 & X2). destruct e2 as [s|c].
    + pose proof (rx_compose_inf f g q s e1 M D (fun r => repv_fits f g r W W' F) X1 X2) as ->. unfold w.
      rewrite (inf_shape f z s Iz W V1), (inf_shape g r s Ir W' V2). reflexivity.
    + cbn [xvalue] in V2. pose proof (fnum_val g r c O' Gr V2) as NV. pose proof (init_correct f _ c W NV) as CW. fold w in CW.
      assert (Iw : instance f w) by (apply I_init; exact (nval_ok _ _ NV)). pose proof (inst_good f w W Iw) as Gw.
      destruct (correct_x f c w W Gw CW) as (e3 & V3 & X3). pose proof (rx_compose f g q c e1 e3 W M D (fun r => repv_fits f g r W W' F) X1 X2 X3) as E.
      destruct e1 as [s1|v1], e3 as [s3|v3]; cbn [ext_eq] in E; try contradiction.
      * subst s3. now rewrite (inf_shape f z s1 Iz W V1), (inf_shape f w s1 Iw W V3).
      * cbn [xvalue] in V1, V3. apply (same_object f w z v3 v1); auto; [now symmetry|].
        pose proof (conv_signed f g r W W' Ir (fvalue_not_nan r c V2)) as S. fold w in S. rewrite S.
        pose proof (correct_signed f q z W Gz CZ NZ) as S1. pose proof (correct_signed g q r W' Gr CR NZ) as S2.
        destruct (is_signed (fv_val r)), (is_signed (fv_val z)); auto; [symmetry; apply S1, S2; reflexivity|apply S2, S1; reflexivity].
  - intros Z. pose proof (zero_value f q z W Iz CZ Z) as VZ. pose proof (zero_value g q r W' Ir CR Z) as VR. split; [|exact VZ].
    pose proof (fnum_val g r 0 O' Gr VR) as NV. assert (Iw : instance f w) by (apply I_init; exact (nval_ok _ _ NV)).
    apply (zero_value f 0 w W Iw); [now apply init_correct|reflexivity].
Qed.
(** When the wider type has the exact result, it is the exact result that is rounded. *)
Lemma exact_back f g q z r n : wide f -> wide g -> instance g r -> correct g q r -> repv g q -> nval n q -> z = fp_init f n ->
  let w := fp_init f (fnum r) in (~ (q == 0)%Q -> w = z) /\ ((q == 0)%Q -> fvalue w 0 /\ fvalue z 0).
Proof.
  intros W W' Ir CR RQ N E w. pose proof (exact_rep g q r W' Ir RQ CR) as VR. pose proof (fnum_val g r q (wide_okf g W') (inst_good g r W' Ir) VR) as NV. split.
  - intros NZ. unfold w. rewrite E. now apply (init_value f _ _ q).
  - intros Z. split; [apply (zero_value f q w); auto; [apply I_init; exact (nval_ok _ _ NV)|now apply init_correct]|].
    subst z. apply (zero_value f q); auto; [apply I_init; exact (nval_ok _ _ N)|now apply init_correct].
Qed.

(** ** Values of the wider type *)
Definition roomy (f g : fmt) : Prop := f_eb f + 2 <= f_eb g /\ 2 * f_mb f + 3 <= f_mb g.
Lemma roomy_bias f g : wide f -> wide g -> roomy f g -> 4 * bias f + 3 <= bias g /\ 1 <= bias f.
Proof.
  intros W W' [R _]. destruct (V_IM f W) as (_ & _ & B). split; [|exact B]. destruct W as [W1 _]. unfold bias in *.
  pose proof (pow2_le_mono (f_eb f - 1 + 2) (f_eb g - 1) ltac:(lia)) as P. rewrite pow2_split in P by lia. change (2 ^ 2) with 4 in P. lia.
Qed.
Lemma unit_ratio f g k : k = bias g + f_mb g - (bias f + f_mb f) -> 0 <= k -> (unit f == inject_Z (2 ^ k) * unit g)%Q.
Proof. intros -> K. unfold unit. rewrite <- pow2q_int, <- pow2q_add by exact K. replace (bias g + f_mb g - (bias f + f_mb f) + (1 - bias g - f_mb g)) with (1 - bias f - f_mb f) by lia. reflexivity. Qed.
Lemma top_bounds f : wide f -> 2 ^ (f_mb f + hi f) <= top (f_mb f) (hi f) < 2 ^ (f_mb f + 1 + hi f).
Proof.
  intros W. destruct (hi_top f W) as [_ H]. destruct W as [_ M]. unfold top. rewrite (Z.add_comm (f_mb f) (hi f)), (Z.add_comm (f_mb f + 1) (hi f)), !pow2_split by lia.
  pose proof (pow2_pos (hi f) H) as P. pose proof (pow2_le_mono 1 (f_mb f) ltac:(lia)) as P2. change (2 ^ 1) with 2 in *. split; [apply Z.mul_le_mono_nonneg_l; lia|apply Z.mul_lt_mono_pos_l; lia].
Qed.
Lemma wide_rep f g n j : wide f -> wide g -> roomy f g -> f_ieee g = true -> 0 <= j -> Z.abs n <= 2 ^ (f_mb g + 1) -> Z.abs (n * 2 ^ j) <= 2 * top (f_mb f) (hi f) ->
  repv g (inject_Z (n * 2 ^ j) * unit f)%Q.
Proof.
  intros W W' R IE J N T. destruct (roomy_bias f g W W' R) as [B1 B2]. destruct R as [_ R]. pose proof W as [_ M]. pose proof W' as [_ M'].
  set (k := bias g + f_mb g - (bias f + f_mb f)). assert (K : 0 <= k) by (unfold k; lia).
  apply (repv_wd g (inject_Z (n * 2 ^ (j + k)) * unit g)%Q).
  { rewrite (unit_ratio f g k eq_refl K), pow2_split, Z.mul_assoc, (inject_Z_mult (n * 2 ^ j)) by lia. ring. }
  apply uv_rep; [exact W'|exact IE|]. apply uv_mul; [lia|lia|exact N|].
  rewrite pow2_split, Z.mul_assoc, Z.abs_mul, (Z.abs_eq (2 ^ k)) by (try lia; pose proof (pow2_pos k K); lia).
  apply Z.le_trans with (2 * top (f_mb f) (hi f) * 2 ^ k); [apply Z.mul_le_mono_nonneg_r; [pose proof (pow2_pos k K); lia|exact T]|].
  pose proof (top_bounds f W) as [_ TB]. pose proof (top_bounds g W') as [TB' _]. apply Z.le_trans with (2 ^ (f_mb g + hi g)); [|exact TB'].
  apply Z.le_trans with (2 ^ (1 + (f_mb f + 1 + hi f) + k)).
  - rewrite !(pow2_split _ k), (pow2_split 1) by (unfold hi; lia). change (2 ^ 1) with 2. apply Z.mul_le_mono_nonneg_r; [pose proof (pow2_pos k K); lia|lia].
  - apply pow2_le_mono. unfold hi, k. lia.
Qed.
Lemma wide_prod f g A ja ta B jb tb : wide f -> wide g -> roomy f g -> f_ieee g = true -> cv (f_mb f) (hi f) A ja ta -> cv (f_mb f) (hi f) B jb tb ->
  repv g (inject_Z (A * B) * (unit f * unit f))%Q.
Proof.
  intros W W' R IE CA CB. destruct (roomy_bias f g W W' R) as [B1 B2]. destruct R as [_ R]. pose proof W as [_ M]. pose proof W' as [_ M'].
  destruct CA as (EA & JA & TA & _ & UA). destruct CB as (EB & JB & TB & _ & UB).
  set (k := gg g - 2 * gg f). assert (K : 0 <= k) by (unfold k, gg; lia).
  assert (U : (unit f * unit f == inject_Z (2 ^ k) * unit g)%Q).
  { unfold unit. rewrite <- pow2q_int, <- !pow2q_add by exact K. unfold k, gg. replace (bias g + f_mb g - 1 - 2 * (bias f + f_mb f - 1) + (1 - bias g - f_mb g)) with (1 - bias f - f_mb f + (1 - bias f - f_mb f)) by lia. reflexivity. }
  assert (E : A * B = Z.sgn (A * B) * (ta * tb) * 2 ^ (ja + jb)).
  { rewrite pow2_split by lia. rewrite <- (Z.abs_sgn (A * B)) at 1. rewrite Z.abs_mul, EA, EB. ring. }
  apply (repv_wd g (inject_Z (Z.sgn (A * B) * (ta * tb) * 2 ^ (ja + jb + k)) * unit g)%Q).
  { rewrite U, (pow2_split _ k), Z.mul_assoc, <- E, (inject_Z_mult (A * B)) by lia. ring. }
  apply uv_rep; [exact W'|exact IE|]. pose proof (pow2_pos k K) as PK. apply uv_mul; [lia|lia| |].
  - apply Z.le_trans with (ta * tb); [|apply Z.le_trans with (2 ^ (f_mb f + 1) * 2 ^ (f_mb f + 1)); [apply Z.mul_le_mono_nonneg; lia|]].
    + rewrite Z.abs_mul, (Z.abs_eq (ta * tb)) by (apply Z.mul_nonneg_nonneg; lia). assert (Z.abs (Z.sgn (A * B)) <= 1) by lia. pose proof (Z.mul_nonneg_nonneg ta tb ltac:(lia) ltac:(lia)).
      transitivity (1 * (ta * tb)); [apply Z.mul_le_mono_nonneg_r; lia|lia].
    + rewrite <- pow2_split by lia. apply pow2_le_mono. lia.
  - rewrite pow2_split, Z.mul_assoc, <- E by lia. rewrite !Z.abs_mul, (Z.abs_eq (2 ^ k)) by lia.
    pose proof (top_bounds f W) as [_ TBf]. pose proof (top_bounds g W') as [TBg _]. apply Z.le_trans with (2 ^ (f_mb g + hi g)); [|exact TBg].
    apply Z.le_trans with (2 ^ (f_mb f + 1 + hi f) * 2 ^ (f_mb f + 1 + hi f) * 2 ^ k); [apply Z.mul_le_mono_nonneg_r; [lia|apply Z.mul_le_mono_nonneg; lia]|].
    rewrite <- !pow2_split by (unfold hi; lia). apply pow2_le_mono. unfold hi, k, gg. lia.
Qed.

(** ** Sums rounded to nearest *)
Definition quarter (m A j t d : Z) : Prop := (2 <= j /\ 2 ^ m < t /\ d = 2 ^ (j - 2)) \/ (3 <= j /\ t = 2 ^ m /\ d = 2 ^ (j - 3)).
Lemma quarter_far m h A j t d C jc tc : 1 <= m -> cv m h A j t -> cv m h C jc tc -> quarter m A j t d -> Z.abs (C - A) <= 2 * d -> C = A.
Proof.
  intros M CA CC QU L. pose proof CA as (EA & JA & TA & _ & UA). pose proof CC as (EC & JC & TC & _ & UC).
  assert (KEY : forall i, 0 <= i <= j -> 2 * d < 2 ^ i -> 2 ^ (m + i) <= Z.abs C -> C = A).
  { intros i I D B. pose proof (cv_exp m h C jc tc i M ltac:(lia) CC B) as J. destruct (multiple C tc jc i EC ltac:(lia)) as [c Ec]. destruct (multiple A t j i EA ltac:(lia)) as [a Ea].
    assert (X : C - A = (c - a) * 2 ^ i) by (rewrite Ec, Ea; ring). rewrite X, Z.abs_mul, (Z.abs_eq (2 ^ i)) in L by (pose proof (pow2_pos i); lia).
    assert (c - a = 0); [|rewrite Ec, Ea; f_equal; lia]. destruct (Z.eq_dec (c - a) 0) as [|NZ]; [assumption|]. exfalso.
    pose proof (mul_ge_1 (Z.abs (c - a)) (2 ^ i) ltac:(lia) ltac:(pose proof (pow2_pos i); lia)). lia. }
  destruct QU as [(J & T & D)|(J & T & D)].
  - apply (KEY j); [lia| |].
    + subst d. replace j with (2 + (j - 2)) at 2 by lia. rewrite pow2_split by lia. change (2 ^ 2) with 4. pose proof (pow2_pos (j - 2) ltac:(lia)). lia.
    + rewrite pow2_split by lia. assert (X : (2 ^ m + 1) * 2 ^ j <= t * 2 ^ j) by (apply Z.mul_le_mono_nonneg_r; [pose proof (pow2_pos j); lia|lia]).
      assert (2 * d <= 2 ^ j). { subst d. replace j with (2 + (j - 2)) at 2 by lia. rewrite pow2_split by lia. change (2 ^ 2) with 4. pose proof (pow2_pos (j - 2) ltac:(lia)). lia. }
      rewrite <- EA in X. lia.
  - assert (E2 : 2 ^ (j - 1) = 4 * d). { subst d. replace (j - 1) with (2 + (j - 3)) by lia. rewrite pow2_split by lia. reflexivity. }
    assert (E3 : 2 ^ j = 2 * 2 ^ (j - 1)). { replace j with (1 + (j - 1)) at 1 by lia. rewrite pow2_split by lia. reflexivity. }
    pose proof (pow2_pos (j - 3) ltac:(lia)) as P. apply (KEY (j - 1)); [lia|lia|]. rewrite pow2_split by lia. rewrite EA in *. subst t.
    pose proof (pow2_le_mono 1 m ltac:(lia)) as PM. change (2 ^ 1) with 2 in PM. pose proof (pow2_pos (j - 1) ltac:(lia)) as PJ.
    assert (X : 2 ^ m * 2 ^ j = 2 ^ m * 2 ^ (j - 1) + 2 ^ m * 2 ^ (j - 1)) by (rewrite E3; ring).
    pose proof (Z.mul_le_mono_nonneg_r 2 (2 ^ m) (2 ^ (j - 1)) ltac:(lia) PM). lia.
Qed.
Lemma sum_far m h pg A B ja ta jb tb : 1 <= m -> 2 * m + 4 <= pg -> cv m h A ja ta -> cv m h B jb tb -> jb <= ja -> 2 ^ pg * 2 ^ jb < Z.abs (A + B) ->
  exists d, quarter m A ja ta d /\ Z.abs B < d.
Proof.
  intros M PG (EA & JA & TA & CA & UA) (EB & JB & TB & CB & UB) J L.
  assert (LB : Z.abs B < 2 ^ (m + 1 + jb)). { rewrite EB, pow2_split by lia. apply Z.mul_lt_mono_pos_r; [apply pow2_pos; lia|lia]. }
  assert (LA : Z.abs A < 2 ^ (m + 1 + ja)). { rewrite EA, pow2_split by lia. apply Z.mul_lt_mono_pos_r; [apply pow2_pos; lia|lia]. }
  rewrite <- pow2_split in L by lia.
  assert (GA : 2 ^ (pg - 1 + jb) < Z.abs A).
  { assert (2 ^ (pg + jb) = 2 * 2 ^ (pg - 1 + jb)). { replace (pg + jb) with (1 + (pg - 1 + jb)) by lia. rewrite pow2_split by lia. reflexivity. }
    pose proof (pow2_le_mono (m + 1 + jb) (pg - 1 + jb) ltac:(lia)). lia. }
  assert (J1 : pg - 1 + jb < m + 1 + ja) by (apply pow_lt_inv; lia).
  assert (T2 : 2 ^ m <= ta) by (destruct CA; lia).
  destruct (Z.eq_dec ta (2 ^ m)) as [ET|NT].
  - exists (2 ^ (ja - 3)). assert (J2 : pg - 1 + jb < m + ja) by (apply pow_lt_inv; [lia|]; rewrite (pow2_split m ja), <- ET, <- EA by lia; exact GA).
    split; [right; repeat split; [lia|exact ET]|]. pose proof (pow2_le_mono (m + 1 + jb) (ja - 3) ltac:(lia)). lia.
  - exists (2 ^ (ja - 2)). split; [left; repeat split; lia|]. pose proof (pow2_le_mono (m + 1 + jb) (ja - 2) ltac:(lia)). lia.
Qed.
Lemma near_A f A j t d q z : wide f -> f_mode f = RNE -> cv (f_mb f) (hi f) A j t -> quarter (f_mb f) A j t d -> instance f z -> repv f (inject_Z A * unit f) ->
  correct f q z -> (Qabs (q - inject_Z A * unit f) <= inject_Z d * unit f)%Q -> fvalue z (inject_Z A * unit f).
Proof.
  intros W MO CA QU I R C L. pose proof W as [_ M]. destruct (hi_top f W) as [HT H0]. pose proof (unit_pos f) as UP. destruct (correct_x f q z W (inst_good f z W I) C) as (e & X & RX).
  destruct e as [s|v]; cbn [rx xvalue] in *; rewrite MO in RX.
  - exfalso. destruct RX as (_ & _ & T). rewrite (threshold_W f W) in T. destruct (V_IM f W) as (V1 & V2 & BI). fold (hi f) in V2. rewrite <- HT in V2. rewrite <- HT in T.
    assert (EV : V (f_mb f) (IM f) = top (f_mb f) (hi f) + 2 ^ hi f) by lia. rewrite EV in T.
    assert (D2 : 2 * d < 2 ^ hi f).
    { destruct CA as (EA & JA & TA & _ & UA). pose proof (top_bounds f W) as [_ TB].
      assert (TM : 2 ^ f_mb f <= t) by (destruct QU as [(_ & T1 & _)|(_ & T1 & _)]; lia).
      assert (2 ^ (f_mb f + j) < 2 ^ (f_mb f + 1 + hi f)) as LT by (rewrite (pow2_split (f_mb f) j) by lia; pose proof (Z.mul_le_mono_nonneg_r _ _ (2 ^ j) ltac:(pose proof (pow2_pos j); lia) TM); lia).
      apply pow_lt_inv in LT; [|lia]. pose proof (pow2_le_mono j (hi f) ltac:(lia)) as P.
      destruct QU as [(J2 & _ & ->)|(J2 & _ & ->)].
      - replace j with (2 + (j - 2)) in P by lia. rewrite pow2_split in P by lia. change (2 ^ 2) with 4 in P. pose proof (pow2_pos (j - 2) ltac:(lia)). lia.
      - replace j with (3 + (j - 3)) in P by lia. rewrite pow2_split in P by lia. change (2 ^ 3) with 8 in P. pose proof (pow2_pos (j - 3) ltac:(lia)). lia. }
    assert (QB : (Qabs q <= inject_Z (Z.abs A + d) * unit f)%Q).
    { rewrite inject_Z_plus, Qmult_plus_distr_l, <- units_abs. pose proof (Qabs_triangle (inject_Z A * unit f) (q - inject_Z A * unit f)) as TR.
      assert (E : (inject_Z A * unit f + (q - inject_Z A * unit f) == q)%Q) by ring. rewrite E in TR. lra. }
    destruct CA as (_ & _ & _ & _ & UA).
    assert (X2 : (inject_Z (top (f_mb f) (hi f) + (top (f_mb f) (hi f) + 2 ^ hi f)) * unit f <= inject_Z (2 * (Z.abs A + d)) * unit f)%Q).
    { rewrite (inject_Z_mult 2). change (inject_Z 2) with 2%Q in *.
      assert (E : (inject_Z (top (f_mb f) (hi f) + (top (f_mb f) (hi f) + 2 ^ hi f)) / 2 * unit f == (1 # 2) * (inject_Z (top (f_mb f) (hi f) + (top (f_mb f) (hi f) + 2 ^ hi f)) * unit f))%Q) by field.
      rewrite E in T. lra. }
    apply units_le in X2. lia.
  - destruct RX as (_ & _ & NE). specialize (NE _ R). destruct (value_cv f z v W I X) as (C' & jc & tc & QC & CC).
    assert (E : C' = A); [|subst C'; now apply (fvalue_wd z v)].
    apply (quarter_far (f_mb f) (hi f) A j t d C' jc tc M CA CC QU). apply (units_le f). rewrite <- units_abs, inj_sub, (inject_Z_mult 2). change (inject_Z 2) with 2%Q.
    assert (EE : ((inject_Z C' - inject_Z A) * unit f == (q - inject_Z A * unit f) - (q - v))%Q) by (rewrite QC; ring). rewrite EE.
    pose proof (Qabs_triangle (q - inject_Z A * unit f) (- (q - v))) as TR. rewrite Qabs_opp in TR. unfold Qminus at 1. lra.
Qed.
Lemma wide_near f g A j t d (s : bool) : wide f -> wide g -> roomy f g -> f_ieee g = true -> cv (f_mb f) (hi f) A j t -> quarter (f_mb f) A j t d ->
  repv g (inject_Z (A + (if s then - d else d)) * unit f)%Q.
Proof.
  intros W W' R IE CA QU. pose proof W as [_ M]. pose proof R as [_ RM]. pose proof CA as (EA & JA & TA & _ & UA).
  assert (EA' : A = Z.sgn A * t * 2 ^ j) by (rewrite <- (Z.abs_sgn A) at 1; rewrite EA; ring).
  assert (TM : 2 ^ f_mb f <= t) by (destruct QU as [(_ & T1 & _)|(_ & T1 & _)]; lia).
  assert (DA : d <= Z.abs A).
  { rewrite EA. pose proof (pow2_pos (f_mb f) ltac:(lia)). destruct QU as [(J2 & _ & ->)|(J2 & _ & ->)].
    - pose proof (pow2_le_mono (j - 2) j ltac:(lia)). pose proof (mul_ge_1 t (2 ^ j) ltac:(lia) ltac:(lia)). lia.
    - pose proof (pow2_le_mono (j - 3) j ltac:(lia)). pose proof (mul_ge_1 t (2 ^ j) ltac:(lia) ltac:(lia)). lia. }
  assert (GEN : forall i, 0 <= i <= 3 -> i <= j -> d = 2 ^ (j - i) -> repv g (inject_Z (A + (if s then - d else d)) * unit f)%Q).
  { intros i I IJ D. assert (E : A + (if s then - d else d) = (Z.sgn A * t * 2 ^ i + (if s then -1 else 1)) * 2 ^ (j - i)).
    { rewrite EA' at 1. rewrite D. replace j with (i + (j - i)) at 1 by lia. rewrite pow2_split by lia. destruct s; ring. }
    assert (P : 0 < 2 ^ (j - i)) by (apply pow2_pos; lia).
    rewrite E. apply wide_rep; auto; [lia| |rewrite <- E; destruct s; lia].
    assert (T1 : Z.abs (Z.sgn A * t * 2 ^ i) <= t * 2 ^ i).
    { rewrite !Z.abs_mul, (Z.abs_eq t), (Z.abs_eq (2 ^ i)) by (try lia; pose proof (pow2_pos i); lia). apply Z.mul_le_mono_nonneg_r; [pose proof (pow2_pos i); lia|].
      transitivity (1 * t); [apply Z.mul_le_mono_nonneg_r; lia|lia]. }
    assert (T2 : (t + 1) * 2 ^ i <= 2 ^ (f_mb g + 1)).
    { transitivity (2 ^ (f_mb f + 1) * 2 ^ i); [apply Z.mul_le_mono_nonneg_r; [pose proof (pow2_pos i); lia|lia]|]. rewrite <- pow2_split by lia. apply pow2_le_mono. lia. }
    pose proof (pow2_pos i ltac:(lia)). destruct s; lia. }
  destruct QU as [(J2 & _ & D)|(J2 & _ & D)]; [apply (GEN 2)|apply (GEN 3)]; lia || exact D.
Qed.
Lemma sum_back f g A ja ta B jb tb q z r n : wide f -> wide g -> roomy f g -> f_ieee g = true -> f_mode f = RNE ->
  cv (f_mb f) (hi f) A ja ta -> cv (f_mb f) (hi f) B jb tb -> repv f (inject_Z A * unit f) -> repv f (inject_Z B * unit f) ->
  (q == inject_Z (A + B) * unit f)%Q -> nval n q -> z = fp_init f n -> instance g r -> correct g q r ->
  let w := fp_init f (fnum r) in (~ (q == 0)%Q -> w = z) /\ ((q == 0)%Q -> fvalue w 0 /\ fvalue z 0).
Proof.
  intros W W' R IE MO CA CB RA RB EQ NV EZ Ir CR w. pose proof W as [_ M]. pose proof R as [_ RM]. pose proof (unit_pos f) as UP.
  pose proof CA as (EA & JA & TA & _ & UA). pose proof CB as (EB & JB & TB & _ & UB).
  set (i := Z.min ja jb). assert (I0 : 0 <= i) by (unfold i; lia).
  destruct (multiple A ta ja i EA ltac:(unfold i; lia)) as [a Ea]. destruct (multiple B tb jb i EB ltac:(unfold i; lia)) as [b Eb].
  assert (ES : A + B = (a + b) * 2 ^ i) by (rewrite Ea, Eb; ring). pose proof (pow2_pos i I0) as PI.
  destruct (Z_le_gt_dec (Z.abs (a + b)) (2 ^ (f_mb g + 1))) as [S|S].
  { apply (exact_back f g q z r n); auto. apply (repv_wd g (inject_Z ((a + b) * 2 ^ i) * unit f)%Q); [rewrite <- ES; now symmetry|]. apply wide_rep; auto. rewrite <- ES. lia. }
  assert (BIG : 2 ^ (f_mb g + 1) * 2 ^ i < Z.abs (A + B)). { rewrite ES, Z.abs_mul, (Z.abs_eq (2 ^ i)) by lia. apply Z.mul_lt_mono_pos_r; lia. }
  assert (MAIN : forall A ja ta B jb tb, cv (f_mb f) (hi f) A ja ta -> cv (f_mb f) (hi f) B jb tb -> repv f (inject_Z A * unit f) -> (q == inject_Z (A + B) * unit f)%Q ->
    jb <= ja -> 2 ^ (f_mb g + 1) * 2 ^ jb < Z.abs (A + B) -> w = z /\ ~ (q == 0)%Q).
  { clear CA CB RA RB EQ EA EB UA UB ES S BIG Ea Eb a b JA JB TA TB I0 PI i A ja ta B jb tb. intros A ja ta B jb tb CA CB RA EQ J BIG.
    destruct (sum_far (f_mb f) (hi f) (f_mb g + 1) A B ja ta jb tb) as (d & QU & LB); auto; [lia|].
    assert (LO : (inject_Z (A + - d) * unit f <= q)%Q) by (rewrite EQ; apply units_le; lia).
    assert (HI : (q <= inject_Z (A + d) * unit f)%Q) by (rewrite EQ; apply units_le; lia).
    pose proof (wide_near f g A ja ta d true W W' R IE CA QU) as R1. pose proof (wide_near f g A ja ta d false W W' R IE CA QU) as R2. cbv iota in R1, R2.
    destruct (correct_x g q r W' (inst_good g r W' Ir) CR) as (e & X & RX). pose proof (rx_below g q e _ W' RX R1 LO) as B1. pose proof (rx_above g q e _ W' RX R2 HI) as B2.
    destruct e as [s|c]; [exfalso; unfold ext_le in B1, B2; cbn [ext_lt ext_eq] in B1, B2; destruct s; [destruct B1 as [B1|B1]|destruct B2 as [B2|B2]]; congruence || contradiction|].
    assert (B3 : (inject_Z (A + - d) * unit f <= c)%Q) by (destruct B1 as [B1|B1]; cbn [ext_lt ext_eq] in B1; lra).
    assert (B4 : (c <= inject_Z (A + d) * unit f)%Q) by (destruct B2 as [B2|B2]; cbn [ext_lt ext_eq] in B2; lra). clear B1 B2.
    cbn [xvalue] in X. pose proof (fnum_val g r c (wide_okf g W') (inst_good g r W' Ir) X) as NR.
    assert (Iw : instance f w) by (apply I_init; exact (nval_ok _ _ NR)). assert (Iz : instance f z) by (subst z; apply I_init; exact (nval_ok _ _ NV)).
    assert (RNG : forall p, (inject_Z (A + - d) * unit f <= p)%Q -> (p <= inject_Z (A + d) * unit f)%Q -> (Qabs (p - inject_Z A * unit f) <= inject_Z d * unit f)%Q).
    { intros p P1 P2. rewrite inject_Z_plus, inject_Z_opp in P1. rewrite inject_Z_plus in P2. apply Qabs_Qle_condition. split; lra. }
    assert (VW : fvalue w (inject_Z A * unit f)) by (apply (near_A f A ja ta d c w W MO CA QU Iw RA); [now apply init_correct|now apply RNG]).
    assert (VZ : fvalue z (inject_Z A * unit f)) by (apply (near_A f A ja ta d q z W MO CA QU Iz RA); [subst z; now apply init_correct|now apply RNG]).
    pose proof (pow2_pos (f_mb g + 1) ltac:(lia)). destruct CB as (_ & JB & _). pose proof (pow2_pos jb JB). assert (PP : 0 < 2 ^ (f_mb g + 1) * 2 ^ jb) by (apply Z.mul_pos_pos; lia).
    assert (NA : A <> 0). { destruct CA as (EA & JA & TA & _). destruct QU as [(_ & T1 & _)|(_ & T1 & _)]; pose proof (pow2_pos (f_mb f) ltac:(lia)); intros ->; rewrite Z.abs_0 in EA; symmetry in EA; apply Z.mul_eq_0 in EA; pose proof (pow2_pos ja JA); lia. }
    assert (NQ : forall N, N <> 0 -> ~ (inject_Z N * unit f == 0)%Q).
    { intros N NN H1. apply NN. assert (X0 : (inject_Z N * unit f == inject_Z 0 * unit f)%Q) by (rewrite H1; reflexivity).
      assert (N <= 0) by (apply (units_le f); lra). assert (0 <= N) by (apply (units_le f); lra). lia. }
    split; [apply (same_object_nz f w z _ _ W (inst_good f w W Iw) (inst_good f z W Iz) VW VZ); [reflexivity|now apply NQ]|]. rewrite EQ. apply NQ. lia. }
  assert (T : w = z /\ ~ (q == 0)%Q).
  { destruct (Z_le_gt_dec jb ja) as [J|J].
    - apply (MAIN A ja ta B jb tb); auto. replace jb with i by (unfold i; lia). exact BIG.
    - apply (MAIN B jb tb A ja ta); auto; [rewrite (Z.add_comm B A); exact EQ|lia|]. rewrite (Z.add_comm B A). replace ja with i by (unfold i; lia). exact BIG. }
  split; [tauto|]. intros Z. exfalso. now apply T.
Qed.
