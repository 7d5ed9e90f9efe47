(** The exact numbers behind the operations, as rationals. *)
From Coq Require Import Lia ZArith QArith Qpower Qabs Lqa ZifyBool.
From Verif Require Import PyBase BVModel BVSpec BVFacts BVOps FPModel FPSpec FPRoundFacts FPPatFacts FPEncFacts FPDecFacts FPBracket FPQFacts FPRoundSpec FPInst.
Open Scope Z_scope.

(** The value of an exact number. *)
Inductive nval : num -> Q -> Prop :=
| NV0 s q : (q == 0)%Q -> nval (NZero s) q
| NV1 s n d q : 0 < n -> 0 < d -> (q == ratq s n d)%Q -> nval (NRat s n d) q.

Lemma inj_nz d : 0 < d -> ~ (inject_Z d == 0)%Q.
Proof. intros H X. apply (inject_Z_injective d 0) in X. lia. Qed.
Lemma inj_pos d : 0 < d -> (0 < inject_Z d)%Q.
Proof. intros H. change 0%Q with (inject_Z 0). rewrite <- Zlt_Qlt. exact H. Qed.
Lemma ratq_z s n d : 0 < d -> (ratq s n d == inject_Z (sgnz s n) / inject_Z d)%Q.
Proof.
  intros H. unfold ratq, sgnq, sgnz. destruct s; [|reflexivity]. rewrite inject_Z_opp. field. now apply inj_nz.
Qed.
Lemma ratq_nz s n d : 0 < n -> 0 < d -> ~ (ratq s n d == 0)%Q.
Proof.
  intros Hn Hd X. rewrite ratq_z in X by exact Hd.
  assert (Y : (inject_Z (sgnz s n) == 0)%Q) by (rewrite <- (inj_div (sgnz s n) d Hd), X; ring).
  apply (proj1 (inject_Z_injective _ 0)) in Y. destruct s; cbn [sgnz] in Y; lia.
Qed.
Lemma nval_ok x q : nval x q -> num_ok x.
Proof. destruct 1; cbn [num_ok]; auto. Qed.
Lemma nval_wd x q q' : (q == q')%Q -> nval x q -> nval x q'.
Proof. intros E H. destruct H; constructor; auto; now rewrite <- E. Qed.

Lemma sign_norm k d : 0 < d -> k <> 0 -> (inject_Z k / inject_Z d == ratq (k <? 0) (Z.abs k) d)%Q.
Proof.
  intros Hd Hk. rewrite ratq_z by exact Hd. replace (sgnz (k <? 0) (Z.abs k)) with k; [reflexivity|].
  destruct (Z.ltb_spec k 0); cbn [sgnz]; lia.
Qed.

Lemma nval_neg x q : nval x q -> nval (num_neg x) (- q)%Q.
Proof.
  destruct 1 as [s q H|s n d q Hn Hd H]; cbn [num_neg]; constructor; auto; rewrite H.
  - reflexivity.
  - unfold ratq, sgnq. destruct s; cbn [negb]; [apply Qopp_involutive|reflexivity].
Qed.
Lemma nval_add g x y a b : nval x a -> nval y b -> nval (num_add g x y) (a + b)%Q.
Proof.
  intros [s q H|s n d q Hn Hd H] [s' q' H'|s' n' d' q' Hn' Hd' H']; cbn [num_add].
  - destruct (eqb s s'); constructor; rewrite H, H'; reflexivity.
  - constructor; auto. rewrite H, H'. ring.
  - constructor; auto. rewrite H, H'. ring.
  - rewrite ratq_z in H, H' by assumption.
    assert (E : (q + q' == inject_Z (sgnz s n * d' + sgnz s' n' * d) / inject_Z (d * d'))%Q).
    { rewrite H, H', inject_Z_plus, !inject_Z_mult. field. split; now apply inj_nz. }
    destruct (Z.eqb_spec (sgnz s n * d' + sgnz s' n' * d) 0) as [K|K].
    + constructor. rewrite E, K. unfold Qdiv. apply Qmult_0_l.
    + constructor; [lia|nia|]. rewrite E. apply sign_norm; [nia|exact K].
Qed.
Lemma nval_sub g x y a b : nval x a -> nval y b -> nval (num_sub g x y) (a - b)%Q.
Proof. intros H H'. apply nval_add; auto. now apply nval_neg. Qed.
Lemma nval_mul x y a b : nval x a -> nval y b -> nval (num_mul x y) (a * b)%Q.
Proof.
  intros [s q H|s n d q Hn Hd H] [s' q' H'|s' n' d' q' Hn' Hd' H']; cbn [num_mul].
  - constructor. rewrite H. ring.
  - constructor. rewrite H. ring.
  - constructor. rewrite H'. ring.
  - constructor; [nia|nia|]. rewrite H, H'. rewrite !ratq_z by nia. 
    replace (sgnz (xorb s s') (n * n')) with (sgnz s n * sgnz s' n') by (destruct s, s'; cbn [xorb sgnz]; ring).
    rewrite !inject_Z_mult. field. split; now apply inj_nz.
Qed.
Lemma nval_div x y a b : nval x a -> nval y b -> ~ (b == 0)%Q -> nval (num_div x y) (a / b)%Q.
Proof.
  intros [s q H|s n d q Hn Hd H] [s' q' H'|s' n' d' q' Hn' Hd' H'] NZ; cbn [num_div]; try contradiction.
  - constructor. rewrite H. unfold Qdiv. ring.
  - constructor; [nia|nia|]. rewrite H, H'. rewrite !ratq_z by nia.
    assert (SN : ~ (inject_Z (sgnz s' n') == 0)%Q) by (intros X; apply (proj1 (inject_Z_injective _ 0)) in X; destruct s'; cbn [sgnz] in X; lia).
    assert (E : (inject_Z (sgnz (xorb s s') (n * d')) * inject_Z (sgnz s' n') == inject_Z (sgnz s n * d') * inject_Z n')%Q).
    { rewrite <- !inject_Z_mult. replace (sgnz (xorb s s') (n * d') * sgnz s' n') with (sgnz s n * d' * n') by (destruct s, s'; cbn [xorb sgnz]; ring). reflexivity. }
    assert (E2 : (inject_Z (sgnz (xorb s s') (n * d')) == inject_Z (sgnz s n * d') * inject_Z n' / inject_Z (sgnz s' n'))%Q).
    { rewrite <- E. field. exact SN. }
    rewrite E2. rewrite !inject_Z_mult. field. repeat split; try exact SN; now apply inj_nz.
Qed.

Lemma nval_cmp x y a b : nval x a -> nval y b -> num_cmp x y = Some (a ?= b)%Q.
Proof.
  intros [s q H|s n d q Hn Hd H] [s' q' H'|s' n' d' q' Hn' Hd' H']; cbn [num_cmp]; f_equal; symmetry.
  - rewrite H, H'. reflexivity.
  - rewrite ratq_z in H' by assumption. rewrite H, H'. pose proof (inj_pos d' Hd') as PD.
    destruct s'; cbn [sgnz].
    + apply (proj1 (Qgt_alt 0 _)). apply Qnot_le_lt. intros X.
      apply (Qmult_le_compat_r _ _ (inject_Z d')) in X; [|apply Qlt_le_weak, PD]. rewrite inj_div in X by exact Hd'.
      rewrite Qmult_0_l in X. change 0%Q with (inject_Z 0) in X. rewrite <- Zle_Qle in X. lia.
    + apply (proj1 (Qlt_alt 0 _)). apply Qnot_le_lt. intros X.
      apply (Qmult_le_compat_r _ _ (inject_Z d')) in X; [|apply Qlt_le_weak, PD]. rewrite inj_div in X by exact Hd'.
      rewrite Qmult_0_l in X. change 0%Q with (inject_Z 0) in X. rewrite <- Zle_Qle in X. lia.
  - rewrite ratq_z in H by assumption. rewrite H, H'. pose proof (inj_pos d Hd) as PD.
    destruct s; cbn [sgnz].
    + apply (proj1 (Qlt_alt _ 0)). apply Qnot_le_lt. intros X.
      apply (Qmult_le_compat_r _ _ (inject_Z d)) in X; [|apply Qlt_le_weak, PD]. rewrite inj_div in X by exact Hd.
      rewrite Qmult_0_l in X. change 0%Q with (inject_Z 0) in X. rewrite <- Zle_Qle in X. lia.
    + apply (proj1 (Qgt_alt _ 0)). apply Qnot_le_lt. intros X.
      apply (Qmult_le_compat_r _ _ (inject_Z d)) in X; [|apply Qlt_le_weak, PD]. rewrite inj_div in X by exact Hd.
      rewrite Qmult_0_l in X. change 0%Q with (inject_Z 0) in X. rewrite <- Zle_Qle in X. lia.
  - rewrite ratq_z in H, H' by assumption. rewrite H, H'.
    assert (E : forall k e, (inject_Z k / inject_Z (Z.pos e) == k # e)%Q).
    { intros k e. unfold Qdiv, inject_Z, Qinv, Qmult, Qeq. cbn. lia. }
    destruct d as [|d|d]; try lia. destruct d' as [|d'|d']; try lia. rewrite !E. reflexivity.
Qed.

(** The value of an instance. *)
Lemma mnum_val f v q : okf f -> wfv f v -> mpfr_value (f_mb f + 1) v = Some q -> nval (mnum (c_prec (fctx f)) v) q.
Proof.
  intros O W. assert (CP : c_prec (fctx f) = f_mb f + 1) by (rewrite fctx_eq by exact O; reflexivity). rewrite CP.
  destruct v as [s|s|s|s m E]; cbn [mpfr_value]; try discriminate; intros H; inv H.
  - constructor. reflexivity.
  - unfold wfv in W. rewrite fctx_eq in W by exact O. cbn [wfm c_prec c_emin c_emax] in W. destruct W as (W1 & _).
    pose proof (pow2_pos (f_mb f + 1 - 1) ltac:(destruct O; lia)) as PP. unfold mnum.
    destruct (Z.leb_spec (f_mb f + 1) E) as [L|L].
    + pose proof (pow2_pos (E - (f_mb f + 1)) ltac:(lia)). constructor; [nia|lia|].
      unfold ratq, sgnq. destruct s; rewrite inject_Z_mult, <- pow2q_int by lia; field.
    + pose proof (pow2_pos (f_mb f + 1 - E) ltac:(lia)) as P2. constructor; [lia|lia|].
      unfold ratq.
      assert (A : (pow2 (E - (f_mb f + 1)) * pow2 (f_mb f + 1 - E) == 1)%Q).
      { rewrite <- pow2q_add. replace (E - (f_mb f + 1) + (f_mb f + 1 - E)) with 0 by lia. reflexivity. }
      assert (NZ : ~ (pow2 (f_mb f + 1 - E) == 0)%Q) by (intros X; pose proof (pow2q_pos (f_mb f + 1 - E)) as Y; rewrite X in Y; now apply Qlt_irrefl in Y).
      assert (B : (inject_Z m * pow2 (E - (f_mb f + 1)) == inject_Z m / pow2 (f_mb f + 1 - E))%Q).
      { rewrite <- (Qmult_1_r (inject_Z m / _)), <- A. field. exact NZ. }
      unfold sgnq. destruct s; rewrite <- pow2q_int by lia; rewrite B; reflexivity.
Qed.
Lemma fnum_val f x q : okf f -> good f x -> fvalue x q -> nval (fnum x) q.
Proof.
  intros O (F & W & _) (q' & E & Q). unfold fnum. rewrite F in *. apply (nval_wd _ q' q Q). now apply mnum_val.
Qed.

Lemma rounded_wd f q q' b : (q == q')%Q -> rounded f q b -> rounded f q' b.
Proof.
  intros E. unfold rounded, rounds_away, rounds_to, nearest, tie, overflows.
  destruct (f_mode f); intros (A & B & C); split; try exact A; (split; [rewrite <- E; exact B|]).
  - destruct C as [[(C1 & C2 & C3) C4]|[C1 C2]]; [left|right].
    + split; [split; [exact C1|split; [rewrite <- E; exact C2|intros b' R; rewrite <- E; now apply C3]]|].
      intros b'. rewrite <- E. apply C4.
    + split; [rewrite <- E; exact C1|exact C2].
  - destruct C as [(C1 & C2 & C3)|[C1 C2]]; [left|right].
    + split; [exact C1|]. split; [rewrite <- E; exact C2|]. intros b' R. rewrite <- E. now apply C3.
    + split; [exact C1|]. intros b' R. rewrite <- E. now apply C2.
  - destruct C as [(C1 & C2 & C3)|(C1 & C2 & C3)]; [left|right].
    + split; [exact C1|]. split; [rewrite <- E; exact C2|]. intros b' R. rewrite <- E. now apply C3.
    + split; [exact C1|]. split; [rewrite <- E; exact C2|]. intros b' R. rewrite <- E. now apply C3.
  - destruct C as [(C1 & C2 & C3)|(C1 & C2 & C3)]; [left|right].
    + split; [exact C1|]. split; [rewrite <- E; exact C2|]. intros b' R. rewrite <- E. now apply C3.
    + split; [exact C1|]. split; [rewrite <- E; exact C2|]. intros b' R. rewrite <- E. now apply C3.
  - destruct C as (C1 & C2 & C3). split; [exact C1|]. split; [rewrite <- E; exact C2|]. intros b' R. rewrite <- E. now apply C3.
Qed.

Lemma init_correct f r q : wide f -> nval r q -> correct f q (fp_init f r).
Proof.
  intros W H. pose proof (wide_okf f W) as O. destruct H as [s q H|s n d q Hn Hd H].
  - exists (pat f (MZero s)). split; [apply as_bv_spec; [exact O|exact I]|].
    split; [|intros X; contradiction]. intros _. destruct (pat_of f (MZero s) O I) as (_ & _ & F). exact F.
  - set (v := mpfr_round (fctx f) (NRat s n d)).
    assert (WV : wfv f v) by (apply round_wf; [exact W|split; assumption]).
    destruct (scaled n d (top f - (f_mb f + 1))) as [N D] eqn:HS.
    destruct (round_cases f s n d N D W Hn Hd HS) as (_ & NN & _ & _). fold v in NN.
    exists (pat f v). split.
    { unfold fp_init. fold v. unfold fp_store. rewrite NN. cbn [andb]. now apply as_bv_spec. }
    split; [intros X; rewrite X in H; symmetry in H; now apply ratq_nz in H|].
    intros _. apply (rounded_wd f (ratq s n d)); [now symmetry|]. unfold rounded. now apply rounds_spec.
Qed.

Lemma rmode_eqb_iff a b : rmode_eqb a b = true <-> a = b.
Proof. destruct a, b; cbn; split; congruence. Qed.
Lemma fmt_eqb_iff a b : fmt_eqb a b = true <-> a = b.
Proof.
  destruct a as [e m r i], b as [e' m' r' i']. unfold fmt_eqb. cbn [f_eb f_mb f_mode f_ieee].
  rewrite !andb_true_iff, !Z.eqb_eq, rmode_eqb_iff, Bool.eqb_true_iff. split; [intros [[[-> ->] ->] ->]; reflexivity|].
  intros H; inv H. auto.
Qed.
Lemma fmt_eqb_refl a : fmt_eqb a a = true.
Proof. now apply fmt_eqb_iff. Qed.

Lemma arith_eq f h x y : wide f -> (forall g p q, num_ok p -> num_ok q -> num_ok (h g p q)) -> good f x -> good f y ->
  arith h x (AFP y) = Ok (fp_init f (h (mode_2_gmpy2 (f_mode f)) (fnum x) (fnum y))).
Proof.
  intros W HH G G'. unfold arith, fp_cast. pose proof G as (F & _). pose proof G' as (F' & _). rewrite F.
  cbn [fp_coerce]. rewrite F', fmt_eqb_refl. cbn [negb bind]. f_equal. apply op_store; [exact W|].
  apply HH; apply (fnum_ok f); auto using wide_okf.
Qed.
