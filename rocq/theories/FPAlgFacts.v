(** What correct rounding implies for the order of results. *)
From Coq Require Import Lia ZArith QArith Qpower Qabs ZifyBool Lqa.
From Verif Require Import PyBase BVModel BVSpec BVFacts BVOps FPModel FPSpec FPRoundFacts FPPatFacts FPEncFacts FPDecFacts FPBracket FPQFacts FPRoundSpec FPInst FPArith FPMore FPProofs.
Open Scope Z_scope.

(** r is a value of the type f. *)
Definition repv (f : fmt) (r : Q) : Prop := exists b, representable f b /\ (pat_value f b == r)%Q.

(** e is the number q is rounded to. *)
Definition rx (f : fmt) (q : Q) (e : ext) : Prop :=
  match e with
  | XFin v => repv f v /\
      match f_mode f with
      | RNE => (Qabs q < overflow_threshold f)%Q /\ forall r, repv f r -> (Qabs (q - v) <= Qabs (q - r))%Q
      | RTP => (q <= v)%Q /\ forall r, repv f r -> (q <= r)%Q -> (v <= r)%Q
      | RTN => (v <= q)%Q /\ forall r, repv f r -> (r <= q)%Q -> (r <= v)%Q
      | RTZ => ((0 <= q)%Q -> (0 <= v)%Q /\ (v <= q)%Q /\ forall r, repv f r -> (r <= q)%Q -> (r <= v)%Q) /\
               ((q <= 0)%Q -> (v <= 0)%Q /\ (q <= v)%Q /\ forall r, repv f r -> (q <= r)%Q -> (v <= r)%Q)
      | RNA => ((0 <= q)%Q -> (q <= v)%Q /\ forall r, repv f r -> (q <= r)%Q -> (v <= r)%Q) /\
               ((q <= 0)%Q -> (v <= q)%Q /\ forall r, repv f r -> (r <= q)%Q -> (r <= v)%Q)
      end
  | XInf s => (if s then q < 0 else 0 < q)%Q /\ (forall r, repv f r -> (Qabs r < Qabs q)%Q) /\
      match f_mode f with
      | RNE => (overflow_threshold f <= Qabs q)%Q
      | RTP => s = false
      | RTN => s = true
      | RTZ => False
      | RNA => True
      end
  end.

Lemma repv_wd f r r' : (r == r')%Q -> repv f r -> repv f r'.
Proof. intros E (b & R & V). exists b. split; [exact R|]. now rewrite V. Qed.
Lemma repv_pat f b : representable f b -> repv f (pat_value f b).
Proof. intros R. exists b. split; [exact R|reflexivity]. Qed.
Lemma repv_0 f : okf f -> repv f 0.
Proof.
  intros O. exists (enc f false 0). pose proof (IM_range f O) as (I1 & _).
  assert (R : repm f 0) by (split; [lia|auto]). split; [now apply rep_intro|].
  unfold enc. rewrite pat_value_W by (auto; now apply repm_range). unfold W. destruct O as [O1 O2].
  pose proof (pow2_pos (f_mb f) ltac:(lia)). rewrite V_sub by lia. cbn [sgnz]. change (inject_Z 0) with 0%Q. ring.
Qed.
Lemma pat_value_sign f b : okf f -> representable f b ->
  if pat_sign f b then (pat_value f b <= 0)%Q else (0 <= pat_value f b)%Q.
Proof.
  intros O R. destruct (rep_inv f b O R) as (s & k & B & RK & VB).
  pose proof (repm_range f k O RK) as K. destruct (fields f s k O K) as (_ & F2 & _). rewrite B. unfold enc. rewrite F2. unfold enc in B. rewrite <- B.
  pose proof (pow2q_pos (1 - bias f - f_mb f)) as UP. fold (unit f) in UP. destruct O as [O1 O2].
  pose proof (V_nonneg (f_mb f) O2 k ltac:(lia)) as VN.
  assert (T : (0 <= inject_Z (V (f_mb f) k) * unit f)%Q).
  { apply Qmult_le_0_compat; [|lra]. change 0%Q with (inject_Z 0). rewrite <- Zle_Qle. exact VN. }
  unfold W, sgnz in VB. destruct s; rewrite VB; [rewrite inject_Z_opp|]; lra.
Qed.

Ltac qabs :=
  repeat match goal with
  | |- context [Qabs ?a] => let H := fresh in destruct (Qlt_le_dec a 0) as [H|H];
      [rewrite (Qabs_neg a) in * by lra|rewrite (Qabs_pos a) in * by lra]
  | _ : context [Qabs ?a] |- _ => let H := fresh in destruct (Qlt_le_dec a 0) as [H|H];
      [rewrite (Qabs_neg a) in * by lra|rewrite (Qabs_pos a) in * by lra]
  end.

Lemma thr_pos f : wide f -> (0 < overflow_threshold f)%Q.
Proof.
  intros W. pose proof (wide_okf f W) as O. destruct (repv_0 f O) as (b & R & V). pose proof (rep_below f b W R) as B.
  pose proof (Qabs_nonneg (pat_value f b)). lra.
Qed.
Lemma repv_below f r : wide f -> repv f r -> (Qabs r < overflow_threshold f)%Q.
Proof. intros W (b & R & V). rewrite <- V. now apply rep_below. Qed.

(** The pattern of a well-formed number tells its value. *)
Lemma good_x f z c : okf f -> good f z -> reinterpret_as_bv z = Ok (BV (BVC KBV (f_size f)) c) ->
  (representable f c -> fvalue z (pat_value f c)) /\
  (pat_inf f c -> xvalue z (XInf (pat_sign f c))) /\
  (pat_zero f c -> fvalue z 0).
Proof.
  intros O (F & V & N) A. destruct z as [f' v]. cbn [fv_fmt fv_val] in *. subst f'. rewrite as_bv_spec in A by assumption.
  injection A as A. subst c. destruct (pat_of f v O V) as (P & S & PF). pose proof (emax_pos f O) as [E1 E2].
  assert (A0 : all_ones f <> 0) by (unfold all_ones; lia).
  assert (D : representable f (pat f v) -> fvalue (FPV f v) (pat_value f (pat f v))).
  { intros [[_ RC] _]. destruct (value_pat f v O V) as (_ & q & E & QV); [destruct v; auto; destruct PF; contradiction..|].
    exists q. split; [exact E|exact QV]. }
  split; [exact D|]. unfold pat_inf, pat_zero. split.
  - intros [H1 H2]. unfold xvalue, fp_is_infinite. cbn [fv_val]. rewrite S.
    destruct v as [s|s|s|s m E]; cbn [is_infinite is_signed]; try (destruct PF as [P1 P2]; try (split; reflexivity); congruence).
    destruct (E <? top f); destruct PF as (P1 & P2 & P3); congruence || (rewrite H1 in P1; lia).
  - intros [H1 H2]. destruct v as [s|s|s|s m E]; try (destruct PF as [P1 P2]; congruence).
    + exists 0%Q. split; reflexivity.
    + destruct (E <? top f); destruct PF as (P1 & P2 & P3); lia.
Qed.

Lemma correct_x f q z : wide f -> good f z -> correct f q z -> exists e, xvalue z e /\ rx f q e.
Proof.
  intros Wf G (c & A & C0 & C1). pose proof (wide_okf f Wf) as O. destruct (good_x f z c O G A) as (X1 & X2 & X3).
  assert (RV : forall r, repv f r -> exists b, representable f b /\ (pat_value f b == r)%Q) by (intros r H; exact H).
  destruct (Qeq_dec q 0) as [Z|NZ].
  { exists (XFin 0). split; [exact (X3 (C0 Z))|]. cbn [rx]. split; [now apply repv_0|]. pose proof (thr_pos f Wf) as TP.
    destruct (f_mode f).
    - rewrite Z. change (Qabs 0) with 0%Q. split; [exact TP|]. intros r _. rewrite (Qabs_pos (q - 0)) by lra. pose proof (Qabs_nonneg (q - r)). lra.
    - repeat split; intros; lra.
    - repeat split; intros; lra.
    - repeat split; intros; lra.
    - repeat split; intros; lra. }
  specialize (C1 NZ). clear C0. unfold rounded in C1.
  assert (INF : forall s : bool, (if s then q < 0 else 0 < q)%Q -> (pat_sign f c = true <-> (q < 0)%Q) -> pat_sign f c = s).
  { intros s H S. destruct s; [now apply S|]. destruct (pat_sign f c); [|reflexivity]. destruct S as [S _]. specialize (S eq_refl). lra. }
  destruct (f_mode f) eqn:M; destruct C1 as (P & S & R).
  - (* RNE *) destruct R as [[(R & TL & NE) _]|[TG PI]].
    + exists (XFin (pat_value f c)). split; [exact (X1 R)|]. cbn [rx]. rewrite M. split; [now apply repv_pat|]. split; [exact TL|].
      intros r (b & Rb & Vb). rewrite <- Vb. now apply NE.
    + exists (XInf (pat_sign f c)). split; [exact (X2 PI)|]. cbn [rx]. rewrite M. split; [|split; [|exact TG]].
      * destruct (pat_sign f c); [now apply S|]. destruct (Qlt_le_dec q 0) as [L|L]; [apply S in L; discriminate|lra].
      * intros r Rr. pose proof (repv_below f r Wf Rr). lra.
  - (* RNA *) destruct R as [(R & L & MIN)|[PI ALL]].
    + exists (XFin (pat_value f c)). split; [exact (X1 R)|]. cbn [rx]. rewrite M. split; [now apply repv_pat|].
      pose proof (pat_value_sign f c O R) as PS. split; intros Q0.
      * assert (pat_sign f c = false) as E by (apply (INF false); [lra|exact S]). rewrite E in PS.
        rewrite (Qabs_pos q), (Qabs_pos (pat_value f c)) in L by lra. split; [exact L|]. intros r (b & Rb & Vb) Hr.
        specialize (MIN b Rb). rewrite Vb, (Qabs_pos q), (Qabs_pos r), (Qabs_pos (pat_value f c)) in MIN by lra. now apply MIN.
      * assert (pat_sign f c = true) as E by (apply (INF true); [lra|exact S]). rewrite E in PS.
        rewrite (Qabs_neg q), (Qabs_neg (pat_value f c)) in L by lra. split; [lra|]. intros r (b & Rb & Vb) Hr.
        specialize (MIN b Rb). rewrite Vb, (Qabs_neg q), (Qabs_neg r), (Qabs_neg (pat_value f c)) in MIN by lra.
        specialize (MIN ltac:(lra)). lra.
    + exists (XInf (pat_sign f c)). split; [exact (X2 PI)|]. cbn [rx]. rewrite M. split; [|split; [|trivial]].
      * destruct (pat_sign f c); [now apply S|]. destruct (Qlt_le_dec q 0) as [L|L]; [apply S in L; discriminate|lra].
      * intros r (b & Rb & Vb). rewrite <- Vb. now apply ALL.
  - (* RTP *) destruct R as [(R & L & MIN)|(PI & L & ALL)].
    + exists (XFin (pat_value f c)). split; [exact (X1 R)|]. cbn [rx]. rewrite M. split; [now apply repv_pat|]. split; [exact L|].
      intros r (b & Rb & Vb). rewrite <- Vb. now apply MIN.
    + exists (XInf (pat_sign f c)). split; [exact (X2 PI)|]. cbn [rx]. rewrite M. rewrite (INF false L S). split; [exact L|]. split; [|reflexivity].
      intros r (b & Rb & Vb). pose proof (ALL b Rb) as H. rewrite Vb in H. rewrite (Qabs_pos q) by lra.
      destruct (Qlt_le_dec r 0) as [H0|H0]; [rewrite Qabs_neg by lra|rewrite Qabs_pos by lra; exact H].
      destruct (rep_inv f b O Rb) as (s & k & B & RK & W1).
      pose proof (ALL (enc f (negb s) k) (rep_intro f _ k O RK)) as H1. unfold enc in H1. rewrite pat_value_W in H1 by (auto; now apply repm_range).
      assert (E : (inject_Z (W f (negb s) k) == - inject_Z (W f s k))%Q).
      { unfold W, sgnz. destruct s; cbn [negb]; rewrite inject_Z_opp; ring. }
      rewrite E in H1. rewrite Vb in W1. lra.
  - (* RTN *) destruct R as [(R & L & MIN)|(PI & L & ALL)].
    + exists (XFin (pat_value f c)). split; [exact (X1 R)|]. cbn [rx]. rewrite M. split; [now apply repv_pat|]. split; [exact L|].
      intros r (b & Rb & Vb). rewrite <- Vb. now apply MIN.
    + exists (XInf (pat_sign f c)). split; [exact (X2 PI)|]. cbn [rx]. rewrite M. rewrite (INF true L S). split; [exact L|]. split; [|reflexivity].
      intros r (b & Rb & Vb). pose proof (ALL b Rb) as H. rewrite Vb in H. rewrite (Qabs_neg q) by lra.
      destruct (Qlt_le_dec r 0) as [H0|H0]; [rewrite Qabs_neg by lra; lra|rewrite Qabs_pos by lra].
      destruct (rep_inv f b O Rb) as (s & k & B & RK & W1).
      pose proof (ALL (enc f (negb s) k) (rep_intro f _ k O RK)) as H1. unfold enc in H1. rewrite pat_value_W in H1 by (auto; now apply repm_range).
      assert (E : (inject_Z (W f (negb s) k) == - inject_Z (W f s k))%Q).
      { unfold W, sgnz. destruct s; cbn [negb]; rewrite inject_Z_opp; ring. }
      rewrite E in H1. rewrite Vb in W1. lra.
  - (* RTZ *) destruct R as (R & L & MAX).
    exists (XFin (pat_value f c)). split; [exact (X1 R)|]. cbn [rx]. rewrite M. split; [now apply repv_pat|].
    pose proof (pat_value_sign f c O R) as PS. split; intros Q0.
    + assert (pat_sign f c = false) as E by (apply (INF false); [lra|exact S]). rewrite E in PS.
      rewrite (Qabs_pos q), (Qabs_pos (pat_value f c)) in L by lra. split; [exact PS|]. split; [exact L|]. intros r (b & Rb & Vb) Hr.
      destruct (Qlt_le_dec r 0) as [H0|H0]; [lra|].
      specialize (MAX b Rb). rewrite Vb, (Qabs_pos q), (Qabs_pos r), (Qabs_pos (pat_value f c)) in MAX by lra. now apply MAX.
    + assert (pat_sign f c = true) as E by (apply (INF true); [lra|exact S]). rewrite E in PS.
      rewrite (Qabs_neg q), (Qabs_neg (pat_value f c)) in L by lra. split; [exact PS|]. split; [lra|]. intros r (b & Rb & Vb) Hr.
      destruct (Qlt_le_dec 0 r) as [H0|H0]; [lra|].
      specialize (MAX b Rb). rewrite Vb, (Qabs_neg q), (Qabs_neg r), (Qabs_neg (pat_value f c)) in MAX by lra.
      specialize (MAX ltac:(lra)). lra.
Qed.

Definition ext_le (a b : ext) : Prop := ext_lt a b \/ ext_eq a b.

(** No value of the type lies strictly between q and what q is rounded to. *)
Lemma rx_below f q e r : wide f -> rx f q e -> repv f r -> (r <= q)%Q -> ext_le (XFin r) e.
Proof.
  intros Wf H R L. unfold ext_le. destruct e as [s|v]; cbn [rx ext_lt ext_eq] in *.
  - destruct H as (H1 & H2 & _). left. destruct s; [|reflexivity]. specialize (H2 r R).
    rewrite (Qabs_neg q) in H2 by lra. rewrite (Qabs_neg r) in H2 by lra. lra.
  - assert (T : (r <= v)%Q); [|destruct (Qlt_le_dec r v); [left; assumption|right; lra]].
    destruct H as [RV H]. destruct (f_mode f).
    + destruct H as [_ H]. specialize (H r R). rewrite (Qabs_pos (q - r)) in H by lra.
      destruct (Qlt_le_dec v r) as [X|X]; [|exact X]. rewrite (Qabs_pos (q - v)) in H by lra. lra.
    + destruct H as [H1 H2]. destruct (Qlt_le_dec q 0); [apply H2; [lra|assumption..]|destruct H1 as [H1 _]; lra].
    + destruct H as [H1 H2]. lra.
    + destruct H as [H1 H2]. now apply H2.
    + destruct H as [H1 H2]. destruct (Qlt_le_dec q 0).
      * destruct H2 as (H2 & H3 & _); lra.
      * destruct H1 as (_ & _ & H1); [assumption|]. now apply H1.
Qed.
Lemma rx_above f q e r : wide f -> rx f q e -> repv f r -> (q <= r)%Q -> ext_le e (XFin r).
Proof.
  intros Wf H R L. unfold ext_le. destruct e as [s|v]; cbn [rx ext_lt ext_eq] in *.
  - destruct H as (H1 & H2 & _). left. destruct s; [reflexivity|]. specialize (H2 r R).
    rewrite (Qabs_pos q) in H2 by lra. rewrite (Qabs_pos r) in H2 by lra. lra.
  - assert (T : (v <= r)%Q); [|destruct (Qlt_le_dec v r); [left; assumption|right; lra]].
    destruct H as [RV H]. destruct (f_mode f).
    + destruct H as [_ H]. specialize (H r R). rewrite (Qabs_neg (q - r)) in H by lra.
      destruct (Qlt_le_dec r v) as [X|X]; [|exact X]. rewrite (Qabs_neg (q - v)) in H by lra. lra.
    + destruct H as [H1 H2]. destruct (Qlt_le_dec 0 q); [apply H1; [lra|assumption..]|destruct H2 as [H2 _]; lra].
    + destruct H as [H1 H2]. now apply H2.
    + destruct H as [H1 H2]. lra.
    + destruct H as [H1 H2]. destruct (Qlt_le_dec 0 q).
      * destruct H1 as (H1 & H3 & _); lra.
      * destruct H2 as (_ & _ & H2); [assumption|]. now apply H2.
Qed.
Lemma ext_le_anti r e : ext_le (XFin r) e -> ext_le e (XFin r) -> ext_eq e (XFin r).
Proof.
  unfold ext_le. destruct e as [s|v]; cbn [ext_lt ext_eq].
  - intros [->|[]] [X|[]]. discriminate.
  - intros H1 H2. lra.
Qed.
(** A value of the type is rounded to itself. *)
Lemma rx_exact f q e : wide f -> rx f q e -> repv f q -> ext_eq e (XFin q).
Proof. intros W H R. apply ext_le_anti; [apply (rx_below f q e q W H R)|apply (rx_above f q e q W H R)]; lra. Qed.
(** Rounding is monotone. *)
Lemma rx_mono f q q' e e' : wide f -> (q < q')%Q -> rx f q e -> rx f q' e' -> ext_le e e'.
Proof.
  intros Wf L H H'. destruct e as [s|v], e' as [s'|v'].
  - unfold ext_le. cbn [ext_lt ext_eq]. destruct s; [destruct s'; auto|]. destruct s'; [|auto]. cbn [rx] in *. destruct H as (H & _), H' as (H' & _). lra.
  - unfold ext_le. cbn [ext_lt ext_eq]. destruct s; [auto|]. exfalso. destruct H' as [R' H']. destruct H as (P & ALL & M).
    pose proof (ALL v' R') as X. rewrite (Qabs_pos q) in X by lra. assert (X' : (v' < q)%Q) by (pose proof (Qle_Qabs v'); lra).
    destruct (f_mode f).
    + destruct H' as [H' _]. rewrite Qabs_pos in M by lra. rewrite Qabs_pos in H' by lra. lra.
    + destruct H' as [H' _]. destruct (H' ltac:(lra)). lra.
    + destruct H' as [H' _]. lra.
    + discriminate.
    + exact M.
  - unfold ext_le. cbn [ext_lt ext_eq]. destruct s'; [|auto]. exfalso. destruct H as [R H]. destruct H' as (P & ALL & M).
    pose proof (ALL v R) as X. rewrite (Qabs_neg q') in X by lra.
    assert (X' : (q' < v)%Q). { pose proof (Qle_Qabs (- v)) as Y. rewrite Qabs_opp in Y. lra. }
    destruct (f_mode f).
    + destruct H as [H _]. rewrite Qabs_neg in M by lra. rewrite Qabs_neg in H by lra. lra.
    + destruct H as [_ H]. destruct (H ltac:(lra)). lra.
    + discriminate.
    + destruct H as [H _]. lra.
    + exact M.
  - destruct (Qlt_le_dec q v) as [A|A]; [|apply (rx_below f q' _ v Wf H'); [apply H|lra]].
    destruct (Qlt_le_dec v' q') as [B|B]; [|apply (rx_above f q _ v' Wf H); [apply H'|lra]].
    destruct (Qlt_le_dec q' v) as [C|C]; [|apply (rx_below f q' _ v Wf H'); [apply H|lra]].
    destruct (Qlt_le_dec v' q) as [D|D]; [|apply (rx_above f q _ v' Wf H); [apply H'|lra]].
    exfalso. cbn [rx] in *. destruct H as [R H], H' as [R' H']. destruct (f_mode f).
    + destruct H as [_ H], H' as [_ H']. specialize (H v' R'). specialize (H' v R).
      rewrite (Qabs_neg (q - v)), (Qabs_pos (q - v')) in H by lra. rewrite (Qabs_pos (q' - v')), (Qabs_neg (q' - v)) in H' by lra. lra.
    + destruct H as [_ H], H' as [H' _]. destruct (Qlt_le_dec q 0) as [N|N].
      * destruct (H ltac:(lra)). lra.
      * destruct (H' ltac:(lra)). lra.
    + lra.
    + lra.
    + destruct H as [H _], H' as [H1 H2]. destruct (Qlt_le_dec q 0) as [N|N].
      * destruct (Qlt_le_dec q' 0) as [N'|N'].
        -- destruct (H2 ltac:(lra)) as (_ & Y & _). lra.
        -- destruct (H1 ltac:(lra)) as (Y & _). lra.
      * destruct (H ltac:(lra)) as (_ & Y & _). lra.
Qed.

(** ** A value of the type determines the number *)
Lemma value_rep f x a : okf f -> good f x -> fvalue x a ->
  is_nan (fv_val x) = false /\ is_infinite (fv_val x) = false /\ representable f (pat f (fv_val x)) /\ (pat_value f (pat f (fv_val x)) == a)%Q.
Proof.
  intros O (F & V & _) (q & E & Q). rewrite F in E.
  assert (N : is_nan (fv_val x) = false) by (destruct (fv_val x); auto; discriminate).
  assert (N' : is_infinite (fv_val x) = false) by (destruct (fv_val x); auto; discriminate).
  destruct (value_pat f (fv_val x) O V N N') as (R & q2 & E2 & Q2). rewrite E in E2. injection E2 as <-.
  split; [exact N|]. split; [exact N'|]. split; [exact R|]. now rewrite <- Q2.
Qed.
Lemma value_repv f x a : okf f -> good f x -> fvalue x a -> repv f a.
Proof. intros O G H. destruct (value_rep f x a O G H) as (_ & _ & R & Q). eexists. split; [exact R|exact Q]. Qed.
Lemma value_signed f x a : okf f -> good f x -> fvalue x a -> ~ (a == 0)%Q -> (is_signed (fv_val x) = true <-> (a < 0)%Q).
Proof.
  intros O G H NZ. destruct (value_rep f x a O G H) as (_ & _ & R & Q). pose proof (pat_value_sign f _ O R) as S.
  destruct G as (_ & V & _). destruct (pat_of f _ O V) as (_ & PS & _). rewrite PS in S. destruct (is_signed (fv_val x)); split; intros; try reflexivity; try discriminate; lra.
Qed.
Lemma same_object f x y a b : wide f -> good f x -> good f y -> fvalue x a -> fvalue y b -> (a == b)%Q ->
  is_signed (fv_val x) = is_signed (fv_val y) -> x = y.
Proof.
  intros Wf G G' H H' E S. pose proof (wide_okf f Wf) as O. destruct (value_rep f x a O G H) as (N & _ & R & Q).
  destruct (value_rep f y b O G' H') as (N' & _ & R' & Q'). pose proof G as (F & V & _). pose proof G' as (F' & V' & _).
  destruct (pat_of f _ O V) as (_ & PS & _). destruct (pat_of f _ O V') as (_ & PS' & _).
  assert (P : pat f (fv_val x) = pat f (fv_val y)).
  { destruct (rep_inv f _ O R) as (s & k & B & RK & VB). destruct (rep_inv f _ O R') as (s' & k' & B' & RK' & VB').
    pose proof (repm_range f k O RK) as K. pose proof (repm_range f k' O RK') as K'.
    destruct (fields f s k O K) as (_ & F2 & _). destruct (fields f s' k' O K') as (_ & F2' & _). unfold enc in B, B'.
    rewrite B in PS. rewrite B' in PS'. rewrite F2 in PS. rewrite F2' in PS'.
    assert (SE : s' = s) by congruence. rewrite SE in *. clear SE PS'.
    assert (WE : W f s k = W f s k').
    { pose proof (pow2q_pos (1 - bias f - f_mb f)) as UP. apply (val_eq (unit f) UP).
      apply Qeq_trans with (pat_value f (pat f (fv_val x))); [symmetry; exact VB|]. rewrite Q, E, <- Q'. exact VB'. }
    assert (VE : FPPatFacts.V (f_mb f) k = FPPatFacts.V (f_mb f) k') by (unfold W, sgnz in WE; destruct s; lia).
    assert (KE : k = k').
    { destruct O as [O1 O2]. destruct (Z.lt_trichotomy k k') as [L|[L|L]]; [|exact L|].
      - pose proof (V_lt (f_mb f) O2 k k' ltac:(lia)). lia.
      - pose proof (V_lt (f_mb f) O2 k' k ltac:(lia)). lia. }
    rewrite B, B', KE. reflexivity. }
  pose proof (pat_inj f _ _ O V V' N N' P) as D. clear - D F F'. destruct x as [fx vx], y as [fy vy]. cbn in *. congruence.
Qed.
Lemma same_object_nz f x y a b : wide f -> good f x -> good f y -> fvalue x a -> fvalue y b -> (a == b)%Q -> ~ (a == 0)%Q -> x = y.
Proof.
  intros W G G' H H' E NZ. pose proof (wide_okf f W) as O. eapply same_object; eauto.
  pose proof (value_signed f x a O G H NZ) as A. pose proof (value_signed f y b O G' H' ltac:(lra)) as B.
  destruct (is_signed (fv_val x)), (is_signed (fv_val y)); auto.
  - assert (a < 0)%Q by (apply A; reflexivity). assert (false = true) by (apply B; lra). discriminate.
  - assert (b < 0)%Q by (apply B; reflexivity). assert (false = true) by (apply A; lra). discriminate.
Qed.

(** ** Commutativity of the exact operations *)
Lemma num_add_comm g x y : num_add g x y = num_add g y x.
Proof.
  destruct x as [s|s|s|s n d], y as [s'|s'|s'|s' n' d']; cbn [num_add]; try reflexivity.
  - destruct s, s'; reflexivity.
  - destruct s, s'; reflexivity.
  - rewrite (Z.add_comm (sgnz s' n' * d)), (Z.mul_comm d' d). reflexivity.
Qed.
Lemma num_mul_comm x y : num_mul x y = num_mul y x.
Proof.
  destruct x as [s|s|s|s n d], y as [s'|s'|s'|s' n' d']; cbn [num_mul]; try reflexivity; rewrite (xorb_comm s' s); try reflexivity.
  rewrite (Z.mul_comm n'), (Z.mul_comm d'). reflexivity.
Qed.

(** ** Rounding commutes with negation in the symmetric directions *)
Definition symmetric (r : rmode) : Prop := r = RNE \/ r = RNA \/ r = RTZ.
Definition mneg (v : mpfr) : mpfr :=
  match v with MZero s => MZero (negb s) | MInf s => MInf (negb s) | MFin s m E => MFin (negb s) m E | v => v end.
Lemma rnd_neg c s n d : (forall t, toward_zero (c_rnd c) t = toward_zero (c_rnd c) s) ->
  mpfr_round c (NRat (negb s) n d) = mneg (mpfr_round c (NRat s n d)).
Proof.
  intros T. specialize (T (negb s)).
  assert (IC : forall t r D, incr (c_rnd c) (negb s) t r D = incr (c_rnd c) s t r D).
  { intros t r D. unfold incr. destruct (c_rnd c); try reflexivity; now rewrite T. }
  unfold mpfr_round, rnd_set, round_int. destruct (scaled _ _ _) as [N D]. rewrite IC. destruct (renorm _ _ _) as [m E].
  set (t := Z.sgn _). clearbody t. unfold finish, check_range.
  assert (SN : forall m E, subnormalize c (negb s) m E t = mneg (subnormalize c s m E t)).
  { intros m' E'. unfold subnormalize. destruct (_ && _); [|reflexivity].
    destruct (c_rnd c); rewrite ?T; destruct (renorm _ _ _); reflexivity. }
  destruct (E <? c_emin c); [|destruct (c_emax c <? E)].
  - replace (match c_rnd c with RoundToNearest => (E + 1 <? c_emin c) || ((m =? 2 ^ (c_prec c - 1)) && (0 <=? t)) | g => toward_zero g (negb s) end)
      with (match c_rnd c with RoundToNearest => (E + 1 <? c_emin c) || ((m =? 2 ^ (c_prec c - 1)) && (0 <=? t)) | g => toward_zero g s end)
      by (destruct (c_rnd c); auto).
    match goal with |- context [if ?b then MZero (negb s) else _] => destruct b end; [reflexivity|]. destruct (c_sub c); [apply SN|reflexivity].
  - rewrite T. destruct (toward_zero (c_rnd c) s); [|reflexivity]. destruct (c_sub c); [apply SN|reflexivity].
  - destruct (c_sub c); [apply SN|reflexivity].
Qed.
Lemma init_neg f r q : wide f -> symmetric (f_mode f) -> nval r q -> fp_init f (num_neg r) = fp_neg (fp_init f r).
Proof.
  intros Wf SY H. pose proof (wide_okf f Wf) as O. pose proof (nval_ok _ _ H) as OK. pose proof (init_good f r Wf OK) as G.
  assert (NN : is_nan (fv_val (fp_init f r)) = false).
  { destruct (correct_x f q _ Wf G (init_correct f r q Wf H)) as (e & X & _). destruct e as [s|v]; cbn [xvalue] in X.
    - destruct X as [X _]. unfold fp_is_infinite in X. destruct (fv_val _); auto; discriminate.
    - destruct X as (v' & X & _). destruct (fv_val _); auto; discriminate. }
  destruct (neg_good f _ Wf G NN) as [-> _]. unfold fp_init in *.
  assert (E : mpfr_round (fctx f) (num_neg r) = mneg (mpfr_round (fctx f) r)).
  { destruct H as [s q H|s n d q Hn Hd H]; [reflexivity|]. cbn [num_neg]. apply rnd_neg. rewrite fctx_eq by exact O. cbn [c_rnd].
    intros t. destruct SY as [E|[E|E]]; rewrite E; reflexivity. }
  rewrite E. destruct (mpfr_round (fctx f) r) as [s|s|s|s m e] eqn:R; try reflexivity.
  exfalso. destruct H as [s' q H|s' n d q Hn Hd H]; [discriminate|]. unfold fp_store in NN. cbn [is_nan andb] in NN.
  unfold mpfr_round, finish, check_range, subnormalize in R. destruct (rnd_set _ _ _ _ _) as [[m E'] t].
  repeat match type of R with context [if ?b then _ else _] => destruct b end; try discriminate;
  destruct (renorm _ _ _); discriminate.
Qed.
Lemma num_sub_neg g x y a b : nval x a -> nval y b -> ~ (a == b)%Q -> num_sub g y x = num_neg (num_sub g x y).
Proof.
  intros [s q H|s n d q Hn Hd H] [s' q' H'|s' n' d' q' Hn' Hd' H'] NE; unfold num_sub; cbn [num_neg num_add].
  - exfalso. lra.
  - rewrite negb_involutive. reflexivity.
  - reflexivity.
  - assert (NZ : sgnz s n * d' + sgnz (negb s') n' * d <> 0).
    { intros X. apply NE. rewrite H, H', !ratq_z by assumption. assert (E : sgnz s n * d' = sgnz s' n' * d) by (destruct s, s'; cbn [negb sgnz] in *; lia).
      pose proof (inj_nz d Hd). pose proof (inj_nz d' Hd'). field_simplify_eq; [|split; assumption].
      rewrite <- !inject_Z_mult. rewrite E, (Z.mul_comm d). reflexivity. }
    assert (EQ : sgnz s' n' * d + sgnz (negb s) n * d' = - (sgnz s n * d' + sgnz (negb s') n' * d)) by (destruct s, s'; cbn [negb sgnz]; lia).
    rewrite EQ. set (k := sgnz s n * d' + _) in *. clearbody k. replace (- k =? 0) with false by lia. replace (k =? 0) with false by lia. cbn [num_neg].
    replace (- k <? 0) with (negb (k <? 0)) by lia. rewrite Z.abs_opp, (Z.mul_comm d' d). reflexivity.
Qed.
Lemma num_mul_neg x y a b : nval x a -> nval y b -> num_mul (num_neg x) y = num_neg (num_mul x y).
Proof. intros [s q H|s n d q Hn Hd H] [s' q' H'|s' n' d' q' Hn' Hd' H']; cbn [num_neg num_mul]; destruct s, s'; reflexivity. Qed.
Lemma num_div_neg x y a b : nval x a -> nval y b -> ~ (b == 0)%Q -> num_div (num_neg x) y = num_neg (num_div x y).
Proof. intros [s q H|s n d q Hn Hd H] [s' q' H'|s' n' d' q' Hn' Hd' H'] NZ; cbn [num_neg num_div]; try contradiction; destruct s, s'; reflexivity. Qed.
Lemma num_add_neg g x y a b : nval x a -> nval y b -> ~ (a + b == 0)%Q -> num_add g (num_neg x) (num_neg y) = num_neg (num_add g x y).
Proof.
  intros H H' NE. pose proof (num_sub_neg g (num_neg y) x (- b) a ltac:(now apply nval_neg) H ltac:(lra)) as E.
  unfold num_sub in E. assert (NI : forall v, num_neg (num_neg v) = v) by (intros []; cbn; now rewrite negb_involutive).
  rewrite NI in E. rewrite E, NI. apply num_add_comm.
Qed.
