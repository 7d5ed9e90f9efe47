(** Signed division, carry, item assignment, repetition, substitution, integers and formulas. *)
From Coq Require Import Lia ZifyBool.
From Verif Require Import PyBase BVModel BVSpec BVFacts BVOps OpModel OpSpec OpFacts SMTTerm SMTModel SMTSpec SMTFacts SMTOps SMTInfix.

(** ** Signed division *)
Lemma neg_msb w a : 1 <= w -> 0 <= a < 2 ^ w -> msb w a = true -> neg w a = - signed w a /\ signed w a < 0.
Proof.
  intros Hw Ha Hm. unfold msb in Hm. unfold neg, signed. rewrite (pow2_split w Hw) in *.
  destruct (Z.ltb_spec (2 * a) (2 * 2 ^ (w - 1))); [lia|]. split; [|lia].
  symmetry. apply Zmod_unique with (-1); lia.
Qed.
Lemma pos_msb w a : 1 <= w -> 0 <= a < 2 ^ w -> msb w a = false -> signed w a = a.
Proof.
  intros Hw Ha Hm. unfold msb in Hm. unfold signed. rewrite (pow2_split w Hw) in *.
  destruct (Z.ltb_spec (2 * a) (2 * 2 ^ (w - 1))); lia.
Qed.
Lemma neg_mod w z : 0 <= w -> neg w (z mod 2 ^ w) = (- z) mod 2 ^ w.
Proof.
  intros Hw. unfold neg. pose proof (pow2_pos w Hw).
  rewrite <- (Z.sub_0_l (z mod _)), Zminus_mod_idemp_r. now rewrite Z.sub_0_l.
Qed.
Lemma udiv_pos w a b : 0 < b -> udiv w a b = a / b.
Proof. intros H. unfold udiv. now destruct (Z.eqb_spec b 0); [lia|]. Qed.
Lemma urem_pos a b : 0 < b -> urem a b = a mod b.
Proof. intros H. unfold urem. now destruct (Z.eqb_spec b 0); [lia|]. Qed.

Lemma abs_lt w a : 1 <= w -> 0 <= a < 2 ^ w -> Z.abs (signed w a) < 2 ^ w.
Proof. intros Hw Ha. unfold signed. destruct (Z.ltb_spec (2 * a) (2 ^ w)); lia. Qed.

Lemma div_small_range w p q : 1 <= w -> 0 <= p < 2 ^ w -> 0 < q -> (p / q) mod 2 ^ w = p / q.
Proof. intros Hw Hp Hq. apply Z.mod_small, div_range; lia. Qed.
Lemma mod_small_range w p q : 1 <= w -> 0 <= p < 2 ^ w -> 0 < q -> (p mod q) mod 2 ^ w = p mod q.
Proof.
  intros Hw Hp Hq. apply Z.mod_small. rewrite <- (urem_pos p q Hq). apply urem_range; lia.
Qed.

Lemma sdiv_quot w a b : 1 <= w -> 0 <= a < 2 ^ w -> 0 <= b < 2 ^ w -> b <> 0 ->
  sdiv w a b = Z.quot (signed w a) (signed w b) mod 2 ^ w.
Proof.
  intros Hw Ha Hb Hz. pose proof (abs_lt w a Hw Ha) as La. pose proof (abs_lt w b Hw Hb) as Lb.
  assert (Hsb : signed w b <> 0) by (rewrite signed_zero; lia).
  unfold sdiv. destruct (msb w a) eqn:Ma, (msb w b) eqn:Mb.
  - destruct (neg_msb w a Hw Ha Ma) as [Na La']. destruct (neg_msb w b Hw Hb Mb) as [Nb Lb'].
    rewrite Na, Nb, udiv_pos by lia. rewrite <- Z.quot_opp_opp by lia. rewrite Z.quot_div_nonneg by lia.
    symmetry. apply div_small_range; lia.
  - destruct (neg_msb w a Hw Ha Ma) as [Na La']. pose proof (pos_msb w b Hw Hb Mb) as Pb.
    rewrite Na, udiv_pos by lia. rewrite Pb in *.
    rewrite <- (div_small_range w (- signed w a) b) by lia. rewrite neg_mod by lia. f_equal.
    rewrite <- Z.quot_div_nonneg by lia. rewrite Z.quot_opp_l by lia. lia.
  - destruct (neg_msb w b Hw Hb Mb) as [Nb Lb']. pose proof (pos_msb w a Hw Ha Ma) as Pa.
    rewrite Nb, udiv_pos by lia. rewrite Pa in *.
    rewrite <- (div_small_range w a (- signed w b)) by lia. rewrite neg_mod by lia. f_equal.
    rewrite <- Z.quot_div_nonneg by lia. rewrite Z.quot_opp_r by lia. lia.
  - pose proof (pos_msb w a Hw Ha Ma) as Pa. pose proof (pos_msb w b Hw Hb Mb) as Pb.
    rewrite Pa, Pb in *. rewrite udiv_pos by lia. rewrite Z.quot_div_nonneg by lia. symmetry. apply div_small_range; lia.
Qed.
Lemma sdiv_zero w a : 1 <= w -> 0 <= a < 2 ^ w -> sdiv w a 0 = if signed w a <? 0 then 1 else 2 ^ w - 1.
Proof.
  intros Hw Ha. assert (M0 : msb w 0 = false) by (unfold msb; pose proof (pow2_pos (w - 1)); lia).
  unfold sdiv. rewrite M0. destruct (msb w a) eqn:Ma.
  - destruct (neg_msb w a Hw Ha Ma) as [Na La']. replace (signed w a <? 0) with true by lia.
    unfold udiv. cbn [Z.eqb]. unfold neg. symmetry. apply Zmod_unique with (-1); rewrite (pow2_split w Hw); pose proof (pow2_pos (w - 1)); lia.
  - rewrite (pos_msb w a Hw Ha Ma). now replace (a <? 0) with false by lia.
Qed.
Lemma srem_rem w a b : 1 <= w -> 0 <= a < 2 ^ w -> 0 <= b < 2 ^ w -> b <> 0 ->
  srem w a b = Z.rem (signed w a) (signed w b) mod 2 ^ w.
Proof.
  intros Hw Ha Hb Hz. pose proof (abs_lt w a Hw Ha) as La. pose proof (abs_lt w b Hw Hb) as Lb.
  assert (Hsb : signed w b <> 0) by (rewrite signed_zero; lia).
  unfold srem. destruct (msb w a) eqn:Ma, (msb w b) eqn:Mb.
  - destruct (neg_msb w a Hw Ha Ma) as [Na La']. destruct (neg_msb w b Hw Hb Mb) as [Nb Lb'].
    rewrite Na, Nb, urem_pos by lia. rewrite <- (mod_small_range w (- signed w a) (- signed w b)) by lia. rewrite neg_mod by lia.
    f_equal. rewrite <- Z.rem_mod_nonneg by lia. rewrite Z.rem_opp_opp by lia. lia.
  - destruct (neg_msb w a Hw Ha Ma) as [Na La']. pose proof (pos_msb w b Hw Hb Mb) as Pb.
    rewrite Na, urem_pos by lia. rewrite Pb in *.
    rewrite <- (mod_small_range w (- signed w a) b) by lia. rewrite neg_mod by lia. f_equal.
    rewrite <- Z.rem_mod_nonneg by lia. rewrite Z.rem_opp_l by lia. lia.
  - destruct (neg_msb w b Hw Hb Mb) as [Nb Lb']. pose proof (pos_msb w a Hw Ha Ma) as Pa.
    rewrite Nb, urem_pos by lia. rewrite Pa in *. rewrite <- (mod_small_range w a (- signed w b)) by lia. f_equal.
    rewrite <- Z.rem_mod_nonneg by lia. now rewrite Z.rem_opp_r by lia.
  - pose proof (pos_msb w a Hw Ha Ma) as Pa. pose proof (pos_msb w b Hw Hb Mb) as Pb.
    rewrite Pa, Pb in *. rewrite urem_pos by lia. rewrite Z.rem_mod_nonneg by lia. symmetry. apply mod_small_range; lia.
Qed.
Lemma srem_zero w a : 1 <= w -> 0 <= a < 2 ^ w -> srem w a 0 = a.
Proof.
  intros Hw Ha. assert (M0 : msb w 0 = false) by (unfold msb; pose proof (pow2_pos (w - 1)); lia).
  unfold srem. rewrite M0. unfold urem. cbn [Z.eqb]. destruct (msb w a) eqn:Ma; [|reflexivity].
  destruct (neg_msb w a Hw Ha Ma) as [Na La']. rewrite Na. unfold neg. rewrite Z.opp_involutive. apply signed_mod; lia.
Qed.

(** Floor and truncation. *)
Lemma floor_trunc a b : b <> 0 ->
  (Z.rem a b = 0 \/ 0 <= a * b -> a / b = Z.quot a b /\ a mod b = Z.rem a b) /\
  (Z.rem a b <> 0 -> a * b < 0 -> a / b = Z.quot a b - 1 /\ a mod b = Z.rem a b + b).
Proof.
  intros Hb. pose proof (Z.quot_rem a b Hb) as E. pose proof (Z.rem_bound_abs a b Hb) as B.
  pose proof (Z.rem_nonneg a b Hb) as Sp. pose proof (Z.rem_nonpos a b Hb) as Sn.
  pose proof (Z.div_mod a b Hb) as Dm.
  split.
  - intros H. assert (a / b = Z.quot a b) as D.
    { symmetry. apply Z.div_unique with (Z.rem a b); [|lia]. destruct H as [H|H]; [lia|].
      destruct (Z.lt_ge_cases 0 b); [left|right].
      - assert (0 <= a) by nia. lia.
      - assert (a <= 0) by nia. lia. }
    split; [exact D|]. rewrite D in Dm. lia.
  - intros H1 H2. assert (a / b = Z.quot a b - 1) as D.
    { symmetry. apply Z.div_unique with (Z.rem a b + b); [|lia].
      destruct (Z.lt_ge_cases 0 b); [left|right].
      - assert (a < 0) by nia. lia.
      - assert (0 < a) by nia. lia. }
    split; [exact D|]. rewrite D in Dm. lia.
Qed.

Lemma mod_neq a b m : 0 < m -> 0 < Z.abs (a - b) < m -> a mod m <> b mod m.
Proof.
  intros Hm H E. assert (D : (a - b) mod m = 0).
  { rewrite Zminus_mod, E, Z.sub_diag. apply Z.mod_0_l. lia. }
  apply Z.mod_divide in D; [|lia]. destruct D as [k Hk].
  destruct (Z.eq_dec k 0) as [->|]; [lia|]. nia.
Qed.

Lemma sdiv_floor_iff w a b : 1 <= w -> 0 <= a < 2 ^ w -> 0 <= b < 2 ^ w -> b <> 0 ->
  (sdiv w a b = (signed w a / signed w b) mod 2 ^ w <->
   (Z.rem (signed w a) (signed w b) = 0 \/ 0 <= signed w a * signed w b)).
Proof.
  intros Hw Ha Hb Hz. assert (Hsb : signed w b <> 0) by (rewrite signed_zero; lia).
  rewrite sdiv_quot by auto. destruct (floor_trunc (signed w a) (signed w b) Hsb) as [F1 F2].
  split.
  - intros E. destruct (Z.eq_dec (Z.rem (signed w a) (signed w b)) 0); [now left|].
    destruct (Z.lt_ge_cases (signed w a * signed w b) 0); [|right; lia]. exfalso.
    destruct F2 as [F2 _]; auto. rewrite F2 in E. revert E. apply mod_neq; [apply pow2_pos; lia|].
    rewrite (pow2_split w Hw). pose proof (pow2_pos (w - 1)). lia.
  - intros H. destruct (F1 H) as [-> _]. reflexivity.
Qed.
Lemma srem_floor_iff w a b : 1 <= w -> 0 <= a < 2 ^ w -> 0 <= b < 2 ^ w -> b <> 0 ->
  (srem w a b = (signed w a mod signed w b) mod 2 ^ w <->
   (Z.rem (signed w a) (signed w b) = 0 \/ 0 <= signed w a * signed w b)).
Proof.
  intros Hw Ha Hb Hz. assert (Hsb : signed w b <> 0) by (rewrite signed_zero; lia).
  rewrite srem_rem by auto. destruct (floor_trunc (signed w a) (signed w b) Hsb) as [F1 F2].
  split.
  - intros E. destruct (Z.eq_dec (Z.rem (signed w a) (signed w b)) 0); [now left|].
    destruct (Z.lt_ge_cases (signed w a * signed w b) 0); [|right; lia]. exfalso.
    destruct F2 as [_ F2]; auto. rewrite F2 in E. revert E. apply mod_neq; [apply pow2_pos; lia|].
    pose proof (abs_lt w b Hw Hb). lia.
  - intros H. destruct (F1 H) as [_ ->]. reflexivity.
Qed.

Section M.
Variable S : simplifier.
Hypothesis FS : faithful S.

(** Value of the concrete signed division. *)
Lemma conc_sdiv e x v y : swf x -> swf y -> ssize y = ssize x ->
  (forall (B : Type) (g : bv -> bv -> res B), bv_cast g (meaning e x) (vmeaning e v) = g (meaning e x) (meaning e y)) ->
  bvsdiv (meaning e x) (vmeaning e v) = Ok (New (BV (scls x)
    (if evalv e (sterm y) =? 0 then 2 ^ csize (scls x) - 1
     else (signed (csize (scls x)) (evalv e (sterm x)) / signed (csize (scls x)) (evalv e (sterm y))) mod 2 ^ csize (scls x)))).
Proof.
  intros Hx Hy Hs H. unfold bvsdiv. rewrite H.
  assert (X : wf (meaning e x)) by now apply swf_meaning.
  assert (Y : wf (meaning e y)) by now apply swf_meaning.
  assert (X1 : 1 <= csize (scls x)) by (destruct Hx; auto).
  assert (Y1 : bsize (meaning e y) = csize (scls x)) by exact Hs.
  rewrite as_sint_spec by (auto; lia). cbn [bind]. rewrite Y1. change (bval (meaning e y)) with (evalv e (sterm y)).
  assert (Ry : 0 <= evalv e (sterm y) < 2 ^ csize (scls x)) by (fold (ssize x); rewrite <- Hs; now apply eval_range).
  destruct (Z.eqb_spec (evalv e (sterm y)) 0) as [E|E].
  - replace (signed _ _ =? 0) with true. 2:{ symmetry. apply Z.eqb_eq. now apply signed_zero. }
    rewrite renew_eq by auto. change (bsize (meaning e x)) with (csize (scls x)). rewrite shiftl1 by lia.
    rewrite Z.mod_small; [reflexivity|]. pose proof (pow2_pos (csize (scls x))). lia.
  - replace (signed _ _ =? 0) with false. 2:{ symmetry. apply Z.eqb_neq. now rewrite signed_zero. }
    rewrite as_sint_spec by auto. cbn [bind]. rewrite renew_eq by auto. reflexivity.
Qed.
Lemma conc_srem e x v y : swf x -> swf y -> ssize y = ssize x ->
  (forall (B : Type) (g : bv -> bv -> res B), bv_cast g (meaning e x) (vmeaning e v) = g (meaning e x) (meaning e y)) ->
  exists o, bvsrem (meaning e x) (vmeaning e v) = Ok o /\ rv_val (meaning e x) o = BV (scls x)
    (if evalv e (sterm y) =? 0 then evalv e (sterm x)
     else (signed (csize (scls x)) (evalv e (sterm x)) mod signed (csize (scls x)) (evalv e (sterm y))) mod 2 ^ csize (scls x)).
Proof.
  intros Hx Hy Hs H. unfold bvsrem. rewrite H.
  assert (X : wf (meaning e x)) by now apply swf_meaning.
  assert (Y : wf (meaning e y)) by now apply swf_meaning.
  assert (X1 : 1 <= csize (scls x)) by (destruct Hx; auto).
  assert (Y1 : bsize (meaning e y) = csize (scls x)) by exact Hs.
  rewrite as_sint_spec by (auto; lia). cbn [bind]. rewrite Y1. change (bval (meaning e y)) with (evalv e (sterm y)).
  assert (Ry : 0 <= evalv e (sterm y) < 2 ^ csize (scls x)) by (fold (ssize x); rewrite <- Hs; now apply eval_range).
  destruct (Z.eqb_spec (evalv e (sterm y)) 0) as [E|E].
  - replace (signed _ _ =? 0) with true. 2:{ symmetry. apply Z.eqb_eq. now apply signed_zero. }
    eexists; split; reflexivity.
  - replace (signed _ _ =? 0) with false. 2:{ symmetry. apply Z.eqb_neq. now rewrite signed_zero. }
    rewrite as_sint_spec by auto. cbn [bind]. eexists; split; [reflexivity|]. rewrite renew_eq by auto. reflexivity.
Qed.

(** The operand value seen by both families. *)
Lemma sdiv_iff x v : swf x -> accepted (csize (scls x)) v ->
  exists r, s_bvsdiv S x v = Ok r /\ scls r = scls x /\ swf r /\
    forall e b, coerce (scls x) (vmeaning e v) = Ok b ->
      let n := csize (scls x) in let sa := signed n (evalv e (sterm x)) in let sb := signed n (bval b) in
      (bvsdiv (meaning e x) (vmeaning e v) = Ok (New (meaning e r)) <->
       if bval b =? 0 then 0 <= sa \/ n = 1 else Z.rem sa sb = 0 \/ 0 <= sa * sb).
Proof.
  intros Hx Hv. destruct (s_bin_ok S FS XSDiv x v Hx Hv) as (y & r & E1 & E2 & E3 & E4 & E5 & E6 & E7).
  exists r. repeat (split; [now auto|]). intros e b Hb n sa sb.
  assert (Eb : b = meaning e y).
  { specialize (E7 e _ (fun _ y => Ok y)). unfold bv_cast in E7. change (bcls (meaning e x)) with (scls x) in E7.
    rewrite Hb in E7. cbn [bind] in E7. congruence. }
  subst b. rewrite (conc_sdiv e x v y Hx E3 E2 (E7 e)). change (bval (meaning e y)) with (evalv e (sterm y)) in *.
  assert (X1 : 1 <= n) by (destruct Hx; auto).
  assert (Rx : 0 <= evalv e (sterm x) < 2 ^ n) by now apply eval_range.
  assert (Ry : 0 <= evalv e (sterm y) < 2 ^ n) by (unfold n; fold (ssize x); rewrite <- E2; now apply eval_range).
  assert (G : forall z, (Ok (New (BV (scls x) z)) = Ok (New (meaning e r)) <-> op_sem XSDiv n (evalv e (sterm x)) (evalv e (sterm y)) = z)).
  { intros z. fold n in E6. rewrite <- E6. split; [intros Q; inversion Q; reflexivity|intros <-]. do 2 f_equal. symmetry. now apply meaning_eq. }
  rewrite G. cbn [op_sem]. fold n. fold sa. fold sb.
  destruct (Z.eqb_spec (evalv e (sterm y)) 0) as [Z0|Z0].
  - rewrite Z0, sdiv_zero by auto. fold sa. pose proof (Z.pow_gt_lin_r 2 n).
    destruct (Z.ltb_spec sa 0); [|split; lia].
    split; [|intros [?|Hn]; [lia|]].
    + intros Q. right. assert (2 ^ n = 2 ^ 1) as Q2 by (change (2 ^ 1) with 2; lia). apply Z.pow_inj_r in Q2; lia.
    + rewrite Hn. reflexivity.
  - apply sdiv_floor_iff; auto.
Qed.
Lemma srem_iff x v : swf x -> accepted (csize (scls x)) v ->
  exists r, s_bvsrem S x v = Ok r /\ scls r = scls x /\ swf r /\
    forall e b, coerce (scls x) (vmeaning e v) = Ok b ->
      let n := csize (scls x) in let sa := signed n (evalv e (sterm x)) in let sb := signed n (bval b) in
      ((exists o, bvsrem (meaning e x) (vmeaning e v) = Ok o /\ rv_val (meaning e x) o = meaning e r) <->
       bval b = 0 \/ Z.rem sa sb = 0 \/ 0 <= sa * sb).
Proof.
  intros Hx Hv. destruct (s_bin_ok S FS XSRem x v Hx Hv) as (y & r & E1 & E2 & E3 & E4 & E5 & E6 & E7).
  exists r. repeat (split; [now auto|]). intros e b Hb n sa sb.
  assert (Eb : b = meaning e y).
  { specialize (E7 e _ (fun _ y => Ok y)). unfold bv_cast in E7. change (bcls (meaning e x)) with (scls x) in E7.
    rewrite Hb in E7. cbn [bind] in E7. congruence. }
  subst b. destruct (conc_srem e x v y Hx E3 E2 (E7 e)) as (o & O1 & O2). change (bval (meaning e y)) with (evalv e (sterm y)) in *.
  assert (X1 : 1 <= n) by (destruct Hx; auto).
  assert (Rx : 0 <= evalv e (sterm x) < 2 ^ n) by now apply eval_range.
  assert (Ry : 0 <= evalv e (sterm y) < 2 ^ n) by (unfold n; fold (ssize x); rewrite <- E2; now apply eval_range).
  assert (G : (exists o0, bvsrem (meaning e x) (vmeaning e v) = Ok o0 /\ rv_val (meaning e x) o0 = meaning e r) <->
     rv_val (meaning e x) o = meaning e r).
  { split; [intros (o0 & A & B); congruence|eauto]. }
  rewrite G, O2.
  assert (G2 : forall z, (BV (scls x) z = meaning e r <-> op_sem XSRem n (evalv e (sterm x)) (evalv e (sterm y)) = z)).
  { intros z. fold n in E6. rewrite <- E6. split; [intros Q; inversion Q; reflexivity|intros <-]. symmetry. now apply meaning_eq. }
  rewrite G2. cbn [op_sem]. fold n. destruct (Z.eqb_spec (evalv e (sterm y)) 0) as [Z0|Z0].
  - rewrite Z0, srem_zero by auto. split; auto.
  - rewrite srem_floor_iff by auto. fold sa. fold sb. intuition.
Qed.
(** The infix operators of SMTSIntVector. *)
Lemma sdiv_val x v : swf x -> accepted (csize (scls x)) v ->
  let n := csize (scls x) in
  exists q r, s_bvsdiv S x v = Ok q /\ s_bvsrem S x v = Ok r /\ scls q = scls x /\ scls r = scls x /\ swf q /\ swf r /\
    forall e b, coerce (scls x) (vmeaning e v) = Ok b ->
      let sa := signed n (evalv e (sterm x)) in let sb := signed n (bval b) in
      evalv e (sterm q) = (if sb =? 0 then if sa <? 0 then 1 else 2 ^ n - 1 else Z.quot sa sb mod 2 ^ n) /\
      evalv e (sterm r) = (if sb =? 0 then sa mod 2 ^ n else Z.rem sa sb mod 2 ^ n).
Proof.
  intros Hx Hv n. destruct (s_bin_ok S FS XSDiv x v Hx Hv) as (y & q & E1 & E2 & E3 & E4 & E5 & E6 & E7).
  destruct (s_bin_ok S FS XSRem x v Hx Hv) as (y' & r & F1 & F2 & F3 & F4 & F5 & F6 & F7).
  exists q, r. do 6 (split; [assumption|]). intros e b Hb sa sb.
  assert (Eb : b = meaning e y).
  { specialize (E7 e _ (fun _ y => Ok y)). unfold bv_cast in E7. change (bcls (meaning e x)) with (scls x) in E7.
    rewrite Hb in E7. cbn [bind] in E7. congruence. }
  assert (Eb' : b = meaning e y').
  { specialize (F7 e _ (fun _ y => Ok y)). unfold bv_cast in F7. change (bcls (meaning e x)) with (scls x) in F7.
    rewrite Hb in F7. cbn [bind] in F7. congruence. }
  assert (V : evalv e (sterm y') = evalv e (sterm y)).
  { change (bval (meaning e y') = bval (meaning e y)). congruence. }
  assert (X1 : 1 <= n) by (destruct Hx; auto).
  assert (Rx : 0 <= evalv e (sterm x) < 2 ^ n) by now apply eval_range.
  assert (Ry : 0 <= evalv e (sterm y) < 2 ^ n) by (unfold n; fold (ssize x); rewrite <- E2; now apply eval_range).
  rewrite E6, F6, V. cbn [op_sem]. fold n. unfold sa, sb. subst b. change (bval (meaning e y)) with (evalv e (sterm y)).
  destruct (Z.eqb_spec (signed n (evalv e (sterm y))) 0) as [Z0|Z0].
  - assert (Y0 : evalv e (sterm y) = 0) by now apply signed_zero in Z0.
    rewrite Y0, sdiv_zero, srem_zero by auto. split; [reflexivity|]. symmetry. apply signed_mod; lia.
  - assert (Y0 : evalv e (sterm y) <> 0) by (intros Q; apply Z0; now apply signed_zero).
    now rewrite sdiv_quot, srem_rem by auto.
Qed.

Lemma infix_sdiv x v : swf x -> skind x = KSInt -> accepted (csize (scls x)) v ->
  (forall y, v = SVec y -> scls y = scls x) ->
  let n := csize (scls x) in
  let quot a b := if b =? 0 then if a <? 0 then 1 else 2 ^ n - 1 else Z.quot a b mod 2 ^ n in
  let remd a b := if b =? 0 then a mod 2 ^ n else Z.rem a b mod 2 ^ n in
  (exists q r, s_binop S OFloorDiv (SVec x) v = Ok (SVec q) /\ s_binop S OMod (SVec x) v = Ok (SVec r) /\
     scls q = scls x /\ scls r = scls x /\ swf q /\ swf r /\
     forall e b, coerce (scls x) (vmeaning e v) = Ok b ->
       let sa := signed n (evalv e (sterm x)) in let sb := signed n (bval b) in
       evalv e (sterm q) = quot sa sb /\ evalv e (sterm r) = remd sa sb) /\
  (plain v -> exists q r, s_binop S OFloorDiv v (SVec x) = Ok (SVec q) /\ s_binop S OMod v (SVec x) = Ok (SVec r) /\
     scls q = scls x /\ scls r = scls x /\ swf q /\ swf r /\
     forall e b, coerce (scls x) (vmeaning e v) = Ok b ->
       let sa := signed n (evalv e (sterm x)) in let sb := signed n (bval b) in
       evalv e (sterm q) = quot sb sa /\ evalv e (sterm r) = remd sb sa).
Proof.
  intros Hx Hk Hv Hc n quot remd. pose proof Hx as (W1 & _). split.
  - destruct (sdiv_val x v Hx Hv) as (q & r & Q1 & Q2 & Q3). exists q, r.
    assert (A : forall op m t, s_op_method S op KSInt x v = m -> m = Ok t -> forall l : list (unit -> res sret),
                s_first_of ((fun _ => s_forward S op x v) :: l) = Ok (SVec t)).
    { intros op m t H1 H2 l. cbn [s_first_of]. unfold s_forward. rewrite Hk, H1, H2. reflexivity. }
    assert (B : forall op m t, s_op_method S op KSInt x v = m -> m = Ok t -> s_binop S op (SVec x) v = Ok (SVec t)).
    { intros op m t H1 H2. destruct v as [z|b|t'|y|t'|t'|l|i b]; try (destruct Hv as [Hv _]; inversion Hv; fail);
        try (unfold s_binop; now apply (A op m)).
      unfold s_binop. rewrite (Hc y eq_refl). assert (R : cls_eqb (scls x) (scls x) = true).
      { unfold cls_eqb. destruct (ck (scls x)); cbn [kind_eqb]; rewrite Z.eqb_refl; reflexivity. }
      rewrite R. cbn [negb andb]. now apply (A op m). }
    split; [exact (B OFloorDiv _ q eq_refl Q1)|]. split; [exact (B OMod _ r eq_refl Q2)|]. exact Q3.
  - intros P. destruct (s_coerce_ok S FS _ _ W1 Hv) as (y & E1 & E2 & E3 & E4).
    assert (Hcls : scls y = scls x).
    { destruct (s_init_ok S FS (scls x) v W1 (proj1 Hv)) as (y' & I1 & I2 & _).
      destruct v; try (exfalso; exact P); cbn [s_coerce] in E1; congruence. }
    assert (Hxa : accepted (csize (scls y)) (SVec x)) by (split; [now constructor|congruence]).
    destruct (sdiv_val y (SVec x) E3 Hxa) as (q & r & Q1 & Q2 & Q3 & Q4 & Q5 & Q6 & Q7).
    exists q, r.
    assert (A : forall op m t, op = OFloorDiv \/ op = OMod -> s_op_method S op KSInt y (SVec x) = m -> m = Ok t ->
                s_binop S op v (SVec x) = Ok (SVec t)).
    { intros op m t Ho H1 H2.
      assert (R : s_reflected S op x v = Ok (SRet (SVec t))).
      { unfold s_reflected. rewrite Hk. destruct Ho as [-> | ->]; unfold s_dispatch_roper; rewrite E1, H1, H2; reflexivity. }
      destruct v; try (exfalso; exact P); unfold s_binop; cbn [s_first_of]; rewrite R; reflexivity. }
    split; [exact (A OFloorDiv _ q (or_introl eq_refl) eq_refl Q1)|].
    split; [exact (A OMod _ r (or_intror eq_refl) eq_refl Q2)|].
    do 2 (split; [congruence|]). do 2 (split; [assumption|]).
    intros e b Hb. specialize (E4 e). rewrite Hb in E4. inversion E4; subst b; clear E4.
    specialize (Q7 e (meaning e x)). cbn [vmeaning coerce] in Q7.
    change (bsize (meaning e x)) with (csize (scls x)) in Q7. rewrite Hcls, Z.eqb_refl in Q7.
    exact (Q7 eq_refl).
Qed.


(** ** adc *)
Lemma s_add_ok x y : swf x -> swf y -> ssize y = ssize x ->
  exists r, s_bvadd S x (SVec y) = Ok r /\ scls r = scls x /\ swf r /\
    forall e, exists o, bvadd (meaning e x) (VBV (meaning e y)) = Ok o /\ rv_val (meaning e x) o = meaning e r.
Proof.
  intros Hx Hy Hs. destruct (meth_ok S FS MAdd x (SVec y) Hx) as (r & R1 & R2 & R3 & R4).
  { split; [now constructor|exact Hs]. }
  exists r. auto.
Qed.
Lemma s_adc_ok x v cv : swf x -> accepted (csize (scls x)) v -> accepted 1 cv ->
  exists r c, s_adc S x v cv = Ok (r, c) /\ scls r = scls x /\ swf r /\ bwf c = true /\
    forall e, adc (meaning e x) (vmeaning e v) (vmeaning e cv) = Ok (meaning e r, evalb e c).
Proof.
  intros Hx Hv Hc. pose proof Hx as (X1 & _).
  destruct (s_coerce_ok S FS _ _ X1 Hv) as (o & O1 & O2 & O3 & O4).
  destruct (s_coerce_ok S FS (BVC (skind x) 1) cv) as (c & C1 & C2 & C3 & C4); [cbn; lia|exact Hc|].
  destruct (s_zext_ok S FS x 1 Hx) as (a & A1 & A2 & A3 & A4); [lia|].
  destruct (s_zext_ok S FS o 1 O3) as (b & B1 & B2 & B3 & B4); [lia|].
  destruct (s_zext_ok S FS c (ssize x) C3) as (cc & D1 & D2 & D3 & D4); [unfold ssize; lia|].
  assert (Sa : ssize a = ssize x + 1) by (unfold ssize at 1; now rewrite A2).
  assert (Sb : ssize b = ssize x + 1) by (unfold ssize at 1; rewrite B2; cbn [csize]; unfold ssize in *; lia).
  assert (Sc : ssize cc = ssize x + 1) by (unfold ssize at 1; rewrite D2; cbn [csize] in *; unfold ssize in *; lia).
  destruct (s_add_ok a b A3 B3) as (s1 & E1 & E2 & E3 & E4); [lia|].
  assert (Ss1 : ssize s1 = ssize x + 1) by (unfold ssize at 1; rewrite E2; exact Sa).
  destruct (s_add_ok s1 cc E3 D3) as (s2 & F1 & F2 & F3 & F4); [lia|].
  assert (Ss2 : ssize s2 = ssize x + 1) by (unfold ssize at 1; rewrite F2; exact Ss1).
  fold (ssize x) in X1.
  destruct (s_getitem_slice_ok S FS s2 (Some 0) (Some (-1)) None F3 (or_introl eq_refl)) as (lo & G1 & G2 & G3 & G4).
  { cbn [Z.ltb Z.compare]. lia. }
  destruct (s_getitem_int_ok S FS s2 (-1) F3) as (hi & H1 & H2 & H3); [lia|].
  exists lo, hi. split.
  { unfold s_adc. rewrite O1. cbn [bind]. rewrite sized_ok by lia. cbn [bind]. rewrite C1. cbn [bind]. rewrite A1. cbn [bind].
    rewrite B1. cbn [bind]. rewrite D1. cbn [bind]. rewrite E1. cbn [bind]. rewrite F1. cbn [bind]. rewrite G1. cbn [bind].
    rewrite H1. reflexivity. }
  split. { rewrite G2. unfold skind. rewrite F2, E2, A2. cbn [ck]. cbn [Z.ltb Z.compare]. rewrite Ss2.
    unfold skind, ssize. destruct (scls x) as [k n]. cbn [ck csize]. f_equal. lia. }
  split; [exact G3|]. split; [exact H2|]. intros e. unfold adc.
  change (bcls (meaning e x)) with (scls x). rewrite O4. cbn [bind]. change (bkind (meaning e x)) with (skind x).
  rewrite sized_ok by lia. cbn [bind]. rewrite C4. cbn [bind]. rewrite A4. cbn [bind]. rewrite B4. cbn [bind].
  change (bsize (meaning e x)) with (ssize x). rewrite D4. cbn [bind].
  destruct (E4 e) as (o1 & P1 & P2). rewrite P1. cbn [bind]. cbv zeta. rewrite P2.
  destruct (F4 e) as (o2 & Q1 & Q2). rewrite Q1. cbn [bind]. cbv zeta. rewrite Q2. rewrite G4. cbn [bind]. rewrite H3. reflexivity.
Qed.

(** ** item assignment *)
Lemma bit_like_arg v : s_bit_like v = true -> match v with SBit t => bwf t = true | _ => True end -> bit_arg v.
Proof.
  destruct v as [z| | | | | | |]; cbn [s_bit_like]; try discriminate; intros H W; try constructor; auto.
  apply orb_true_iff in H as [H|H]; apply Z.eqb_eq in H; subst; constructor.
Qed.
Lemma bit_like_meaning e v : bit_like (vmeaning e v) = match v with SNodeB _ => true | _ => s_bit_like v end.
Proof. destruct v; reflexivity. Qed.
Lemma s_setitem_ok x i v : swf x -> - csize (scls x) <= i < csize (scls x) -> s_bit_like v = true ->
  (match v with SBit t => bwf t = true | _ => True end) ->
  exists r, s_setitem_int S x i v = Ok r /\ scls r = scls x /\ swf r /\
    forall e, setitem_int (meaning e x) i (vmeaning e v) = Ok (meaning e r).
Proof.
  intros Hx Hi Hv Hw. pose proof Hx as (X1 & X2 & X3). unfold s_setitem_int. rewrite Hv. cbn [negb]. fold (ssize x) in *.
  set (j := if i <? 0 then ssize x + i else i).
  assert (R : 0 <= j < ssize x) by (unfold j; destruct (Z.ltb_spec i 0); lia).
  replace ((0 <=? j) && (j <? ssize x)) with true by lia. cbn [negb].
  destruct (s_init_ok S FS (scls x) (SInt (Z.shiftl 1 j))) as (mask & M1 & M2 & M3 & M4); [exact X1|constructor|].
  destruct (sbit_init_ok S FS v (bit_like_arg v Hv Hw)) as (b & B1 & B2 & B3).
  destruct (s_bvnot_ok S FS mask M3) as (nm & N1 & N2 & N3 & N4).
  destruct (meth_ok S FS MOr x (SVec mask) Hx) as (t & T1 & T2 & T3 & T4). { split; [now constructor|]. now rewrite M2. }
  destruct (meth_ok S FS MAnd x (SVec nm) Hx) as (f & F1 & F2 & F3 & F4). { split; [now constructor|]. now rewrite N2, M2. }
  cbn [smt_meth] in T1, F1. rewrite M1. cbn [bind]. rewrite B1. cbn [bind]. rewrite T1. cbn [bind]. rewrite N1. cbn [bind]. rewrite F1. cbn [bind].
  pose proof T3 as (T5 & T6 & T7). pose proof F3 as (F5 & F6 & F7).
  node FS; [exact X1|cbn [vwf]; rewrite B2, T6, F6, T7, F7, T2, F2; cbn [andb]; lia|cbn [width]; rewrite T7, T2; reflexivity|].
  eexists. split; [reflexivity|]. split; [reflexivity|]. split. { unfold swf in *. cbn [scls sterm]. rewrite C in W. exact W. }
  intros e. unfold setitem_int. rewrite bit_like_meaning. replace (match v with SNodeB _ => true | _ => s_bit_like v end) with true.
  2:{ destruct v; auto. }
  cbn [negb]. change (bsize (meaning e x)) with (ssize x). fold j.
  replace ((0 <=? j) && (j <? ssize x)) with true by lia. cbn [negb].
  change (bcls (meaning e x)) with (scls x).
  specialize (M4 e). cbn [vmeaning bv_init] in M4.
  assert (M5 : mk (scls x) (Z.shiftl 1 j) = meaning e mask) by congruence. rewrite M5. clear M4.
  destruct (T4 e) as (o1 & P1 & P2). cbn [conc_meth vmeaning] in P1. rewrite P1. cbn [bind]. rewrite N4.
  destruct (F4 e) as (o2 & Q1 & Q2). cbn [conc_meth vmeaning] in Q1. rewrite Q1. cbn [bind]. rewrite B3. cbn [bind].
  rewrite P2, Q2. f_equal. unfold meaning. cbn [scls sterm]. rewrite V. cbn [evalv]. f_equal. rewrite mk_val by (unfold ssize in X1; lia).
  destruct (evalb e b); cbn [meaning bval]; apply Z.mod_small; [rewrite <- T2|rewrite <- F2]; now apply eval_range.
Qed.

(** ** repeat *)
Lemma repeat_node_width t r : width (bv_repeat_node t r) = width t * Z.max 1 r.
Proof.
  unfold bv_repeat_node. replace (Z.max 1 r) with (1 + Z.of_nat (Z.to_nat (r - 1))) by lia.
  induction (Z.to_nat (r - 1)) as [|n IH]; cbn [Nat.iter nat_rect width]; [lia|].
  unfold Nat.iter in IH. rewrite IH. lia.
Qed.
Lemma s_repeat_many x r : swf x -> 2 <= r -> s_repeat S x (SInt r) = Raise ETypeError.
Proof.
  intros (X1 & X2 & X3) Hr. unfold s_repeat. cbn [s_int bind]. unfold vec_node.
  rewrite repeat_node_width, X3. replace (csize (scls x) * Z.max 1 r =? csize (scls x)) with false by nia.
  now rewrite andb_false_r.
Qed.
Lemma s_repeat_le1 x r : swf x -> r <= 1 ->
  exists q, s_repeat S x (SInt r) = Ok q /\ swf q /\ forall e, meaning e q = meaning e x.
Proof.
  intros (X1 & X2 & X3) Hr. unfold s_repeat. cbn [s_int bind]. unfold bv_repeat_node.
  replace (Z.to_nat (r - 1)) with 0%nat by lia. cbn [Nat.iter nat_rect]. node FS; auto.
  exists r0. repeat (split; [now auto|]). intros e. apply meaning_eq; auto.
Qed.
Lemma bv_repeat_1 x : wf x -> bv_repeat x 1 = Ok x.
Proof.
  intros Hw. destruct (repeat_spec x 1 Hw) as (y & E1 & E2 & E3 & E4); [lia|]. rewrite E1. f_equal.
  rewrite Z.mul_1_l in *. apply bv_ext.
  - rewrite E2. unfold bkind, bsize. now destruct (bcls x).
  - destruct Hw as [W1 W2]. destruct E3 as [E3 E3']. rewrite E2 in E3'. cbn [csize] in E3'.
    apply bits_ext with (bsize x); auto. intros i Hi. rewrite E4 by auto. now rewrite Z.mod_small.
Qed.
End M.

(** ** substitution *)
Scheme bterm_mind := Induction for bterm Sort Prop
with vterm_mind := Induction for vterm Sort Prop
with iterm_mind := Induction for iterm Sort Prop.
Combined Scheme term_mind from bterm_mind, vterm_mind, iterm_mind.

Lemma rebind_find e l : forall acc,
  let e' := fold_left (fun acc p => rebind1 e p acc) l acc in
  (forall s, ebool e' s = match find_b s l with Some t => evalb e t | None => ebool acc s end) /\
  (forall s w, evec e' s w = match find_v s w l with Some t => evalv e t | None => evec acc s w end) /\
  (forall s, eint e' s = eint acc s).
Proof.
  induction l as [|p l IH]; intros acc; [cbn; auto|]. cbn [fold_left]. cbv zeta.
  destruct (IH (rebind1 e p acc)) as (A & B & C). cbv zeta in A, B, C. cbn [find_b find_v].
  split; [|split].
  - intros s. rewrite A. destruct (find_b s l); [reflexivity|]. destruct p as [[] t|[] t]; cbn; try reflexivity.
    destruct (String.eqb s s0); reflexivity.
  - intros s w. rewrite B. destruct (find_v s w l); [reflexivity|]. destruct p as [[] t|[] t]; cbn; try reflexivity.
    destruct (String.eqb s s0 && (w =? w0)); reflexivity.
  - intros s. rewrite C. destruct p as [[] t|[] t]; reflexivity.
Qed.
Lemma find_good l : Forall good_pair l ->
  (forall s t, find_b s l = Some t -> bwf t = true) /\
  (forall s w t, find_v s w l = Some t -> vwf t = true /\ width t = w).
Proof.
  induction 1 as [|p l Hp Hl [IH1 IH2]]; cbn [find_b find_v]; [split; discriminate|].
  split.
  - intros s t H. destruct (find_b s l) eqn:E; [inversion H; subst; eauto|].
    destruct p as [[] q|[] q]; try discriminate. destruct (String.eqb s s0); inversion H; subst. exact Hp.
  - intros s w t H. destruct (find_v s w l) eqn:E; [inversion H; subst; eauto|].
    destruct p as [[] q|[] q]; try discriminate. destruct (String.eqb s s0 && (w =? w0)) eqn:E2; inversion H; subst.
    destruct Hp as [P1 P2]. split; [exact P1|]. lia.
Qed.
Lemma subst_ok l : Forall good_pair l ->
  (forall t, bwf t = true -> bwf (subst_b l t) = true /\ forall e, evalb e (subst_b l t) = evalb (rebind e l) t) /\
  (forall t, vwf t = true -> vwf (subst_v l t) = true /\ width (subst_v l t) = width t /\
                              forall e, evalv e (subst_v l t) = evalv (rebind e l) t) /\
  (forall t, iwf t = true -> iwf (subst_i l t) = true /\ forall e, evali e (subst_i l t) = evali (rebind e l) t).
Proof.
  intros Hl. destruct (find_good l Hl) as [Gb Gv].
  apply term_mind; intros; cbn [bwf vwf iwf subst_b subst_v subst_i width] in *;
    repeat match goal with H : _ && _ = true |- _ => apply andb_true_iff in H as [? ?] end;
    repeat match goal with IH : ?P -> _, H : ?P |- _ =>
      match type of P with Prop => specialize (IH H) end end;
    repeat match goal with H : _ /\ _ |- _ => destruct H end;
    try (match goal with |- context[find_b] => idtac | |- context[find_v] => idtac | _ =>
      repeat split; cbn [bwf vwf iwf evalb evalv evali width]; intros;
      repeat match goal with H : forall e, _ = _ |- _ => rewrite H end; try reflexivity;
      repeat match goal with H : bwf _ = true |- _ => rewrite H | H : vwf _ = true |- _ => rewrite H | H : iwf _ = true |- _ => rewrite H end;
      repeat match goal with H : width _ = width _ |- _ => rewrite H end; cbn [andb]; auto; try lia end).
  - destruct (find_b s l) eqn:E.
    + split; [eauto|]. intros e. cbn [evalb]. unfold rebind. destruct (rebind_find e l e) as (A & _). cbv zeta in A. now rewrite A, E.
    + split; [reflexivity|]. intros e. cbn [evalb]. unfold rebind. destruct (rebind_find e l e) as (A & _). cbv zeta in A. now rewrite A, E.
  - destruct (find_v s w l) eqn:E.
    + destruct (Gv _ _ _ E) as [G1 G2]. split; [exact G1|]. split; [exact G2|]. intros e. cbn [evalv]. unfold rebind.
      destruct (rebind_find e l e) as (_ & A & _). cbv zeta in A. rewrite A, E. symmetry. apply Z.mod_small.
      rewrite <- G2. now apply vwf_range.
    + split; [assumption|]. split; [reflexivity|]. intros e. cbn [evalv]. unfold rebind.
      destruct (rebind_find e l e) as (_ & A & _). cbv zeta in A. now rewrite A, E.
  - unfold rebind. destruct (rebind_find e l e) as (_ & _ & A). cbv zeta in A. now rewrite A.
Qed.

Section M2.
Variable S : simplifier.
Hypothesis FS : faithful S.

Lemma pairs_ok l : Forall good_pair l -> exists us, mapM pair_ok l = Ok us.
Proof.
  induction 1 as [|p l Hp Hl (us & IH)]; cbn [mapM]; [eauto|].
  assert (pair_ok p = Ok tt) as ->. { destruct p as [[] t|[] t]; try (exfalso; exact Hp); cbn [pair_ok]; auto. destruct Hp as [_ ->]. now rewrite Z.eqb_refl. }
  cbn [bind]. rewrite IH. cbn [bind]. eauto.
Qed.
Lemma s_substitute_ok x l : swf x -> Forall good_pair l ->
  exists r, s_substitute S x l = Ok r /\ scls r = BVC KBV (csize (scls x)) /\ swf r /\
    forall e, evalv e (sterm r) = evalv (rebind e l) (sterm x).
Proof.
  intros (X1 & X2 & X3) Hl. unfold s_substitute. destruct (pairs_ok l Hl) as (us & ->). cbn [bind].
  destruct (subst_ok l Hl) as (_ & G & _). destruct (G (sterm x) X2) as (G1 & G2 & G3).
  node FS; cbn [csize]; auto; [rewrite G2; exact X3|]. exists r. repeat (split; [now auto|]). intros e. now rewrite V.
Qed.
Lemma sbit_substitute_ok p l : bwf p = true -> Forall good_pair l ->
  exists r, sbit_substitute S p l = Ok r /\ bwf r = true /\ forall e, evalb e r = evalb (rebind e l) p.
Proof.
  intros X2 Hl. unfold sbit_substitute. destruct (pairs_ok l Hl) as (us & ->). cbn [bind].
  destruct (subst_ok l Hl) as (G & _). destruct (G p X2) as (G1 & G2).
  node FS; [exact G1|]. exists r. repeat (split; [now auto|]). intros e. now rewrite V.
Qed.

(** ** integers *)
Definition int_arg_wf (v : ival) : Prop :=
  match v with
  | TInt t => iwf t = true
  | TVal (SInt _) | TVal (SBool _) => True
  | TVal (SVec x) => swf x
  | TVal (SOther (Some (Ok _)) _) => True
  | _ => False
  end.
Lemma i_init_ok v : int_arg_wf v ->
  exists r, i_init S v = Ok r /\ iwf r = true /\ forall e z, int_arg e v z -> evali e r = z.
Proof.
  pose proof FS as (_ & _ & F). intros H.
  destruct v as [t|t|[z|b|t|x|t|t|l|[[z|]|] b]]; try (exfalso; exact H); cbn [i_init].
  - destruct (F t H) as [A B]. eexists; split; [reflexivity|]. split; auto. intros e z Hz. inversion Hz; subst. now rewrite B.
  - node FS; [reflexivity|]. exists r. repeat (split; [now auto|]). intros e z' Hz. inversion Hz; subst. now rewrite V.
  - node FS; [reflexivity|]. exists r. repeat (split; [now auto|]). intros e z' Hz. inversion Hz; subst. rewrite V. now destruct b.
  - destruct H as (H1 & H2 & H3). node FS; [exact H2|]. exists r. repeat (split; [now auto|]). intros e z' Hz. inversion Hz; subst. now rewrite V.
  - cbn [bind]. node FS; [reflexivity|]. exists r. repeat (split; [now auto|]). intros e z' Hz. inversion Hz; subst. now rewrite V.
Qed.
Lemma i_cast_ok {A} (fn : iterm -> iterm -> res A) a v : int_arg_wf v ->
  exists o, i_cast S fn a v = rmap Some (fn a o) /\ iwf o = true /\ forall e z, int_arg e v z -> evali e o = z.
Proof.
  intros H. destruct v as [t|t|v]; [|exfalso; exact H|].
  - exists t. cbn [i_cast]. split; [reflexivity|]. split; [exact H|]. intros e z Hz. now inversion Hz.
  - destruct (i_init_ok (TVal v) H) as (o & O1 & O2 & O3). exists o. cbn [i_cast]. rewrite O1. auto.
Qed.
Lemma int_arg_wf_of e v z : int_arg e v z -> int_arg_wf v.
Proof. destruct 1; cbn; auto. Qed.

Lemma i_binop_ok op a b : int_arg_wf a -> int_arg_wf b ->
  (exists t, a = TInt t) \/ (exists t, b = TInt t) ->
  exists r, i_binop S op a b = Ok r /\ iwf r = true /\
    forall e za zb, int_arg e a za -> int_arg e b zb -> evali e r = iop_value op za zb.
Proof.
  intros Ha Hb Hab.
  assert (L : forall t, a = TInt t -> exists r, i_binop S op a b = Ok r /\ iwf r = true /\
    forall e za zb, int_arg e a za -> int_arg e b zb -> evali e r = iop_value op za zb).
  { intros t ->. cbn [i_binop].
    destruct op; unfold i_add, i_sub, i_mul;
    match goal with |- context[i_cast S ?fn _ _] => destruct (i_cast_ok fn t b Hb) as (o & -> & O2 & O3) end;
    cbn [int_arg_wf] in Ha; (node FS; [cbn [iwf]; now rewrite Ha, O2|]); eexists; (split; [reflexivity|]); (split; [assumption|]);
    intros e za zb Hza Hzb; rewrite V; cbn [evali iop_value]; rewrite (O3 e zb Hzb); inversion Hza; subst; reflexivity. }
  destruct a as [t|t|a]; [now apply (L t)|exfalso; exact Ha|].
  destruct Hab as [[t Ht]|[t ->]]; [discriminate|]. cbn [i_binop].
  destruct op; unfold i_radd, i_rmul, i_rsub, i_add, i_mul;
    match goal with |- context[i_cast S ?fn _ _] => destruct (i_cast_ok fn t (TVal a) Ha) as (o & -> & O2 & O3) end;
    cbn [int_arg_wf] in Hb; (node FS; [cbn [iwf]; now rewrite Hb, O2|]); eexists; (split; [reflexivity|]); (split; [assumption|]);
    intros e za zb Hza Hzb; rewrite V; cbn [evali iop_value]; rewrite (O3 e za Hza); inversion Hzb; subst; lia.
Qed.
Lemma i_compare_ok c a b : int_arg_wf a -> int_arg_wf b ->
  (exists t, a = TInt t) \/ (exists t, b = TInt t) ->
  exists r, i_compare S c a b = Ok r /\ bwf r = true /\
    forall e za zb, int_arg e a za -> int_arg e b zb -> evalb e r = icmp_value c za zb.
Proof.
  intros Ha Hb Hab.
  assert (G : forall c t b, iwf t = true -> int_arg_wf b -> exists r, i_cmp_method S c t b = Ok (Some r) /\ bwf r = true /\
    forall e zb, int_arg e b zb -> evalb e r = icmp_value c (evali e t) zb).
  { clear a b c Ha Hb Hab. intros c t b Ht Hb. destruct c; cbn [i_cmp_method]; unfold i_eq, i_ne, i_lt, i_le, i_gt, i_ge;
    match goal with |- context[i_cast S ?fn _ _] => destruct (i_cast_ok fn t b Hb) as (o & -> & O2 & O3) end;
    (node FS; [cbn [bwf]; now rewrite Ht, O2|]); eexists; (split; [reflexivity|]); (split; [assumption|]);
    intros e zb Hzb; rewrite V; cbn [evalb icmp_value]; rewrite (O3 e zb Hzb); reflexivity. }
  assert (L : forall t, a = TInt t -> exists r, i_compare S c a b = Ok r /\ bwf r = true /\
    forall e za zb, int_arg e a za -> int_arg e b zb -> evalb e r = icmp_value c za zb).
  { intros t ->. cbn [i_compare]. destruct (G c t b Ha Hb) as (r & -> & R2 & R3). cbn [bind]. exists r. repeat (split; [now auto|]).
    intros e za zb Hza Hzb. rewrite (R3 e zb Hzb). inversion Hza; subst. reflexivity. }
  destruct a as [t|t|a]; [now apply (L t)|exfalso; exact Ha|].
  destruct Hab as [[t Ht]|[t ->]]; [discriminate|]. cbn [i_compare].
  destruct (G (cmp_swap c) t (TVal a) Hb Ha) as (r & -> & R2 & R3). cbn [bind]. exists r. repeat (split; [now auto|]).
  intros e za zb Hza Hzb. rewrite (R3 e za Hza). inversion Hzb; subst. destruct c; cbn [cmp_swap icmp_value]; lia.
Qed.
Lemma i_neg_ok t : iwf t = true -> exists r, i_neg S t = Ok r /\ iwf r = true /\ forall e, evali e r = - evali e t.
Proof.
  intros H. unfold i_neg. destruct (i_init_ok (TVal (SInt 0)) I) as (z & -> & Z2 & Z3). cbn [bind].
  unfold i_sub, i_cast. node FS; [cbn [iwf]; now rewrite Z2, H|]. exists r. repeat (split; [now auto|]).
  intros e. rewrite V. cbn [evali]. rewrite (Z3 e 0 (J_int e 0)). lia.
Qed.
Lemma s_as_uint_ok x : swf x -> exists r, s_as_uint S x = Ok r /\ iwf r = true /\ forall e, evali e r = as_uint (meaning e x).
Proof.
  intros H. destruct (i_init_ok (TVal (SVec x)) H) as (r & R1 & R2 & R3). exists r. repeat (split; [now auto|]).
  intros e. rewrite (R3 e (evalv e (sterm x))); [reflexivity|]. now constructor.
Qed.
Lemma land_msb n u : 1 <= n -> 0 <= u < 2 ^ n -> Z.land u (2 ^ (n - 1)) = if 2 * u <? 2 ^ n then 0 else 2 ^ (n - 1).
Proof.
  intros Hn Hu. pose proof (msb_spec n u Hn Hu) as M. apply Z.bits_inj'. intros i Hi. rewrite Z.land_spec, Z.pow2_bits_eqb by lia.
  destruct (Z.eqb_spec (n - 1) i) as [<-|Hne].
  - rewrite M, andb_true_r. destruct (2 * u <? 2 ^ n); cbn [negb]; [now rewrite Z.bits_0|]. now rewrite Z.pow2_bits_true by lia.
  - rewrite andb_false_r. destruct (2 * u <? 2 ^ n); [now rewrite Z.bits_0|]. now rewrite Z.pow2_bits_false by lia.
Qed.
Lemma s_as_sint_ok x : swf x -> 2 <= csize (scls x) ->
  exists r, s_as_sint S x = Ok r /\ iwf r = true /\ forall e, as_sint (meaning e x) = Ok (evali e r).
Proof.
  intros Hx Hn. unfold s_as_sint. fold (ssize x) in Hn.
  destruct (s_getitem_slice_ok S FS x None (Some (-1)) None Hx (or_introl eq_refl)) as (lo & G1 & G2 & G3 & G4). { cbn [Z.ltb Z.compare]. lia. }
  rewrite G1. cbn [bind]. destruct (i_init_ok (TVal (SVec lo)) G3) as (a & -> & A2 & A3). cbn [bind].
  assert (Hv : accepted (csize (scls x)) (SInt (Z.shiftl 1 (ssize x - 1)))) by (split; [constructor|exact I]).
  destruct (s_bin_ok S FS XAnd x _ Hx Hv) as (y & m & E1 & E2 & E3 & E4 & E5 & E6 & E7).
  cbn [s_binop s_first_of]. unfold s_forward. cbn [s_op_method]. unfold s_bvand. rewrite E1. cbn [rmap s_dispatch bind].
  destruct (i_init_ok (TVal (SVec m)) E5) as (b & -> & B2 & B3). cbn [bind].
  unfold i_sub, i_cast. node FS; [cbn [iwf]; now rewrite A2, B2|]. exists r. repeat (split; [now auto|]).
  intros e. rewrite as_sint_spec by (auto using swf_meaning; unfold bsize; cbn [meaning bcls]; fold (ssize x); lia).
  f_equal. rewrite V. cbn [evali]. rewrite (A3 e (evalv e (sterm lo))) by (now constructor).
  rewrite (B3 e (evalv e (sterm m))) by (now constructor). rewrite E6.
  assert (Ey : evalv e (sterm y) = 2 ^ (ssize x - 1)).
  { specialize (E7 e _ (fun _ y => Ok y)). unfold bv_cast in E7. cbn [vmeaning coerce bv_init bind] in E7.
    change (bcls (meaning e x)) with (scls x) in E7. rewrite mk_eq in E7 by (unfold ssize in *; lia).
    assert (Q := f_equal (fun r => match r with Ok b => bval b | _ => 0 end) E7). cbn [bval meaning] in Q.
    rewrite <- Q. rewrite shiftl1 by lia. apply Z.mod_small. fold (ssize x). split; [apply Z.pow_nonneg; lia|].
    apply Z.pow_lt_mono_r; lia. }
  rewrite Ey. cbn [op_sem]. pose proof (eval_range e x Hx) as Rx. fold (ssize x) in Rx.
  rewrite land_msb by lia.
  specialize (G4 e). rewrite getitem_slice_plain in G4 by (auto using swf_meaning). cbv zeta in G4.
  assert (Q := f_equal (fun r => match r with Ok b => bval b | _ => 0 end) G4). cbn [bval] in Q.
  change (bval (meaning e lo)) with (evalv e (sterm lo)) in Q. rewrite <- Q. clear Q G4.
  change (bsize (meaning e x)) with (ssize x). change (bval (meaning e x)) with (evalv e (sterm x)).
  cbn [Z.ltb Z.compare]. rewrite Z.pow_0_r, Z.div_1_r.
  replace (Z.max 0 (Z.max 0 (Z.min (ssize x) (-1 + ssize x)) - 0)) with (ssize x - 1) by lia.
  unfold signed. pose proof (pow2_split (ssize x)) as P. destruct (Z.ltb_spec (2 * evalv e (sterm x)) (2 ^ ssize x)).
  - rewrite Z.mod_small; lia.
  - replace (evalv e (sterm x) mod 2 ^ (ssize x - 1)) with (evalv e (sterm x) - 2 ^ (ssize x - 1)); [lia|].
    apply Zmod_unique with 1; lia.
Qed.
Lemma s_as_sint_1 x : swf x -> csize (scls x) = 1 -> s_as_sint S x = Raise EAssertion.
Proof.
  intros Hx Hn. unfold s_as_sint, s_getitem_slice, extract. fold (ssize x) in Hn. rewrite Hn. reflexivity.
Qed.

(** ** formulas *)
Section FInd.
Variable P : formula -> Prop.
Hypothesis HB : forall t, P (FBit t).
Hypothesis HA : forall l, Forall P l -> P (FAnd l).
Hypothesis HO : forall l, Forall P l -> P (FOr l).
Hypothesis HI : forall p q, P p -> P q -> P (FImplies p q).
Fixpoint formula_rect2 (f : formula) : P f :=
  match f with
  | FBit t => HB t
  | FAnd l => HA l ((fix go (l : list formula) : Forall P l := match l with [] => Forall_nil _ | f :: l => Forall_cons _ (formula_rect2 f) (go l) end) l)
  | FOr l => HO l ((fix go (l : list formula) : Forall P l := match l with [] => Forall_nil _ | f :: l => Forall_cons _ (formula_rect2 f) (go l) end) l)
  | FImplies p q => HI p q (formula_rect2 p) (formula_rect2 q)
  end.
End FInd.

Definition hw_all : list formula -> res (list bterm) :=
  fix all (l : list formula) : res (list bterm) :=
    match l with [] => Ok [] | f :: l => t <- to_hwtypes S f ;; ts <- all l ;; Ok (t :: ts) end.

Lemma bit_op_ok op a b : bwf a = true -> bwf b = true -> op = OAnd \/ op = OOr ->
  exists r, bit_op S op a b = Ok r /\ bwf r = true /\
    forall e, evalb e r = match op with OAnd => evalb e a && evalb e b | _ => evalb e a || evalb e b end.
Proof.
  intros Ha Hb Ho. destruct (bit_binop_left S FS op a (SBit b) Ha (R_bit b Hb)) as (r & R1 & R2 & R3); [tauto|].
  unfold bit_op. rewrite R1. cbn [bind]. exists r. repeat (split; [now auto|]). intros e. specialize (R3 e).
  destruct Ho as [-> | ->]; cbn in R3; congruence.
Qed.
Lemma reduce_ok op l : op = OAnd \/ op = OOr -> Forall (fun t => bwf t = true) l -> forall a, bwf a = true ->
  exists r, reduce_bits S op a l = Ok r /\ bwf r = true /\
    forall e, evalb e r = match op with OAnd => evalb e a && forallb (evalb e) l | _ => evalb e a || existsb (evalb e) l end.
Proof.
  intros Ho. induction 1 as [|b l Hb Hl IH]; intros a Ha; cbn [reduce_bits].
  - exists a. repeat (split; [now auto|]). intros e. destruct Ho as [-> | ->]; cbn [forallb existsb];
      [now rewrite andb_true_r|now rewrite orb_false_r].
  - destruct (bit_op_ok op a b Ha Hb Ho) as (r & -> & R2 & R3). cbn [bind]. destruct (IH r R2) as (q & Q1 & Q2 & Q3).
    exists q. repeat (split; [now auto|]). intros e. rewrite Q3, R3. destruct Ho as [-> | ->]; cbn [forallb existsb];
      [now rewrite andb_assoc|now rewrite orb_assoc].
Qed.
Lemma formula_list_wf l :
  (fix all (l : list formula) : Prop := match l with [] => True | f :: l => formula_wf f /\ all l end) l <-> Forall formula_wf l.
Proof. induction l as [|f l IH]; split; intros H; auto; [constructor; tauto|]. inversion H; subst. tauto. Qed.
Lemma hw_all_ok l : Forall (fun f => formula_wf f -> exists r, to_hwtypes S f = Ok r /\ bwf r = true /\ forall e, evalb e r = holds e f) l ->
  Forall formula_wf l ->
  exists ts, hw_all l = Ok ts /\ Forall (fun t => bwf t = true) ts /\
    forall e, map (evalb e) ts = map (holds e) l.
Proof.
  induction 1 as [|f l Hf Hl IH]; intros Hw; cbn [hw_all]; [exists []; auto|]. inversion Hw; subst.
  destruct (Hf H1) as (r & -> & R2 & R3). destruct (IH H2) as (ts & T1 & T2 & T3). fold hw_all. rewrite T1. cbn [bind].
  exists (r :: ts). split; [reflexivity|]. split; [constructor; auto|]. intros e. cbn [map]. now rewrite R3, T3.
Qed.
Lemma forallb_map' {A B} (f : A -> B) g l : forallb g (map f l) = forallb (fun x => g (f x)) l.
Proof. induction l; cbn; [reflexivity|]. now rewrite IHl. Qed.
Lemma existsb_map' {A B} (f : A -> B) g l : existsb g (map f l) = existsb (fun x => g (f x)) l.
Proof. induction l; cbn; [reflexivity|]. now rewrite IHl. Qed.
Lemma to_hwtypes_ok f : formula_wf f ->
  exists r, to_hwtypes S f = Ok r /\ bwf r = true /\ forall e, evalb e r = holds e f.
Proof.
  induction f as [t|l IH|l IH|p q IHp IHq] using formula_rect2; intros Hw.
  - exists t. cbn in *. auto.
  - cbn [formula_wf] in Hw. apply formula_list_wf in Hw. destruct (hw_all_ok l IH Hw) as (ts & T1 & T2 & T3).
    change (to_hwtypes S (FAnd l)) with (ts <- hw_all l ;; match ts with [] => sbit_init S (SBool true) | t :: ts => reduce_bits S OAnd t ts end).
    rewrite T1. cbn [bind]. destruct ts as [|t ts].
    + destruct (sbit_init_ok S FS (SBool true) (R_bool true)) as (r & -> & R2 & R3). exists r. repeat (split; [now auto|]).
      intros e. specialize (R3 e). cbn in R3. inversion R3 as [R4]. specialize (T3 e). destruct l; [reflexivity|discriminate].
    + inversion T2; subst. destruct (reduce_ok OAnd ts (or_introl eq_refl) H2 t H1) as (r & R1 & R2 & R3). exists r. repeat (split; [now auto|]).
      intros e. rewrite R3. specialize (T3 e). cbn [holds].
      assert (Q : forallb (fun b => b) (map (evalb e) (t :: ts)) = forallb (fun b => b) (map (holds e) l)) by now rewrite T3.
      rewrite !forallb_map' in Q. exact Q.
  - cbn [formula_wf] in Hw. apply formula_list_wf in Hw. destruct (hw_all_ok l IH Hw) as (ts & T1 & T2 & T3).
    change (to_hwtypes S (FOr l)) with (ts <- hw_all l ;; match ts with [] => sbit_init S (SBool false) | t :: ts => reduce_bits S OOr t ts end).
    rewrite T1. cbn [bind]. destruct ts as [|t ts].
    + destruct (sbit_init_ok S FS (SBool false) (R_bool false)) as (r & -> & R2 & R3). exists r. repeat (split; [now auto|]).
      intros e. specialize (R3 e). cbn in R3. inversion R3 as [R4]. specialize (T3 e). destruct l; [reflexivity|discriminate].
    + inversion T2; subst. destruct (reduce_ok OOr ts (or_intror eq_refl) H2 t H1) as (r & R1 & R2 & R3). exists r. repeat (split; [now auto|]).
      intros e. rewrite R3. specialize (T3 e). cbn [holds].
      assert (Q : existsb (fun b => b) (map (evalb e) (t :: ts)) = existsb (fun b => b) (map (holds e) l)) by now rewrite T3.
      rewrite !existsb_map' in Q. exact Q.
  - destruct Hw as [Hp Hq]. destruct (IHp Hp) as (a & A1 & A2 & A3). destruct (IHq Hq) as (b & B1 & B2 & B3).
    cbn [to_hwtypes]. rewrite A1. cbn [bind]. destruct (sbit_invert_ok S FS a A2) as (na & N1 & N2 & N3). rewrite N1. cbn [bind].
    rewrite B1. cbn [bind]. destruct (bit_op_ok OOr na b N2 B2 (or_intror eq_refl)) as (r & R1 & R2 & R3).
    exists r. repeat (split; [now auto|]). intros e. rewrite R3, N3, A3, B3. cbn [holds]. unfold bit_invert.
    now destruct (holds e p), (holds e q).
Qed.
End M2.
