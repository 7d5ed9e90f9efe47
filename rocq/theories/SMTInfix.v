(** Infix operators and comparisons of the symbolic classes. *)
From Coq Require Import Lia ZifyBool.
From Verif Require Import PyBase BVModel BVSpec BVFacts BVOps OpModel OpSpec OpFacts SMTTerm SMTModel SMTSpec SMTFacts SMTOps.

Section I.
Variable S : simplifier.
Hypothesis FS : faithful S.

Lemma op_meth op k : signed_division op k = false ->
  exists m, m <> MComp /\ s_op_method S op k = smt_meth S m /\ op_method op k = conc_meth m.
Proof.
  intros H. destruct op, k; try discriminate;
    [exists MAnd|exists MAnd|exists MAnd|exists MAnd|exists MOr|exists MOr|exists MOr|exists MOr
    |exists MXor|exists MXor|exists MXor|exists MXor|exists MShl|exists MShl|exists MShl|exists MShl
    |exists MLshr|exists MLshr|exists MLshr|exists MAshr|exists MAdd|exists MAdd|exists MAdd|exists MAdd
    |exists MSub|exists MSub|exists MSub|exists MSub|exists MMul|exists MMul|exists MMul|exists MMul
    |exists MUdiv|exists MUdiv|exists MUdiv|exists MUrem|exists MUrem|exists MUrem];
    repeat split; discriminate.
Qed.

(** The dunder method and its concrete counterpart, for the method of any class [k]. *)
Lemma disp_ok op k x v : swf x -> accepted (csize (scls x)) v -> signed_division op k = false ->
  exists r, s_dispatch (rmap SVec (s_op_method S op k x v)) = Ok (SRet (SVec r)) /\ scls r = scls x /\ swf r /\
    forall e, exists o, dispatch_oper (op_method op k) (meaning e x) (vmeaning e v) = Ok o /\
      ((o = OLeft /\ meaning e x = meaning e r) \/ o = ONew (VBV (meaning e r))).
Proof.
  intros Hx Hv Hs. destruct (op_meth op k Hs) as (m & Hm & -> & ->).
  destruct (meth_ok S FS m x v Hx Hv) as (r & E1 & E2 & E3 & E4). rewrite E1. exists r.
  split; [reflexivity|]. split; [destruct m; congruence|]. split; [exact E3|]. intros e.
  destruct (E4 e) as (o & O1 & O2). unfold dispatch_oper. rewrite O1. destruct o as [y|]; cbn [rv_val] in O2.
  - subst y. eexists. split; [reflexivity|]. now right.
  - eexists. split; [reflexivity|]. left. auto.
Qed.

Lemma roper_ok op k x v : swf x -> accepted (csize (scls x)) v -> signed_division op k = false ->
  exists r, s_dispatch_roper S op k x v = Ok (SRet (SVec r)) /\ swf r /\
    forall e, exists o, dispatch_roper op k (meaning e x) (vmeaning e v) = Ok o /\
      ((o = OLeft /\ vmeaning e v = VBV (meaning e r)) \/ o = ONew (VBV (meaning e r))).
Proof.
  intros Hx Hv Hs. pose proof Hx as (W1 & _). destruct (s_coerce_ok S FS _ _ W1 Hv) as (y & E1 & E2 & E3 & E4).
  unfold s_dispatch_roper. rewrite E1. unfold ssize in E2.
  destruct (disp_ok op k y (SVec x) E3) as (r & R1 & R2 & R3 & R4); auto.
  { split; [now constructor|]. auto. }
  rewrite R1. exists r. split; [reflexivity|]. split; [exact R3|]. intros e. unfold dispatch_roper.
  cbn [meaning bcls]. rewrite E4. destruct (R4 e) as (o & O1 & O2). cbn [vmeaning] in O1.
  change (BV (scls x) (evalv e (sterm x))) with (meaning e x).
  rewrite O1. destruct O2 as [[-> O2]| ->].
  - destruct v; cbn [vmeaning] in *; try (eexists; split; [reflexivity|]; right; congruence).
    + eexists; split; [reflexivity|]. left. split; auto. cbn [coerce] in E4. specialize (E4 e).
      destruct (negb _) in E4; congruence.
    + destruct Hv as [Hv _]. inversion Hv.
  - eexists; split; [reflexivity|]. right. reflexivity.
Qed.

Lemma refl_ok op x v : swf x -> accepted (csize (scls x)) v -> signed_division op (skind x) = false ->
  exists r, s_reflected S op x v = Ok (SRet (SVec r)) /\ swf r /\
    forall e, exists o, reflected op (meaning e x) (vmeaning e v) = Ok o /\
      oret_val (vmeaning e v) (VBV (meaning e x)) o = Ok (VBV (meaning e r)).
Proof.
  intros Hx Hv Hs.
  assert (R : forall k, signed_division op k = false -> exists r, s_dispatch_roper S op k x v = Ok (SRet (SVec r)) /\ swf r /\
    forall e, exists o, dispatch_roper op k (meaning e x) (vmeaning e v) = Ok o /\
      oret_val (vmeaning e v) (VBV (meaning e x)) o = Ok (VBV (meaning e r))).
  { intros k Hk. destruct (roper_ok op k x v Hx Hv Hk) as (r & R1 & R2 & R3). exists r. split; auto. split; auto.
    intros e. destruct (R3 e) as (o & O1 & [[-> O2]| ->]); eexists; (split; [exact O1|]); cbn [oret_val]; congruence. }
  assert (Q : exists r, s_dispatch (rmap SVec (s_bvlshr S x v)) = Ok (SRet (SVec r)) /\ swf r /\
    forall e, exists o, match dispatch_oper bvlshr (meaning e x) (vmeaning e v) with Ok OLeft => Ok ORight | r => r end = Ok o /\
      oret_val (vmeaning e v) (VBV (meaning e x)) o = Ok (VBV (meaning e r))).
  { destruct (disp_ok OShr KBV x v Hx Hv eq_refl) as (r & R1 & R2 & R3 & R4). exists r. split; [exact R1|]. split; auto.
    intros e. destruct (R4 e) as (o & O1 & O2). cbn [op_method] in O1. rewrite O1. destruct O2 as [[-> O2]| ->];
      (eexists; split; [reflexivity|]); cbn [oret_val]; congruence. }
  unfold s_reflected, reflected, bkind, skind in *. cbn [meaning bcls] in *.
  destruct op; try (apply (R KBV); reflexivity).
  - destruct (ck (scls x)); try exact Q. apply (R KSInt); reflexivity.
  - destruct (ck (scls x)) eqn:K; try discriminate; apply (R KBV); reflexivity.
  - destruct (ck (scls x)) eqn:K; try discriminate; apply (R KBV); reflexivity.
Qed.

Lemma fwd_ok op x v : swf x -> accepted (csize (scls x)) v -> signed_division op (skind x) = false ->
  exists r, s_forward S op x v = Ok (SRet (SVec r)) /\ swf r /\
    forall e, exists o, forward op (meaning e x) (vmeaning e v) = Ok o /\
      oret_val (VBV (meaning e x)) (vmeaning e v) o = Ok (VBV (meaning e r)).
Proof.
  intros Hx Hv Hs. destruct (disp_ok op (skind x) x v Hx Hv Hs) as (r & R1 & R2 & R3 & R4).
  exists r. split; [exact R1|]. split; [exact R3|]. intros e. destruct (R4 e) as (o & O1 & O2).
  exists o. split; [exact O1|]. destruct O2 as [[-> O2]| ->]; cbn [oret_val]; congruence.
Qed.

Lemma oret_val_first a b o v (l : list (unit -> res oret)) m :
  m tt = Ok o -> oret_val a b o = Ok v -> (r <- first_of (m :: l) ;; oret_val a b r) = Ok v.
Proof. intros H1 H2. cbn [first_of]. rewrite H1. destruct o; try discriminate; exact H2. Qed.
Lemma binop_left op x v : swf x -> accepted (csize (scls x)) v -> signed_division op (skind x) = false ->
  (forall y, v = SVec y -> signed_division op (skind y) = false) ->
  exists r, s_binop S op (SVec x) v = Ok (SVec r) /\ swf r /\
    forall e, py_binop_val op (VBV (meaning e x)) (vmeaning e v) = Ok (VBV (meaning e r)).
Proof.
  intros Hx Hv Hs Hy. destruct (fwd_ok op x v Hx Hv Hs) as (r & R1 & R2 & R3).
  assert (G : forall l : list (unit -> res sret), s_first_of ((fun _ => s_forward S op x v) :: l) = Ok (SVec r)).
  { intros l. cbn [s_first_of]. now rewrite R1. }
  assert (H : forall e l, (o <- first_of ((fun _ => forward op (meaning e x) (vmeaning e v)) :: l) ;;
      oret_val (VBV (meaning e x)) (vmeaning e v) o) = Ok (VBV (meaning e r))).
  { intros e l. destruct (R3 e) as (o & O1 & O2). eapply oret_val_first; eauto. }
  destruct v as [z|b|t|y|t|t|l|i b]; try (destruct Hv as [Hv _]; inversion Hv; fail);
    try (exists r; split; [apply G|]; split; [exact R2|]; intros e; unfold py_binop_val; cbn [vmeaning py_binop];
         specialize (H e); cbn [vmeaning] in H; apply H).
  specialize (Hy y eq_refl). unfold s_binop.
  assert (Ec : forall e, bcls (meaning e x) = scls x) by reflexivity.
  assert (Ed : forall e, bcls (meaning e y) = scls y) by reflexivity.
  assert (Ek : forall e, bkind (meaning e x) = skind x) by reflexivity.
  assert (El : forall e, bkind (meaning e y) = skind y) by reflexivity.
  destruct (negb (cls_eqb (scls x) (scls y)) && cls_le (scls y) (scls x) && reflected_overridden op (skind x) (skind y)) eqn:B.
  - destruct Hv as [Hv Hsz]. assert (Hyw : swf y) by (inversion Hv; auto).
    destruct (refl_ok op y (SVec x) Hyw) as (q & Q1 & Q2 & Q3); auto.
    { split; [now constructor|]. auto. }
    exists q. split; [cbn [s_first_of]; now rewrite Q1|]. split; [exact Q2|]. intros e.
    unfold py_binop_val. cbn [vmeaning py_binop]. rewrite Ec, Ed, Ek, El, B.
    destruct (Q3 e) as (o & O1 & O2). cbn [vmeaning] in *. eapply oret_val_first; eauto.
  - destruct (cls_eqb (scls x) (scls y)) eqn:B2.
    + exists r. split; [apply G|]. split; [exact R2|]. intros e. unfold py_binop_val. cbn [vmeaning py_binop].
      rewrite Ec, Ed, Ek, El, B2. cbn [negb andb]. specialize (H e); cbn [vmeaning] in H; apply H.
    + exists r. split; [apply G|]. split; [exact R2|]. intros e. unfold py_binop_val. cbn [vmeaning py_binop].
      rewrite Ec, Ed, Ek, El, B2, B. specialize (H e); cbn [vmeaning] in H; apply H.
Qed.

Lemma binop_right op v y : swf y -> accepted (csize (scls y)) v -> plain v -> signed_division op (skind y) = false ->
  exists r, s_binop S op v (SVec y) = Ok (SVec r) /\ swf r /\
    forall e, py_binop_val op (vmeaning e v) (VBV (meaning e y)) = Ok (VBV (meaning e r)).
Proof.
  intros Hy Hv Hp Hs. destruct (refl_ok op y v Hy Hv Hs) as (q & Q1 & Q2 & Q3). exists q.
  assert (G : s_first_of [fun _ => s_reflected S op y v] = Ok (SVec q)) by (cbn [s_first_of]; now rewrite Q1).
  assert (H : forall e, (o <- first_of [fun _ => reflected op (meaning e y) (vmeaning e v)] ;;
      oret_val (vmeaning e v) (VBV (meaning e y)) o) = Ok (VBV (meaning e q))).
  { intros e. destruct (Q3 e) as (o & O1 & O2). eapply oret_val_first; eauto. }
  destruct v; try (exfalso; exact Hp); (split; [exact G|]; split; [exact Q2|]; intros e; exact (H e)).
Qed.

(** ** Bits *)
Lemma sbit_init_ok v : bit_arg v ->
  exists t, sbit_init S v = Ok t /\ bwf t = true /\ forall e, bit_init (vmeaning e v) = Ok (evalb e t).
Proof.
  pose proof FS as (F & _). destruct 1 as [b|t Ht| | |i b]; cbn [sbit_init].
  - destruct (F (BConst b) eq_refl) as [A B]. eexists; split; [reflexivity|]. split; auto. intros e. now rewrite B.
  - destruct (F t Ht) as [A B]. eexists; split; [reflexivity|]. split; auto. intros e. now rewrite B.
  - destruct (F (BConst false) eq_refl) as [A B]. eexists; split; [reflexivity|]. split; auto. intros e. now rewrite B.
  - destruct (F (BConst true) eq_refl) as [A B]. eexists; split; [reflexivity|]. split; auto. intros e. now rewrite B.
  - cbn [bind]. destruct (F (BConst b) eq_refl) as [A B]. eexists; split; [reflexivity|]. split; auto. intros e. now rewrite B.
Qed.

Lemma sbit_cast_ok fn p v : bwf p = true -> bit_arg v ->
  (forall q, bwf q = true -> bwf (fn p q) = true) ->
  exists q r, sbit_cast S fn p v = Ok (SRet (SBit r)) /\ bwf q = true /\ bwf r = true /\
    (forall e, evalb e r = evalb e (fn p q)) /\ forall e, bit_init (vmeaning e v) = Ok (evalb e q).
Proof.
  intros Hp Hv Hf. destruct (sbit_init_ok v Hv) as (t & T1 & T2 & T3).
  destruct v; cbn [sbit_cast]; try (rewrite T1; node FS; [now apply Hf|]; exists t, r; now auto).
  inversion Hv; subst. node FS; [now apply Hf|]. exists t0, r. auto.
Qed.

Lemma bit_binop_left op p v : bwf p = true -> bit_arg v -> op = OAnd \/ op = OOr \/ op = OXor ->
  exists r, s_binop S op (SBit p) v = Ok (SBit r) /\ bwf r = true /\
    forall e, py_binop_val op (VBit (evalb e p)) (vmeaning e v) = Ok (VBit (evalb e r)).
Proof.
  intros Hp Hv Ho.
  assert (G : forall l : list (unit -> res sret), exists r, s_first_of ((fun _ => sbit_method S op p v) :: l) = Ok (SBit r) /\ bwf r = true /\
    forall e l, (o <- first_of ((fun _ => bit_method op (evalb e p) (vmeaning e v)) :: l) ;;
      oret_val (VBit (evalb e p)) (vmeaning e v) o) = Ok (VBit (evalb e r))).
  { intros l. unfold sbit_method, bit_method. cbn [s_first_of first_of].
    destruct Ho as [-> |[-> | ->]]; cbn [sbit_fn bit_fn].
    - destruct (sbit_cast_ok BAnd p v Hp Hv) as (q & r & E1 & E2 & E3 & E4 & E5). { intros q Hq. cbn. now rewrite Hp. }
      rewrite E1. exists r. repeat (split; [now auto|]). intros e l0. rewrite E5. cbn [bind oret_val]. now rewrite E4.
    - destruct (sbit_cast_ok BOr p v Hp Hv) as (q & r & E1 & E2 & E3 & E4 & E5). { intros q Hq. cbn. now rewrite Hp. }
      rewrite E1. exists r. repeat (split; [now auto|]). intros e l0. rewrite E5. cbn [bind oret_val]. now rewrite E4.
    - destruct (sbit_cast_ok (fun p q => BNot (BIff q p)) p v Hp Hv) as (q & r & E1 & E2 & E3 & E4 & E5). { intros q Hq. cbn. now rewrite Hp, Hq. }
      rewrite E1. exists r. repeat (split; [now auto|]). intros e l0. rewrite E5. cbn [bind oret_val]. rewrite E4. cbn [evalb].
      do 2 f_equal. now destruct (evalb e p), (evalb e q). }
  destruct (G []) as (r & G1 & G2 & G3). exists r.
  split. { destruct v; inversion Hv; subst; exact G1. }
  split; [exact G2|]. intros e. unfold py_binop_val. specialize (G3 e []). destruct v; inversion Hv; subst; exact G3.
Qed.

Lemma bit_binop_right op v q : bwf q = true -> bit_arg v -> plain v -> op = OAnd \/ op = OOr ->
  exists r, s_binop S op v (SBit q) = Ok (SBit r) /\ bwf r = true /\
    forall e, py_binop_val op (vmeaning e v) (VBit (evalb e q)) = Ok (VBit (evalb e r)).
Proof.
  intros Hq Hv Hp Ho.
  assert (G : exists r, s_first_of [fun _ => sbit_rmethod S op q v] = Ok (SBit r) /\ bwf r = true /\
    forall e, (o <- first_of [fun _ => bit_rmethod op (evalb e q) (vmeaning e v)] ;;
      oret_val (vmeaning e v) (VBit (evalb e q)) o) = Ok (VBit (evalb e r))).
  { unfold sbit_rmethod, bit_rmethod. cbn [s_first_of first_of].
    destruct Ho as [-> | ->]; cbn [bit_fn].
    - destruct (sbit_cast_ok (fun p q => BAnd q p) q v Hq Hv) as (p & r & E1 & E2 & E3 & E4 & E5). { intros p Hq'. cbn. now rewrite Hq, Hq'. }
      rewrite E1. exists r. repeat (split; [now auto|]). intros e. rewrite E5. cbn [bind oret_val]. now rewrite E4.
    - destruct (sbit_cast_ok (fun p q => BOr q p) q v Hq Hv) as (p & r & E1 & E2 & E3 & E4 & E5). { intros p Hq'. cbn. now rewrite Hq, Hq'. }
      rewrite E1. exists r. repeat (split; [now auto|]). intros e. rewrite E5. cbn [bind oret_val]. now rewrite E4. }
  destruct G as (r & G1 & G2 & G3). exists r.
  destruct v; try (exfalso; exact Hp); (split; [exact G1|]; split; [exact G2|]; intros e; exact (G3 e)).
Qed.

Lemma sbit_invert_ok p : bwf p = true ->
  exists r, sbit_invert S p = Ok r /\ bwf r = true /\ forall e, evalb e r = bit_invert (evalb e p).
Proof. intros Hp. unfold sbit_invert. node FS; [exact Hp|]. exists r. auto. Qed.

(** ** Comparisons *)
Lemma cmp_meth c k : exists m, s_cmp_method S c k = smt_rel S m /\ cmp_method c k = conc_rel m.
Proof.
  destruct c; [exists REq|exists RNe|destruct k; [exists RUlt|exists RUlt|exists RUlt|exists RSlt]
    |destruct k; [exists RUle|exists RUle|exists RUle|exists RSle]|destruct k; [exists RUgt|exists RUgt|exists RUgt|exists RSgt]
    |destruct k; [exists RUge|exists RUge|exists RUge|exists RSge]]; try (destruct k); split; reflexivity.
Qed.
Lemma cmp_fwd_ok c x v : swf x -> accepted (csize (scls x)) v ->
  exists r, s_cmp_forward S c x v = Ok (SRet (SBit r)) /\ bwf r = true /\
    forall e, cmp_forward c (meaning e x) (vmeaning e v) = Ok (ONew (VBit (evalb e r))).
Proof.
  intros Hx Hv. destruct (cmp_meth c (skind x)) as (m & M1 & M2).
  destruct (rel_ok S FS m x v Hx Hv) as (r & R1 & R2 & R3). exists r. unfold s_cmp_forward, cmp_forward.
  rewrite M1, R1. split; [reflexivity|]. split; [exact R2|]. intros e.
  change (bkind (meaning e x)) with (skind x). rewrite M2, R3. reflexivity.
Qed.

Lemma compare_left c x v : swf x -> accepted (csize (scls x)) v ->
  exists r, s_compare S c (SVec x) v = Ok (SBit r) /\ bwf r = true /\
    forall e, py_cmp c (VBV (meaning e x)) (vmeaning e v) = Ok (ONew (VBit (evalb e r))).
Proof.
  intros Hx Hv. destruct (cmp_fwd_ok c x v Hx Hv) as (r & R1 & R2 & R3).
  assert (G : forall l, s_cmp_first_of c ((fun _ => s_cmp_forward S c x v) :: l) = Ok (SBit r)).
  { intros l. cbn [s_cmp_first_of]. now rewrite R1. }
  assert (H : forall e l, cmp_first_of c ((fun _ => cmp_forward c (meaning e x) (vmeaning e v)) :: l) = Ok (ONew (VBit (evalb e r)))).
  { intros e l. cbn [cmp_first_of]. now rewrite R3. }
  destruct v as [z|b|t|y|t|t|l|i b]; try (destruct Hv as [Hv _]; inversion Hv; fail);
    try (exists r; split; [apply G|]; split; [exact R2|]; intros e; exact (H e _)).
  unfold s_compare.
  assert (Ec : forall e, bcls (meaning e x) = scls x) by reflexivity.
  assert (Ed : forall e, bcls (meaning e y) = scls y) by reflexivity.
  destruct (negb (cls_eqb (scls x) (scls y)) && cls_le (scls y) (scls x)) eqn:B.
  - destruct Hv as [Hv Hsz]. assert (Hyw : swf y) by (inversion Hv; auto).
    destruct (cmp_fwd_ok (cmp_swap c) y (SVec x) Hyw) as (q & Q1 & Q2 & Q3).
    { split; [now constructor|]. auto. }
    exists q. split; [cbn [s_cmp_first_of]; now rewrite Q1|]. split; [exact Q2|]. intros e.
    cbn [vmeaning py_cmp]. rewrite Ec, Ed, B. cbn [cmp_first_of]. cbn [vmeaning] in Q3. now rewrite Q3.
  - exists r. split; [apply G|]. split; [exact R2|]. intros e. cbn [vmeaning py_cmp]. rewrite Ec, Ed, B. exact (H e _).
Qed.
Lemma compare_right c v y : swf y -> accepted (csize (scls y)) v -> plain v ->
  exists r, s_compare S c v (SVec y) = Ok (SBit r) /\ bwf r = true /\
    forall e, py_cmp c (vmeaning e v) (VBV (meaning e y)) = Ok (ONew (VBit (evalb e r))).
Proof.
  intros Hy Hv Hp. destruct (cmp_fwd_ok (cmp_swap c) y v Hy Hv) as (r & R1 & R2 & R3). exists r.
  assert (G : s_cmp_first_of c [fun _ => s_cmp_forward S (cmp_swap c) y v] = Ok (SBit r)) by (cbn [s_cmp_first_of]; now rewrite R1).
  assert (H : forall e, cmp_first_of c [fun _ => cmp_forward (cmp_swap c) (meaning e y) (vmeaning e v)] = Ok (ONew (VBit (evalb e r)))).
  { intros e. cbn [cmp_first_of]. now rewrite R3. }
  destruct v; try (exfalso; exact Hp); (split; [exact G|]; split; [exact R2|]; intros e; exact (H e)).
Qed.

Lemma bit_cmp_ok c p v : bwf p = true -> bit_arg v -> c = CEq \/ c = CNe ->
  exists r, sbit_cmp S c p v = Ok (SRet (SBit r)) /\ bwf r = true /\
    forall e, bit_cmp c (evalb e p) (vmeaning e v) = Ok (ONew (VBit (evalb e r))).
Proof.
  intros Hp Hv [-> | ->]; unfold sbit_cmp, bit_cmp.
  - destruct (sbit_cast_ok BIff p v Hp Hv) as (q & r & E1 & E2 & E3 & E4 & E5). { intros q Hq. cbn. now rewrite Hp. }
    rewrite E1. exists r. repeat (split; [now auto|]). intros e. rewrite E5. now rewrite E4.
  - destruct (sbit_cast_ok (fun p q => BNot (BIff p q)) p v Hp Hv) as (q & r & E1 & E2 & E3 & E4 & E5). { intros q Hq. cbn. now rewrite Hp. }
    rewrite E1. exists r. repeat (split; [now auto|]). intros e. rewrite E5. rewrite E4. cbn [evalb].
    do 3 f_equal. now destruct (evalb e p), (evalb e q).
Qed.
Lemma bit_compare_left c p v : bwf p = true -> bit_arg v -> c = CEq \/ c = CNe ->
  exists r, s_compare S c (SBit p) v = Ok (SBit r) /\ bwf r = true /\
    forall e, py_cmp c (VBit (evalb e p)) (vmeaning e v) = Ok (ONew (VBit (evalb e r))).
Proof.
  intros Hp Hv Hc. destruct (bit_cmp_ok c p v Hp Hv Hc) as (r & R1 & R2 & R3). exists r.
  assert (G : forall l, s_cmp_first_of c ((fun _ => sbit_cmp S c p v) :: l) = Ok (SBit r)) by (intros; cbn [s_cmp_first_of]; now rewrite R1).
  assert (H : forall e l, cmp_first_of c ((fun _ => bit_cmp c (evalb e p) (vmeaning e v)) :: l) = Ok (ONew (VBit (evalb e r)))).
  { intros e l. cbn [cmp_first_of]. now rewrite R3. }
  destruct v; inversion Hv; subst; (split; [apply G|]; split; [exact R2|]; intros e; exact (H e _)).
Qed.
Lemma bit_compare_right c v q : bwf q = true -> bit_arg v -> plain v -> c = CEq \/ c = CNe ->
  exists r, s_compare S c v (SBit q) = Ok (SBit r) /\ bwf r = true /\
    forall e, py_cmp c (vmeaning e v) (VBit (evalb e q)) = Ok (ONew (VBit (evalb e r))).
Proof.
  intros Hq Hv Hp Hc. assert (Hc' : cmp_swap c = CEq \/ cmp_swap c = CNe) by (destruct Hc; subst; auto).
  destruct (bit_cmp_ok (cmp_swap c) q v Hq Hv Hc') as (r & R1 & R2 & R3). exists r.
  assert (G : s_cmp_first_of c [fun _ => sbit_cmp S (cmp_swap c) q v] = Ok (SBit r)) by (cbn [s_cmp_first_of]; now rewrite R1).
  assert (H : forall e, cmp_first_of c [fun _ => bit_cmp (cmp_swap c) (evalb e q) (vmeaning e v)] = Ok (ONew (VBit (evalb e r)))).
  { intros e. cbn [cmp_first_of]. now rewrite R3. }
  destruct v; try (exfalso; exact Hp); (split; [exact G|]; split; [exact R2|]; intros e; exact (H e)).
Qed.
End I.
