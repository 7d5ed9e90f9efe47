(** Symbolic methods look at the size and the value of the receiver only. *)
From Coq Require Import Lia ZifyBool.
From Verif Require Import PyBase BVModel BVSpec BVFacts OpModel OpSpec IteModel IteSpec SMTTerm SMTModel SMTSpec SMTFacts SIteModel SIteSpec.
From Verif Require Import PMethModel PMethSpec SPMethModel SPMethSpec.

Section Cong.
Variable S : simplifier.
Hypothesis FS : faithful S.
Variable e : env.

(** Terms. *)
Definition teqs (t u : vterm) : Prop :=
  vwf t = vwf u /\ width t = width u /\ evalv e t = evalv e u.
Definition veqs (x y : svec) : Prop := scls x = scls y /\ teqs (sterm x) (sterm y).
Definition beqs (t u : bterm) : Prop := evalb e t = evalb e u.
Definition ieqs (t u : iterm) : Prop := iwf t = iwf u /\ evali e t = evali e u.
Definition rr {A} (R : A -> A -> Prop) (r q : res A) : Prop :=
  match r, q with Ok a, Ok b => R a b | Raise f, Raise g => f = g | _, _ => False end.

Lemma rr_bind {A B} (R : A -> A -> Prop) (Q : B -> B -> Prop) r q f g : rr R r q -> (forall a b, R a b -> rr Q (f a) (g b)) ->
  rr Q (bind r f) (bind q g).
Proof. destruct r, q; cbn; auto; try contradiction. Qed.
Lemma rr_map {A B} (R : A -> A -> Prop) (Q : B -> B -> Prop) r q f g : rr R r q -> (forall a b, R a b -> Q (f a) (g b)) ->
  rr Q (rmap f r) (rmap g q).
Proof. destruct r, q; cbn; auto; try contradiction. Qed.
Lemma rr_same {A B} (Q : B -> B -> Prop) (r : res A) f g : (forall a, rr Q (f a) (g a)) -> rr Q (bind r f) (bind r g).
Proof. destruct r; cbn; auto. Qed.

Lemma teqs_refl t : teqs t t. Proof. repeat split; auto. Qed.
Lemma veqs_refl x : veqs x x. Proof. split; [reflexivity|apply teqs_refl]. Qed.

Lemma vec_node_cong c t u : teqs t u -> rr veqs (vec_node S c t) (vec_node S c u).
Proof.
  intros (A & B & C). unfold vec_node. rewrite <- A, <- B. destruct (vwf t && (width t =? csize c)) eqn:E; [|reflexivity].
  apply andb_true_iff in E as [E1 E2]. apply Z.eqb_eq in E2. destruct FS as (_ & F & _).
  destruct (F t E1) as (F1 & F2 & F3). destruct (F u) as (G1 & G2 & G3); [congruence|].
  cbn. split; [reflexivity|]. cbn. split; [congruence|]. split; [congruence|]. now rewrite F3, G3.
Qed.
Lemma bit_node_cong t u : bwf t = bwf u -> evalb e t = evalb e u -> rr beqs (bit_node S t) (bit_node S u).
Proof.
  intros A B. unfold bit_node. rewrite <- A. destruct (bwf t) eqn:E; [|reflexivity]. destruct FS as (F & _).
  destruct (F t E) as (F1 & F2). destruct (F u) as (G1 & G2); [congruence|]. cbn. unfold beqs. rewrite F2, G2. auto.
Qed.
Lemma int_node_cong t u : ieqs t u -> rr ieqs (int_node S t) (int_node S u).
Proof.
  intros [A B]. unfold int_node. rewrite <- A. destruct (iwf t) eqn:E; [|reflexivity]. destruct FS as (_ & _ & F).
  destruct (F t E) as (F1 & F2). destruct (F u) as (G1 & G2); [congruence|]. cbn. unfold ieqs. rewrite F1, G1, F2, G2. auto.
Qed.

(** A term built from one changing subterm. *)
Ltac grow := let A := fresh in let B := fresh in let C := fresh in
  match goal with H : teqs ?t ?u |- _ => destruct H as (A & B & C) end; unfold teqs; cbn [vwf width evalv];
  rewrite <- ?A, <- ?B, ?C; split; [reflexivity|]; split; reflexivity.

Lemma extract_cong t u lo hi : teqs t u -> rr teqs (extract t lo hi) (extract u lo hi).
Proof.
  intros H. unfold extract. destruct ((lo <=? hi) && (0 <=? lo)); [|reflexivity].
  assert (G : teqs (VExtract lo hi t) (VExtract lo hi u)) by grow. pose proof G as (A & _). rewrite <- A.
  destruct (vwf (VExtract lo hi t)); [exact G|reflexivity].
Qed.
Lemma slice_cong x y a b s : veqs x y -> rr veqs (s_getitem_slice S x a b s) (s_getitem_slice S y a b s).
Proof.
  intros [C T]. unfold s_getitem_slice, ssize, skind. rewrite <- C.
  assert (G : forall lo hi, rr veqs (v <- extract (sterm x) lo hi ;; c <- sized (ck (scls x)) (width v) ;; vec_node S c v)
    (v <- extract (sterm y) lo hi ;; c <- sized (ck (scls x)) (width v) ;; vec_node S c v)).
  { intros lo hi. eapply rr_bind; [now apply extract_cong|]. intros t u H. pose proof H as (_ & B & _). rewrite <- B. apply rr_same. intros c.
    now apply vec_node_cong. }
  destruct s as [[|[]|]|]; try apply G; reflexivity.
Qed.
Lemma item_cong x y i : veqs x y -> rr beqs (s_getitem_int S x i) (s_getitem_int S y i).
Proof.
  intros [C T]. unfold s_getitem_int, ssize. rewrite <- C. destruct (_ && _); [|reflexivity].
  eapply rr_bind; [now apply extract_cong|]. intros t u (A & B & D). apply bit_node_cong; cbn [bwf vwf width evalb evalv].
  - now rewrite A, B.
  - now rewrite D.
Qed.
Lemma zext_cong x y k : veqs x y -> rr veqs (s_zext S x k) (s_zext S y k).
Proof.
  intros [C T]. unfold s_zext, ssize, skind. rewrite <- C. destruct (k <? 0); [reflexivity|]. apply rr_same. intros c. apply vec_node_cong. grow.
Qed.
Lemma sext_cong x y k : veqs x y -> rr veqs (s_sext S x k) (s_sext S y k).
Proof.
  intros [C T]. unfold s_sext, ssize, skind. rewrite <- C. destruct (k <? 0); [reflexivity|]. apply rr_same. intros c. apply vec_node_cong. grow.
Qed.
Lemma not_cong x y : veqs x y -> rr veqs (s_bvnot S x) (s_bvnot S y).
Proof. intros [C T]. unfold s_bvnot. rewrite <- C. apply vec_node_cong. grow. Qed.
Lemma neg_cong x y : veqs x y -> rr veqs (s_bvneg S x) (s_bvneg S y).
Proof. intros [C T]. unfold s_bvneg. rewrite <- C. apply vec_node_cong. grow. Qed.
Lemma bin_cong op x y v : veqs x y -> rr veqs (s_bin S op x v) (s_bin S op y v).
Proof.
  intros [C T]. unfold s_bin, s_cast. rewrite <- C. apply rr_same. intros o. apply vec_node_cong. grow.
Qed.
Lemma nbin_cong op x y v : veqs x y -> rr veqs (s_nbin S op x v) (s_nbin S op y v).
Proof.
  intros [C T]. unfold s_nbin, s_cast. rewrite <- C. apply rr_same. intros o. apply vec_node_cong. grow.
Qed.
(** Both operands changing. *)
Lemma bin2_cong op x y a b : veqs x y -> veqs a b -> rr veqs (s_bin S op x (SVec a)) (s_bin S op y (SVec b)).
Proof.
  intros [C T] [D U]. unfold s_bin, s_cast, s_coerce, ssize. rewrite <- C, <- D. destruct (negb _); [reflexivity|]. cbn [bind]. rewrite <- ?C.
  apply vec_node_cong. destruct T as (T1 & T2 & T3), U as (U1 & U2 & U3). unfold teqs. cbn [vwf width evalv].
  rewrite <- T1, <- T2, <- U1, <- U2. split; [reflexivity|]. split; [reflexivity|]. now rewrite T3, U3.
Qed.
Lemma comp_cong x y v : veqs x y -> rr veqs (s_bvcomp S x v) (s_bvcomp S y v).
Proof.
  intros [C T]. unfold s_bvcomp, s_cast, skind. rewrite <- C. apply rr_same. intros o. apply rr_same. intros c.
  apply vec_node_cong. grow.
Qed.
Lemma rel_cong f x y v : (forall o, bwf (f (sterm x) o) = bwf (f (sterm y) o) /\ evalb e (f (sterm x) o) = evalb e (f (sterm y) o)) ->
  veqs x y -> rr beqs (s_rel S f x v) (s_rel S f y v).
Proof.
  intros F [C T]. unfold s_rel, s_cast. rewrite <- C. apply rr_same. intros o. destruct (F (sterm o)). now apply bit_node_cong.
Qed.
Lemma rel_all x y v m : veqs x y -> rr beqs (smt_rel S m x v) (smt_rel S m y v).
Proof.
  intros H. destruct m; apply rel_cong; auto; intros o; destruct H as (_ & A & B & C); cbn [bwf evalb]; rewrite <- ?A, <- ?B;
    rewrite ?C; split; reflexivity.
Qed.
Lemma meth_all x y v m : veqs x y -> rr veqs (smt_meth S m x v) (smt_meth S m y v).
Proof. intros H. destruct m; try (now apply bin_cong); try (now apply nbin_cong). now apply comp_cong. Qed.
Lemma rol_cong x y v : veqs x y -> rr veqs (s_bvrol S x v) (s_bvrol S y v).
Proof.
  intros [C T]. unfold s_bvrol. apply rr_same. intros k. pose proof T as (_ & B & _). rewrite <- B, <- C. destruct (_ || _); [reflexivity|].
  apply vec_node_cong. grow.
Qed.
Lemma ror_cong x y v : veqs x y -> rr veqs (s_bvror S x v) (s_bvror S y v).
Proof.
  intros [C T]. unfold s_bvror. apply rr_same. intros k. pose proof T as (_ & B & _). rewrite <- B, <- C. destruct (_ || _); [reflexivity|].
  apply vec_node_cong. grow.
Qed.
Lemma repeat_cong x y v : veqs x y -> rr veqs (s_repeat S x v) (s_repeat S y v).
Proof.
  intros [C T]. unfold s_repeat. apply rr_same. intros r. rewrite <- C. apply vec_node_cong. unfold bv_repeat_node.
  induction (Z.to_nat (r - 1)) as [|n IH]; [exact T|]. cbn [Nat.iter nat_rect]. destruct T as (A & B & D), IH as (E & F & G). unfold teqs.
  cbn [vwf width evalv]. rewrite <- A, <- B. unfold Nat.iter in E, F, G. rewrite <- E, <- F. split; [reflexivity|]. split; [reflexivity|].
  now rewrite D, G.
Qed.
Lemma setitem_cong x y i v : veqs x y -> rr veqs (s_setitem_int S x i v) (s_setitem_int S y i v).
Proof.
  intros [C T]. unfold s_setitem_int. destruct (negb _); [reflexivity|]. unfold ssize. rewrite <- C. destruct (negb _); [reflexivity|].
  apply rr_same. intros mask. apply rr_same. intros b. eapply rr_bind; [apply bin_cong; now split|]. intros t t' [C1 T1].
  apply rr_same. intros nm. eapply rr_bind; [apply bin_cong; now split|]. intros f f' [C2 T2]. eapply rr_bind.
  - apply vec_node_cong. destruct T1 as (A1 & A2 & A3), T2 as (B1 & B2 & B3). unfold teqs. cbn [vwf width evalv]. rewrite <- A1, <- A2, <- B1, <- B2.
    split; [reflexivity|]. split; [reflexivity|]. now rewrite A3, B3.
  - intros r r' [C3 T3]. split; [reflexivity|exact T3].
Qed.
Lemma adc_cong x y a c : veqs x y -> rr (fun r q => veqs (fst r) (fst q) /\ beqs (snd r) (snd q)) (s_adc S x a c) (s_adc S y a c).
Proof.
  intros [C T]. unfold s_adc, ssize, skind. rewrite <- C. apply rr_same. intros o. apply rr_same. intros c1. apply rr_same. intros k.
  eapply rr_bind; [apply zext_cong; now split|]. intros xa xb Hx. apply rr_same. intros b. apply rr_same. intros cc.
  eapply rr_bind; [apply bin_cong, Hx|]. intros s1 s1' H1. eapply rr_bind; [apply bin_cong, H1|]. intros s2 s2' H2.
  eapply rr_bind; [apply slice_cong, H2|]. intros lo lo' Hl. eapply rr_bind; [apply item_cong, H2|]. intros hi hi' Hh. cbn. auto.
Qed.
Lemma nat_cong x y : veqs x y -> rr ieqs (i_init S (TVal (SVec x))) (i_init S (TVal (SVec y))).
Proof.
  intros (C & A & B & D). cbn [i_init]. apply int_node_cong. unfold ieqs. cbn [iwf evali]. rewrite A, D. split; reflexivity.
Qed.
Lemma uint_cong x y : veqs x y -> rr ieqs (s_as_uint S x) (s_as_uint S y).
Proof. apply nat_cong. Qed.
Lemma and_int_cong x y z : veqs x y -> scls x = BVC KBV (ssize x) ->
  rr (fun a b => exists r q, a = SVec r /\ b = SVec q /\ veqs r q) (s_binop S OAnd (SVec x) (SInt z)) (s_binop S OAnd (SVec y) (SInt z)).
Proof.
  intros H _. cbn [s_binop s_first_of]. unfold s_forward. cbn [s_op_method]. pose proof (bin_cong XAnd x y (SInt z) H) as B. unfold s_bvand.
  destruct (s_bin S XAnd x (SInt z)) as [r|err], (s_bin S XAnd y (SInt z)) as [q|err']; cbn in B |- *; try contradiction.
  - eauto 6.
  - subst err'. destruct err; reflexivity.
Qed.
Lemma sint_cong x y : veqs x y -> scls x = BVC KBV (ssize x) -> rr ieqs (s_as_sint S x) (s_as_sint S y).
Proof.
  intros H K. pose proof H as [C T]. unfold s_as_sint. eapply rr_bind; [apply slice_cong, H|]. intros lo lo' Hl.
  eapply rr_bind; [apply nat_cong, Hl|]. intros a a' Ha. unfold ssize. rewrite <- C. eapply rr_bind; [apply and_int_cong; auto|].
  intros m m' (r & q & -> & -> & Hrq). eapply rr_bind; [apply nat_cong, Hrq|]. intros b b' Hb. unfold i_sub, i_cast.
  assert (G : ieqs (ISub a b) (ISub a' b')).
  { destruct Ha as [A1 A2], Hb as [B1 B2]. unfold ieqs. cbn [iwf evali]. rewrite A1, B1, A2, B2. split; reflexivity. }
  pose proof (int_node_cong _ _ G) as N. destruct (int_node S (ISub a b)), (int_node S (ISub a' b')); cbn in N |- *; auto.
Qed.
End Cong.

(** Every call but ext and concat. *)
Definition sb_eq (e : env) (i j : sbitem) : Prop :=
  match i, j with SBVec x, SBVec y => veqs e x y | SBBit t, SBBit u => beqs e t u | SBNum t, SBNum u => ieqs e t u | _, _ => False end.
Lemma call_cong S e c x y : faithful S -> splain_call c -> veqs e x y -> scls x = BVC KBV (ssize x) ->
  rr (Forall2 (sb_eq e)) (sb_call S c x) (sb_call S c y).
Proof.
  intros FS P H K.
  assert (V : forall r q, rr (veqs e) r q -> rr (Forall2 (sb_eq e)) (svecs r) (svecs q)).
  { intros r q R. eapply rr_map; [exact R|]. intros a b Hab. constructor; auto. }
  assert (B : forall r q, rr (beqs e) r q -> rr (Forall2 (sb_eq e)) (rmap (fun t => [SBBit t]) r) (rmap (fun t => [SBBit t]) q)).
  { intros r q R. eapply rr_map; [exact R|]. intros a b Hab. constructor; auto. }
  assert (I : forall r q, rr (ieqs e) r q -> rr (Forall2 (sb_eq e)) (rmap (fun t => [SBNum t]) r) (rmap (fun t => [SBNum t]) q)).
  { intros r q R. eapply rr_map; [exact R|]. intros a b Hab. constructor; auto. }
  destruct c; cbn [splain_call] in P; try contradiction; cbn [sb_call].
  - apply V. now apply meth_all.
  - apply B. now apply rel_all.
  - apply V. now apply rol_cong.
  - apply V. now apply ror_cong.
  - apply V. now apply bin_cong.
  - apply V. now apply bin_cong.
  - apply V. now apply not_cong.
  - apply V. now apply neg_cong.
  - apply B. now apply item_cong.
  - apply V. now apply slice_cong.
  - apply V. now apply zext_cong.
  - apply V. now apply sext_cong.
  - apply V. now apply repeat_cong.
  - apply V. now apply setitem_cong.
  - eapply rr_map; [eapply adc_cong; eassumption|]. intros [p q] [r s] [A C]. cbn [fst snd] in *. constructor; [exact A|]. constructor; [exact C|constructor].
  - apply I. now apply uint_cong.
  - apply I. now apply sint_cong.
Qed.

(** The variant a resolved method runs. *)
Fixpoint chosen (e : env) (m : spmeth) : bool :=
  match m with SMLeaf s => s | SMVCall sel m0 m1 => if evalb e sel then chosen e m0 else chosen e m1 end.
Lemma chosen_resolve e c : chosen e (s_resolve true c) = is_signed (selected_kind (cls_meaning e c)).
Proof.
  induction c as [l|i t0 IH0 t1 IH1 sel]; [destruct l; reflexivity|]. cbn [cls_meaning selected_kind s_resolve]. unfold s_build_vcall.
  assert (G : chosen e (SMVCall sel (s_resolve true t0) (s_resolve true t1)) =
    is_signed (if evalb e sel then selected_kind (cls_meaning e t0) else selected_kind (cls_meaning e t1))).
  { cbn [chosen]. now destruct (evalb e sel). }
  destruct (s_resolve true t0) as [u0|? ? ?], (s_resolve true t1) as [u1|? ? ?]; try exact G.
  destruct (Bool.eqb u0 u1) eqn:Q; [|exact G]. apply Bool.eqb_prop in Q. subst. rewrite <- G. cbn. now destruct (evalb e sel).
Qed.
