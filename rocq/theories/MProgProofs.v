(** Proofs of the theorems stated in MProgProps.v. *)
From Coq Require Import Lia ZifyBool.
From Verif Require Import PyBase BVModel BVFacts OpModel SMTTerm SMTModel SMTSpec SMTFacts SMTProofs Z3Model Z3Spec Z3Proofs ProgModel ProgSpec ProgFacts MProgModel MProgSpec.
From Verif Require BVSpec ADTModel ADTFacts HeapModel HeapFacts.


Definition mrel (t : mtypes) (hs : list sval) (e : env) (hc : list pyval) (rc : list nat) : Prop :=
  exists g, rc = map g (m_vars t) /\ (forall o, (o < length hs)%nat -> nth_error hc (g o) = option_map (vmeaning e) (nth_error hs o)) /\
    (forall o o', (o < length hs)%nat -> (o' < length hs)%nat -> g o = g o' -> o = o' \/ (In o (m_fixed t) /\ In o' (m_fixed t))).
Definition set_ok (set : sval -> Z -> sval -> res sval) : Prop :=
  forall ts rs x c i b, Forall2 sym_has rs ts -> tvec ts x = Some c -> - csize c <= i < csize c -> bit_like ts b = true ->
  exists v w v', reg rs x = Ok v /\ opnd SInt rs b = Ok w /\ set v i w = Ok v' /\ sym_has v' (TVec c) /\
    forall e, reg (map (vmeaning e) rs) x = Ok (vmeaning e v) /\ opnd VInt (map (vmeaning e) rs) b = Ok (vmeaning e w) /\
      conc_set (vmeaning e v) i (vmeaning e w) = Ok (vmeaning e v').


Lemma Forall_In {A} (P : A -> Prop) l x : Forall P l -> In x l -> P x.
Proof. induction 1; cbn [In]; intuition congruence. Qed.

Lemma holds_len {V} (h : list V) rs : Forall (fun o => (o < length h)%nat) rs -> length (holds (h, rs)) = length rs.
Proof.
  unfold holds. cbn [fst snd]. induction 1 as [|o rs L F IH]; cbn [flat_map length]; auto. rewrite app_length, IH.
  apply nth_error_Some in L. destruct (nth_error h o); [reflexivity|congruence].
Qed.

Lemma holds_nth {V} (h : list V) rs : Forall (fun o => (o < length h)%nat) rs -> forall i,
  nth_error (holds (h, rs)) i = match nth_error rs i with Some o => nth_error h o | None => None end.
Proof.
  unfold holds. cbn [fst snd]. induction 1 as [|o rs L F IH]; intros [|i]; cbn [flat_map]; try reflexivity.
  - apply nth_error_Some in L. cbn [nth_error]. destruct (nth_error h o); [reflexivity|congruence].
  - apply nth_error_Some in L. destruct (nth_error h o); [|congruence]. cbn [app nth_error]. apply IH.
Qed.

Lemma holds_F2 {V W} (P : V -> W -> Prop) h k : Forall2 P h k -> forall rs, Forall2 P (holds (h, rs)) (holds (k, rs)).
Proof.
  intros F. unfold holds. cbn [fst snd]. assert (N : forall o, match nth_error h o, nth_error k o with Some a, Some b => P a b | None, None => True | _, _ => False end).
  { induction F; intros [|o]; cbn [nth_error]; auto. apply IHF. }
  induction rs as [|o rs IH]; cbn [flat_map]; [constructor|]. specialize (N o). destruct (nth_error h o), (nth_error k o); try contradiction; cbn [app]; auto.
Qed.

Lemma holds_map {V W} (f : V -> W) h k g rs : (forall o, In o rs -> nth_error k (g o) = option_map f (nth_error h o)) -> holds (k, map g rs) = map f (holds (h, rs)).
Proof.
  unfold holds. cbn [fst snd]. induction rs as [|o rs IH]; intros A; cbn [flat_map map]; [reflexivity|]. rewrite map_app, IH by (intros; apply A; now right).
  rewrite A by now left. now destruct (nth_error h o).
Qed.

Lemma smt_set_ok S : faithful S -> set_ok (smt_set S).
Proof.
  intros FS ts rs x c i b T E Hi Hb. destruct (reg_vec _ _ T _ _ E) as (a & Ra & Ca & Wa & Qa). destruct (opnd_bit _ _ T _ Hb) as (w & Ew & Aw & Lw & Bw & Qw).
  destruct (C32_setitem_pf S FS a i w Wa) as (r & A' & B' & C' & D'); [rewrite Ca; lia|auto|auto|].
  exists (SVec a), w, (SVec r). split; auto. split; auto. split; [cbn; now rewrite A'|]. split; [cbn; split; [congruence|auto]|].
  intros e. split; [apply Qa|]. split; [apply Qw|]. cbn. now rewrite D'.
Qed.

Lemma z3_set_ok S : faithful S -> set_ok (z3_set S).
Proof.
  intros FS ts rs x c i b T E Hi Hb. destruct (reg_vec _ _ T _ _ E) as (a & Ra & Ca & Wa & Qa). destruct (opnd_bit _ _ T _ Hb) as (w & Ew & Aw & Lw & Bw & Qw).
  destruct (C38_setitem_pf S FS a i w Wa) as (r & A' & B' & C' & D'); [rewrite Ca; lia|auto|auto|].
  exists (SVec a), w, (SVec r). split; auto. split; auto. split; [cbn; now rewrite A'|]. split; [cbn; split; [congruence|auto]|].
  intros e. split; [apply Qa|]. split; [apply Qw|]. cbn. now rewrite D'.
Qed.

Lemma has_arg v t e : sym_has v t -> BVSpec.arg_wf (vmeaning e v).
Proof.
  destruct v, t; cbn; try contradiction; auto. intros [<- W]. now apply swf_meaning.
Qed.

Lemma conc_self_ok vs i x ws : Forall BVSpec.arg_wf vs -> conc_self (reg vs) (opnd VInt vs) i = Some x -> conc_call (reg vs) (opnd VInt vs) i = Ok ws ->
  dividend i = Some x /\ exists v, reg vs x = Ok v /\ ws = [v].
Proof.
  intros F Q C.
  assert (R : forall j v, reg vs j = Ok v -> BVSpec.arg_wf v).
  { intros j v. unfold reg. destruct (nth_error vs j) eqn:E; [|discriminate]. intros [= <-]. apply nth_error_In in E. exact (Forall_In _ _ _ F E). }
  assert (O : forall o v, opnd VInt vs o = Ok v -> BVSpec.arg_wf v) by (intros [j|z] v; cbn [opnd]; [apply R|intros [= <-]; exact Logic.I]).
  destruct i; cbn [conc_self] in Q; try discriminate; cbn [conc_call] in C.
  all: destruct (reg vs x0) as [v|] eqn:Ev; cbn [bind] in Q, C; [|discriminate].
  - destruct v as [| | |a| | |]; cbn [as_vec bind] in Q, C; try discriminate. destruct (opnd VInt vs y) as [w|] eqn:Ew; cbn [bind] in Q, C; [|discriminate].
    destruct (conc_meth m a w) as [[|]|] eqn:Em; try discriminate. injection Q as <-. cbn [rmap one rv_val] in C. injection C as <-.
    split; [|eauto]. assert (Wa : BVSpec.wf a) by exact (R _ _ Ev). pose proof (O _ _ Ew) as Ww.
    destruct m; cbn [conc_meth] in Em; try reflexivity; exfalso;
      [ change bvand with (HeapModel.meth2_fn HeapModel.MAnd) in Em | change bvnand with (HeapModel.meth2_fn HeapModel.MNand) in Em | change bvor with (HeapModel.meth2_fn HeapModel.MOr) in Em
      | change bvnor with (HeapModel.meth2_fn HeapModel.MNor) in Em | change bvxor with (HeapModel.meth2_fn HeapModel.MXor) in Em | change bvxnor with (HeapModel.meth2_fn HeapModel.MXnor) in Em
      | change bvshl with (HeapModel.meth2_fn HeapModel.MShl) in Em | change bvlshr with (HeapModel.meth2_fn HeapModel.MLshr) in Em | change bvashr with (HeapModel.meth2_fn HeapModel.MAshr) in Em
      | change bvadd with (HeapModel.meth2_fn HeapModel.MAdd) in Em | change bvsub with (HeapModel.meth2_fn HeapModel.MSub) in Em | change bvmul with (HeapModel.meth2_fn HeapModel.MMul) in Em
      | change bvudiv with (HeapModel.meth2_fn HeapModel.MUdiv) in Em | change bvcomp with (HeapModel.meth2_fn HeapModel.MComp) in Em ];
      apply HeapFacts.meth_self in Em as [[Em|Em] _]; auto; discriminate.
  - destruct v as [| | |a| | |]; cbn [as_vec bind] in Q, C; try discriminate. destruct (bvrol a (VInt k)) as [[|]|] eqn:Em; try discriminate. exfalso.
    change bvrol with (HeapModel.meth2_fn HeapModel.MRol) in Em. apply HeapFacts.meth_self in Em as [[Em|Em] _]; try discriminate; [exact (R _ _ Ev)|exact Logic.I].
  - destruct v as [| | |a| | |]; cbn [as_vec bind] in Q, C; try discriminate. destruct (bvror a (VInt k)) as [[|]|] eqn:Em; try discriminate. exfalso.
    change bvror with (HeapModel.meth2_fn HeapModel.MRor) in Em. apply HeapFacts.meth_self in Em as [[Em|Em] _]; try discriminate; [exact (R _ _ Ev)|exact Logic.I].
  - destruct (opnd VInt vs y) as [w|] eqn:Ew; cbn [bind] in Q, C; [|discriminate]. pose proof (HeapFacts.py_binop_self op v w (R _ _ Ev) (O _ _ Ew)) as [L1 L2].
    unfold py_binop_val in C. destruct (py_binop op v w) as [[| | |]|] eqn:Eb; try discriminate; [|congruence]. injection Q as <-. cbn [bind oret_val one rmap] in C. injection C as <-.
    destruct (L1 eq_refl) as [-> _]. split; [reflexivity|eauto].
Qed.

Lemma nth_error_grown {A} (h k : list A) o : (o < length h)%nat -> nth_error (h ++ k) o = nth_error h o.
Proof. intros. now apply nth_error_app1. Qed.

Lemma Forall2_len {A B} (P : A -> B -> Prop) l m : Forall2 P l m -> length l = length m.
Proof. induction 1; cbn; congruence. Qed.

Lemma holds_arg t hs e : Forall2 sym_has hs (m_objs t) -> Forall BVSpec.arg_wf (map (vmeaning e) (holds (hs, m_vars t))).
Proof.
  intros F. pose proof (holds_F2 _ _ _ F (m_vars t)) as G. induction G; cbn [map]; constructor; auto. eapply has_arg; eauto.
Qed.

Lemma mrel_holds t hs e hc rc : Forall (fun o => (o < length hs)%nat) (m_vars t) -> mrel t hs e hc rc -> holds (hc, rc) = map (vmeaning e) (holds (hs, m_vars t)).
Proof. intros L (g & -> & A & _). apply holds_map. intros o Ho. apply A. exact (Forall_In _ _ _ L Ho). Qed.

Lemma mstep_simulates call set : simulates call -> set_ok set -> forall t m t' hs, mcheck1 t m = Some t' -> Forall2 sym_has hs (m_objs t) -> Forall (fun o => (o < length hs)%nat) (m_vars t) ->
  exists hs', mstep SInt call new_only set (hs, m_vars t) m = Ok (hs', m_vars t') /\ Forall2 sym_has hs' (m_objs t') /\ Forall (fun o => (o < length hs')%nat) (m_vars t') /\
    forall e hc rc, mrel t hs e hc rc -> exists hc' rc', mstep VInt conc_call conc_self conc_set (hc, rc) m = Ok (hc', rc') /\ mrel t' hs' e hc' rc'.
Proof.
  intros HC HS t m t' hs K F L. pose proof (holds_F2 _ _ _ F (m_vars t)) as T. fold (var_types t) in T. pose proof (Forall2_len _ _ _ F) as Ln.
  destruct m as [i|x|x i b]; cbn [mcheck1] in K.
  - destruct (check1 (var_types t) i) as [us|] eqn:E; [|discriminate]. cbn [obind] in K. injection K as <-. cbn [m_objs m_vars m_fixed].
    destruct (HC _ _ _ _ E T) as (vs & A & B & C). exists (hs ++ vs). cbn [mstep]. rewrite A. cbn [bind new_only]. rewrite (Forall2_len _ _ _ B), Ln. split; [reflexivity|].
    split; [now apply Forall2_app|]. split.
    { apply Forall_app. split; [eapply Forall_impl; [|exact L]; cbn; intros o Lo; rewrite app_length; lia|]. apply Forall_forall. intros o Ho. apply in_seq in Ho. rewrite app_length, Ln, (Forall2_len _ _ _ B). lia. }
    intros e hc rc M. pose proof (mrel_holds _ _ _ _ _ L M) as Hh. rewrite Hh, C. cbn [bind]. rewrite map_length, (Forall2_len _ _ _ B).
    destruct M as (g & -> & M1 & M2).
    assert (G : forall o, (o < length hs)%nat -> (g o < length hc)%nat).
    { intros o Lo. apply nth_error_Some. rewrite M1 by exact Lo. apply nth_error_Some in Lo. destruct (nth_error hs o); [discriminate|congruence]. }
    destruct (conc_self _ _ i) as [x|] eqn:Es.
    + destruct (conc_self_ok _ i x _ (holds_arg t hs e F) Es (C e)) as (Dv & v & Rv & Ev). rewrite Dv.
      unfold reg in Rv. destruct (nth_error (map (vmeaning e) (holds (hs, m_vars t))) x) as [v'|] eqn:Ex; [|discriminate]. injection Rv as ->.
      rewrite nth_error_map, (holds_nth _ _ L) in Ex. destruct (nth_error (m_vars t) x) as [o|] eqn:Eo; [|discriminate].
      assert (Lo : (o < length hs)%nat) by (apply nth_error_In in Eo; exact (Forall_In _ _ _ L Eo)).
      rewrite (map_nth_error g _ _ Eo). eexists _, _. split; [reflexivity|]. destruct vs as [|v' [|]]; try discriminate. injection Ev as Ev. rewrite <- (Forall2_len _ _ _ B). cbn [length seq].
      exists (fun q => if Nat.eqb q (length hs) then g o else g q). cbn [m_vars m_fixed]. split; [|split].
      * rewrite map_app. cbn [map]. rewrite <- Ln, Nat.eqb_refl. f_equal. apply map_ext_in. intros q Hq. assert (q < length hs)%nat by exact (Forall_In _ _ _ L Hq).
        destruct (Nat.eqb_spec q (length hs)); [lia|reflexivity].
      * intros q Lq. rewrite app_length in Lq. cbn [length] in Lq. destruct (Nat.eqb_spec q (length hs)) as [->|N].
        -- rewrite nth_error_app2, Nat.sub_diag by lia. cbn [nth_error option_map]. rewrite M1 by exact Lo. rewrite Ex. f_equal. congruence.
        -- rewrite nth_error_grown by lia. apply M1. lia.
      * intros q q' Lq Lq' Q. rewrite app_length in Lq, Lq'. cbn [length] in Lq, Lq'. destruct (Nat.eqb_spec q (length hs)) as [->|N], (Nat.eqb_spec q' (length hs)) as [->|N']; auto.
        -- right. rewrite Ln. split; [right; now left|]. destruct (M2 o q') as [<-|[_ X]]; auto; try lia; [now left|right; now right].
        -- right. rewrite Ln. split; [|right; now left]. destruct (M2 q o) as [->|[X _]]; auto; try lia; [now left|right; now right].
        -- destruct (M2 q q') as [|[X X']]; auto; try lia. right. split; right; now right.
    + eexists _, _. split; [reflexivity|]. exists (fun q => if Nat.ltb q (length hs) then g q else (length hc + (q - length hs))%nat). cbn [m_vars m_fixed]. split; [|split].
      * rewrite map_app. f_equal.
        -- apply map_ext_in. intros q Hq. assert (q < length hs)%nat by exact (Forall_In _ _ _ L Hq). destruct (Nat.ltb_spec q (length hs)); [reflexivity|lia].
        -- rewrite <- Ln. generalize (length us) as n. intros n. rewrite (map_ext_in _ (fun q => (length hc + (q - length hs))%nat)).
           ++ clear. revert hc. assert (Q : forall n a b, seq a n = map (fun q => (a + (q - b))%nat) (seq b n)).
              { clear. induction n as [|n IH]; intros a b; cbn [seq map]; [reflexivity|]. f_equal; [lia|]. rewrite (IH (S a) (S b)). apply map_ext_in. intros q Hq. apply in_seq in Hq. lia. }
              intros hc. apply Q.
           ++ intros q Hq. apply in_seq in Hq. destruct (Nat.ltb_spec q (length hs)); [lia|reflexivity].
      * intros q Lq. rewrite app_length in Lq. destruct (Nat.ltb_spec q (length hs)).
        -- rewrite !nth_error_grown by auto. now apply M1.
        -- rewrite !nth_error_app2 by lia. rewrite nth_error_map. f_equal. f_equal. lia.
      * intros q q' Lq Lq' Q. rewrite app_length in Lq, Lq'.
        destruct (Nat.ltb_spec q (length hs)) as [Hq|Hq], (Nat.ltb_spec q' (length hs)) as [Hq'|Hq'].
        -- destruct (M2 q q') as [|[X X']]; auto. right. destruct (dividend i); auto. destruct (nth_error _ _); auto. split; right; now right.
        -- specialize (G q Hq). lia.
        -- specialize (G q' Hq'). lia.
        -- left. lia.
  - destruct (nth_error (m_vars t) x) as [o|] eqn:E; [|discriminate]. cbn [obind] in K. injection K as <-. cbn [m_objs m_vars m_fixed mstep]. rewrite E. exists hs. split; [reflexivity|]. split; [exact F|].
    assert (Lo : (o < length hs)%nat) by (apply nth_error_In in E; exact (Forall_In _ _ _ L E)).
    split; [apply Forall_app; split; auto|]. intros e hc rc (g & -> & M1 & M2). rewrite (map_nth_error g _ _ E). eexists _, _. split; [reflexivity|]. exists g. cbn [m_vars m_fixed]. split; [now rewrite map_app|auto].
  - destruct (nth_error (m_vars t) x) as [o|] eqn:E; [|discriminate]. cbn [obind] in K. destruct (tvec (var_types t) x) as [c|] eqn:Ec; [|discriminate]. cbn [obind] in K.
    apply guard_some in K as [K <-]. apply andb_true_iff in K as [K K3]. apply andb_true_iff in K as [K1 K2].
    assert (Nf : ~ In o (m_fixed t)).
    { intros Hin. apply negb_true_iff in K1. assert (X : existsb (Nat.eqb o) (m_fixed t) = true) by (apply existsb_exists; exists o; split; [exact Hin|apply Nat.eqb_refl]). congruence. }
    assert (Lo : (o < length hs)%nat) by (apply nth_error_In in E; exact (Forall_In _ _ _ L E)).
    destruct (HS _ _ x c i b T Ec ltac:(lia) K3) as (v & w & v' & A1 & A2 & A3 & A4 & A5). cbn [mstep]. rewrite E, A1, A2. cbn [bind]. rewrite A3. cbn [bind].
    exists (ADTModel.update o v' hs). split; [reflexivity|]. rewrite ADTFacts.update_length. split; [|split; [exact L|]].
    + assert (To : nth_error (m_objs t) o = Some (TVec c)).
      { unfold tvec, var_types in Ec. rewrite holds_nth in Ec by (rewrite <- Ln; exact L). rewrite E in Ec. destruct (nth_error (m_objs t) o) as [[d|]|]; congruence. }
      clear - F To A4. revert o To. induction F as [|a u hs ts Q F IH]; intros [|o] To; cbn [ADTModel.update nth_error] in *; try discriminate; constructor; auto. now injection To as ->.
    + intros e hc rc M. pose proof (mrel_holds _ _ _ _ _ L M) as Hh. rewrite Hh. destruct (A5 e) as (B1 & B2 & B3). rewrite B1, B2. destruct M as (g & -> & M1 & M2). rewrite (map_nth_error g _ _ E). cbn [bind]. rewrite B3. cbn [bind].
      eexists _, _. split; [reflexivity|]. exists g. split; [reflexivity|]. rewrite ADTFacts.update_length. split; [|exact M2].
      intros q Lq. rewrite !ADTFacts.update_nth. destruct (Nat.eqb_spec o q) as [<-|N].
      * rewrite Nat.eqb_refl. rewrite M1 by exact Lo. apply nth_error_Some in Lo. destruct (nth_error hs o); [reflexivity|congruence].
      * destruct (Nat.eqb_spec (g o) (g q)) as [Q|]; [|now apply M1]. destruct (M2 o q Lo Lq Q) as [|[X _]]; contradiction.
Qed.

Lemma mrun_simulates call set : simulates call -> set_ok set -> forall p t t' hs, mcheck t p = Some t' -> Forall2 sym_has hs (m_objs t) -> Forall (fun o => (o < length hs)%nat) (m_vars t) ->
  exists hs', msteps SInt call new_only set (hs, m_vars t) p = Ok (hs', m_vars t') /\ Forall2 sym_has hs' (m_objs t') /\ Forall (fun o => (o < length hs')%nat) (m_vars t') /\
    forall e hc rc, mrel t hs e hc rc -> exists hc' rc', msteps VInt conc_call conc_self conc_set (hc, rc) p = Ok (hc', rc') /\ mrel t' hs' e hc' rc'.
Proof.
  intros HC HS. induction p as [|m p IH]; intros t t' hs K F L; cbn [mcheck msteps] in *.
  - injection K as <-. exists hs. split; auto. split; auto. split; auto. eauto.
  - destruct (mcheck1 t m) as [t1|] eqn:E; [|discriminate]. cbn [obind] in K. destruct (mstep_simulates call set HC HS t m t1 hs E F L) as (h1 & A & B & C & D). rewrite A. cbn [bind].
    destruct (IH t1 t' h1 K B C) as (h2 & A2 & B2 & C2 & D2). exists h2. split; auto. split; auto. split; auto. intros e hc rc M. destruct (D e hc rc M) as (hc1 & rc1 & -> & M1). cbn [bind]. now apply D2.
Qed.

Lemma mprog_simulates call set : simulates call -> set_ok set -> forall p ts t' rs, mcheck (minputs ts) p = Some t' -> Forall2 sym_has rs ts ->
  exists vs, mrun SInt call new_only set rs p = Ok vs /\ Forall2 sym_has vs (var_types t') /\ forall e, conc_mrun (map (vmeaning e) rs) p = Ok (map (vmeaning e) vs).
Proof.
  intros HC HS p ts t' rs K F. pose proof (Forall2_len _ _ _ F) as Ln.
  assert (L : Forall (fun o => (o < length rs)%nat) (m_vars (minputs ts))) by (cbn [m_vars minputs]; apply Forall_forall; intros o Ho; apply in_seq in Ho; lia).
  destruct (mrun_simulates call set HC HS p (minputs ts) t' rs K F L) as (h & A & B & C & D). exists (holds (h, m_vars t')). unfold mrun. cbn [minputs m_vars] in A. rewrite Ln, A. cbn [rmap].
  split; [reflexivity|]. split; [now apply holds_F2|]. intros e. unfold conc_mrun, mrun. rewrite map_length.
  destruct (D e (map (vmeaning e) rs) (seq 0 (length rs))) as (hc & rc & E & M).
  - exists (fun o => o). split; [cbn [minputs m_vars]; rewrite map_id; now rewrite Ln|]. split; [intros o _; apply nth_error_map|auto].
  - rewrite E. cbn [rmap]. now rewrite (mrel_holds _ _ _ _ _ C M).
Qed.

Lemma C108_smt_partial_pf : forall S, faithful S -> forall p ts t rs, mcheck (minputs ts) p = Some t -> Forall2 sym_has rs ts ->
  exists vs, smt_mrun S rs p = Ok vs /\ Forall2 sym_has vs (var_types t) /\
    forall e, conc_mrun (map (vmeaning e) rs) p = Ok (map (vmeaning e) vs).
Proof. intros S FS p ts t rs K F. exact (mprog_simulates _ _ (smt_call_simulates S FS) (smt_set_ok S FS) p ts t rs K F). Qed.

Lemma C108_z3_partial_pf : forall S, faithful S -> forall p ts t rs, mcheck (minputs ts) p = Some t -> Forall2 sym_has rs ts ->
  exists vs, z3_mrun S rs p = Ok vs /\ Forall2 sym_has vs (var_types t) /\
    forall e, conc_mrun (map (vmeaning e) rs) p = Ok (map (vmeaning e) vs).
Proof. intros S FS p ts t rs K F. exact (mprog_simulates _ _ (z3_call_simulates S FS) (z3_set_ok S FS) p ts t rs K F). Qed.

Lemma C108_refuted_pf : exists p rs vs ws e, smt_mrun no_simp rs p = Ok vs /\ z3_mrun no_simp rs p = Ok vs /\ conc_mrun (map (vmeaning e) rs) p = Ok ws /\
  (forall e', nth_error (map (vmeaning e') vs) 0 = nth_error (map (vmeaning e') rs) 0) /\ nth_error ws 0 <> nth_error (map (vmeaning e) rs) 0 /\ map (vmeaning e) vs <> ws.
Proof.
  exists [MCall (POp OMod 0 (Reg 1)); MSet 2 0 (Num 1)], [SVec (SV (BVC KUInt 4) (VVar "x" 4)); SVec (SV (BVC KUInt 4) (VVar "z" 4))].
  eexists. eexists. exists (Env (fun _ => false) (fun s _ => if String.eqb s "x" then 6 else 0) (fun _ => 0)).
  split; [vm_compute; reflexivity|]. split; [vm_compute; reflexivity|]. split; [vm_compute; reflexivity|]. split; [intros e'; reflexivity|]. split; [discriminate|discriminate].
Qed.

Lemma C108_store_pf : forall V int call self set (st st' : mstate (V := V)) m, mstep int call self set st m = Ok st' -> Forall (fun o => (o < length (fst st))%nat) (snd st) ->
  Forall (fun o => (o < length (fst st'))%nat) (snd st') /\
  match m with
  | MCall i => (exists new, fst st' = fst st ++ new) /\ exists new, snd st' = snd st ++ new
  | MAlias x => fst st' = fst st /\ exists o, nth_error (snd st) x = Some o /\ snd st' = snd st ++ [o]
  | MSet x i b => snd st' = snd st /\ length (fst st') = length (fst st) /\ exists o v w v', nth_error (snd st) x = Some o /\ nth_error (fst st) o = Some v /\
      match b with Num z => w = int z | Reg y => exists p, nth_error (snd st) y = Some p /\ nth_error (fst st) p = Some w end /\
      set v i w = Ok v' /\ nth_error (fst st') o = Some v' /\ forall q, q <> o -> nth_error (fst st') q = nth_error (fst st) q
  end.
Proof.
  intros V int call self set [h rs] st' m Q L. cbn [fst snd] in *. cbn [mstep] in Q. destruct m as [i|x|x i b].
  - destruct (call _ _ i) as [ws|]; cbn [bind] in Q; [|discriminate]. destruct (self _ _ i) as [k|].
    + destruct (nth_error rs k) as [o|] eqn:E; [|discriminate]. injection Q as <-. cbn [fst snd]. split; [apply Forall_app; split; auto; constructor; auto; apply nth_error_In in E; exact (Forall_In _ _ _ L E)|].
      split; [exists []; now rewrite app_nil_r|eauto].
    + injection Q as <-. cbn [fst snd]. split; [|eauto]. rewrite app_length. apply Forall_app. split; [eapply Forall_impl; [|exact L]; cbn; lia|]. apply Forall_forall. intros o Ho. apply in_seq in Ho. lia.
  - destruct (nth_error rs x) as [o|] eqn:E; [|discriminate]. injection Q as <-. cbn [fst snd]. split; [apply Forall_app; split; auto; constructor; auto; apply nth_error_In in E; exact (Forall_In _ _ _ L E)|]. eauto.
  - destruct (nth_error rs x) as [o|] eqn:E; [|discriminate]. unfold reg at 1 in Q. rewrite (holds_nth _ _ L), E in Q.
    destruct (nth_error h o) as [v|] eqn:Eo; cbn [bind] in Q; [|discriminate]. destruct (opnd int _ b) as [w|] eqn:Eb; cbn [bind] in Q; [|discriminate]. destruct (set v i w) as [v'|] eqn:Es; cbn [bind] in Q; [|discriminate].
    injection Q as <-. cbn [fst snd]. rewrite ADTFacts.update_length. split; auto. split; auto. split; auto. exists o, v, w, v'. split; auto. split; auto. split; [|split; [auto|split]].
    + destruct b as [y|z]; cbn [opnd] in Eb; [|congruence]. unfold reg in Eb. rewrite (holds_nth _ _ L) in Eb. destruct (nth_error rs y) as [p|]; [|discriminate]. destruct (nth_error h p) eqn:Ep; [|discriminate]. injection Eb as ->. eauto.
    + clear - Eo. revert o Eo. induction h as [|a h IH]; intros [|o]; cbn; try discriminate; auto.
    + intros q N. clear - N. revert o q N. induction h as [|a h IH]; intros [|o] [|q]; cbn; try congruence; auto.
Qed.
