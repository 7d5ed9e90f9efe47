(** The symbolic ite and the operators of symbolic polymorphic classes follow the concrete ones under every
    assignment. *)
From Coq Require Import Lia ZifyBool.
From Verif Require Import PyBase BVModel BVSpec BVFacts BVOps OpModel OpSpec OpFacts IteModel IteSpec IteFacts.
From Verif Require Import SMTTerm SMTModel SMTSpec SMTFacts SMTOps SMTInfix SIteModel SIteSpec.

Section SInd.
Variable P : sbranch -> Prop.
Hypothesis Ht : forall l, Forall P l -> P (SBrTuple l).
Hypothesis Hb : forall t, P (SBrBit t).
Hypothesis Hv : forall x, P (SBrVec x).
Hypothesis Hp : forall i a, P (SBrProto i a).
Hypothesis Ho : P SBrOther.
Fixpoint sbranch_ind' (b : sbranch) : P b :=
  match b with
  | SBrTuple l => Ht l ((fix go l : Forall P l := match l with [] => Forall_nil P | v :: l => Forall_cons v (sbranch_ind' v) (go l) end) l)
  | SBrBit t => Hb t | SBrVec x => Hv x | SBrProto i a => Hp i a | SBrOther => Ho
  end.
End SInd.

Lemma sbranch_ok_list l : sbranch_ok (SBrTuple l) <-> Forall sbranch_ok l.
Proof. cbn [sbranch_ok]. induction l as [|b l IH]; split; intros H; auto; [constructor; tauto|]. inversion H; subst. tauto. Qed.
Lemma no_proto_list l : no_proto (SBrTuple l) <-> Forall no_proto l.
Proof. cbn [no_proto]. induction l as [|b l IH]; split; intros H; auto; [constructor; tauto|]. inversion H; subst. tauto. Qed.

Lemma eqb_meaning e a b : pcls_eqb (cls_meaning e a) (cls_meaning e b) = spcls_eqb a b.
Proof. now destruct a, b. Qed.
Lemma same_meaning e x y : same_cls (obj_meaning e x) (obj_meaning e y) = s_same_cls x y.
Proof. unfold same_cls, s_same_cls. cbn [pc pn obj_meaning]. now rewrite eqb_meaning. Qed.
Lemma obj_range e x : obj_ok x -> pwf (obj_meaning e x).
Proof.
  intros [_ H]. pose proof (eval_range e (as_svec x) H) as R. destruct H as (H & _). cbn in *. split; cbn; lia.
Qed.

Lemma branch_range e t : sbranch_ok t -> branch_ok (branch_meaning e t).
Proof.
  induction t as [l IH|p|x|i a|] using sbranch_ind'; intros Ht; cbn [branch_meaning]; try exact I; [|now apply obj_range].
  apply branch_ok_list. apply sbranch_ok_list in Ht. rewrite Forall_map. induction IH; inversion Ht; subst; constructor; auto.
Qed.

Fixpoint rt_meaning (e : env) (r : srtype) : rtype :=
  match r with
  | SRTuple l => RTuple (map (rt_meaning e) l)
  | SRBit => RBit
  | SRVec c n => RVec (cls_meaning e c) n
  | SRProto i => RProto i
  end.

(** Local names for the loops over tuples. *)
Definition rt_loop (sel : bterm) := fix go (id : nat) (lt lf : list sbranch) : res (list srtype * nat) :=
  match lt, lf with
  | [], [] => Ok ([], id)
  | t :: lt, f :: lf => r <- s_return_type id sel t f ;; rs <- go (snd r) lt lf ;; Ok (fst r :: fst rs, snd rs)
  | _, _ => Raise ETypeError
  end.
Definition push_loop (tab : sptypes) (sel : bterm) := fix go (lt lf : list sbranch) : res (list snode) :=
  match lt, lf with
  | [], [] => Ok []
  | t :: lt, f :: lf => r <- s_push_ite tab sel t f ;; rs <- go lt lf ;; Ok (r :: rs)
  | _, _ => Raise EAssertion
  end.
Definition coerce_loop (S : simplifier) (tab : sptypes) := fix go (lr : list srtype) (lb : list snode) : res (list sbranch) :=
  match lr, lb with
  | [], [] => Ok []
  | r :: lr, b :: lb => x <- s_coerce_branch S tab r b ;; xs <- go lr lb ;; Ok (x :: xs)
  | _, _ => Raise EAssertion
  end.
Definition c_rt_loop (sel : bool) := fix go (id : nat) (lt lf : list branch) : res (list rtype * nat) :=
  match lt, lf with
  | [], [] => Ok ([], id)
  | t :: lt, f :: lf => r <- return_type id sel t f ;; rs <- go (snd r) lt lf ;; Ok (fst r :: fst rs, snd rs)
  | _, _ => Raise ETypeError
  end.
Definition c_push_loop (tab : ptypes) (sel : bool) := fix go (lt lf : list branch) : res (list branch) :=
  match lt, lf with
  | [], [] => Ok []
  | t :: lt, f :: lf => r <- push_ite tab sel t f ;; rs <- go lt lf ;; Ok (r :: rs)
  | _, _ => Raise EAssertion
  end.
Definition c_coerce_loop (tab : ptypes) := fix go (lr : list rtype) (lb : list branch) : res (list branch) :=
  match lr, lb with
  | [], [] => Ok []
  | r :: lr, b :: lb => x <- coerce_branch tab r b ;; xs <- go lr lb ;; Ok (x :: xs)
  | _, _ => Raise EAssertion
  end.

Section Sim.
Variable S : simplifier.
Hypothesis FS : faithful S.
Variable tab : sptypes.
Variable sel : bterm.
Hypothesis Hsel : bwf sel = true.

Definition sim (t : sbranch) : Prop := forall id f, sbranch_ok t -> sbranch_ok f -> no_proto t ->
  match s_return_type id sel t f with
  | Raise err => forall e, return_type id (evalb e sel) (branch_meaning e t) (branch_meaning e f) = Raise err
  | Ok (r, id') =>
      (forall e, return_type id (evalb e sel) (branch_meaning e t) (branch_meaning e f) = Ok (rt_meaning e r, id')) /\
      exists v w, s_push_ite tab sel t f = Ok v /\ s_coerce_branch S tab r v = Ok w /\ sbranch_ok w /\ no_proto w /\
        forall e ct, (exists cv, push_ite ct (evalb e sel) (branch_meaning e t) (branch_meaning e f) = Ok cv /\
                      coerce_branch ct (rt_meaning e r) cv = Ok (branch_meaning e w)) /\
                     carries ct (branch_meaning e (if evalb e sel then t else f)) (branch_meaning e w)
  end.

Lemma rt_step id lt lf : s_return_type id sel (SBrTuple lt) (SBrTuple lf) =
  match rt_loop sel id lt lf with
  | Ok (l, id) => Ok (SRTuple l, id)
  | Raise e => if is_type_error e then Raise ETypeError else Raise e
  end.
Proof. reflexivity. Qed.
Lemma c_rt_step id s lt lf : return_type id s (BrTuple lt) (BrTuple lf) =
  match c_rt_loop s id lt lf with
  | Ok (l, id) => Ok (RTuple l, id)
  | Raise e => if is_type_error e then Raise ETypeError else Raise e
  end.
Proof. reflexivity. Qed.

Lemma sim_loop lt : Forall sim lt -> forall id lf, Forall sbranch_ok lt -> Forall sbranch_ok lf -> Forall no_proto lt ->
  match rt_loop sel id lt lf with
  | Raise err => forall e, c_rt_loop (evalb e sel) id (map (branch_meaning e) lt) (map (branch_meaning e) lf) = Raise err
  | Ok (rs, id') =>
      (forall e, c_rt_loop (evalb e sel) id (map (branch_meaning e) lt) (map (branch_meaning e) lf) = Ok (map (rt_meaning e) rs, id')) /\
      exists vs ws, push_loop tab sel lt lf = Ok vs /\ coerce_loop S tab rs vs = Ok ws /\ Forall sbranch_ok ws /\ Forall no_proto ws /\
        forall e ct, (exists cvs, c_push_loop ct (evalb e sel) (map (branch_meaning e) lt) (map (branch_meaning e) lf) = Ok cvs /\
          c_coerce_loop ct (map (rt_meaning e) rs) cvs = Ok (map (branch_meaning e) ws)) /\
          Forall2 (carries ct) (map (branch_meaning e) (if evalb e sel then lt else lf)) (map (branch_meaning e) ws)
  end.
Proof.
  induction 1 as [|t lt Ht Hlt IH]; intros id lf Ot Of Nt; destruct lf as [|f lf]; cbn [rt_loop map c_rt_loop]; auto.
  - split; auto. exists [], []. cbn. repeat (split; [now auto|]). intros e ct. split; [eauto|]. destruct (evalb e sel); constructor.
  - fold (rt_loop sel). inversion Ot as [|? ? Ot1 Ot2]; subst. inversion Of as [|? ? Of1 Of2]; subst. inversion Nt as [|? ? Nt1 Nt2]; subst.
    specialize (Ht id f Ot1 Of1 Nt1). destruct (s_return_type id sel t f) as [[r id1]|err]; cbn [bind fst snd].
    + destruct Ht as [C1 (v & w & V1 & V2 & V3 & V4 & V5)]. specialize (IH id1 lf Ot2 Of2 Nt2).
      destruct (rt_loop sel id1 lt lf) as [[rs id2]|err]; cbn [bind fst snd].
      * destruct IH as [D1 (vs & ws & W1 & W2 & W3 & W4 & W5)]. split.
        { intros e. rewrite C1. cbn [bind fst snd]. fold (c_rt_loop (evalb e sel)). now rewrite D1. }
        exists (v :: vs), (w :: ws). cbn [push_loop coerce_loop]. fold (push_loop tab sel). fold (coerce_loop S tab).
        rewrite V1, W1. cbn [bind]. cbn [coerce_loop]. fold (coerce_loop S tab). rewrite V2. cbn [bind]. rewrite W2. cbn [bind].
        repeat (split; [now auto|]). intros e ct. destruct (V5 e ct) as [(cv & A1 & A2) A3]. destruct (W5 e ct) as [(cvs & B1 & B2) B3].
        split.
        { exists (cv :: cvs). cbn [map c_push_loop c_coerce_loop]. fold (c_push_loop ct (evalb e sel)). fold (c_coerce_loop ct).
          rewrite A1, B1. cbn [bind]. split; [reflexivity|]. rewrite A2, B2. reflexivity. }
        destruct (evalb e sel); cbn [map]; constructor; auto.
      * intros e. rewrite C1. cbn [bind fst snd]. fold (c_rt_loop (evalb e sel)). now rewrite IH.
    + intros e. now rewrite Ht.
Qed.

Lemma sim_all t : sim t.
Proof.
  induction t as [l IH|p|x|i a|] using sbranch_ind'; intros id f Ot Of Nt.
  - destruct f as [lf|q|y|j b|]; try (cbn; now intros).
    apply sbranch_ok_list in Ot. apply sbranch_ok_list in Of. apply no_proto_list in Nt.
    pose proof (sim_loop l IH id lf Ot Of Nt) as L. rewrite rt_step.
    destruct (rt_loop sel id l lf) as [[rs id']|err].
    + destruct L as [C1 (vs & ws & V1 & V2 & V3 & V4 & V5)]. split.
      { intros e. cbn [branch_meaning]. rewrite c_rt_step, C1. reflexivity. }
      exists (NTuple vs), (SBrTuple ws).
      change (s_push_ite tab sel (SBrTuple l) (SBrTuple lf)) with (rmap NTuple (push_loop tab sel l lf)). rewrite V1.
      change (s_coerce_branch S tab (SRTuple rs) (NTuple vs)) with (rmap SBrTuple (coerce_loop S tab rs vs)). rewrite V2.
      repeat (split; [reflexivity|]). split; [now apply sbranch_ok_list|]. split; [now apply no_proto_list|].
      intros e ct. destruct (V5 e ct) as [(cvs & A1 & A2) A3]. split.
      { exists (BrTuple cvs). cbn [branch_meaning rt_meaning].
        change (push_ite ct (evalb e sel) (BrTuple (map (branch_meaning e) l)) (BrTuple (map (branch_meaning e) lf)))
          with (rmap BrTuple (c_push_loop ct (evalb e sel) (map (branch_meaning e) l) (map (branch_meaning e) lf))). rewrite A1.
        change (coerce_branch ct (RTuple (map (rt_meaning e) rs)) (BrTuple cvs))
          with (rmap BrTuple (c_coerce_loop ct (map (rt_meaning e) rs) cvs)). rewrite A2. auto. }
      destruct (evalb e sel); cbn [branch_meaning]; now constructor.
    + destruct (is_type_error err) eqn:Te; intros e; cbn [branch_meaning]; rewrite c_rt_step, L, Te; reflexivity.
  - destruct f as [lf|q|y|j b|]; try (cbn; now intros). cbn [s_return_type]. split; [reflexivity|].
    cbn [sbranch_ok] in Ot, Of. cbn [s_push_ite s_coerce_branch].
    destruct (bit_node_ok S FS (BIte sel p q)) as (r & E & W & V). { cbn [bwf]. now rewrite Hsel, Ot, Of. }
    eexists. exists (SBrBit r). split; [reflexivity|]. cbn [s_coerce_branch]. rewrite E. split; [reflexivity|].
    split; [exact W|]. split; [exact I|]. intros e ct. split.
    + exists (BrBit (if evalb e sel then evalb e p else evalb e q)). cbn [push_ite branch_meaning coerce_branch rt_meaning]. rewrite V. cbn [evalb].
      destruct (evalb e sel); auto.
    + cbn [branch_meaning]. rewrite V. cbn [evalb]. destruct (evalb e sel); cbn [branch_meaning]; constructor.
  - destruct f as [lf|q|y|j b|]; try (cbn; now intros). cbn [s_return_type branch_meaning return_type].
    cbn [sbranch_ok] in Ot, Of. destruct Ot as [Ot Wx]. destruct Of as [Of Wy].
    assert (G : spn x = spn y -> forall c, cls_ok c -> exists v w, s_push_ite tab sel (SBrVec x) (SBrVec y) = Ok v /\
        s_coerce_branch S tab (SRVec c (spn x)) v = Ok w /\ sbranch_ok w /\ no_proto w /\
        forall e ct, (exists cv, push_ite ct (evalb e sel) (BrVec (obj_meaning e x)) (BrVec (obj_meaning e y)) = Ok cv /\
                      coerce_branch ct (rt_meaning e (SRVec c (spn x))) cv = Ok (branch_meaning e w)) /\
                     carries ct (branch_meaning e (if evalb e sel then SBrVec x else SBrVec y)) (branch_meaning e w)).
    { intros En c Hc. cbn [s_push_ite s_coerce_branch]. pose proof Wx as (X1 & X2 & X3). pose proof Wy as (Y1 & Y2 & Y3). cbn in X1, X2, X3, Y1, Y2, Y3.
      destruct (vec_node_ok S FS (BVC KBV (spn x)) (VIte sel (spt x) (spt y))) as (r & E & C & W & V); cbn [csize vwf width]; auto.
      { rewrite Hsel, X2, Y2. cbn [andb]. lia. }
      eexists. exists (SBrVec (SPObj c (spn x) (sterm r))). split; [reflexivity|]. cbn [s_coerce_branch]. rewrite E. split; [reflexivity|].
      assert (W' : swf (SV (BVC KBV (spn x)) (sterm r))). { unfold swf in *. cbn [scls sterm] in *. now rewrite C in W. }
      split; [split; [exact Hc|exact W']|]. split; [exact I|]. intros e ct.
      pose proof (obj_range e x (conj Ot Wx)) as Rx. pose proof (obj_range e y (conj Of Wy)) as Ry.
      split.
      - eexists. split; [reflexivity|]. cbn [rt_meaning branch_meaning]. destruct (evalb e sel) eqn:Es; cbn [coerce_branch pv obj_meaning].
        + rewrite recast_val by lia. unfold obj_meaning. cbn [spc spn spt]. rewrite V. cbn [evalv]. rewrite Es.
          rewrite Z.mod_small; [reflexivity|]. apply Rx.
        + rewrite recast_val by lia. unfold obj_meaning. cbn [spc spn spt]. rewrite V. cbn [evalv]. rewrite Es.
          rewrite Z.mod_small; [reflexivity|]. rewrite En. apply Ry.
      - destruct (evalb e sel) eqn:Es; cbn [branch_meaning]; constructor; cbn [pn pv obj_meaning spn spt]; auto; rewrite V; cbn [evalv]; now rewrite Es. }
    destruct (s_same_cls x y) eqn:Esame.
    + assert (En : spn x = spn y) by (unfold s_same_cls in Esame; lia). split.
      { intros e. now rewrite same_meaning, Esame. }
      now apply G.
    + destruct (Z.eqb_spec (spn x) (spn y)) as [En|En]; cbn [negb].
      * split; [|apply G; [exact En|cbn; auto]]. intros e. rewrite same_meaning, Esame. cbn [pn obj_meaning].
        destruct (Z.eqb_spec (spn x) (spn y)); [reflexivity|lia].
      * intros e. rewrite same_meaning, Esame. cbn [pn obj_meaning]. now destruct (Z.eqb_spec (spn x) (spn y)).
  - destruct Nt.
  - destruct f; cbn; now intros.
Qed.

Lemma ite_sim id t f : sbranch_ok t -> sbranch_ok f -> no_proto t ->
  match s_ite S tab id sel t f with
  | Ok (r, id') => sbranch_ok r /\ no_proto r /\
      forall e ct, ite ct id (evalb e sel) (branch_meaning e t) (branch_meaning e f) = Ok (branch_meaning e r, id') /\
                   carries ct (branch_meaning e (if evalb e sel then t else f)) (branch_meaning e r)
  | Raise err => forall e ct, ite ct id (evalb e sel) (branch_meaning e t) (branch_meaning e f) = Raise err
  end.
Proof.
  intros Ot Of Nt. pose proof (sim_all t id f Ot Of Nt) as H. unfold s_ite.
  destruct (s_return_type id sel t f) as [[r id']|err]; cbn [bind fst snd].
  - destruct H as [C1 (v & w & V1 & V2 & V3 & V4 & V5)]. rewrite V1. cbn [bind]. rewrite V2. cbn [bind].
    repeat (split; [now auto|]). intros e ct. destruct (V5 e ct) as [(cv & A1 & A2) A3]. split; [|exact A3].
    unfold ite. rewrite C1. cbn [bind fst snd]. rewrite A1. cbn [bind]. rewrite A2. reflexivity.
  - intros e ct. unfold ite. now rewrite H.
Qed.
End Sim.

(** ** Methods *)
Fixpoint meth_meaning (e : env) (m : spmeth) : pmeth :=
  match m with SMLeaf s => MLeaf s | SMVCall sel m0 m1 => MVCall (evalb e sel) (meth_meaning e m0) (meth_meaning e m1) end.
Fixpoint meth_ok (good : bool -> Prop) (m : spmeth) : Prop :=
  match m with SMLeaf s => good s | SMVCall sel m0 m1 => bwf sel = true /\ meth_ok good m0 /\ meth_ok good m1 end.

Lemma resolve_meaning e ov c : resolve ov (cls_meaning e c) = meth_meaning e (s_resolve ov c).
Proof.
  induction c as [k|id t0 IH0 t1 IH1 sel]; [reflexivity|]. cbn [cls_meaning resolve s_resolve]. rewrite IH0, IH1.
  destruct (s_resolve ov t0) as [a|? ? ?], (s_resolve ov t1) as [b|? ? ?]; cbn; try reflexivity. now destruct (Bool.eqb a b).
Qed.
Lemma resolve_ok (good : bool -> Prop) ov c : cls_ok c -> good false -> (ov && has_signed c = true -> good true) ->
  meth_ok good (s_resolve ov c).
Proof.
  intros Hc Hf Ht. induction c as [k|id t0 IH0 t1 IH1 sel]; cbn [s_resolve].
  - cbn [meth_ok]. cbn [has_signed] in Ht. destruct (ov && kind_eqb k KSInt); auto.
  - destruct Hc as (C0 & C1 & Cs). cbn [has_signed] in Ht.
    assert (G0 : meth_ok good (s_resolve ov t0)) by (apply IH0; auto; intros Q; apply Ht; destruct ov; cbn in *; [now rewrite Q|discriminate]).
    assert (G1 : meth_ok good (s_resolve ov t1)) by (apply IH1; auto; intros Q; apply Ht; destruct ov; cbn in *; [rewrite Q; apply orb_true_r|discriminate]).
    unfold s_build_vcall. destruct (s_resolve ov t0) as [a|? ? ?], (s_resolve ov t1) as [b|? ? ?]; cbn [meth_ok] in *; auto.
    destruct (Bool.eqb a b); cbn [meth_ok]; auto.
Qed.
Lemma base_meaning e c : base_kind (cls_meaning e c) = sbase_kind c.
Proof. induction c as [k|id t0 IH0 t1 IH1 sel]; [reflexivity|]. cbn. now rewrite IH0, IH1. Qed.
Lemma sub_meaning e y x : sub_cls (obj_meaning e y) (obj_meaning e x) = s_sub_cls y x.
Proof.
  unfold sub_cls, s_sub_cls. cbn [pn pc obj_meaning]. rewrite eqb_meaning. f_equal. f_equal.
  destruct (spc x); cbn [cls_meaning]; [|reflexivity]. now rewrite base_meaning.
Qed.
Lemma overloaded_meaning e op x y : r_overloaded op (obj_meaning e x) (obj_meaning e y) = s_r_overloaded op x y.
Proof.
  unfold r_overloaded, s_r_overloaded. cbn [pc obj_meaning]. rewrite !resolve_meaning. f_equal.
  now destruct (s_resolve _ (spc x)), (s_resolve _ (spc y)).
Qed.

(** Results: all vectors of one size, or all Bits. *)
Definition is_vec (n : Z) (r : spret) : Prop := exists x, r = SPVec x /\ obj_ok x /\ spn x = n.
Definition is_bit (r : spret) : Prop := exists t, r = SPBit t /\ bwf t = true.
Definition shape (kind : option Z) (r : spret) : Prop := match kind with Some n => is_vec n r | None => is_bit r end.

Lemma swf_at r n : swf r -> ssize r = n -> swf (SV (BVC KBV n) (sterm r)).
Proof. intros H <-. exact H. Qed.

Section Run.
Variable S : simplifier.
Hypothesis FS : faithful S.

Lemma vcall_ok sh sel v0 v1 id : bwf sel = true -> shape sh v0 -> shape sh v1 ->
  exists r id', s_vcall S sel v0 v1 id = Ok (r, id') /\ shape sh r /\
    forall e, vcall (evalb e sel) (ret_meaning e v0) (ret_meaning e v1) id = Ok (ret_meaning e r, id').
Proof.
  intros Hs H0 H1. destruct sh as [n|].
  - destruct H0 as (x & -> & Ox & Nx). destruct H1 as (y & -> & Oy & Ny).
    pose proof (ite_sim S FS s_no_protocols sel Hs id (SBrVec x) (SBrVec y) Ox Oy I) as Sm.
    unfold s_vcall. cbn [s_as_branch].
    assert (Q : exists r id', s_ite S s_no_protocols id sel (SBrVec x) (SBrVec y) = Ok (SBrVec r, id') /\ spn r = n).
    { unfold s_ite. cbn [s_return_type s_push_ite].
      destruct Ox as (Ox & X1 & X2 & X3). destruct Oy as (Oy & Y1 & Y2 & Y3). cbn in X1, X2, X3, Y1, Y2, Y3.
      destruct (vec_node_ok S FS (BVC KBV (spn x)) (VIte sel (spt x) (spt y))) as (r & E & C & W & V); cbn [csize vwf width]; auto.
      { rewrite Hs, X2, Y2. cbn [andb]. lia. }
      destruct (s_same_cls x y); cbn [bind fst snd s_coerce_branch].
      - rewrite E. cbn [bind]. do 2 eexists. split; [reflexivity|exact Nx].
      - replace (spn x =? spn y) with true by lia. cbn [negb bind fst snd s_coerce_branch]. rewrite E. cbn [bind]. do 2 eexists. split; [reflexivity|exact Nx]. }
    destruct Q as (r & id' & Q & Nr). rewrite Q in *. cbn [bind fst snd s_as_ret]. destruct Sm as (S1 & S2 & S3).
    exists (SPVec r), id'. split; [reflexivity|]. split; [exists r; auto|]. intros e. unfold vcall. cbn [ret_meaning as_branch].
    destruct (S3 e no_protocols) as [S4 _]. cbn [branch_meaning] in S4. rewrite S4. reflexivity.
  - destruct H0 as (p & -> & Hp). destruct H1 as (q & -> & Hq).
    pose proof (ite_sim S FS s_no_protocols sel Hs id (SBrBit p) (SBrBit q) Hp Hq I) as Sm.
    unfold s_vcall. cbn [s_as_branch].
    assert (Q : exists r id', s_ite S s_no_protocols id sel (SBrBit p) (SBrBit q) = Ok (SBrBit r, id')).
    { unfold s_ite. cbn [s_return_type s_push_ite bind fst snd s_coerce_branch].
      destruct (bit_node_ok S FS (BIte sel p q)) as (r & E & W & V). { cbn [bwf]. now rewrite Hs, Hp, Hq. }
      rewrite E. cbn [rmap bind]. eauto. }
    destruct Q as (r & id' & Q). rewrite Q in *. cbn [bind fst snd s_as_ret]. destruct Sm as (S1 & S2 & S3).
    exists (SPBit r), id'. split; [reflexivity|]. split; [exists r; auto|]. intros e. unfold vcall. cbn [ret_meaning as_branch].
    destruct (S3 e no_protocols) as [S4 _]. cbn [branch_meaning] in S4. rewrite S4. reflexivity.
Qed.

Lemma run_sim sh (good : bool -> Prop) (leaf : bool -> spobj -> sarg -> res spret) (cleaf : bool -> pobj -> parg -> res pret) x a :
  (forall s, good s -> exists r, leaf s x a = Ok r /\ shape sh r /\
     forall e, cleaf s (obj_meaning e x) (arg_meaning e a) = Ok (ret_meaning e r)) ->
  forall m id, meth_ok good m ->
  exists r id', s_run_meth S leaf m id x a = Ok (r, id') /\ shape sh r /\
    forall e, run_meth cleaf (meth_meaning e m) id (obj_meaning e x) (arg_meaning e a) = Ok (ret_meaning e r, id').
Proof.
  intros HL. induction m as [s|sel m0 IH0 m1 IH1]; intros id Hm; cbn [s_run_meth meth_meaning run_meth].
  - destruct (HL s Hm) as (r & R1 & R2 & R3). rewrite R1. cbn [bind]. exists r, id. repeat (split; [now auto|]).
    intros e. now rewrite R3.
  - destruct Hm as (Hs & H0 & H1). destruct (IH0 id H0) as (v0 & id0 & A1 & A2 & A3). destruct (IH1 id0 H1) as (v1 & id1 & B1 & B2 & B3).
    rewrite A1. cbn [bind fst snd]. rewrite B1. cbn [bind fst snd].
    destruct (vcall_ok sh sel v0 v1 id1 Hs A2 B2) as (r & id' & C1 & C2 & C3). exists r, id'. repeat (split; [now auto|]).
    intros e. rewrite A3. cbn [bind fst snd]. rewrite B3. cbn [bind fst snd]. apply C3.
Qed.

Lemma arg_accepted x a : arg_ok x a -> accepted (spn x) (sarg_val a).
Proof.
  destruct a as [y|v]; cbn [arg_ok sarg_val]; [|tauto]. intros [[_ Hy] Hn]. split; [now constructor|]. cbn. exact Hn.
Qed.
Lemma arg_val_meaning e a : arg_val (arg_meaning e a) = vmeaning e (sarg_val a).
Proof. now destruct a. Qed.

Lemma leaf_forward_sim op s x a : obj_ok x -> arg_ok x a -> signed_division op (variant s) = false ->
  exists r, s_leaf_forward S op s x a = Ok r /\ is_vec (spn x) r /\
    forall e, leaf_forward op s (obj_meaning e x) (arg_meaning e a) = Ok (ret_meaning e r).
Proof.
  intros [Oc Ox] Oa Hd. destruct (disp_ok S FS op (variant s) (as_svec x) (sarg_val a) Ox (arg_accepted x a Oa) Hd) as (r & R1 & R2 & R3 & R4).
  unfold s_leaf_forward. rewrite R1. eexists. split; [reflexivity|].
  assert (Nr : ssize r = spn x) by (unfold ssize; now rewrite R2). split.
  { eexists. split; [reflexivity|]. split; [|exact Nr]. split; [exact Oc|].
    unfold as_svec, slike. cbn [spn spt]. now apply swf_at. }
  intros e. destruct (R4 e) as (o & P1 & P2). unfold leaf_forward. rewrite arg_val_meaning.
  change (as_bv (obj_meaning e x)) with (meaning e (as_svec x)). rewrite P1.
  destruct P2 as [[-> P2] | ->].
  - cbn [ret_meaning]. do 2 f_equal. unfold obj_meaning, slike. cbn [spc spn spt]. rewrite Nr. f_equal.
    apply (f_equal bval) in P2. exact P2.
  - cbn [ret_meaning]. do 2 f_equal.
Qed.
Lemma leaf_reflected_sim op s x a : obj_ok x -> arg_ok x a -> signed_division op (variant s) = false ->
  exists r, s_leaf_reflected S op s x a = Ok r /\ is_vec (spn x) r /\
    forall e, leaf_reflected op s (obj_meaning e x) (arg_meaning e a) = Ok (ret_meaning e r).
Proof.
  intros Ox Oa Hd.
  assert (G : exists r, match s_coerce S (BVC KBV (spn x)) (sarg_val a) with
      | Raise _ => Raise ENameError
      | Ok o => let o := match a with SAVec y => y | SAOther _ => SPObj (spc x) (ssize o) (sterm o) end in
          s_leaf_forward S op s o (SAVec x)
      end = Ok r /\ is_vec (spn x) r /\
    forall e, match coerce (BVC KBV (spn x)) (arg_val (arg_meaning e a)) with
      | Raise _ => Raise ENameError
      | Ok o => let o := match arg_meaning e a with AVec y => y | AOther _ => PObj (pc (obj_meaning e x)) (bsize o) (bval o) end in
          leaf_forward op s o (AVec (obj_meaning e x))
      end = Ok (ret_meaning e r)).
  { pose proof Ox as [Oc (X1 & X2)].
    destruct (s_coerce_ok S FS (BVC KBV (spn x)) (sarg_val a) X1 (arg_accepted x a Oa)) as (o & O1 & O2 & O3 & O4).
    rewrite O1. cbv zeta. destruct a as [y|v].
    - destruct Oa as [Oy Ny]. destruct (leaf_forward_sim op s y (SAVec x) Oy) as (r & R1 & R2 & R3); auto. { split; auto. }
      exists r. rewrite Ny in R2. repeat (split; [now auto|]). intros e. rewrite arg_val_meaning, O4. apply R3.
    - set (o' := SPObj (spc x) (ssize o) (sterm o)).
      destruct (leaf_forward_sim op s o' (SAVec x)) as (r & R1 & R2 & R3); auto.
      { split; [exact Oc|]. unfold as_svec, o'. cbn [spn spt]. now apply swf_at. }
      { split; [exact Ox|]. symmetry. exact O2. }
      exists r. cbn [spn o'] in R2. rewrite O2 in R2. repeat (split; [now auto|]). intros e. rewrite arg_val_meaning, O4. apply R3. }
  destruct (leaf_forward_sim OShr false x a Ox Oa eq_refl) as (q & Q1 & Q2 & Q3).
  assert (Q4 : forall e, leaf_reflected OShr false (obj_meaning e x) (arg_meaning e a) = leaf_forward OShr false (obj_meaning e x) (arg_meaning e a)) by reflexivity.
  destruct op; try exact G. destruct s; [exact G|]. exists q. repeat (split; [now auto|]). intros e. now rewrite Q4.
Qed.
Lemma leaf_cmp_sim c s x a : obj_ok x -> arg_ok x a ->
  exists r, s_leaf_cmp S c s x a = Ok r /\ is_bit r /\
    forall e, leaf_cmp c s (obj_meaning e x) (arg_meaning e a) = Ok (ret_meaning e r).
Proof.
  intros [Oc Ox] Oa. destruct (cmp_meth S c (variant s)) as (m & M1 & M2).
  destruct (rel_ok S FS m (as_svec x) (sarg_val a) Ox (arg_accepted x a Oa)) as (r & R1 & R2 & R3).
  unfold s_leaf_cmp. rewrite M1, R1. eexists. split; [reflexivity|]. split; [exists r; auto|].
  intros e. unfold leaf_cmp. rewrite M2, arg_val_meaning. change (as_bv (obj_meaning e x)) with (meaning e (as_svec x)).
  now rewrite R3.
Qed.

Lemma division_good op c : may_divide_signed op c = false -> op_overridden op && has_signed c = true ->
  signed_division op (variant true) = false.
Proof. destruct op; cbn; auto; destruct (has_signed c); discriminate. Qed.

Lemma forward_sim op id x a : obj_ok x -> arg_ok x a -> may_divide_signed op (spc x) = false ->
  exists r id', sp_forward S op id x a = Ok (r, id') /\ is_vec (spn x) r /\
    forall e, p_forward op id (obj_meaning e x) (arg_meaning e a) = Ok (ret_meaning e r, id').
Proof.
  intros Ox Oa Hd.
  destruct (run_sim (Some (spn x)) (fun s => signed_division op (variant s) = false) (s_leaf_forward S op) (leaf_forward op) x a) with
    (m := s_resolve (op_overridden op) (spc x)) (id := id) as (r & id' & R1 & R2 & R3).
  - intros s Hs. now apply leaf_forward_sim.
  - apply resolve_ok; [apply Ox|now destruct op|]. intros Q. now apply (division_good op (spc x)).
  - exists r, id'. repeat (split; [now auto|]). intros e. unfold p_forward. cbn [pc obj_meaning]. rewrite resolve_meaning. apply R3.
Qed.
Lemma reflected_sim op id x a : obj_ok x -> arg_ok x a -> may_divide_signed op (spc x) = false ->
  exists r id', sp_reflected S op id x a = Ok (r, id') /\ is_vec (spn x) r /\
    forall e, p_reflected op id (obj_meaning e x) (arg_meaning e a) = Ok (ret_meaning e r, id').
Proof.
  intros Ox Oa Hd.
  destruct (run_sim (Some (spn x)) (fun s => signed_division op (variant s) = false) (s_leaf_reflected S op) (leaf_reflected op) x a) with
    (m := s_resolve (op_overridden op) (spc x)) (id := id) as (r & id' & R1 & R2 & R3).
  - intros s Hs. now apply leaf_reflected_sim.
  - apply resolve_ok; [apply Ox|now destruct op|]. intros Q. now apply (division_good op (spc x)).
  - exists r, id'. repeat (split; [now auto|]). intros e. unfold p_reflected. cbn [pc obj_meaning]. rewrite resolve_meaning. apply R3.
Qed.
Lemma cmp_sim c id x a : obj_ok x -> arg_ok x a ->
  exists r id', sp_cmp S c id x a = Ok (r, id') /\ is_bit r /\
    forall e, p_cmp c id (obj_meaning e x) (arg_meaning e a) = Ok (ret_meaning e r, id').
Proof.
  intros Ox Oa.
  destruct (run_sim None (fun s => True) (s_leaf_cmp S c) (leaf_cmp c) x a) with
    (m := s_resolve (cmp_overridden c) (spc x)) (id := id) as (r & id' & R1 & R2 & R3).
  - intros s Hs. now apply leaf_cmp_sim.
  - apply resolve_ok; auto. apply Ox.
  - exists r, id'. repeat (split; [now auto|]). intros e. unfold p_cmp. cbn [pc obj_meaning]. rewrite resolve_meaning. apply R3.
Qed.

Lemma binop_sim op id x a : obj_ok x -> arg_ok x a -> may_divide_signed op (spc x) = false ->
  (forall y, a = SAVec y -> may_divide_signed op (spc y) = false) ->
  exists r id', sp_binop S op id x a = Ok (SPVec r, id') /\ obj_ok r /\ spn r = spn x /\
    forall e, p_binop op id (obj_meaning e x) (arg_meaning e a) = Ok (PVec (obj_meaning e r), id').
Proof.
  intros Ox Oa Hd Hy. destruct (forward_sim op id x a Ox Oa Hd) as (r & id' & R1 & (rx & -> & Rx & Rn) & R3).
  assert (F : forall l, sp_first id ((fun id => sp_forward S op id x a) :: l) = Ok (SPVec rx, id')).
  { intros l. cbn [sp_first]. now rewrite R1. }
  assert (F' : forall e l, p_first id ((fun id => p_forward op id (obj_meaning e x) (arg_meaning e a)) :: l) = Ok (PVec (obj_meaning e rx), id')).
  { intros e l. cbn [p_first]. now rewrite R3. }
  destruct a as [y|v]; cbn [sp_binop].
  - specialize (Hy y eq_refl). destruct Oa as [Oy Ny].
    destruct (reflected_sim op id y (SAVec x) Oy (conj Ox (eq_sym Ny)) Hy) as (q & idq & Q1 & (qx & -> & Qx & Qn) & Q3).
    destruct (s_same_cls x y) eqn:Es.
    + exists rx, id'. split; [apply F|]. repeat (split; [now auto|]). intros e. unfold p_binop. cbn [arg_meaning]. rewrite same_meaning, Es. apply F'.
    + destruct (s_sub_cls y x && s_r_overloaded op x y) eqn:Eo.
      * exists qx, idq. split; [cbn [sp_first]; now rewrite Q1|]. split; [exact Qx|]. split; [congruence|].
        intros e. unfold p_binop. cbn [arg_meaning]. rewrite same_meaning, Es, sub_meaning, overloaded_meaning, Eo. cbn [p_first].
        specialize (Q3 e). cbn [arg_meaning] in Q3. now rewrite Q3.
      * exists rx, id'. split; [apply F|]. repeat (split; [now auto|]). intros e. unfold p_binop. cbn [arg_meaning].
        rewrite same_meaning, Es, sub_meaning, overloaded_meaning, Eo. apply F'.
  - exists rx, id'. split; [apply F|]. repeat (split; [now auto|]). intros e. unfold p_binop. cbn [arg_meaning]. apply F'.
Qed.
Lemma compare_sim c id x a : obj_ok x -> arg_ok x a ->
  exists r id', sp_compare S c id x a = Ok (SPBit r, id') /\ bwf r = true /\
    forall e, p_compare c id (obj_meaning e x) (arg_meaning e a) = Ok (PBit (evalb e r), id').
Proof.
  intros Ox Oa. destruct (cmp_sim c id x a Ox Oa) as (r & id' & R1 & (rx & -> & Rx) & R3).
  assert (F : forall l, sp_cmp_first id ((fun id => sp_cmp S c id x a) :: l) = Ok (SPBit rx, id')).
  { intros l. cbn [sp_cmp_first]. now rewrite R1. }
  assert (F' : forall e l, p_cmp_first id ((fun id => p_cmp c id (obj_meaning e x) (arg_meaning e a)) :: l) = Ok (PBit (evalb e rx), id')).
  { intros e l. cbn [p_cmp_first]. now rewrite R3. }
  destruct a as [y|v]; cbn [sp_compare].
  - destruct Oa as [Oy Ny].
    destruct (cmp_sim (cmp_swap c) id y (SAVec x) Oy (conj Ox (eq_sym Ny))) as (q & idq & Q1 & (qx & -> & Qx) & Q3).
    destruct (negb (s_same_cls x y) && s_sub_cls y x) eqn:Eo.
    + exists qx, idq. split; [cbn [sp_cmp_first]; now rewrite Q1|]. split; [exact Qx|].
      intros e. unfold p_compare. cbn [arg_meaning]. rewrite same_meaning, sub_meaning, Eo. cbn [p_cmp_first].
      specialize (Q3 e). cbn [arg_meaning] in Q3. now rewrite Q3.
    + exists rx, id'. split; [apply F|]. split; [exact Rx|]. intros e. unfold p_compare. cbn [arg_meaning].
      rewrite same_meaning, sub_meaning, Eo. apply F'.
  - exists rx, id'. split; [apply F|]. split; [exact Rx|]. intros e. unfold p_compare. cbn [arg_meaning]. apply F'.
Qed.

(** Protocol objects. *)
Lemma proto_sim tab id sel i p q : bwf sel = true ->
  (forall z, swf (sp_to (tab i) z) /\ csize (scls (sp_to (tab i) z)) = csize (sp_cls (tab i))) ->
  exists b, scls b = sp_cls (tab i) /\ swf b /\
    s_ite S tab id sel (SBrProto i p) (SBrProto i q) = (z <- sp_from (tab i) b ;; Ok (SBrProto i z, id)) /\
    forall e, evalv e (sterm b) = evalv e (sterm (sp_to (tab i) (if evalb e sel then p else q))).
Proof.
  intros Hs Ht. destruct (Ht p) as [(P1 & P2 & P3) P4]. destruct (Ht q) as [(Q1 & Q2 & Q3) Q4].
  destruct (vec_node_ok S FS (sp_cls (tab i)) (VIte sel (sterm (sp_to (tab i) p)) (sterm (sp_to (tab i) q)))) as (r & E & C & W & V);
    cbn [vwf width]. { lia. } { rewrite Hs, P2, Q2. cbn [andb]. lia. } { lia. }
  exists r. repeat (split; [now auto|]). split.
  - unfold s_ite. cbn [s_return_type s_push_ite]. rewrite Nat.eqb_refl. cbn [bind fst snd negb s_coerce_branch]. rewrite E. cbn [bind].
    now destruct (sp_from (tab i) r).
  - intros e. rewrite V. cbn [evalv]. now destruct (evalb e sel).
Qed.
End Run.

(** ** The selected variant, for every operator *)
Definition ret_val (e : env) (r : spret) : Z :=
  match r with SPVec x => evalv e (spt x) | SPBit t => b2z (evalb e t) | SPNotImpl => -1 end.
Fixpoint chosen (e : env) (m : spmeth) : bool :=
  match m with SMLeaf s => s | SMVCall sel m0 m1 => if evalb e sel then chosen e m0 else chosen e m1 end.
Lemma chosen_resolve e ov c : chosen e (s_resolve ov c) = ov && is_signed (selected_kind (cls_meaning e c)).
Proof.
  induction c as [k|id t0 IH0 t1 IH1 sel]; cbn [s_resolve cls_meaning selected_kind]; [now destruct k|].
  unfold s_build_vcall. destruct (s_resolve ov t0) as [a|? ? ?], (s_resolve ov t1) as [b|? ? ?]; cbn [chosen] in *;
    try (destruct (evalb e sel); assumption).
  destruct (Bool.eqb a b) eqn:E; cbn [chosen]; [apply Bool.eqb_prop in E; subst b|]; now destruct (evalb e sel).
Qed.
Lemma coerce_kind c c' v y y' : csize c = csize c' -> coerce c v = Ok y -> coerce c' v = Ok y' -> bval y = bval y'.
Proof.
  intros Hc H H'. unfold coerce in *. destruct v as [z|b|b|x|l|k|i b t]; cbn [bv_init] in *;
    try (unfold mk in *; rewrite Hc in H; inv H; inv H'; reflexivity).
  - rewrite Hc in H. destruct (negb _); congruence.
  - destruct (mapM truth l); cbn [bind] in *; unfold mk in *; rewrite ?Hc in H; inv H; inv H'; reflexivity.
  - destruct i as [[z|err]|]; cbn [bind] in *; unfold mk in *; rewrite ?Hc in H; inv H; inv H'; reflexivity.
Qed.

Section Select.
Variable S : simplifier.
Hypothesis FS : faithful S.

Lemma vcall_val sh sel v0 v1 id : bwf sel = true -> shape sh v0 -> shape sh v1 ->
  exists r id', s_vcall S sel v0 v1 id = Ok (r, id') /\ shape sh r /\
    forall e, ret_val e r = ret_val e (if evalb e sel then v0 else v1).
Proof.
  intros Hs H0 H1. destruct (vcall_ok S FS sh sel v0 v1 id Hs H0 H1) as (r & id' & R1 & R2 & _). exists r, id'.
  repeat (split; [now auto|]). intros e. unfold s_vcall in R1. destruct sh as [n|].
  - destruct H0 as (x & -> & Ox & Nx). destruct H1 as (y & -> & Oy & Ny). destruct R2 as (z & -> & Oz & Nz). cbn [s_as_branch] in R1.
    pose proof (ite_sim S FS s_no_protocols sel Hs id (SBrVec x) (SBrVec y) Ox Oy I) as Sm.
    destruct (s_ite S s_no_protocols id sel (SBrVec x) (SBrVec y)) as [[b i]|]; cbn [bind fst snd] in R1; [|discriminate].
    destruct Sm as (_ & _ & Sm). destruct (Sm e no_protocols) as [_ C]. destruct b as [?|?|b|? ?|]; cbn [s_as_ret] in R1; inv R1.
    destruct (evalb e sel); cbn [branch_meaning] in C; inv C; cbn [ret_val pv obj_meaning] in *; congruence.
  - destruct H0 as (x & -> & Ox). destruct H1 as (y & -> & Oy). destruct R2 as (z & -> & Oz). cbn [s_as_branch] in R1.
    pose proof (ite_sim S FS s_no_protocols sel Hs id (SBrBit x) (SBrBit y) Ox Oy I) as Sm.
    destruct (s_ite S s_no_protocols id sel (SBrBit x) (SBrBit y)) as [[b i]|]; cbn [bind fst snd] in R1; [|discriminate].
    destruct Sm as (_ & _ & Sm). destruct (Sm e no_protocols) as [_ C]. destruct b as [?|b|?|? ?|]; cbn [s_as_ret] in R1; inv R1.
    destruct (evalb e sel); cbn [branch_meaning] in C; inv C; cbn [ret_val pv obj_meaning] in *; congruence.
Qed.
Lemma run_select sh (leaf : bool -> spobj -> sarg -> res spret) x a :
  (forall s, exists r, leaf s x a = Ok r /\ shape sh r) ->
  forall m id, meth_ok (fun _ => True) m ->
  exists r id', s_run_meth S leaf m id x a = Ok (r, id') /\ shape sh r /\
    forall e r', leaf (chosen e m) x a = Ok r' -> ret_val e r = ret_val e r'.
Proof.
  intros HL. induction m as [s|sel m0 IH0 m1 IH1]; intros id Hm; cbn [s_run_meth chosen].
  - destruct (HL s) as (r & R1 & R2). rewrite R1. cbn [bind]. exists r, id. repeat (split; [now auto|]). intros e r' H. congruence.
  - destruct Hm as (Hs & H0 & H1). destruct (IH0 id H0) as (v0 & id0 & A1 & A2 & A3). destruct (IH1 id0 H1) as (v1 & id1 & B1 & B2 & B3).
    rewrite A1. cbn [bind fst snd]. rewrite B1. cbn [bind fst snd].
    destruct (vcall_val sh sel v0 v1 id1 Hs A2 B2) as (r & id' & C1 & C2 & C3). exists r, id'. repeat (split; [now auto|]).
    intros e r' H. rewrite C3. destruct (evalb e sel); auto.
Qed.

Lemma op_method_bin op k : exists o, s_op_method S op k = s_bin S o.
Proof. destruct op, k; eexists; reflexivity. Qed.
Lemma s_bin_val o c n t v : 1 <= n -> csize c = n -> swf (SV (BVC KBV n) t) -> accepted n v ->
  exists r r', s_bin S o (SV (BVC KBV n) t) v = Ok r /\ swf r /\ ssize r = n /\
    s_bin S o (SV c t) v = Ok r' /\ scls r' = c /\ forall e, evalv e (sterm r) = evalv e (sterm r').
Proof.
  intros Hn Hc Hw Ha.
  assert (Hw' : swf (SV c t)) by (unfold swf in *; cbn [scls sterm] in *; now rewrite Hc).
  destruct (s_bin_ok S FS o (SV (BVC KBV n) t) v Hw Ha) as (y & r & R1 & R2 & R3 & R4 & R5 & R6 & R7).
  destruct (s_bin_ok S FS o (SV c t) v Hw') as (y' & r' & Q1 & Q2 & Q3 & Q4 & Q5 & Q6 & Q7). { cbn [scls]. now rewrite Hc. }
  exists r, r'. split; [exact R1|]. split; [exact R5|]. split; [unfold ssize; now rewrite R4|]. split; [exact Q1|]. split; [exact Q4|]. intros e.
  rewrite R6, Q6. cbn [scls csize sterm]. rewrite Hc. f_equal.
  specialize (R7 e _ (fun a b => Ok b)). specialize (Q7 e _ (fun a b => Ok b)). unfold bv_cast in R7, Q7. cbn [meaning bcls scls] in R7, Q7.
  destruct (coerce (BVC KBV n) (vmeaning e v)) as [b|] eqn:E1; cbn [bind] in R7; [|discriminate].
  destruct (coerce c (vmeaning e v)) as [b'|] eqn:E2; cbn [bind] in Q7; [|discriminate].
  pose proof (coerce_kind (BVC KBV n) c _ _ _ (eq_sym Hc) E1 E2) as K. injection R7 as R7. injection Q7 as Q7. rewrite R7, Q7 in K. exact K.
Qed.
Lemma leaf_any op s x a : obj_ok x -> arg_ok x a -> exists r, s_leaf_forward S op s x a = Ok r /\ is_vec (spn x) r.
Proof.
  intros [Oc Ox] Oa. pose proof Ox as (X1 & _). cbn [as_svec scls csize] in X1. unfold s_leaf_forward. destruct (op_method_bin op (variant s)) as [o ->].
  destruct (s_bin_val o (BVC KBV (spn x)) (spn x) (spt x) (sarg_val a) X1 eq_refl Ox (arg_accepted x a Oa)) as (r & _ & R1 & R2 & R3 & _).
  change (as_svec x) with (SV (BVC KBV (spn x)) (spt x)). rewrite R1. cbn [rmap bind s_dispatch]. eexists. split; [reflexivity|]. eexists. split; [reflexivity|].
  split; [|exact R3]. split; [exact Oc|]. unfold as_svec, slike. cbn [spn spt]. now apply swf_at.
Qed.
Lemma variant_eq op k : s_op_method S op (variant (op_overridden op && is_signed k)) = s_op_method S op k.
Proof. destruct op, k; reflexivity. Qed.
Lemma cmp_variant_eq c k : s_cmp_method S c (variant (cmp_overridden c && is_signed k)) = s_cmp_method S c k.
Proof. destruct c, k; reflexivity. Qed.

(** x op v against the same operator on the object of the selected class. *)
Lemma binop_selected op id x v : obj_ok x -> arg_ok x (SAOther v) ->
  exists r id', sp_binop S op id x (SAOther v) = Ok (SPVec r, id') /\ obj_ok r /\ spn r = spn x /\
    forall e, exists r', s_forward S op (SV (BVC (selected_kind (cls_meaning e (spc x))) (spn x)) (spt x)) v = Ok (SRet (SVec r')) /\
      evalv e (spt r) = evalv e (sterm r').
Proof.
  intros Ox Oa. pose proof Ox as [Oc (X1 & X2)]. cbn [as_svec scls csize] in X1.
  destruct (run_select (Some (spn x)) (s_leaf_forward S op) x (SAOther v)) with
    (m := s_resolve (op_overridden op) (spc x)) (id := id) as (r & id' & R1 & (rx & -> & R2 & R2') & R3).
  - intros s. now apply leaf_any.
  - now apply resolve_ok.
  - exists rx, id'. cbn [sp_binop sp_first]. unfold sp_forward. rewrite R1. repeat (split; [now auto|]).
    intros e. specialize (R3 e). rewrite chosen_resolve in R3.
    set (k := selected_kind (cls_meaning e (spc x))) in *. unfold s_leaf_forward in R3. rewrite variant_eq in R3.
    unfold s_forward. cbn [skind scls ck]. destruct (op_method_bin op k) as [o Ho]. rewrite Ho in R3. unfold skind. cbn [scls ck]. rewrite Ho.
    destruct (s_bin_val o (BVC k (spn x)) (spn x) (spt x) v X1 eq_refl (conj X1 X2) (arg_accepted x (SAOther v) Oa)) as (q & q' & Q1 & Q2 & Q3 & Q4 & Q5 & Q6).
    cbn [sarg_val] in R3. change (as_svec x) with (SV (BVC KBV (spn x)) (spt x)) in R3. rewrite Q1 in R3. cbn [rmap bind s_dispatch] in R3.
    exists q'. rewrite Q4. split; [reflexivity|]. rewrite <- Q6. exact (R3 _ eq_refl).
Qed.
End Select.
