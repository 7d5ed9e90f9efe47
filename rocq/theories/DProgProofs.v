(** Proofs of the theorems stated in DProgProps.v. *)
From Coq Require Import Lia ZifyBool.
From Verif Require Import PyBase BVModel BVFacts OpModel SMTTerm SMTModel SMTSpec SMTFacts SMTProofs Z3Model Z3Spec Z3Proofs ProgModel ProgFacts ProgInputs MProgModel MProgSpec MProgProofs ADTTy ADTTyFacts ADTModel ADTSpec ADTFacts AliasModel AliasSpec AliasFacts DProgModel DProgSpec DProgFacts DProgSim.
From Verif Require BVSpec ProgSpec.

Definition ssteps H f lc st := dsteps H (ty_fam f) (sym_cls f) (fun vs => lc (reg vs) (opnd SInt vs)) (fun vs => new_only (reg vs) (opnd SInt vs)) (fun vs i b => v <- reg vs 0 ;; w <- opnd SInt vs b ;; st v i w).
Definition csteps H := dsteps H (fun t => t) conc_cls (fun vs => conc_call (reg vs) (opnd VInt vs)) (fun vs => conc_self (reg vs) (opnd VInt vs)) (fun vs i b => v <- reg vs 0 ;; w <- opnd VInt vs b ;; conc_set v i w).

Ltac bok Q := let a := fresh "a" in let E := fresh "E" in match type of Q with (bind ?m _) = Ok _ => destruct m as [a|] eqn:E; cbn [bind] in Q; [|discriminate Q] end.


Lemma dsteps_sim H f lc st : simulates lc -> set_ok st -> forall p hk hs rk fx, sinv f hk hs ->
  exists fx', goal f hk hs rk fx fx' (dcheck H (hk, rk) fx p) (ssteps H f lc st (hs, rk) p) (fun hc rc => csteps H (hc, rc) p).
Proof.
  intros SIM SET. induction p as [|d p IH]; intros hk hs rk fx S.
  - exists fx. cbn. exists hs. split; auto. split; auto. intros e g hc rc M V. exists g, hc, rc. auto.
  - cbn [dcheck]. destruct (allowed (hk, rk) fx d) eqn:Al; [|exists fx; now left]. pose proof (dstep_sim H f lc st SIM SET hk hs rk fx d S Al) as G.
    unfold goal in G. destruct (class_step H (hk, rk) d) as [[hk1 rk1]|x] eqn:E; cbn [bind].
    + destruct G as (hs1 & A & S1 & C). destruct (IH hk1 hs1 rk1 (protect (hk, rk) fx d) S1) as [fx' G']. exists fx'. unfold goal in *.
      assert (A' : ssteps H f lc st (hs, rk) (d :: p) = ssteps H f lc st (hs1, rk1) p) by (unfold ssteps; cbn [dsteps]; unfold sstep in A; rewrite A; reflexivity).
      assert (C' : forall e g hc rc, crel e g hk hs hc fx -> vrel g (length hk) rk rc -> exists g' hc' rc', csteps H (hc, rc) (d :: p) = csteps H (hc', rc') p /\ crel e g' hk1 hs1 hc' (protect (hk, rk) fx d) /\ vrel g' (length hk1) rk1 rc').
      { intros e g hc rc M V. destruct (C e g hc rc M V) as (g' & hc' & rc' & Q & M' & V'). exists g', hc', rc'. split; auto. unfold csteps. cbn [dsteps]. unfold cstep in Q. rewrite Q. reflexivity. }
      rewrite A'. destruct (dcheck H (hk1, rk1) (protect (hk, rk) fx d) p) as [[hk2 rk2]|x].
      * destruct G' as (hs2 & -> & S2 & G'). exists hs2. split; auto. split; auto. intros e g hc rc M V. destruct (C' e g hc rc M V) as (g' & hc' & rc' & -> & M' & V'). eauto.
      * destruct G' as [->|[-> G']]; [now left|]. right. split; auto. intros e g hc rc M V. destruct (C' e g hc rc M V) as (g' & hc' & rc' & -> & M' & V'). eauto.
    + exists fx. unfold goal. destruct G as [->|[A C]]; [now left|]. right. split.
      * unfold ssteps. cbn [dsteps]. unfold sstep in A. now rewrite A.
      * intros e g hc rc M V. specialize (C e g hc rc M V). unfold csteps. cbn [dsteps]. unfold cstep in C. now rewrite C.
Qed.

Lemma start_ok f ts rs : Forall2 ProgSpec.sym_has rs ts -> sinv f (map GLeaf ts) (map GLeaf rs) /\
  forall e, crel e (fun o => o) (map GLeaf ts) (map GLeaf rs) (map GLeaf (map (vmeaning e) rs)) [] /\ vrel (fun o => o) (length (map (GLeaf (V := ProgSpec.ty)) ts)) (seq 0 (length ts)) (seq 0 (length (map (vmeaning e) rs))).
Proof.
  intros F. split; [|intros e; split].
  - induction F; cbn [map]; constructor; auto.
  - split; [|split; [auto|constructor]]. intros o L. rewrite !nth_error_map. pose proof (Forall2_nth _ _ _ F o) as N. rewrite map_length in L. apply nth_error_Some in L.
    destruct (nth_error rs o), (nth_error ts o); try contradiction; try congruence. cbn [option_map o3]. auto.
  - split.
    + apply Forall_forall. intros o Ho. apply in_seq in Ho. rewrite map_length. lia.
    + rewrite map_length, (Forall2_len _ _ _ F). symmetry. apply map_id.
Qed.

Lemma drun_sim H f lc st : simulates lc -> set_ok st -> forall p ts rs, Forall2 ProgSpec.sym_has rs ts ->
  match program_classes H ts p with
  | Ok cs => exists s, ssteps H f lc st (map GLeaf rs, seq 0 (length rs)) p = Ok s /\ forall e, exists s', conc_drun H (map (vmeaning e) rs) p = Ok s' /\ variables_agree f e cs (observe (sym_cls f) s) (observe conc_cls s')
  | Raise x => x = EOutOfModel \/ (ssteps H f lc st (map GLeaf rs, seq 0 (length rs)) p = Raise x /\ forall e, conc_drun H (map (vmeaning e) rs) p = Raise x)
  end.
Proof.
  intros SIM SET p ts rs F. destruct (start_ok f ts rs F) as [S0 M0]. destruct (dsteps_sim H f lc st SIM SET p (map GLeaf ts) (map GLeaf rs) (seq 0 (length ts)) [] S0) as [fx G].
  unfold program_classes. rewrite (Forall2_len _ _ _ F). unfold goal in G. destruct (dcheck H (map GLeaf ts, seq 0 (length ts)) [] p) as [[hk rk]|x]; cbn [rmap].
  - destruct G as (hs & A & S & C). exists (hs, rk). split; [exact A|]. intros e. destruct (M0 e) as [M V]. destruct (C e _ _ _ M V) as (g & hc & rc & Q & M' & V'). exists (hc, rc). split; [exact Q|].
    destruct V' as [L ->]. unfold observe. cbn [fst snd]. clear - S M' L. induction L as [|o rk Lo L IH]; cbn [map variables_agree]; [exact I|]. split; [|exact IH].
    unfold same_meaning. cbn [fst snd]. split; [now apply gtype_sym|]. destruct M' as (O & _). specialize (O o Lo). split.
    + unfold gtype. destruct (nth_error hk o) as [[t|t sh]|], (nth_error hs o) as [[v|t' sh']|], (nth_error hc (g o)) as [[w|t'' sh'']|]; cbn [o3] in O; try contradiction.
      * destruct O as [-> O]. destruct v, t; cbn in O; try contradiction; cbn; auto. now destruct O as [<- _].
      * now destruct O as [-> _].
    + destruct (nth_error hk o) as [[t|t sh]|], (nth_error hs o) as [[v|t' sh']|], (nth_error hc (g o)) as [[w|t'' sh'']|]; cbn [o3] in O; try contradiction; cbn [option_map]; auto. now destruct O as [-> _].
  - destruct G as [->|[A C]]; [now left|]. right. split; [exact A|]. intros e. destruct (M0 e) as [M V]. exact (C e _ _ _ M V).
Qed.

Lemma var_some rs x o : var rs x = Ok o -> nth_error rs x = Some o.
Proof. unfold var. destruct (nth_error rs x); congruence. Qed.

Lemma leaf_some {V} (h : list (gobj V)) o v : leaf_at h o = Ok v -> nth_error h o = Some (GLeaf v).
Proof. unfold leaf_at. destruct (nth_error h o) as [[|]|]; congruence. Qed.

Lemma node_some {V} (h : list (gobj V)) o n : node_at h o = Ok n -> nth_error h o = Some (GNode (fst n) (snd n)).
Proof. unfold node_at. destruct (nth_error h o) as [[|]|]; try congruence. intros [= <-]. reflexivity. Qed.

Lemma nth_update_same {A} n (a : A) l : (n < length l)%nat -> nth_error (update n a l) n = Some a.
Proof. revert l. induction n; destruct l; cbn; try lia; auto. intros L. apply IHn. lia. Qed.

Lemma nth_update_other {A} n m (a : A) l : m <> n -> nth_error (update n a l) m = nth_error l m.
Proof. revert m l. induction n; destruct m, l; cbn; try congruence; auto. Qed.

Lemma nth_live {A} (l : list A) n a : nth_error l n = Some a -> (n < length l)%nat.
Proof. intros E. apply nth_error_Some. congruence. Qed.

Lemma component_back xs (i : Z) q (o : nat) b : py_index (length xs) i = Ok q -> component (STup b (update q o xs)) i = Ok o.
Proof.
  intros E. cbn [component]. rewrite update_length, E. cbn [bind]. rewrite nth_update_same; [reflexivity|].
  unfold py_index in E. destruct (_ && _) eqn:G in E; [|discriminate]. injection E as <-. apply andb_true_iff in G as [G1 G2]. lia.
Qed.

Lemma tuple_set_back {H} {typ : nat -> ty} fs xs i o s : tuple_setitem H typ fs xs i o = Ok s -> component s i = Ok o.
Proof. unfold tuple_setitem. intros Q. bok Q. destruct (isinstance _ _ _ _); [|discriminate]. bok Q. injection Q as <-. now apply component_back. Qed.

Lemma set_bound H (typ : nat -> ty) t s n o s' : setattr H typ t s n o = Ok s' ->
  field t s' n = Ok o \/ tag_get t s' n = Ok (true, o).
Proof.
  unfold setattr, field, tag_get. destruct (node_of t) as [[[| | | |] fs]|]; try discriminate; destruct s; try discriminate.
  - destruct (index_of n (names fs)), (assoc n fs); try discriminate. destruct (isinstance _ _ _ _); [|discriminate]. intros Q. left. eapply tuple_set_back; eauto.
  - destruct (index_of n (names fs)), (assoc n fs); try discriminate. destruct (isinstance _ _ _ _); [|discriminate]. intros Q. left. eapply tuple_set_back; eauto.
  - unfold tag_set. destruct (index_of n (names fs)) as [i|], (assoc n fs); try discriminate. destruct (isinstance _ _ _ _); [|discriminate]. intros [= <-]. right. now rewrite Nat.eqb_refl.
Qed.

Lemma gtype_update {V} (cls : V -> ty) h o t s s' r : nth_error h o = Some (GNode t s) -> gtype cls (update o (GNode t s') h) r = gtype cls h r.
Proof.
  intros E. unfold gtype. destruct (Nat.eq_dec r o) as [->|N]; [|now rewrite nth_update_other]. rewrite nth_update_same, E by (eapply nth_live; eauto). reflexivity.
Qed.

Lemma index_of_skip n ns (a : list string) : NoDup (a ++ ns) -> In n ns -> exists i, index_of n (a ++ ns) = Some (length a + i)%nat /\ nth_error ns i = Some n.
Proof.
  intros ND Hin. induction a as [|x a IH]; cbn [app] in *.
  - clear ND. induction ns as [|m ns IH]; [contradiction|]. cbn [index_of]. destruct (String.eqb_spec n m) as [->|N]; [exists 0%nat; auto|]. destruct Hin as [->|Hin]; [congruence|]. destruct (IH Hin) as (i & E & E'). cbn in E. rewrite E. exists (Datatypes.S i). auto.
  - inversion ND as [|? ? Nx ND']; subst. destruct (IH ND') as (i & E & E'). exists i. split; auto. cbn [index_of]. destruct (String.eqb_spec n x) as [->|N]; [destruct Nx; apply in_or_app; auto|]. now rewrite E.
Qed.

Lemma assoc_nodup {A} n (a : A) l : NoDup (map fst l) -> In (n, a) l -> assoc n l = Some a.
Proof.
  induction l as [|[m b] l IH]; cbn [map fst assoc]; intros ND []; inversion ND; subst.
  - injection H as -> ->. now rewrite String.eqb_refl.
  - destruct (String.eqb_spec n m) as [->|]; [|auto]. exfalso. apply H2. apply (in_map fst) in H. exact H.
Qed.

Lemma kwvars_in rs kw ks n x : mapM (kwvar rs) kw = Ok ks -> In (n, x) kw -> exists o, var rs x = Ok o /\ In (n, o) ks.
Proof.
  revert ks. induction kw as [|[m y] kw IH]; cbn [mapM]; intros ks Q; [contradiction|]. bok Q. bok Q. injection Q as <-. unfold kwvar in E. bok E. injection E as <-. cbn [snd fst] in *.
  intros [[= -> ->]|Hin]; [exists a1; split; [exact E1|now left]|]. destruct (IH _ eq_refl Hin) as (o & A & B). exists o. split; auto. now right.
Qed.

Lemma kwvars_names rs kw ks : mapM (kwvar rs) kw = Ok ks -> map fst ks = map fst kw.
Proof.
  revert ks. induction kw as [|[m y] kw IH]; cbn [mapM]; intros ks Q; [now injection Q as <-|]. bok Q. bok Q. injection Q as <-. unfold kwvar in E. bok E. injection E as <-. cbn [map fst]. f_equal. auto.
Qed.

Lemma tuple_init_ok {H} {typ : nat -> ty} fs xs s : tuple_init H typ fs xs = Ok s -> s = STup true xs /\ length xs = length fs.
Proof. unfold tuple_init. destruct (Nat.eqb_spec (length xs) (length fs)); cbn [negb]; [|discriminate]. destruct (forallb _ _); [|discriminate]. now intros [= <-]. Qed.

Lemma component_at (xs : list nat) i o b : nth_error xs i = Some o -> component (STup b xs) (Z.of_nat i) = Ok o.
Proof.
  intros E. pose proof (nth_live _ _ _ E). cbn [component]. unfold py_index. destruct (Z.ltb_spec (Z.of_nat i) 0); [lia|]. 
  destruct (Z.leb_spec 0 (Z.of_nat i)); [|lia]. destruct (Z.ltb_spec (Z.of_nat i) (Z.of_nat (length xs))); [|lia]. cbn [andb bind]. now rewrite Nat2Z.id, E.
Qed.

Lemma bind_args_ok ns (pos : list nat) kw xs : bind_args ns pos kw = Ok xs -> (forall i o, nth_error pos i = Some o -> nth_error xs i = Some o) /\
  (NoDup ns -> NoDup (map fst kw) -> forall n o, In (n, o) kw -> exists i, index_of n ns = Some i /\ nth_error xs i = Some o).
Proof.
  unfold bind_args. destruct (Nat.ltb_spec (length ns) (length pos)) as [|Lp]; [discriminate|]. destruct (forallb _ kw) eqn:G; cbn [negb]; [|discriminate]. intros Q. bok Q. injection Q as <-. split.
  - intros i o E0. rewrite nth_error_app1; auto. eapply nth_live; eauto.
  - intros N1 N2 n o Hin. rewrite forallb_forall in G. pose proof (G _ Hin) as X. cbn [fst] in X. apply existsb_exists in X as (m & Hm & Em). apply String.eqb_eq in Em as <-.
    rewrite <- (firstn_skipn (length pos) ns) in N1 |- *. destruct (index_of_skip n _ _ N1 Hm) as (i & E1 & E2). rewrite firstn_length, Nat.min_l in E1 by lia. exists (length pos + i)%nat. split; auto.
    rewrite nth_error_app2, Nat.add_comm, Nat.add_sub by lia. destruct (mapM_nth _ _ _ E _ _ E2) as (o' & A & B). rewrite (assoc_nodup _ _ _ N2 Hin) in A. injection A as ->. exact B.
Qed.

Lemma agree_at f e cs l l' i b : variables_agree f e cs l l' -> nth_error (map snd l) i = Some (Some (SBit b)) -> nth_error (map snd l') i = Some (Some (VBit (evalb e b))).
Proof.
  revert cs l' i. induction l as [|a l IH]; intros [|t cs] [|a' l'] i; cbn [variables_agree]; try contradiction; [intros _; destruct i; discriminate|].
  intros [(_ & _ & A) V]. destruct i as [|i]; cbn [map nth_error]; [|now apply (IH cs)]. intros [= E]. rewrite A, E. reflexivity.
Qed.

Lemma C109_smt_partial_pf : forall H S, faithful S -> forall p ts rs cs, program_classes H ts p = Ok cs -> Forall2 ProgSpec.sym_has rs ts ->
  exists st, smt_drun H S rs p = Ok st /\
    forall e, exists st', conc_drun H (map (vmeaning e) rs) p = Ok st' /\ variables_agree 1 e cs (observe (sym_cls 1) st) (observe conc_cls st').
Proof.
  intros H S FS p ts rs cs E F. pose proof (drun_sim H 1 _ _ (smt_call_simulates S FS) (smt_set_ok S FS) p ts rs F) as Q. rewrite E in Q. exact Q.
Qed.

Lemma C109_z3_partial_pf : forall H S, faithful S -> forall p ts rs cs, program_classes H ts p = Ok cs -> Forall2 ProgSpec.sym_has rs ts ->
  exists st, z3_drun H S rs p = Ok st /\
    forall e, exists st', conc_drun H (map (vmeaning e) rs) p = Ok st' /\ variables_agree 2 e cs (observe (sym_cls 2) st) (observe conc_cls st').
Proof.
  intros H S FS p ts rs cs E F. pose proof (drun_sim H 2 _ _ (z3_call_simulates S FS) (z3_set_ok S FS) p ts rs F) as Q. rewrite E in Q. exact Q.
Qed.

Lemma C109_raises_pf : forall H S, faithful S -> forall p ts rs x, program_classes H ts p = Raise x -> x <> EOutOfModel -> Forall2 ProgSpec.sym_has rs ts ->
  smt_drun H S rs p = Raise x /\ z3_drun H S rs p = Raise x /\ forall e, conc_drun H (map (vmeaning e) rs) p = Raise x.
Proof.
  intros H S FS p ts rs x E N F. pose proof (drun_sim H 1 _ _ (smt_call_simulates S FS) (smt_set_ok S FS) p ts rs F) as Q1. pose proof (drun_sim H 2 _ _ (z3_call_simulates S FS) (z3_set_ok S FS) p ts rs F) as Q2.
  rewrite E in Q1, Q2. destruct Q1 as [?|[A B]]; [contradiction|]. destruct Q2 as [?|[C D]]; [contradiction|]. auto.
Qed.

Lemma C109_sat_partial_pf : forall H S, faithful S -> forall p names ts cs i st b, program_classes H ts p = Ok cs -> Forall ProgSpec.sized_ty ts -> NoDup names -> length names = length ts ->
  (smt_drun H S (ProgSpec.inputs names ts) p = Ok st /\ nth_error (map snd (observe (sym_cls 1) st)) i = Some (Some (SBit b))) \/
  (z3_drun H S (ProgSpec.inputs names ts) p = Ok st /\ nth_error (map snd (observe (sym_cls 2) st)) i = Some (Some (SBit b))) ->
  ((exists e, evalb e b = true) <->
   exists vs st', Forall2 ProgSpec.conc_has vs ts /\ conc_drun H vs p = Ok st' /\ nth_error (map snd (observe conc_cls st')) i = Some (Some (VBit true))).
Proof.
  intros H S FS p names ts cs i st b E W N L Q. pose proof (inputs_has names ts L W) as T.
  assert (B : forall e, exists st', conc_drun H (map (vmeaning e) (ProgSpec.inputs names ts)) p = Ok st' /\ nth_error (map snd (observe conc_cls st')) i = Some (Some (VBit (evalb e b)))).
  { intros e. destruct Q as [[A Ei]|[A Ei]].
    - destruct (C109_smt_partial_pf H S FS p ts _ cs E T) as (st0 & A' & C). rewrite A in A'. injection A' as <-. destruct (C e) as (st' & D & V). exists st'. split; [exact D|]. exact (agree_at _ _ _ _ _ _ _ V Ei).
    - destruct (C109_z3_partial_pf H S FS p ts _ cs E T) as (st0 & A' & C). rewrite A in A'. injection A' as <-. destruct (C e) as (st' & D & V). exists st'. split; [exact D|]. exact (agree_at _ _ _ _ _ _ _ V Ei). }
  split.
  - intros [e Ee]. destruct (B e) as (st' & D & V). rewrite Ee in V. exists (map (vmeaning e) (ProgSpec.inputs names ts)), st'. split; [now apply meanings_has|auto].
  - intros (vs & st' & F & D & V). destruct (assign names ts vs N L F) as [e Ev]. exists e. destruct (B e) as (st2 & D2 & V2). rewrite Ev, D in D2. injection D2 as <-. rewrite V in V2. now injection V2.
Qed.

Lemma C109_valid_partial_pf : forall H S, faithful S -> forall p names ts cs i st b, program_classes H ts p = Ok cs -> Forall ProgSpec.sized_ty ts -> NoDup names -> length names = length ts ->
  (smt_drun H S (ProgSpec.inputs names ts) p = Ok st /\ nth_error (map snd (observe (sym_cls 1) st)) i = Some (Some (SBit b))) \/
  (z3_drun H S (ProgSpec.inputs names ts) p = Ok st /\ nth_error (map snd (observe (sym_cls 2) st)) i = Some (Some (SBit b))) ->
  ((forall e, evalb e b = true) <->
   forall vs, Forall2 ProgSpec.conc_has vs ts -> exists st', conc_drun H vs p = Ok st' /\ nth_error (map snd (observe conc_cls st')) i = Some (Some (VBit true))).
Proof.
  intros H S FS p names ts cs i st b E W N L Q. pose proof (inputs_has names ts L W) as T.
  assert (B : forall e, exists st', conc_drun H (map (vmeaning e) (ProgSpec.inputs names ts)) p = Ok st' /\ nth_error (map snd (observe conc_cls st')) i = Some (Some (VBit (evalb e b)))).
  { intros e. destruct Q as [[A Ei]|[A Ei]].
    - destruct (C109_smt_partial_pf H S FS p ts _ cs E T) as (st0 & A' & C). rewrite A in A'. injection A' as <-. destruct (C e) as (st' & D & V). exists st'. split; [exact D|]. exact (agree_at _ _ _ _ _ _ _ V Ei).
    - destruct (C109_z3_partial_pf H S FS p ts _ cs E T) as (st0 & A' & C). rewrite A in A'. injection A' as <-. destruct (C e) as (st' & D & V). exists st'. split; [exact D|]. exact (agree_at _ _ _ _ _ _ _ V Ei). }
  split.
  - intros A vs F. destruct (assign names ts vs N L F) as [e Ev]. destruct (B e) as (st2 & D2 & V2). rewrite Ev in D2. rewrite A in V2. eauto.
  - intros A e. destruct (B e) as (st2 & D2 & V2). destruct (A _ (meanings_has e _ _ T)) as (st3 & D3 & V3). rewrite D2 in D3. injection D3 as <-. rewrite V2 in V3. now injection V3.
Qed.

Lemma C109_subclass_pf : forall H f s t, pure s = true -> pure t = true -> ADTTy.sub H (ty_fam f s) (ty_fam f t) = ADTTy.sub H s t.
Proof. intros. now apply sub_fam. Qed.

Lemma C109_frame_pf : forall V H fam cls lcall self set (st st' : dstate (V := V)) d, dstep H fam cls lcall self set st d = Ok st' ->
  match d with
  | DSetBit x _ _ | DSetItem x _ _ | DSetAttr x _ _ =>
      snd st' = snd st /\ length (fst st') = length (fst st) /\ exists o, refers st x o /\ forall q, q <> o -> nth_error (fst st') q = nth_error (fst st) q
  | _ => (exists new, fst st' = fst st ++ new) /\ exists new, snd st' = snd st ++ new
  end.
Proof.
  intros V H fam cls lcall self set [h rs] st' d Q. destruct d; cbn [dstep] in Q; bok Q.
  - bok Q. bok Q. destruct (self _ _); [bok Q|]; injection Q as <-; cbn [fst snd]; eauto. split; [exists []; now rewrite app_nil_r|eauto].
  - injection Q as <-. cbn [fst snd]. split; [exists []; now rewrite app_nil_r|eauto].
  - bok Q. bok Q. injection Q as <-. cbn [fst snd]. rewrite update_length. split; auto. split; auto. exists a. split; [now apply var_some|]. intros q N. now apply nth_update_other.
  - bok Q. bok Q. injection Q as <-. cbn [fst snd]. eauto.
  - bok Q. injection Q as <-. cbn [fst snd]. eauto.
  - bok Q. bok Q. injection Q as <-. cbn [fst snd]. split; [exists []; now rewrite app_nil_r|eauto].
  - bok Q. bok Q. injection Q as <-. cbn [fst snd]. split; [exists []; now rewrite app_nil_r|eauto].
  - bok Q. bok Q. bok Q. injection Q as <-. cbn [fst snd]. split; [exists []; now rewrite app_nil_r|eauto].
  - bok Q. bok Q. bok Q. injection Q as <-. cbn [fst snd]. split; [exists []; now rewrite app_nil_r|eauto].
  - bok Q. bok Q. bok Q. injection Q as <-. cbn [fst snd]. rewrite update_length. split; auto. split; auto. exists a. split; [now apply var_some|]. intros q N. now apply nth_update_other.
  - bok Q. bok Q. bok Q. injection Q as <-. cbn [fst snd]. rewrite update_length. split; auto. split; auto. exists a. split; [now apply var_some|]. intros q N. now apply nth_update_other.
Qed.

Lemma C109_alias_pf : forall V H fam cls lcall self set (st : dstate (V := V)) x o, refers st x o -> dstep H fam cls lcall self set st (DAlias x) = Ok (and_then st o).
Proof. intros V H fam cls lcall self set [h rs] x o E. unfold refers in E. cbn [snd] in E. cbn [dstep]. unfold var. rewrite E. reflexivity. Qed.

Lemma C109_assign_bit_pf : forall H st st' x i b, dstep H (fun t => t) conc_cls (fun vs => conc_call (reg vs) (opnd VInt vs)) (fun vs => conc_self (reg vs) (opnd VInt vs)) (fun vs i b => v <- reg vs 0 ;; w <- opnd VInt vs b ;; conc_set v i w) st (DSetBit x i b) = Ok st' ->
  exists o a w a', refers st x o /\ nth_error (fst st) o = Some (GLeaf (VBV a)) /\ setitem_int a i w = Ok a' /\ nth_error (fst st') o = Some (GLeaf (VBV a')) /\
    match b with Num z => w = VInt z | Reg y => exists p, refers st y p /\ nth_error (fst st) p = Some (GLeaf w) end.
Proof.
  intros H [h rs] st' x i b Q. cbn [dstep] in Q. bok Q. bok Q. apply var_some in E. apply leaf_some in E0. destruct b as [y|z].
  - bok Q. injection Q as <-. bok E1. bok E1. apply var_some in E2. apply leaf_some in E3. unfold reg, opnd in E1. cbn [nth_error bind reg] in E1. unfold conc_set in E1. destruct (as_vec a0) as [av|] eqn:Ea; cbn [bind] in E1; [|discriminate]. assert (a0 = VBV av) by (destruct a0; cbn in Ea; congruence); subst a0.
    destruct (setitem_int av i a3) as [a'|] eqn:G; cbn [rmap] in E1; [|discriminate]. injection E1 as <-. exists a, av, a3, a'. split; auto. split; auto. split; auto. split; [apply nth_update_same; eapply nth_live; eauto|]. eauto.
  - bok Q. injection Q as <-. unfold reg, opnd in E1. cbn [nth_error bind reg] in E1. unfold conc_set in E1. destruct (as_vec a0) as [av|] eqn:Ea; cbn [bind] in E1; [|discriminate]. assert (a0 = VBV av) by (destruct a0; cbn in Ea; congruence); subst a0.
    destruct (setitem_int av i (VInt z)) as [a'|] eqn:G; cbn [rmap] in E1; [|discriminate]. injection E1 as <-. exists a, av, (VInt z), a'. split; auto. split; auto. split; auto. split; [apply nth_update_same; eapply nth_live; eauto|]. auto.
Qed.

Lemma C109_read_attribute_pf : forall V H fam cls lcall self set (st st' : dstate (V := V)) x n v, dstep H fam cls lcall self set st (DSetAttr x n v) = Ok st' ->
  exists o, refers st v o /\ (dstep H fam cls lcall self set st' (DAttr x n) = Ok (and_then st' o) \/ dstep H fam cls lcall self set st' (DTag x n) = Ok (and_then st' o)).
Proof.
  intros V H fam cls lcall self set [h rs] st' x n v Q. cbn [dstep] in Q. bok Q. bok Q. bok Q. bok Q. injection Q as <-. exists a1. split; [now apply var_some|]. cbn [dstep and_then fst snd]. rewrite E. cbn [bind]. unfold node_at. apply node_some in E0.
  rewrite nth_update_same by (eapply nth_live; eauto). cbn [bind fst snd]. destruct (set_bound _ _ _ _ _ _ _ E2) as [R|R]; rewrite R; cbn [bind]; auto.
Qed.

Lemma C109_read_item_pf : forall V H fam cls lcall self set (st st' : dstate (V := V)) x k v, dstep H fam cls lcall self set st (DSetItem x k v) = Ok st' ->
  exists o, refers st v o /\ match k with
    | IxInt i => dstep H fam cls lcall self set st' (DItem x i) = Ok (and_then st' o)
    | IxTy t => dstep H fam cls lcall self set st' (DMatch x t) = Ok (and_then st' o)
    | _ => False
    end.
Proof.
  intros V H fam cls lcall self set [h rs] st' x k v Q. cbn [dstep] in Q. bok Q. bok Q. bok Q. bok Q. injection Q as <-. exists a1. split; [now apply var_some|]. apply node_some in E0.
  destruct a0 as [t s]. cbn [fst snd] in *. unfold setitem in E2.
  destruct (node_of t) as [[kd fs]|] eqn:En; [|discriminate].
  destruct k as [i|n|u|].
  - cbn [dstep and_then fst snd]. rewrite E. cbn [bind]. unfold node_at. rewrite nth_update_same by (eapply nth_live; eauto). cbn [bind fst snd].
    destruct kd, s; try discriminate; rewrite (tuple_set_back _ _ _ _ _ E2); reflexivity.
  - destruct kd, s; try discriminate. destruct (assoc n fs); discriminate.
  - cbn [dstep and_then fst snd]. rewrite E. cbn [bind]. unfold node_at. rewrite nth_update_same by (eapply nth_live; eauto). cbn [bind fst snd].
    destruct kd, s; try discriminate. destruct (existsb _ _) eqn:G; [|discriminate]. destruct (isinstance _ _ _ _) eqn:G2; [|discriminate]. injection E2 as <-. unfold sum_get. rewrite En, G. unfold isinstance in *. rewrite (gtype_update _ _ _ _ _ _ _ E0), G2. reflexivity.
  - destruct kd, s; discriminate.
Qed.

Lemma C109_construct_pf : forall V H fam cls lcall self set (st st' : dstate (V := V)) t pos kw k fs, dstep H fam cls lcall self set st (DNew t pos kw) = Ok st' -> node_of (fam t) = Some (k, fs) ->
  let y := length (snd st) in
  refers st' y (length (fst st)) /\ gtype cls (fst st') (length (fst st)) = fam t /\
  (match k with KTuple | KAnon | KProd _ _ => True | _ => False end -> forall i x, nth_error pos i = Some x -> exists o, refers st x o /\ dstep H fam cls lcall self set st' (DItem y (Z.of_nat i)) = Ok (and_then st' o)) /\
  (NoDup (names fs) -> NoDup (map fst kw) -> match k with KAnon | KProd _ _ => True | _ => False end -> forall n x, In (n, x) kw -> exists o, refers st x o /\ dstep H fam cls lcall self set st' (DAttr y n) = Ok (and_then st' o)) /\
  (match k with KTag _ _ => True | _ => False end -> exists n x o, kw = [(n, x)] /\ pos = [] /\ refers st x o /\ dstep H fam cls lcall self set st' (DTag y n) = Ok (and_then st' o)) /\
  (k = KSum -> exists x o, (pos = [x] /\ kw = [] \/ pos = [] /\ kw = [("value"%string, x)]) /\ refers st x o /\
    forall u, fam u = gtype cls (fst st) o -> (o < length (fst st))%nat -> dstep H fam cls lcall self set st' (DMatch y u) = Ok (and_then st' o)).
Proof.
  intros V H fam cls lcall self set [h rs] st' t pos kw k fs Q En y. cbn [dstep] in Q. bok Q. bok Q. bok Q. injection Q as <-. cbn [fst snd] in *.
  assert (Nh : forall s : shape nat, nth_error (h ++ [GNode (fam t) s]) (length h) = Some (GNode (fam t) s)) by (intros s; rewrite nth_error_app2, Nat.sub_diag by lia; reflexivity).
  assert (Vy : var (rs ++ [length h]) y = Ok (length h)) by (unfold var, y; rewrite nth_error_app2, Nat.sub_diag by lia; reflexivity).
  assert (VP : forall i x, nth_error pos i = Some x -> exists o, nth_error rs x = Some o /\ nth_error a i = Some o).
  { intros i x Ex. destruct (mapM_nth _ _ _ E _ _ Ex) as (o & A & B). exists o. split; auto. now apply var_some. }
  split; [unfold refers; cbn [snd]; now apply var_some|]. split; [unfold gtype; now rewrite Nh|].
  unfold call in E1. rewrite En in E1.
  split; [|split; [|split]].
  - intros K i x Ex. destruct (VP i x Ex) as (o & A & B). exists o. split; [exact A|]. cbn [dstep and_then fst snd]. rewrite Vy. cbn [bind]. unfold node_at. rewrite Nh. cbn [bind snd].
    assert (B' : exists xs, a1 = STup true xs /\ nth_error xs i = Some o).
    { destruct k; try contradiction.
      - destruct a0; [|discriminate]. destruct (tuple_init_ok _ _ _ E1) as [-> _]. eauto.
      - bok E1. destruct (tuple_init_ok _ _ _ E1) as [-> _]. destruct (bind_args_ok _ _ _ _ E2) as [W _]. eauto.
      - bok E1. destruct (tuple_init_ok _ _ _ E1) as [-> _]. destruct (bind_args_ok _ _ _ _ E2) as [W _]. eauto. }
    destruct B' as (xs & -> & B'). rewrite (component_at _ _ _ _ B'). reflexivity.
  - intros N1 N2 K n x Hin. destruct (kwvars_in _ _ _ _ _ E0 Hin) as (o & A & B). exists o. split; [now apply var_some|]. rewrite <- (kwvars_names _ _ _ E0) in N2. cbn [dstep and_then fst snd]. rewrite Vy. cbn [bind]. unfold node_at. rewrite Nh. cbn [bind fst snd]. unfold field. rewrite En.
    destruct k; try contradiction; bok E1; destruct (tuple_init_ok _ _ _ E1) as [-> _]; destruct (bind_args_ok _ _ _ _ E2) as [_ W]; destruct (W N1 N2 _ _ B) as (i & -> & B'); rewrite (component_at _ _ _ _ B'); reflexivity.
  - intros K. destruct k; try contradiction. unfold tag_init in E1. destruct a; [|discriminate]. destruct a0 as [|[n o] [|]]; try discriminate.
    destruct pos as [|p pos]; [|cbn [mapM] in E; bok E; bok E; discriminate]. destruct kw as [|[n' x] kw]; [discriminate|]. cbn [mapM] in E0. unfold kwvar in E0. bok E0. bok E0. injection E0 as -> ->. bok E2. injection E2 as <- <-. cbn [fst snd] in *.
    destruct kw as [|kv kw]; [|cbn [mapM] in E3; bok E3; bok E3; discriminate].
    exists n', x, a. split; auto. split; auto. split; [now apply var_some|]. cbn [dstep and_then fst snd]. rewrite Vy. cbn [bind]. unfold node_at. rewrite Nh. cbn [bind fst snd]. unfold tag_get. rewrite En.
    destruct (assoc n' fs) eqn:Ea; [|discriminate]. unfold tag_set in E1. rewrite Ea in E1. destruct (index_of n' (names fs)); [|discriminate]. destruct (isinstance _ _ _ _); [|discriminate]. injection E1 as <-. rewrite Nat.eqb_refl. reflexivity.
  - intros ->. unfold sum_init in E1.
    assert (W : exists x o, (pos = [x] /\ kw = [] \/ pos = [] /\ kw = [("value"%string, x)]) /\ nth_error rs x = Some o /\ a1 = SSum o /\ existsb (ty_eqb (gtype cls h o)) (types fs) = true).
    { destruct a as [|o [|]]; try (destruct a0 as [|[]]; discriminate).
      - destruct a0 as [|[n o] [|]]; try discriminate. destruct (String.eqb_spec n "value") as [->|]; [|discriminate]. destruct (existsb _ _) eqn:G; [|discriminate]. destruct pos as [|p pos]; [|cbn [mapM] in E; bok E; bok E; discriminate].
        destruct kw as [|[n' x] kw]; [discriminate|]. cbn [mapM] in E0. unfold kwvar in E0. bok E0. bok E0. injection E0 as -> ->. bok E2. injection E2 as -> <-. cbn [fst snd] in *. destruct kw as [|kv kw]; [|cbn [mapM] in E3; bok E3; bok E3; discriminate].
        exists x. eexists. split; [auto|]. split; [eapply var_some; eassumption|split; [congruence|exact G]].
      - destruct a0; [|discriminate]. destruct (existsb _ _) eqn:G; [|discriminate]. destruct pos as [|x pos]; [discriminate|]. cbn [mapM] in E. bok E. bok E. injection E as -> ->. destruct pos; [|cbn [mapM] in E3; bok E3; bok E3; discriminate].
        destruct kw as [|[n' x'] kw]; [|cbn [mapM] in E0; bok E0; bok E0; discriminate]. exists x. eexists. split; [auto|]. split; [eapply var_some; eassumption|split; [congruence|exact G]]. }
    destruct W as (x & o & A & B & -> & C). exists x, o. split; auto. split; auto. intros u Eu Lo. cbn [dstep and_then fst snd]. rewrite Vy. cbn [bind]. unfold node_at. rewrite Nh. cbn [bind fst snd]. unfold sum_get. rewrite En, Eu, C. unfold isinstance.
    replace (gtype cls (h ++ [GNode (fam t) (SSum o)]) o) with (gtype cls h o) by (unfold gtype; now rewrite nth_error_app1). rewrite sub_refl. reflexivity.
Qed.
