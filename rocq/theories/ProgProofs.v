(** Proofs of the theorems stated in ProgProps.v. *)
From Coq Require Import Lia ZifyBool.
From Verif Require Import PyBase BVModel BVFacts OpModel SMTTerm SMTModel SMTSpec ProgModel ProgSpec ProgFacts ProgInputs.

Lemma C78_smt_partial_pf : forall S, faithful S -> forall p ts us rs, check ts p = Some us -> Forall2 sym_has rs ts ->
  exists vs, smt_run S rs p = Ok vs /\ Forall2 sym_has vs us /\
    forall e, conc_run (map (vmeaning e) rs) p = Ok (map (vmeaning e) vs).
Proof. intros S FS p ts us rs H T. exact (run_simulates _ (smt_call_simulates S FS) p ts rs us H T). Qed.

Lemma C78_z3_partial_pf : forall S, faithful S -> forall p ts us rs, check ts p = Some us -> Forall2 sym_has rs ts ->
  exists vs, z3_run S rs p = Ok vs /\ Forall2 sym_has vs us /\
    forall e, conc_run (map (vmeaning e) rs) p = Ok (map (vmeaning e) vs).
Proof. intros S FS p ts us rs H T. exact (run_simulates _ (z3_call_simulates S FS) p ts rs us H T). Qed.

Lemma C78_agree_partial_pf : forall S Z, faithful S -> faithful Z -> forall p ts us rs qs e d, check ts p = Some us ->
  Forall2 sym_has rs ts -> Forall2 sym_has qs ts -> map (vmeaning e) rs = map (vmeaning d) qs ->
  exists vs ws, smt_run S rs p = Ok vs /\ z3_run Z qs p = Ok ws /\ map (vmeaning e) vs = map (vmeaning d) ws.
Proof.
  intros S Z FS FZ p ts us rs qs e d H T T' E.
  destruct (run_simulates _ (smt_call_simulates S FS) p ts rs us H T) as (vs & A & _ & B).
  destruct (run_simulates _ (z3_call_simulates Z FZ) p ts qs us H T') as (ws & A' & _ & B').
  exists vs, ws. split; auto. split; auto. specialize (B e). specialize (B' d). rewrite E in B. congruence.
Qed.

Lemma C78_concrete_partial_pf : forall p ts us cs, check ts p = Some us -> Forall2 conc_has cs ts ->
  exists ws, conc_run cs p = Ok ws /\ Forall2 conc_has ws us.
Proof.
  intros p ts us cs H T. destruct (constants cs ts T) as (rs & R & E).
  destruct (run_simulates _ (smt_call_simulates no_simp no_simp_faithful) p ts rs us H R) as (vs & _ & B & C).
  exists (map (vmeaning env0) vs). rewrite <- (E env0). split; auto. eapply meanings_has; eauto.
Qed.

Lemma C79_sat_smt_partial_pf : forall S, faithful S -> forall p names ts us i vs b,
  check ts p = Some us -> Forall sized_ty ts -> NoDup names -> length names = length ts ->
  smt_run S (inputs names ts) p = Ok vs -> nth_error vs i = Some (SBit b) ->
  ((exists e, evalb e b = true) <->
   exists cs ws, Forall2 conc_has cs ts /\ conc_run cs p = Ok ws /\ nth_error ws i = Some (VBit true)).
Proof.
  intros S FS p names ts us i vs b H W N L A Ei. assert (T := inputs_has names ts L W).
  destruct (run_simulates _ (smt_call_simulates S FS) p ts _ us H T) as (vs' & A' & _ & B).
  unfold smt_run in A. rewrite A' in A. inv A. eapply sat_iff; eauto.
Qed.

Lemma C79_sat_z3_partial_pf : forall S, faithful S -> forall p names ts us i vs b,
  check ts p = Some us -> Forall sized_ty ts -> NoDup names -> length names = length ts ->
  z3_run S (inputs names ts) p = Ok vs -> nth_error vs i = Some (SBit b) ->
  ((exists e, evalb e b = true) <->
   exists cs ws, Forall2 conc_has cs ts /\ conc_run cs p = Ok ws /\ nth_error ws i = Some (VBit true)).
Proof.
  intros S FS p names ts us i vs b H W N L A Ei. assert (T := inputs_has names ts L W).
  destruct (run_simulates _ (z3_call_simulates S FS) p ts _ us H T) as (vs' & A' & _ & B).
  unfold z3_run in A. rewrite A' in A. inv A. eapply sat_iff; eauto.
Qed.

Lemma C79_valid_partial_pf : forall S, faithful S -> forall p names ts us i vs b,
  check ts p = Some us -> Forall sized_ty ts -> NoDup names -> length names = length ts ->
  smt_run S (inputs names ts) p = Ok vs \/ z3_run S (inputs names ts) p = Ok vs -> nth_error vs i = Some (SBit b) ->
  ((forall e, evalb e b = true) <->
   forall cs ws, Forall2 conc_has cs ts -> conc_run cs p = Ok ws -> nth_error ws i = Some (VBit true)).
Proof.
  intros S FS p names ts us i vs b H W N L A Ei. assert (T := inputs_has names ts L W).
  assert (B : forall e, conc_run (map (vmeaning e) (inputs names ts)) p = Ok (map (vmeaning e) vs)).
  { destruct A as [A|A].
    - destruct (run_simulates _ (smt_call_simulates S FS) p ts _ us H T) as (vs' & A' & _ & B). unfold smt_run in A. rewrite A' in A. now inv A.
    - destruct (run_simulates _ (z3_call_simulates S FS) p ts _ us H T) as (vs' & A' & _ & B). unfold z3_run in A. rewrite A' in A. now inv A. }
  split.
  - intros V cs ws C R. destruct (assign names ts cs N L C) as (e & <-). rewrite B in R. inv R. rewrite (map_nth_error _ _ _ Ei). cbn. now rewrite V.
  - intros V e. assert (C := meanings_has e _ _ T). specialize (V _ _ C (B e)). rewrite (map_nth_error _ _ _ Ei) in V. cbn in V. congruence.
Qed.

Lemma C78_refuted_pf : exists p rs vs ws e, smt_run no_simp rs p = Ok vs /\ conc_run (map (vmeaning e) rs) p = Ok ws /\
  map (vmeaning e) vs <> ws.
Proof.
  exists [POp OFloorDiv 0 (Num 2)], [SVec (sx KSInt 4)]. do 3 eexists. split; [vm_compute; reflexivity|].
  instantiate (2 := env0). split; [vm_compute; reflexivity|]. vm_compute. congruence.
Qed.
