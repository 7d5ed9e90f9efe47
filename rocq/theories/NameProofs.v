(** Proofs of the theorems stated in NameProps.v. *)
From Coq Require Import String Lia.
From Verif Require Import NameModel NameSpec NameFacts.

Lemma C34_distinct_pf : forall h f i j n,
  variable (run init h) f i n -> variable (run init h) f j n -> i = j.
Proof.
  intros h f i j n (o & A1 & A2 & A3 & A4 & _) (p & B1 & B2 & B3 & B4 & _).
  pose proof (run_inv h init init_inv) as I.
  pose proof (I_tab _ I o n A1 A4) as E1. pose proof (I_tab _ I p n B1 B4) as E2. rewrite A3 in E1. rewrite B3 in E2. congruence.
Qed.

Lemma C34_in_use_pf : forall h i n t, variable (run init h) Core i n ->
  step (run init h) (OVar (NStr n) None false t) = (run init h, Failed ValueErr).
Proof.
  intros h i n t (o & A1 & A2 & A3 & A4 & _). cbn [step new_var].
  assert (E : in_table (run init h) Core n = true) by (apply in_table_var; [apply run_inv, init_inv|eauto]). now rewrite E.
Qed.

Lemma C34_accepted_pf : forall h n t, let s := run init h in
  (forall o, In o (heap s) -> o_fam o = Core -> o_name o <> Some n) ->
  (find_sym (symtab s) n = None \/ find_sym (symtab s) n = Some t) ->
  exists s', step s (OVar (NStr n) None false t) = (s', Created (next s) n) /\ variable s' Core (next s) n.
Proof.
  intros h n t s H1 H2. cbn [step new_var].
  assert (E : in_table s Core n = false).
  { destruct (in_table s Core n) eqn:E; auto. apply in_table_var in E; [|apply run_inv, init_inv]. destruct E as (o & A & B & C). now destruct (H1 o A C). }
  rewrite E. destruct (register (note s None n) Core n t) as [s' r] eqn:R. exists s'.
  assert (Q : r = Created (next s) n).
  { apply (f_equal snd) in R. cbn [snd] in R. rewrite <- R. unfold register. cbn [note symtab snd next].
    destruct H2 as [-> | ->]; auto. replace (sort_eqb t t) with true; auto. destruct t; cbn; auto. symmetry. apply Nat.eqb_refl. }
  subst r. split; auto. pose proof (register_ok (note s None n) Core n t (next s) n) as V. rewrite R in V. now apply V.
Qed.

Lemma C34_generated_partial_pf : forall h, NoDup (generated_from_strings (run init h)).
Proof. intros h. apply run_string_names; [apply init_inv|constructor]. Qed.

Lemma C34_one_prefix_pf : forall h p, NoDup (generated_with p (run init h)).
Proof. intros h p. apply run_one_prefix; [apply init_inv|constructor]. Qed.

Lemma C34_generated_refuted_pf : exists h, ~ NoDup (generated (run init h)).
Proof.
  exists [OVar NAuto (Some (PObj 1 "1")) false SBool; OCollect 0; OVar NAuto (Some (PStr "1")) false SBool].
  vm_compute. intros H. inversion H as [|? ? X _]. apply X. left. reflexivity.
Qed.

Lemma C34_generation_pf : forall h pf t, let s := run init h in
  exists n, (snd (step s (OVar NAuto pf false t)) = Created (next s) n \/ snd (step s (OVar NAuto pf false t)) = Failed TypeErr) /\
    (exists k, n = gen (ptext (match pf with Some p => p | None => PStr "V" end)) k) /\
    (forall i, ~ variable s Core i n).
Proof.
  intros h pf t s. assert (I : inv s) by apply run_inv, init_inv. destruct (gen_step s pf t I) as (k & H1 & H2 & H3).
  set (n := gen (ptext (match pf with Some p => p | None => PStr "V" end)) k) in *. exists n. cbn [step]. rewrite H3. split; [|split].
  - unfold register. cbn [snd]. destruct (match find_sym _ n with Some u => _ | None => false end); auto.
  - exists k. reflexivity.
  - intros i (o & A1 & A2 & A3 & A4 & _). assert (E : in_table s Core n = true) by (apply in_table_var; eauto). congruence.
Qed.

Lemma C34_bad_arguments_pf : forall h n p t, let s := run init h in
  step s (OVar (NStr n) (Some p) false t) = (s, Failed ValueErr) /\
  step s (OVar NNotStr None false t) = (s, Failed TypeErr) /\
  step s (OVar (NStr n) None true t) = (s, Failed TypeErr) /\
  step s (OVar NAuto (Some p) true t) = (s, Failed TypeErr).
Proof. intros. cbn. auto. Qed.

Lemma C34_families_refuted_pf : exists h i j n, variable (run init h) Core i n /\ variable (run init h) FP j n /\ i <> j.
Proof.
  exists [OVar (NStr "a") None false (SVec 8); OFP (NStr "a") (SVec 8)], 0, 1, "a"%string. split; [|split; [|discriminate]].
  - eexists. split; [left; reflexivity|]. cbn. auto.
  - eexists. split; [right; left; reflexivity|]. cbn. auto.
Qed.

Lemma C34_stale_type_pf : exists h n t, let s := run init h in
  (forall i, ~ variable s Core i n) /\ snd (step s (OVar (NStr n) None false t)) = Failed TypeErr.
Proof.
  exists [OVar (NStr "a") None false SBool; OCollect 0], "a"%string, (SVec 8). cbv zeta. split; [|reflexivity].
  intros i (o & A & _). destruct A.
Qed.

Lemma C35_refuted_pf : exists h n t i, let s := run init h in
  occurs s n /\ snd (step s (OVar (NStr n) None false t)) = Created i n.
Proof.
  exists [OVar (NStr "a") None false SBool; OExpr [0] (fun _ => true); OCollect 0], "a"%string, SBool, 2. cbv zeta. split; [|reflexivity].
  exists (Obj 1 None Core true ["a"%string]). split; left; reflexivity.
Qed.

Lemma C35_automatic_refuted_pf : exists h n t i, let s := run init h in
  occurs s n /\ snd (step s (OVar NAuto None false t)) = Created i n.
Proof.
  exists [OVar (NStr "V_0") None false SBool; OExpr [0] (fun _ => true); OCollect 0], "V_0"%string, SBool, 2. cbv zeta. split; [|reflexivity].
  exists (Obj 1 None Core true ["V_0"%string]). split; left; reflexivity.
Qed.

Lemma C35_generated_partial_pf : forall h pf t, let s := run init h in
  string_prefixes (h ++ [OVar NAuto pf false t]) ->
  exists n, (exists k, n = gen (ptext (match pf with Some p => p | None => PStr "V" end)) k) /\
    (~ In n (explicit_names h) ->
      snd (step s (OVar NAuto pf false t)) = Created (next s) n /\ ~ occurs s n).
Proof.
  intros h pf t s P. assert (I : inv s) by apply run_inv, init_inv. apply Forall_app in P. destruct P as [P1 P2].
  inversion P2 as [|? ? P3 _]; subst.
  assert (Q : exists q, match pf with Some p => p | None => PStr "V" end = PStr q) by (destruct pf as [[q|]|]; [eauto|destruct P3|eauto]).
  destruct (gen_step s pf t I) as (k & H1 & H2 & H3). destruct Q as [q Q]. rewrite Q in *. cbn [ptext] in *.
  exists (gen q k). split; [eauto|]. intros Hn. pose proof (run_init_created h P1) as (C1 & C2 & C3). fold s in C1, C2, C3.
  assert (N : ~ In (gen q k) (map snd (created s))).
  { intros X. apply in_map_iff in X. destruct X as ([[[p|j p]|] m] & X1 & X2); cbn in X1; subst m.
    - destruct (I_gen s I (PStr p) _ X2) as (j & E & Hj). cbn [ptext] in E. apply gen_inj in E. destruct E as [-> ->]. lia.
    - now apply C2 in X2.
    - apply C3 in X2. destruct X2 as [X2|[j X2]]; [tauto|]. now apply gen_not_fresh in X2. }
  split.
  - cbn [step]. rewrite H3. unfold register. cbn [note set_counter symtab next snd].
    destruct (find_sym (symtab s) (gen q k)) eqn:E; auto. exfalso. apply N, (I_known s I). congruence.
  - intros (o & O1 & O2). apply N. now apply (I_syms s I o).
Qed.

Lemma C35_named_partial_pf : forall h n t, let s := run init h in
  ~ In n (map snd (created s)) ->
  snd (step s (OVar (NStr n) None false t)) = Created (next s) n /\ ~ occurs s n.
Proof.
  intros h n t s N. assert (I : inv s) by apply run_inv, init_inv. split.
  - cbn [step new_var]. assert (E : in_table s Core n = false).
    { destruct (in_table s Core n) eqn:E; auto. exfalso. unfold in_table in E. destruct (find_tab (tab s) Core n) eqn:F; [|discriminate].
      clear E. apply N. revert F. clear N. subst s. revert I. generalize (run_named h). unfold named. intros H _ F. apply (H Core n). congruence. }
    rewrite E. unfold register. cbn [note symtab next snd].
    destruct (find_sym (symtab s) n) eqn:F; auto. exfalso. apply N, (I_known s I). congruence.
  - intros (o & O1 & O2). apply N. now apply (I_syms s I o).
Qed.

Lemma C35_float_pf : forall h t, let s := run init h in
  exists n, snd (step s (OFP NAuto t)) = Created (next s) n /\ ~ occurs s n.
Proof.
  intros h t s. assert (I : inv s) by apply run_inv, init_inv. destruct (search_fresh_some s) as (k & E & H). exists (fresh_name k).
  cbn [step new_fp]. rewrite E. split; [reflexivity|]. intros (o & O1 & O2). now apply (I_symtab s I o _ O1) in O2.
Qed.

Lemma C35_formulas_pf : forall h is keep i n, let s := run init h in let s' := fst (step s (OExpr is keep)) in
  (occurs_in s' (next s) n <-> keep n = true /\ exists j, In j is /\ occurs_in s j n) /\
  (i <> next s -> (occurs_in s' i n <-> occurs_in s i n)) /\
  (occurs_in (fst (step s (OCollect i))) i n -> False) /\
  (forall j, j <> i -> (occurs_in (fst (step s (OCollect i))) j n <-> occurs_in s j n)).
Proof.
  intros h is keep i n s s'. assert (I : inv s) by apply run_inv, init_inv. split; [|split; [|split]].
  - unfold s', occurs_in. cbn [step new_expr fst heap]. split.
    + intros (o & A & B & C). apply in_app_or in A as [A|[<-|[]]]; [pose proof (I_ids s I o A); lia|]. cbn [o_syms] in C.
      apply filter_In in C as [C K]. split; auto. unfold syms_of in C. apply in_flat_map in C as (o & D & E). apply filter_In in D as [D F].
      apply existsb_exists in F as (j & F & G). apply Nat.eqb_eq in G. subst j. exists (o_id o). split; auto. exists o. auto.
    + intros (K & j & J & o & A & B & C). eexists. split; [apply in_or_app; right; left; reflexivity|]. cbn [o_id o_syms]. split; auto.
      apply filter_In. split; auto. unfold syms_of. apply in_flat_map. exists o. split; auto. apply filter_In. split; auto.
      apply existsb_exists. exists j. split; auto. now apply Nat.eqb_eq.
  - intros N. unfold s', occurs_in. cbn [step new_expr fst heap]. split; intros (o & A & B & C).
    + apply in_app_or in A as [A|[<-|[]]]; [eauto|]. cbn in B. congruence.
    + exists o. rewrite in_app_iff. auto.
  - intros (o & A & B & C). cbn [step collect fst heap] in A. apply filter_In in A as [_ A]. apply Nat.eqb_eq in B. now rewrite B in A.
  - intros j N. unfold occurs_in. cbn [step collect fst heap]. split; intros (o & A & B & C); exists o.
    + apply filter_In in A as [A _]. auto.
    + split; auto. apply filter_In. split; auto. apply negb_true_iff, Nat.eqb_neq. congruence.
Qed.
