(** Invariants of the interleaved naming model. *)
From Coq Require Import String Lia.
From Verif Require Import NameModel NameSpec NameFacts NThreadModel NThreadSpec.

Lemma set_ph_same f i x : set_ph f i x i = x.
Proof. unfold set_ph. now rewrite Nat.eqb_refl. Qed.
Lemma set_ph_other f i x j : j <> i -> set_ph f i x j = f j.
Proof. intros H. unfold set_ph. now rewrite (proj2 (Nat.eqb_neq j i) H). Qed.
Lemma trun_app s l m : trun s (l ++ m) = trun (trun s l) m.
Proof. apply fold_left_app. Qed.

(** An operation on the shared state that registers nothing under a name. *)
Definition quiet_op (o : op) : Prop :=
  match o with OVar NAuto _ false _ | OVar (NStr _) None false _ | OFP (NStr _) _ => False | _ => True end.
(** The cases of one step. *)
Inductive tcase (s : tstate) : event -> tstate -> Prop :=
| C_none e : tcase s e s
| C_draw i o p t : ph s i = PIdle -> generates o p ->
    tcase s (EStart i o) (TS (shared s) (set_ph (ph s) i (PDraw p t)) (log s))
| C_rej i o f n : names o f n -> in_table (shared s) f n = true ->
    tcase s (EStart i o) (TS (shared s) (ph s) ((i, Failed ValueErr) :: log s))
| C_named i o f n t : ph s i = PIdle -> names o f n -> in_table (shared s) f n = false ->
    tcase s (EStart i o) (TS (shared s) (set_ph (ph s) i (PNamed f n t)) (log s))
| C_op i o : quiet_op o -> tcase s (EStart i o) (TS (fst (step (shared s) o)) (ph s) ((i, snd (step (shared s) o)) :: log s))
| C_fin i f n t : ph s i = PNamed f n t -> tcase s (EStep i) (finish s i f None n t)
| C_next i p t : ph s i = PDraw p t -> let k := counter (counters (shared s)) p in
    tcase s (EStep i) (TS (set_counter (shared s) p (S k)) (set_ph (ph s) i (PLook p (gen (ptext p) k) t)) (log s))
| C_used i p n t : ph s i = PLook p n t -> in_table (shared s) Core n = true ->
    tcase s (EStep i) (TS (shared s) (set_ph (ph s) i (PDraw p t)) (log s))
| C_free i p n t : ph s i = PLook p n t -> in_table (shared s) Core n = false ->
    tcase s (EStep i) (TS (shared s) (set_ph (ph s) i (PFree p n t)) (log s))
| C_gen i p n t : ph s i = PFree p n t -> tcase s (EStep i) (finish s i Core (Some p) n t)
| C_collect j : tcase s (ECollect j) (TS (collect (shared s) j) (ph s) (log s)).
Lemma tstep_case s e : tcase s e (tstep s e).
Proof.
  destruct e as [i o|i|j]; cbn [tstep].
  - destruct (ph s i) eqn:P; try constructor.
    assert (CO : forall o, quiet_op o -> tcase s (EStart i o) (let '(s', r) := step (shared s) o in TS s' (ph s) ((i, r) :: log s))).
    { intros o' Q. pose proof (C_op s i o' Q) as X. destruct (step (shared s) o'). exact X. }
    destruct o as [nm pf v t|nm t|is keep|j]; unfold start.
    + destruct nm as [|n|], v, pf; try (apply CO; exact I).
      * refine (C_draw s i _ _ t P _); reflexivity.
      * refine (C_draw s i _ _ t P _); reflexivity.
      * destruct (in_table (shared s) Core n) eqn:E; [eapply C_rej with (f := Core) (n := n)|apply C_named]; cbn; auto.
    + destruct nm as [|n|]; try (apply CO; exact I).
      destruct (in_table (shared s) FP n) eqn:E; [eapply C_rej with (f := FP) (n := n)|apply C_named]; cbn; auto.
    + apply CO; exact I.
    + apply CO; exact I.
  - unfold resume. destruct (ph s i) eqn:P; try constructor; auto.
    destruct (in_table (shared s) Core n) eqn:E; [eapply C_used|apply C_free]; eauto.
  - constructor.
Qed.

(** What an operation that registers nothing does. *)
Lemma quiet_op_keeps s o : quiet_op o -> let s' := fst (step s o) in
  tab s' = tab s /\ counters s' = counters s /\ next s <= next s' /\
  (forall x, In x (heap s') -> In x (heap s) \/ (o_id x = next s /\ next s' = S (next s) /\ o_name x = None)) /\
  (NoDup (map o_id (heap s)) -> (forall x, In x (heap s) -> o_id x < next s) -> NoDup (map o_id (heap s'))) /\
  (forall p n, In (Some p, n) (created s') <-> In (Some p, n) (created s)) /\
  generated_from_strings s' = generated_from_strings s.
Proof.
  assert (A : forall g ok sy, NoDup (map o_id (heap s)) -> (forall x, In x (heap s) -> o_id x < next s) ->
    NoDup (map o_id (heap s ++ [Obj (next s) None g ok sy]))).
  { intros g ok sy H1 H2. rewrite map_app. cbn. apply NoDup_Add with (a := next s) (l := map o_id (heap s)).
    - rewrite <- (app_nil_r (map o_id (heap s))) at 1; apply Add_app.
    - split; auto. intros H. apply in_map_iff in H. destruct H as (x & E1 & E2). specialize (H2 x E2). lia. }
  intros Q s'. assert (Z : s' = s -> tab s' = tab s /\ counters s' = counters s /\ next s <= next s' /\
    (forall x, In x (heap s') -> In x (heap s) \/ (o_id x = next s /\ next s' = S (next s) /\ o_name x = None)) /\
    (NoDup (map o_id (heap s)) -> (forall x, In x (heap s) -> o_id x < next s) -> NoDup (map o_id (heap s'))) /\
    (forall p n, In (Some p, n) (created s') <-> In (Some p, n) (created s)) /\
    generated_from_strings s' = generated_from_strings s).
  { intros ->. repeat split; auto; tauto. }
  destruct o as [nm pf v t|nm t|is keep|j]; cbn [quiet_op] in Q; subst s'; cbn [step] in *.
  - apply Z. destruct nm, pf, v; try tauto; reflexivity.
  - destruct nm as [|n|]; [|tauto|apply Z; reflexivity]. cbn [new_fp] in *. destruct (search_fresh s) as [k|]; [|apply Z; reflexivity].
    cbn [fst tab counters next heap created]. split; [auto|]. split; [auto|]. split; [lia|]. split; [|split; [|split]].
    + intros x H. apply in_app_iff in H. destruct H as [H|[<-|[]]]; auto.
    + apply A.
    + intros p n. cbn. split; [intros [H|H]; [discriminate|auto]|auto].
    + reflexivity.
  - cbn [new_expr fst tab counters next heap created]. split; [auto|]. split; [auto|]. split; [lia|]. split; [|split; [|split]].
    + intros x H. apply in_app_iff in H. destruct H as [H|[<-|[]]]; auto.
    + apply A.
    + tauto.
    + reflexivity.
  - cbn [fst collect tab counters next heap created]. split; [auto|]. split; [auto|]. split; [auto|]. split; [|split; [|split]].
    + intros x H. apply filter_In in H. tauto.
    + intros H _. now apply nodup_filter.
    + tauto.
    + reflexivity.
Qed.

(** ** The part of the invariant that survives races *)
Record winv (s : state) : Prop := {
  W_ids : forall o, In o (heap s) -> o_id o < next s;
  W_nodup : NoDup (map o_id (heap s));
  W_bound : forall f n i, find_tab (tab s) f n = Some i -> i < next s;
  W_back : forall f n o, find_tab (tab s) f n = Some (o_id o) -> In o (heap s) -> o_name o = Some n /\ o_fam o = f
}.
Lemma winv_register s f n t p : winv s -> winv (fst (register (note s p n) f n t)).
Proof.
  intros []. unfold register. cbn [fst note heap tab counters symtab fresh next created].
  split; cbn [heap tab next].
  - intros o H. apply in_app_iff in H. destruct H as [H|[<-|[]]]; cbn; auto. specialize (W_ids0 o H). lia.
  - rewrite map_app. cbn. apply NoDup_Add with (a := next s) (l := map o_id (heap s)).
    + rewrite <- (app_nil_r (map o_id (heap s))) at 1; apply Add_app.
    + split; auto. intros H. apply in_map_iff in H. destruct H as (o & H1 & H2). specialize (W_ids0 o H2). lia.
  - intros g m i H. cbn in H. destruct (fam_eqb g f && String.eqb m n); [injection H as <-; lia|]. specialize (W_bound0 g m i H). lia.
  - intros g m o H Ho. cbn in H. apply in_app_iff in Ho.
    destruct (fam_eqb g f && String.eqb m n) eqn:E.
    + injection H as H. apply andb_true_iff in E. destruct E as [E1 E2]. apply fam_eqb_eq in E1. apply String.eqb_eq in E2. subst.
      destruct Ho as [Ho|[<-|[]]]; [|auto]. specialize (W_ids0 o Ho). lia.
    + destruct Ho as [Ho|[<-|[]]]; [eauto|]. cbn in H. specialize (W_bound0 g m _ H). lia.
Qed.
Lemma winv_op s o : quiet_op o -> winv s -> winv (fst (step s o)).
Proof.
  intros Q []. destruct (quiet_op_keeps s o Q) as (A & B & C & D & E & F & G). split.
  - intros x H. destruct (D x H) as [X|(X & Y & _)]; [specialize (W_ids0 x X)|]; lia.
  - auto.
  - intros f n i H. rewrite A in H. specialize (W_bound0 f n i H). lia.
  - intros f n x H Hx. rewrite A in H. destruct (D x Hx) as [X|(X & _)]; [eauto|]. specialize (W_bound0 f n _ H). lia.
Qed.
Lemma winv_tstep s e : winv (shared s) -> winv (shared (tstep s e)).
Proof.
  intros W. destruct (tstep_case s e); cbn [shared]; auto.
  - now apply winv_op.
  - unfold finish. pose proof (winv_register (shared s) f n t None W) as H0.
    destruct (register (note (shared s) None n) f n t). exact H0.
  - destruct W. split; auto.
  - unfold finish. pose proof (winv_register (shared s) Core n t (Some p) W) as H0.
    destruct (register (note (shared s) (Some p) n) Core n t). exact H0.
  - apply (winv_op (shared s) (OCollect j) I W).
Qed.
Lemma winv_init : winv init.
Proof. split; cbn; try tauto; try discriminate. constructor. Qed.
Lemma winv_trun l : forall s, winv (shared s) -> winv (shared (trun s l)).
Proof. induction l as [|e l IH]; intros s W; [exact W|]. cbn. apply IH. now apply winv_tstep. Qed.
Lemma winv_reach h : winv (shared (trun tinit h)).
Proof. apply winv_trun, winv_init. Qed.
Lemma in_table_obj s f n : winv s -> in_table s f n = true -> exists o, In o (heap s) /\ o_name o = Some n /\ o_fam o = f.
Proof.
  intros W. unfold in_table. destruct (find_tab (tab s) f n) as [i|] eqn:E; [|discriminate]. intros H. apply live_in in H.
  destruct H as (o & H1 & <-). destruct (W_back s W f n o E H1). exists o. auto.
Qed.

(** ** Generated names *)
Definition in_flight (s : tstate) (i : nat) (q : string) (n : string) : Prop :=
  exists t, ph s i = PLook (PStr q) n t \/ ph s i = PFree (PStr q) n t.
Record ginv (s : tstate) : Prop := {
  G_gen : forall q n, In (Some (PStr q), n) (created (shared s)) ->
    exists k, n = gen q k /\ k < counter (counters (shared s)) (PStr q);
  G_fly : forall i q n, in_flight s i q n ->
    (exists k, n = gen q k /\ k < counter (counters (shared s)) (PStr q)) /\ ~ In n (generated_from_strings (shared s));
  G_diff : forall i j p q n, in_flight s i p n -> in_flight s j q n -> i = j;
  G_nodup : NoDup (generated_from_strings (shared s))
}.
Lemma gfs_in s n : In n (generated_from_strings s) <-> exists q, In (Some (PStr q), n) (created s).
Proof.
  unfold generated_from_strings. rewrite in_flat_map. split.
  - intros ([[[q|]|] m] & H1 & H2); cbn in H2; try tauto. destruct H2 as [->|[]]. eauto.
  - intros (q & H). exists (Some (PStr q), n). cbn. auto.
Qed.
Lemma fly_other s sh i x lg j q n : j <> i -> in_flight (TS sh (set_ph (ph s) i x) lg) j q n -> in_flight s j q n.
Proof. intros H (t & X). exists t. cbn [ph] in X. now rewrite (set_ph_other _ _ _ _ H) in X. Qed.
Lemma fly_same_not s sh i x lg q n : (forall t, x <> PLook (PStr q) n t) -> (forall t, x <> PFree (PStr q) n t) ->
  ~ in_flight (TS sh (set_ph (ph s) i x) lg) i q n.
Proof. intros H1 H2 (t & X). cbn [ph] in X. rewrite set_ph_same in X. destruct X as [X|X]; [eapply H1|eapply H2]; exact X. Qed.
(** Phases change so that nothing new is in flight. *)
Lemma ginv_less s s' : ginv s -> created (shared s') = created (shared s) -> counters (shared s') = counters (shared s) ->
  (forall i q n, in_flight s' i q n -> in_flight s i q n) -> ginv s'.
Proof.
  intros [] HC HK HF. unfold generated_from_strings in *. split; unfold generated_from_strings; rewrite ?HC, ?HK; eauto.
Qed.
Lemma ginv_tstep s e : ginv s -> ginv (tstep s e).
Proof.
  intros GI. pose proof GI as [GG GF GD GN].
  destruct (tstep_case s e) as [e|i o p t P X|i o f n X Y|i o f n t P X Y|i o Q|i f n t P|i p t P k|i p n t P Y|i p n t P Y|i p n t P|j].
  - exact GI.
  - apply (ginv_less s); auto. intros j q m F. destruct (Nat.eq_dec j i) as [->|N]; [|eapply fly_other; eauto].
    exfalso. revert F. apply fly_same_not; discriminate.
  - apply (ginv_less s); auto.
  - apply (ginv_less s); auto. intros j q m F. destruct (Nat.eq_dec j i) as [->|N]; [|eapply fly_other; eauto].
    exfalso. revert F. apply fly_same_not; discriminate.
  - destruct (quiet_op_keeps (shared s) o Q) as (A & B & C & D & E & F & G). split; cbn [shared].
    + intros q n H. rewrite B. apply GG, F, H.
    + intros j q n H. rewrite B, G. apply (GF j q n), H.
    + intros a b p q n H1 H2. eapply GD; [exact H1|exact H2].
    + now rewrite G.
  - unfold finish. cbn [register note shared]. split; cbn [shared created counters].
    + intros q m [H|H]; [discriminate|eauto].
    + intros j q m F. destruct (Nat.eq_dec j i) as [->|N]; [exfalso; revert F; apply fly_same_not; discriminate|].
      apply fly_other in F; auto. apply GF in F. exact F.
    + intros a b p q m F1 F2. destruct (Nat.eq_dec a i) as [->|Na]; [exfalso; revert F1; apply fly_same_not; discriminate|].
      destruct (Nat.eq_dec b i) as [->|Nb]; [exfalso; revert F2; apply fly_same_not; discriminate|].
      eapply GD; eapply fly_other; eauto.
    + exact GN.
  - assert (K : forall q, counter (counters (shared s)) (PStr q) <= counter ((p, S k) :: counters (shared s)) (PStr q)).
    { intros q. rewrite counter_set. destruct (same_key (PStr q) p) eqn:E; [|auto]. rewrite (counter_key _ _ _ E). subst k. lia. }
    split; cbn [shared created counters set_counter].
    + intros q n H. destruct (GG q n H) as (j & -> & Hj). exists j. split; auto. specialize (K q). lia.
    + intros j q n F. destruct (Nat.eq_dec j i) as [->|N].
      * destruct F as (t' & [F|F]); cbn [ph] in F; rewrite set_ph_same in F; [|discriminate]. injection F as -> <- <-. cbn [ptext].
        split. { exists k. split; auto. rewrite counter_set, same_key_refl. lia. }
        intros H. apply gfs_in in H. destruct H as (q' & H). cbn [created set_counter] in H. destruct (GG q' _ H) as (j & E & Hj).
        apply gen_inj in E. destruct E as [<- <-]. subst k. lia.
      * apply fly_other in F; auto. apply GF in F. destruct F as ((j' & -> & Hj) & F2). split; [|exact F2]. exists j'. split; auto.
        specialize (K q). lia.
    + assert (Z : forall b q m, b <> i -> in_flight s b q m -> in_flight
        (TS (set_counter (shared s) p (S k)) (set_ph (ph s) i (PLook p (gen (ptext p) k) t)) (log s)) i q m -> False).
      { intros b q m Nb F2 (t' & [F|F]); cbn [ph] in F; rewrite set_ph_same in F; [|discriminate]. injection F as -> <- <-. cbn [ptext] in F2.
        apply GF in F2. destruct F2 as ((j' & E & Hj) & _). apply gen_inj in E. destruct E as [_ <-]. subst k. lia. }
      assert (Z' : forall b q q' m, b <> i -> in_flight s b q m -> in_flight
        (TS (set_counter (shared s) p (S k)) (set_ph (ph s) i (PLook p (gen (ptext p) k) t)) (log s)) i q' m -> False).
      { intros b q q' m Nb F2 (t' & [F|F]); cbn [ph] in F; rewrite set_ph_same in F; [|discriminate]. injection F as -> <- <-. cbn [ptext] in F2.
        apply GF in F2. destruct F2 as ((j' & E & Hj) & _). apply gen_inj in E. destruct E as [<- <-]. subst k. lia. }
      intros a b p' q m F1 F2. destruct (Nat.eq_dec a i) as [->|Na], (Nat.eq_dec b i) as [->|Nb]; auto.
      * exfalso. eapply Z'; [exact Nb|eapply fly_other; eauto|exact F1].
      * exfalso. eapply Z'; [exact Na|eapply fly_other; eauto|exact F2].
      * eapply GD; eapply fly_other; eauto.
    + exact GN.
  - apply (ginv_less s); auto. intros j q m F. destruct (Nat.eq_dec j i) as [->|N]; [|eapply fly_other; eauto].
    exfalso. revert F. apply fly_same_not; discriminate.
  - apply (ginv_less s); auto. intros j q m F. destruct (Nat.eq_dec j i) as [->|N]; [|eapply fly_other; eauto].
    destruct F as (t' & [F|F]); cbn [ph] in F; rewrite set_ph_same in F; [discriminate|]. injection F as -> -> ->. exists t'. auto.
  - unfold finish. cbn [register note shared].
    assert (N0 : forall j q, j <> i -> p = PStr q -> forall q', in_flight s j q' n -> False).
    { intros j q Nj -> q' F. apply Nj. eapply GD; [exact F|]. exists t. right. exact P. }
    split; cbn [shared created counters].
    + intros q m [H|H]; [|eauto]. injection H as -> ->. apply (GF i q m). exists t. auto.
    + intros j q m F. destruct (Nat.eq_dec j i) as [->|N]; [exfalso; revert F; apply fly_same_not; discriminate|].
      apply fly_other in F; auto. pose proof F as F0. apply GF in F. destruct F as (F1 & F2). split; [exact F1|].
      rewrite gfs_in in *. cbn [created]. intros (q' & [H|H]); [|apply F2; eauto]. injection H as -> ->. eapply (N0 j q'); eauto.
    + intros a b p' q m F1 F2. destruct (Nat.eq_dec a i) as [->|Na]; [exfalso; revert F1; apply fly_same_not; discriminate|].
      destruct (Nat.eq_dec b i) as [->|Nb]; [exfalso; revert F2; apply fly_same_not; discriminate|].
      eapply GD; eapply fly_other; eauto.
    + unfold generated_from_strings. cbn [created flat_map]. destruct p as [q|]; cbn [string_name app]; [|exact GN].
      constructor; [|exact GN]. apply (GF i q n). exists t. auto.
  - apply (ginv_less s); auto.
Qed.
Lemma ginv_reach h : ginv (trun tinit h).
Proof.
  assert (G : forall l s, ginv s -> ginv (trun s l)).
  { induction l as [|e l IH]; intros s H; [exact H|]. cbn. apply IH. now apply ginv_tstep. }
  apply G. split; cbn; try tauto; try (intros i q n (t & [H|H]); discriminate).
  - intros i j p q n (t & [H|H]); discriminate.
  - constructor.
Qed.

(** ** Names held by one object *)
Record kinv (s : tstate) (f : family) (n : string) : Prop := {
  K_tab : forall o, In o (heap (shared s)) -> o_fam o = f -> o_name o = Some n -> find_tab (tab (shared s)) f n = Some (o_id o);
  K_free : forall i, decided s i f n -> in_table (shared s) f n = false
}.
Lemma decided_other s sh i x lg j f n : j <> i -> decided (TS sh (set_ph (ph s) i x) lg) j f n <-> decided s j f n.
Proof. intros H. unfold decided. cbn [ph]. now rewrite (set_ph_other _ _ _ _ H). Qed.
Lemma find_tab_cons l f n i g m : find_tab ((f, n, i) :: l) g m = if fam_eqb g f && String.eqb m n then Some i else find_tab l g m.
Proof. reflexivity. Qed.
Lemma in_table_sub s s' f n : tab s' = tab s -> (forall x, In x (heap s') -> In x (heap s) \/ o_id x = next s) -> winv s ->
  in_table s f n = false -> in_table s' f n = false.
Proof.
  intros A B W. unfold in_table. rewrite A. destruct (find_tab (tab s) f n) as [i|] eqn:E; auto. intros H.
  destruct (live s' i) eqn:L; auto. apply live_in in L. destruct L as (o & L1 & L2). destruct (B o L1) as [X|X].
  - enough (live s i = true) by congruence. apply live_in. eauto.
  - pose proof (W_bound s W f n i E). lia.
Qed.
Lemma kinv_finish s i f n t p g m : winv (shared s) -> kinv s g m ->
  (f = g -> n = m -> decided s i g m) -> (forall j, decided s j g m -> decided s i g m -> j = i) ->
  kinv (finish s i f p n t) g m.
Proof.
  intros W [KT KF] HD EX. unfold finish. cbn [register note]. split; cbn [shared heap tab].
  - intros o H Hf Hn. rewrite find_tab_cons. apply in_app_iff in H. destruct H as [H|[<-|[]]].
    + destruct (fam_eqb g f && String.eqb m n) eqn:E; [|auto]. exfalso. apply andb_true_iff in E. destruct E as [E1 E2].
      apply fam_eqb_eq in E1. apply String.eqb_eq in E2. subst f n. pose proof (KF i (HD eq_refl eq_refl)) as X.
      unfold in_table in X. rewrite (KT o H Hf Hn) in X. assert (Y : live (shared s) (o_id o) = true) by (apply live_in; eauto). congruence.
    + cbn in Hf, Hn. injection Hn as ->. subst. rewrite fam_eqb_refl, String.eqb_refl. reflexivity.
  - intros j D. destruct (Nat.eq_dec j i) as [->|N]; [exfalso; unfold decided in D; cbn [ph] in D; rewrite set_ph_same in D; exact D|].
    apply decided_other in D; auto.
    destruct (fam_eqb g f && String.eqb m n) eqn:E.
    + apply andb_true_iff in E. destruct E as [E1 E2]. apply fam_eqb_eq in E1. apply String.eqb_eq in E2. subst f n.
      exfalso. apply N, EX; auto.
    + pose proof (KF j D) as X. unfold in_table in *. cbn [shared tab]. rewrite find_tab_cons, E.
      change (tab (note (shared s) p n)) with (tab (shared s)).
      destruct (find_tab (tab (shared s)) g m) as [z|] eqn:T; auto.
      match goal with |- ?l = false => destruct l eqn:L; auto end.
      apply live_in in L. destruct L as (o & L1 & L2). cbn [heap note] in L1.
      apply in_app_iff in L1. destruct L1 as [L1|[<-|[]]].
      * enough (live (shared s) z = true) by congruence. apply live_in. eauto.
      * cbn in L2. pose proof (W_bound _ W _ _ _ T). lia.
Qed.
Lemma kinv_tstep s e f n : winv (shared s) -> kinv s f n ->
  (forall i j, decided s i f n -> decided s j f n -> i = j) -> kinv (tstep s e) f n.
Proof.
  intros W K EX. pose proof K as [KT KF].
  assert (Z : forall sh i x lg, heap sh = heap (shared s) -> tab sh = tab (shared s) ->
    (match x with PNamed g m _ => f = g /\ n = m | PFree _ m _ => f = Core /\ n = m | _ => False end -> in_table (shared s) f n = false) ->
    kinv (TS sh (set_ph (ph s) i x) lg) f n).
  { intros sh i x lg E1 E2 Hx. split; cbn [shared]; [rewrite E1, E2; auto|]. intros j D.
    assert (T : in_table sh f n = in_table (shared s) f n) by (unfold in_table, live; now rewrite E1, E2). rewrite T.
    destruct (Nat.eq_dec j i) as [->|N]; [|apply decided_other in D; eauto].
    unfold decided in D. cbn [ph] in D. rewrite set_ph_same in D. auto. }
  destruct (tstep_case s e) as [e|i o p t P X|i o g m X Y|i o g m t P X Y|i o Q|i g m t P|i p t P k|i p m t P Y|i p m t P Y|i p m t P|j].
  - exact K.
  - apply Z; auto; tauto.
  - split; auto.
  - apply Z; auto. intros [-> ->]. exact Y.
  - destruct (quiet_op_keeps (shared s) o Q) as (A & B & C & D & E & F & G). split; cbn [shared].
    + intros x H Hf Hn. rewrite A. destruct (D x H) as [H'|(_ & _ & H')]; [auto|congruence].
    + intros j Dj. apply (in_table_sub (shared s)); auto; [|eapply KF; exact Dj]. intros x H. destruct (D x H) as [H'|(H' & _)]; auto.
  - apply kinv_finish; auto. intros -> ->. unfold decided. rewrite P. auto.
  - apply Z; auto; tauto.
  - apply Z; auto; tauto.
  - apply Z; auto. intros [-> ->]. exact Y.
  - apply kinv_finish; auto. intros <- ->. unfold decided. rewrite P. auto.
  - split; cbn [shared collect heap tab].
    + intros o H. apply filter_In in H. destruct H. auto.
    + intros i D. apply (in_table_sub (shared s)); auto; [|eapply KF; exact D]. intros x H. cbn in H. apply filter_In in H. tauto.
Qed.
Lemma kinv_reach h f n :
  (forall h1 h2, h = h1 ++ h2 -> forall i j, decided (trun tinit h1) i f n -> decided (trun tinit h1) j f n -> i = j) ->
  kinv (trun tinit h) f n.
Proof.
  induction h as [|e h IH] using rev_ind; intros H.
  - split; cbn; [tauto|]. intros i D. destruct D.
  - rewrite trun_app. cbn [trun fold_left]. apply kinv_tstep.
    + apply winv_reach.
    + apply IH. intros h1 h2 E. apply (H h1 (h2 ++ [e])). now rewrite E, app_assoc.
    + apply (H h [e] eq_refl).
Qed.
Lemma kinv_unique s f n : kinv s f n -> forall i j, variable (shared s) f i n -> variable (shared s) f j n -> i = j.
Proof.
  intros [KT _] i j (o & O1 & <- & O2 & O3 & _) (o' & P1 & <- & P2 & P3 & _).
  pose proof (KT o O1 O2 O3). pose proof (KT o' P1 P2 P3). congruence.
Qed.

(** ** Where the phases come from *)
Lemma decided_from h i f n : decided (trun tinit h) i f n ->
  (exists o, In (EStart i o) h /\ names o f n) \/ (exists p t, ph (trun tinit h) i = PFree p n t /\ f = Core).
Proof.
  assert (G : forall i f n t, ph (trun tinit h) i = PNamed f n t -> exists o, In (EStart i o) h /\ names o f n).
  { clear. induction h as [|e h IH] using rev_ind; intros i f n t H; [discriminate|]. rewrite trun_app in H. cbn [trun fold_left] in H.
    assert (W : (exists o, In (EStart i o) h /\ names o f n) -> exists o, In (EStart i o) (h ++ [e]) /\ names o f n).
    { intros (o & A & B). exists o. split; auto. apply in_app_iff. auto. }
    fold (trun tinit h) in H. remember (trun tinit h) as s.
    assert (S : forall a x t', set_ph (ph s) a x i = PNamed f n t' -> (a = i /\ x = PNamed f n t') \/ ph s i = PNamed f n t').
    { intros a x t' E. destruct (Nat.eq_dec i a) as [->|N]; [rewrite set_ph_same in E|rewrite set_ph_other in E by auto]; auto. }
    destruct (tstep_case s e) as [e|a o p t' P X|a o g m X Y|a o g m t' P X Y|a o Q|a g m t' P|a p t' P k|a p m t' P Y|a p m t' P Y|a p m t' P|j];
      cbn [ph finish register note] in H; try (apply S in H; destruct H as [[<- H]|H]; [|eauto]; try discriminate); eauto.
    injection H as -> -> ->. exists o. split; auto. apply in_app_iff. cbn. auto. }
  unfold decided. destruct (ph (trun tinit h) i) as [|g m t|p t|p m t|p m t] eqn:P; try tauto.
  - intros [-> ->]. left. eauto.
  - intros [-> ->]. right. exists p, t. auto.
Qed.
Definition uses (x : phase) (p : prefix) : Prop := match x with PDraw q _ | PLook q _ _ | PFree q _ _ => p = q | _ => False end.
Lemma uses_from h i p : uses (ph (trun tinit h) i) p -> exists o, In (EStart i o) h /\ generates o p.
Proof.
  revert i p. induction h as [|e h IH] using rev_ind; intros i p H; [destruct H|]. rewrite trun_app in H. cbn [trun fold_left] in H.
  assert (W : (exists o, In (EStart i o) h /\ generates o p) -> exists o, In (EStart i o) (h ++ [e]) /\ generates o p).
  { intros (o & A & B). exists o. split; auto. apply in_app_iff. auto. }
  fold (trun tinit h) in H. remember (trun tinit h) as s.
  assert (S : forall a x, uses (set_ph (ph s) a x i) p -> (a = i /\ uses x p) \/ uses (ph s i) p).
  { intros a x E. destruct (Nat.eq_dec i a) as [->|N]; [rewrite set_ph_same in E|rewrite set_ph_other in E by auto]; auto. }
  destruct (tstep_case s e) as [e|a o q t' P X|a o g m X Y|a o g m t' P X Y|a o Q|a g m t' P|a q t' P k|a q m t' P Y|a q m t' P Y|a q m t' P|j];
    cbn [ph finish register note] in H; try (apply S in H; destruct H as [[<- H]|H]; [cbn [uses] in H; try tauto; subst|eauto]); eauto.
  - exists o. split; auto. apply in_app_iff. cbn. auto.
  - apply W, IH. rewrite P. reflexivity.
  - apply W, IH. rewrite P. reflexivity.
  - apply W, IH. rewrite P. reflexivity.
Qed.
Lemma free_form h i p n t : ph (trun tinit h) i = PFree p n t -> exists k, n = gen (ptext p) k.
Proof.
  assert (G : forall i p n, (exists t, ph (trun tinit h) i = PLook p n t \/ ph (trun tinit h) i = PFree p n t) -> exists k, n = gen (ptext p) k).
  { clear. induction h as [|e h IH] using rev_ind; intros i p n (t & H); [destruct H; discriminate|]. rewrite trun_app in H. cbn [trun fold_left] in H.
    fold (trun tinit h) in H. remember (trun tinit h) as s.
    assert (S : forall a x, set_ph (ph s) a x i = PLook p n t \/ set_ph (ph s) a x i = PFree p n t ->
      (x = PLook p n t \/ x = PFree p n t) \/ (ph s i = PLook p n t \/ ph s i = PFree p n t)).
    { intros a x E. destruct (Nat.eq_dec i a) as [->|N]; [rewrite set_ph_same in E|rewrite set_ph_other in E by auto]; auto. }
    destruct (tstep_case s e) as [e|a o q t' P X|a o g m X Y|a o g m t' P X Y|a o Q|a g m t' P|a q t' P k|a q m t' P Y|a q m t' P Y|a q m t' P|j];
      cbn [ph finish register note] in H; try (apply S in H; destruct H as [[H|H]|H]; try discriminate); eauto.
    - injection H as <- <- <-. eauto.
    - injection H as <- <- <-. eauto. }
  intros H. eauto.
Qed.

(** ** One thread running alone *)
Fixpoint steps (i k : nat) (s : tstate) : tstate := match k with 0 => s | S k => steps i k (resume s i) end.
Lemma steps_run i k s : steps i k s = trun s (repeat (EStep i) k).
Proof. revert s. induction k as [|k IH]; intros s; [reflexivity|]. cbn. apply IH. Qed.
Lemma gen_name_weak s p : winv s -> exists k, gen_name s p = Some (S k, gen (ptext p) k).
Proof.
  intros I. unfold gen_name. set (c := counter (counters s) p).
  destruct (search (in_table s Core) (ptext p) (S (length (heap s))) c) as [k|] eqn:E; [eauto|].
  exfalso. pose proof (search_none _ _ _ _ E) as H.
  pose (L := map (fun j => gen (ptext p) (c + j)) (seq 0 (S (length (heap s))))).
  assert (ND : NoDup L). { apply (seq_nodup (gen (ptext p))). intros i j Hg. apply gen_inj in Hg. tauto. }
  assert (IN : incl L (flat_map (fun o => opt_list (o_name o)) (heap s))).
  { intros n Hn. unfold L in Hn. rewrite in_map_iff in Hn. destruct Hn as (j & <- & Hj). apply in_seq in Hj.
    specialize (H j ltac:(lia)). apply in_table_obj in H; auto. destruct H as (o & H1 & H2 & _). apply in_flat_map. exists o.
    rewrite H2. cbn. auto. }
  pose proof (NoDup_incl_length ND IN) as Hl. pose proof (opt_list_length (heap s)). unfold L in Hl. rewrite map_length, seq_length in Hl. lia.
Qed.
(** Drawing numbers until the search succeeds. *)
Lemma draw_alone i p t fuel : forall s k, ph s i = PDraw p t ->
  search (in_table (shared s) Core) (ptext p) fuel (counter (counters (shared s)) p) = Some k ->
  exists m s', steps i m s = s' /\ ph s' i = PFree p (gen (ptext p) k) t /\ (forall j, j <> i -> ph s' j = ph s j) /\ log s' = log s /\
    heap (shared s') = heap (shared s) /\ tab (shared s') = tab (shared s) /\ symtab (shared s') = symtab (shared s) /\
    fresh (shared s') = fresh (shared s) /\ next (shared s') = next (shared s) /\ created (shared s') = created (shared s) /\
    (forall q, counter (counters (shared s')) q = if same_key q p then S k else counter (counters (shared s)) q).
Proof.
  induction fuel as [|fuel IH]; intros s k P H; [discriminate|]. cbn [search] in H.
  set (c := counter (counters (shared s)) p) in *.
  pose (s1 := TS (set_counter (shared s) p (S c)) (set_ph (ph s) i (PLook p (gen (ptext p) c) t)) (log s)).
  assert (R1 : resume s i = s1) by (unfold resume; now rewrite P).
  assert (P1 : ph s1 i = PLook p (gen (ptext p) c) t) by apply set_ph_same.
  assert (T1 : in_table (shared s1) Core (gen (ptext p) c) = in_table (shared s) Core (gen (ptext p) c)) by reflexivity.
  pose (x := if in_table (shared s) Core (gen (ptext p) c) then PDraw p t else PFree p (gen (ptext p) c) t).
  pose (s2 := TS (shared s1) (set_ph (ph s1) i x) (log s)).
  assert (R2 : resume s1 i = s2) by (unfold resume; rewrite P1, T1; reflexivity).
  assert (P2 : ph s2 i = x) by apply set_ph_same.
  assert (O2 : forall j, j <> i -> ph s2 j = ph s j) by (intros j N; cbn; rewrite !set_ph_other by auto; reflexivity).
  subst x. destruct (in_table (shared s) Core (gen (ptext p) c)) eqn:E.
  - assert (CC : counter (counters (shared s2)) p = S c).
    { change (counter ((p, S c) :: counters (shared s)) p = S c). rewrite counter_set, same_key_refl. reflexivity. }
    destruct (IH s2 k P2) as (m & s' & A & B & C & D & F1 & F2 & F3 & F4 & F5 & F6 & F7).
    { rewrite CC. exact H. }
    exists (S (S m)), s'. split; [cbn; rewrite R1, R2; exact A|]. split; [exact B|]. split; [intros j N; rewrite C, O2; auto|].
    split; [exact D|]. do 6 (split; [assumption|]). intros q. rewrite F7.
    change (counter (counters (shared s2)) q) with (counter ((p, S c) :: counters (shared s)) q). rewrite counter_set.
    destruct (same_key q p); reflexivity.
  - injection H as <-. exists 2, s2. split; [cbn; rewrite R1, R2; reflexivity|]. split; [exact P2|]. split; [exact O2|].
    split; [reflexivity|]. do 6 (split; [reflexivity|]). intros q. reflexivity.
Qed.
Lemma steps_add i a b s : steps i (a + b) s = steps i b (steps i a s).
Proof. revert s. induction a as [|a IH]; intros s; [reflexivity|]. cbn. apply IH. Qed.
(** A thread that is alone finishes what it has begun. *)
Lemma alone_finishes s i : winv (shared s) -> exists m, ph (steps i m s) i = PIdle.
Proof.
  assert (F : forall s p n t, ph s i = PFree p n t -> exists m, ph (steps i m s) i = PIdle).
  { clear s. intros s p n t P. exists 1. cbn [steps]. unfold resume. rewrite P. unfold finish. cbn [register]. apply set_ph_same. }
  assert (D : forall s p t, winv (shared s) -> ph s i = PDraw p t -> exists m, ph (steps i m s) i = PIdle).
  { clear s. intros s p t W P. destruct (gen_name_weak (shared s) p W) as (k & E). unfold gen_name in E.
    destruct (search _ _ _ _) as [k'|] eqn:S0 in E; [|discriminate].
    destruct (draw_alone i p t _ s k' P S0) as (m & s' & A & B & _). destruct (F _ _ _ _ B) as (m' & M).
    exists (m + m'). rewrite steps_add, A. exact M. }
  intros W. destruct (ph s i) as [|g n t|p t|p n t|p n t] eqn:P.
  - exists 0. exact P.
  - exists 1. cbn [steps]. unfold resume. rewrite P. unfold finish. cbn [register]. apply set_ph_same.
  - eapply D; eauto.
  - pose (x := if in_table (shared s) Core n then PDraw p t else PFree p n t).
    assert (R : resume s i = TS (shared s) (set_ph (ph s) i x) (log s)) by (unfold resume; rewrite P; reflexivity).
    assert (X : exists m, ph (steps i m (resume s i)) i = PIdle).
    { rewrite R. subst x. destruct (in_table (shared s) Core n); [eapply D|eapply F]; try apply set_ph_same; exact W. }
    destruct X as (m & M). exists (S m). exact M.
  - eapply F; eauto.
Qed.
Lemma same_refl s : same_state s s.
Proof. repeat split. Qed.
(** A construction that is not interrupted does what NameModel says. *)
Lemma alone_step s i o : winv (shared s) -> ph s i = PIdle -> exists m s', steps i m (start s i o) = s' /\ ph s' i = PIdle /\
  (forall j, j <> i -> ph s' j = ph s j) /\ same_state (shared s') (fst (step (shared s) o)) /\ log s' = (i, snd (step (shared s) o)) :: log s.
Proof.
  intros W P.
  assert (Z : start s i o = (let '(s', r) := step (shared s) o in TS s' (ph s) ((i, r) :: log s)) ->
    exists m s', steps i m (start s i o) = s' /\ ph s' i = PIdle /\
    (forall j, j <> i -> ph s' j = ph s j) /\ same_state (shared s') (fst (step (shared s) o)) /\ log s' = (i, snd (step (shared s) o)) :: log s).
  { intros ->. exists 0. eexists. split; [reflexivity|]. destruct (step (shared s) o) as [s' r]. cbn.
    split; [exact P|]. split; [auto|]. split; [apply same_refl|reflexivity]. }
  assert (N : forall f n t r, start s i o = TS (shared s) (set_ph (ph s) i (PNamed f n t)) (log s) ->
    step (shared s) o = r -> register (note (shared s) None n) f n t = r ->
    exists m s', steps i m (start s i o) = s' /\ ph s' i = PIdle /\
    (forall j, j <> i -> ph s' j = ph s j) /\ same_state (shared s') (fst (step (shared s) o)) /\ log s' = (i, snd (step (shared s) o)) :: log s).
  { intros f n t r -> -> E. exists 1. eexists. split; [reflexivity|]. cbn [steps]. unfold resume. cbn [ph]. rewrite set_ph_same.
    unfold finish. cbn [shared ph log]. rewrite E. destruct r as [s' r]. cbn.
    split; [apply set_ph_same|]. split; [intros j Hj; rewrite !set_ph_other by auto; reflexivity|]. split; [apply same_refl|reflexivity]. }
  destruct o as [nm pf v t|nm t|is keep|j]; try (apply Z; reflexivity).
  - destruct v; [apply Z; destruct nm, pf; reflexivity|]. destruct nm as [|n|].
    + set (p := match pf with Some p => p | None => PStr "V" end).
      assert (ST : start s i (OVar NAuto pf false t) = TS (shared s) (set_ph (ph s) i (PDraw p t)) (log s)) by reflexivity.
      destruct (gen_name_weak (shared s) p W) as (k & E).
      assert (NV : step (shared s) (OVar NAuto pf false t) =
        register (note (set_counter (shared s) p (S k)) (Some p) (gen (ptext p) k)) Core (gen (ptext p) k) t).
      { cbn [step]. unfold new_var. destruct pf; subst p; now rewrite E. }
      unfold gen_name in E. destruct (search _ _ _ _) as [k'|] eqn:S0 in E; [|discriminate]. injection E as -> _.
      rewrite ST. set (s0 := TS (shared s) (set_ph (ph s) i (PDraw p t)) (log s)).
      destruct (draw_alone i p t _ s0 k (set_ph_same _ _ _) S0) as (m & s' & A & B & C & D & F1 & F2 & F3 & F4 & F5 & F6 & F7).
      exists (m + 1). eexists. split; [reflexivity|]. rewrite steps_add, A. cbn [steps]. unfold resume. rewrite B.
      unfold finish. rewrite NV. unfold register, note, set_counter. cbn [heap tab counters symtab fresh next created].
      rewrite F1, F2, F3, F4, F5, F6, D. cbn [s0 shared log fst snd ph].
      split; [apply set_ph_same|]. split.
      { intros j Hj. rewrite set_ph_other by auto. rewrite C by auto. cbn. now rewrite set_ph_other by auto. }
      split; [|reflexivity]. unfold same_state. cbn [heap tab symtab fresh next created counters].
      do 6 (split; [reflexivity|]). intros q. rewrite F7, counter_set. reflexivity.
    + destruct pf; [apply Z; reflexivity|].
      destruct (in_table (shared s) Core n) eqn:E.
      * apply Z. cbn [start step new_var]. rewrite E. reflexivity.
      * apply (N Core n t (register (note (shared s) None n) Core n t)); auto; cbn [start step new_var]; now rewrite E.
    + apply Z. destruct pf; reflexivity.
  - destruct nm as [|n|]; try (apply Z; reflexivity).
    destruct (in_table (shared s) FP n) eqn:E.
    + apply Z. cbn [start step new_fp]. rewrite E. reflexivity.
    + apply (N FP n t (register (note (shared s) None n) FP n t)); auto; cbn [start step new_fp]; now rewrite E.
Qed.
