(** Lemmas about ModModel.v: the invariant holds along every history; later states. *)
From Coq Require Import Lia.
From Verif Require Import PyBase BVFacts MetaModel MergeFacts ModModel ModSpec ModFacts ModStepFacts.

Lemma NoDup_map_filter {A B} (g : A -> B) p l : NoDup (map g l) -> NoDup (map g (filter p l)).
Proof.
  induction l as [|a l IH]; cbn; auto. intros N. inversion N as [|? ? N1 N2]; subst. destruct (p a); cbn; auto.
  constructor; auto. intros K. apply N1. apply in_map_iff in K as (x & E & K). apply filter_In in K as [K _].
  apply in_map_iff. eauto.
Qed.
Lemma filter_map_comm {A B} (g : A -> B) p l : filter p (map g l) = map g (filter (fun x => p (g x)) l).
Proof. induction l as [|a l IH]; cbn; auto. destruct (p (g a)); cbn; congruence. Qed.

Record later (s s' : mst) : Prop := {
  l_table : exists l, table s' = table s ++ l;
  l_gone : forall c, In c (gone s) -> In c (gone s');
  l_cached : forall m c t, In (m, c, t) (cached s) -> live s' t = true -> In (m, c, t) (cached s');
  l_back : forall m c t, (t < tlen s)%nat -> In (m, c, t) (cached s') -> In (m, c, t) (cached s);
  l_mnames : exists l, mnames s' = mnames s ++ l;
  l_mgone : forall m, In m (mgone s) -> In m (mgone s');
  l_byname : forall n m, In (n, m) (by_name s) -> mlive s' m = true -> In (n, m) (by_name s')
}.
Lemma later_tlen s s' : later s s' -> (tlen s <= tlen s')%nat.
Proof. intros [[l E] _ _ _ _ _ _]. unfold tlen. rewrite E, app_length. lia. Qed.
Lemma later_live s s' c : later s s' -> (c < tlen s)%nat -> live s' c = true -> live s c = true.
Proof. intros L Hc. rewrite !live_spec. intros [A B]. split; auto. intros K. apply B. now apply (l_gone _ _ L). Qed.
Lemma later_mlive s s' m : later s s' -> (m < length (mnames s))%nat -> mlive s' m = true -> mlive s m = true.
Proof. intros L Hc. rewrite !mlive_spec. intros [A B]. split; auto. intros K. apply B. now apply (l_mgone _ _ L). Qed.
Lemma later_get s s' c : later s s' -> (c < tlen s)%nat -> get_kls s' c = get_kls s c.
Proof. intros [[l E] _ _ _ _ _ _]. eapply get_kls_app; eauto. Qed.
Lemma later_refl s : later s s.
Proof. split; auto; exists []; now rewrite app_nil_r. Qed.
Lemma later_trans a b c : inv a -> later a b -> later b c -> later a c.
Proof.
  intros I X Y. pose proof (later_tlen _ _ X) as LL. split.
  - destruct X as [[l1 E1] _ _ _ _ _ _], Y as [[l2 E2] _ _ _ _ _ _]. exists (l1 ++ l2). now rewrite E2, E1, app_assoc.
  - intros x H. apply (l_gone _ _ Y), (l_gone _ _ X), H.
  - intros m k t H Ht. assert (t < tlen a)%nat by (destruct (v_ok a I _ _ _ H) as (L & _); now apply live_lt).
    apply (l_cached _ _ Y); auto. apply (l_cached _ _ X); auto. eapply later_live; eauto. lia.
  - intros m k t Ht H. apply (l_back _ _ X); auto. apply (l_back _ _ Y); auto. lia.
  - destruct X as [_ _ _ _ [l1 E1] _ _], Y as [_ _ _ _ [l2 E2] _ _]. exists (l1 ++ l2). now rewrite E2, E1, app_assoc.
  - intros x H. apply (l_mgone _ _ Y), (l_mgone _ _ X), H.
  - intros n m H Hm. destruct (v_names a I _ _ H) as [La _]. apply mlive_spec in La as [La _].
    apply (l_byname _ _ Y); auto. apply (l_byname _ _ X); auto. eapply later_mlive; eauto.
    destruct (l_mnames _ _ X) as [l E]. rewrite E, app_length. lia.
Qed.
Lemma ext_later m c s s' : ext m c s s' -> later s s'.
Proof.
  intros X. split.
  - apply (x_table _ _ _ _ X).
  - rewrite (x_gone _ _ _ _ X). auto.
  - intros. eapply ext_In; eauto.
  - intros. eapply ext_In_back; eauto.
  - destruct (x_rest _ _ _ _ X) as (-> & _). exists []. now rewrite app_nil_r.
  - destruct (x_rest _ _ _ _ X) as (_ & -> & _). auto.
  - destruct (x_rest _ _ _ _ X) as (_ & _ & -> & _). auto.
Qed.
Lemma same_inv s s' : table s' = table s -> gone s' = gone s -> lookup s' = lookup s -> subs s' = subs s -> cached s' = cached s ->
  mnames s' = mnames s -> mgone s' = mgone s -> by_name s' = by_name s ->
  (forall c, In c (held s') -> live s c = true) -> (forall m, In m (mheld s') -> mlive s m = true) -> inv s -> inv s'.
Proof.
  destruct s', s. cbn. intros -> -> -> -> -> -> -> -> A B [? ? ? ? ? ? ? ? ? ? ? ? ? ? ? ?]. split; auto.
Qed.
Lemma same_later s s' : table s' = table s -> gone s' = gone s -> cached s' = cached s ->
  mnames s' = mnames s -> mgone s' = mgone s -> by_name s' = by_name s -> later s s'.
Proof.
  intros A B C D E F. split; rewrite ?A, ?B, ?C, ?D, ?E, ?F; auto; exists []; now rewrite app_nil_r.
Qed.

Lemma wrap_all_ok ms : forall s c, inv s -> live s c = true -> (forall m, In m ms -> mlive s m = true) ->
  forall s' r, wrap_all s c ms = (s', r) ->
  inv s' /\ later s s' /\ mnames s' = mnames s /\ mgone s' = mgone s /\ held s' = held s /\ mheld s' = mheld s /\ gone s' = gone s
  /\ match r with Ok t => live s' t = true | Raise e => e = ETypeError end.
Proof.
  induction ms as [|m ms IH]; intros s c I Lc Lm s' r H; cbn [wrap_all] in H.
  - inv H. do 7 (split; auto using later_refl).
  - destruct (call s m c) as [s1 r1] eqn:E. destruct (Nat.eq_dec m 0) as [->|Hm].
    + unfold call in E. cbn in E. inv E. inv H. do 7 (split; auto using later_refl).
    + destruct (call_ok _ _ _ _ _ I (Lm m (or_introl eq_refl)) Lc E Hm) as (I1 & X & R). destruct r1 as [t|e].
      * assert (Lt : live s1 t = true) by (apply find_cached_In in R; now apply (v_ok s1 I1) in R).
        assert (Lm1 : forall m', In m' ms -> mlive s1 m' = true) by (intros; rewrite (ext_mlive _ _ _ _ _ X); auto using in_cons).
        destruct (IH s1 t I1 Lt Lm1 _ _ H) as (A & B & C & D & F & G & K & R2). destruct (x_rest _ _ _ _ X) as (X1 & X2 & _ & X4 & X5).
        split; auto. split; [eapply later_trans; eauto using ext_later|].
        pose proof (x_gone _ _ _ _ X) as X6. do 5 (split; [congruence|]). exact R2.
      * inv H. destruct R as [-> _]. destruct (x_rest _ _ _ _ X) as (X1 & X2 & _ & X4 & X5). pose proof (x_gone _ _ _ _ X) as X6.
        split; auto. split; [eauto using ext_later|]. auto 10.
Qed.
Lemma wrap_ok s c ms s' r : inv s -> live s c = true -> (forall m, In m ms -> mlive s m = true) ->
  wrap_modifier s c ms = (s', r) ->
  inv s' /\ later s s' /\ match r with Ok t => live s' t = true | Raise e => e = ETypeError end.
Proof.
  intros I Lc Lm H. unfold wrap_modifier in H. destruct (has_dup ms).
  - inv H. auto using later_refl.
  - destruct (wrap_all_ok ms s c I Lc Lm _ _ H) as (A & B & _ & _ & _ & _ & _ & C). auto.
Qed.

Lemma keep_inv s c : inv s -> live s c = true -> inv (keep s c).
Proof.
  intros I L. eapply (same_inv s); try reflexivity; auto.
  - intros x [<-|H]; auto. now apply (v_held s I).
  - apply (v_mheld s I).
Qed.
Lemma keep_later s c : later s (keep s c).
Proof. now apply same_later. Qed.

Lemma make_modifier_ok s n b : inv s -> inv (fst (make_modifier s n b)) /\ later s (fst (make_modifier s n b))
  /\ mlive (fst (make_modifier s n b)) (snd (make_modifier s n b)) = true.
Proof.
  intros I. unfold make_modifier.
  assert (NEW : forall bn, (bn = by_name s \/ (bn = (n, length (mnames s)) :: by_name s /\ find_name s n = None)) ->
    let s' := MSt (table s) (gone s) (lookup s) (subs s) (cached s) (mnames s ++ [n]) (mgone s) bn (held s) (mheld s) in
    inv s' /\ later s s' /\ mlive s' (length (mnames s)) = true).
  { intros bn Hbn s'.
    assert (ML : forall m, mlive s m = true -> mlive s' m = true).
    { intros m. rewrite !mlive_spec. cbn. rewrite app_length. cbn. intros [A B]. split; auto. lia. }
    assert (LN : mlive s' (length (mnames s)) = true).
    { rewrite mlive_spec. cbn. rewrite app_length. cbn. split; [lia|]. intros K. apply (v_mgone s I) in K. lia. }
    split; [|split]; auto.
    - destruct I as [vg vb vm vl vh vlk vs vk vv v_ok0 vu vsh v_mgone0 vmh v_names0 vnk]. split; auto.
      + intros m c t H. destruct (v_ok0 _ _ _ H) as (A & B & C). auto.
      + intros m H. cbn. rewrite app_length. apply v_mgone0 in H. lia.
      + intros k m H. assert (Q : (k, m) = (n, length (mnames s)) \/ In (k, m) (by_name s)).
        { cbn in H. destruct Hbn as [->|[-> _]]; auto. destruct H; auto. }
        destruct Q as [Q|Q].
        * inv Q. split; auto. cbn. rewrite app_nth2 by lia. now rewrite Nat.sub_diag.
        * destruct (v_names0 _ _ Q) as [A B]. split; auto. cbn. rewrite app_nth1; auto. now apply mlive_spec in A.
      + cbn. destruct Hbn as [->|[-> F]]; auto. cbn. constructor; auto. intros K. apply in_map_iff in K as ([k m] & E & K). cbn in E. subst k.
        unfold find_name in F. destruct (find _ (by_name s)) eqn:Fd; [discriminate|]. apply find_none with (2 := K) in Fd. cbn in Fd.
        now rewrite String.eqb_refl in Fd.
    - split; auto.
      + exists []. now rewrite app_nil_r.
      + cbn. eauto.
      + cbn. intros k m H _. destruct Hbn as [->|[-> _]]; auto. now right. }
  destruct b.
  - destruct (find_name s n) as [m|] eqn:F.
    + cbn. split; auto. split; [apply later_refl|]. unfold find_name in F. destruct (find _ _) as [[k m']|] eqn:E; [|discriminate].
      cbn in F. inv F. apply find_some in E as [E _]. now apply (v_names s I) in E.
    + cbn [fst snd]. apply NEW. auto.
  - cbn [fst snd]. apply NEW. auto.
Qed.

Lemma collect_ok s c : inv s -> live s c = true -> kept s c = false ->
  let s' := MSt (table s) (c :: gone s) (filter (fun e => negb (Nat.eqb (fst e) c)) (lookup s))
             (filter (fun e => negb (Nat.eqb (snd e) c)) (subs s)) (filter (fun e => negb (Nat.eqb (snd e) c)) (cached s))
             (mnames s) (mgone s) (by_name s) (held s) (mheld s) in
  inv s' /\ later s s'.
Proof.
  intros I Lc Kc s'.
  assert (LI : forall x, live s' x = true <-> live s x = true /\ x <> c).
  { intros x. rewrite !live_spec. cbn. unfold tlen. cbn. split; [intros [A B]; split; [tauto|intros ->; tauto]|].
    intros [[A B] C]. split; auto. intros [D|D]; auto. }
  assert (CI : forall m k t, In (m, k, t) (cached s') <-> In (m, k, t) (cached s) /\ t <> c).
  { intros m k t. cbn. rewrite filter_In. cbn. rewrite negb_true_iff, Nat.eqb_neq. reflexivity. }
  assert (KB : forall x, live s' x = true -> forall y, In y (k_mro (get_kls s x)) -> y <> c).
  { intros x Lx y Hy ->. apply LI in Lx as [Lx Nx]. destruct (anc_kept s I x c) as [E|E]; auto; try congruence.
    apply kmro_anc; auto. now apply live_lt. }
  assert (UP : forall m k t x, In (m, k, t) (cached s') -> In x (k_mro (get_kls s k)) ->
    exists tx, find_cached s m x = Some tx /\ find_cached s' m x = Some tx).
  { intros m k t x H Hx. apply CI in H as [H N]. destruct (v_up s I _ _ _ x H Hx) as ((tx & E) & _). exists tx. split; auto.
    apply find_of_In. { cbn. apply NoDup_map_filter. apply (v_keys s I). }
    apply CI. split; [now apply find_cached_In|].
    apply (KB t). { apply LI. split; auto. now apply (v_ok s I) in H. }
    destruct (v_shape s I _ _ _ H) as [_ ->]. unfold dup, dbl. apply in_flat_map. exists x. split; auto. left. unfold fc. now rewrite E. }
  assert (KS : forall m k t, In (m, k, t) (cached s) -> (k < tlen s)%nat).
  { intros m k t H. pose proof (cached_key s I _ _ _ H) as [_ A]. now apply live_lt. }
  split.
  - split.
    + intros x [<-|H]; [now apply live_lt in Lc|]. apply (v_gone s I x H).
    + apply (v_bases s I).
    + apply (v_mro s I).
    + intros x b Lx Hb. change (get_kls s' x) with (get_kls s x) in Hb. pose proof Lx as Lx'. apply LI in Lx' as [A B]. apply LI.
      split; [eapply v_live; eauto|]. apply (KB x); auto. apply (kmro_base s I); auto. now apply live_lt.
    + intros x H. apply LI. split; [now apply (v_held s I)|]. intros ->. unfold kept in Kc. apply orb_false_iff in Kc as [K _].
      apply mem_false in K. now apply K.
    + cbn. rewrite (v_lookup s I), filter_map_comm. reflexivity.
    + cbn. rewrite (v_subs s I), filter_map_comm. reflexivity.
    + cbn. apply NoDup_map_filter, (v_keys s I).
    + cbn. apply NoDup_map_filter, (v_vals s I).
    + intros m k t H. apply CI in H as [H N]. destruct (v_ok s I _ _ _ H) as (A & B). split; [now apply LI|exact B].
    + change (get_kls s') with (get_kls s). intros m k t x H Hx. destruct (UP _ _ _ _ H Hx) as (tx & _ & E). split; [eauto|].
      intros k' K. apply CI in K as [K _]. apply CI in H as [H _]. exact (proj2 (v_up s I _ _ _ x H Hx) k' K).
    + change (get_kls s') with (get_kls s). intros m k t H. pose proof H as H'. apply CI in H as [H _]. destruct (v_shape s I _ _ _ H) as [A B].
      assert (FE : forall x, In x (k_mro (get_kls s k)) -> fc s m x = fc s' m x).
      { intros x Hx. destruct (UP _ _ _ _ H' Hx) as (tx & E & E'). unfold fc. now rewrite E, E'. }
      split.
      * rewrite A. f_equal. apply map_ext_in. intros b Hb. apply FE. apply (kmro_base s I); eauto.
      * rewrite B. apply dup_ext. auto.
    + apply (v_mgone s I).
    + apply (v_mheld s I).
    + apply (v_names s I).
    + apply (v_nkeys s I).
  - split; auto.
    + exists []. cbn. now rewrite app_nil_r.
    + intros x H. now right.
    + intros m k t H L. apply LI in L. apply CI. tauto.
    + intros m k t _ H. apply CI in H. tauto.
    + exists []. cbn. now rewrite app_nil_r.
Qed.

Lemma collect_modifier_ok s m : inv s -> mlive s m = true -> mkept s m = false ->
  let s' := MSt (table s) (gone s) (lookup s) (subs s) (cached s) (mnames s) (m :: mgone s)
             (filter (fun e => negb (Nat.eqb (snd e) m)) (by_name s)) (held s) (mheld s) in
  inv s' /\ later s s'.
Proof.
  intros I Lm Km s'. unfold mkept in Km. apply orb_false_iff in Km as [K1 K2]. apply mem_false in K1, K2.
  assert (LI : forall x, mlive s' x = true <-> mlive s x = true /\ x <> m).
  { intros x. rewrite !mlive_spec. cbn. split; [intros [A B]; split; [tauto|intros ->; tauto]|].
    intros [[A B] C]. split; auto. intros [D|D]; auto. }
  split.
  - destruct I as [vg vb vm vl vh v_lookup0 vs vk vv v_ok0 vu vsh v_mgone0 vmh v_names0 vnk]. split; auto.
    + intros m' c t H. destruct (v_ok0 _ _ _ H) as (A & B & C). do 2 (split; auto). apply LI. split; auto. intros ->. apply K2.
      rewrite v_lookup0, map_map. apply in_map_iff. now exists (m, c, t).
    + intros x [<-|H]; auto. now apply mlive_spec in Lm.
    + intros x H. apply LI. split; auto. intros ->. tauto.
    + intros k x H. cbn in H. apply filter_In in H as [H N]. cbn in N. apply negb_true_iff, Nat.eqb_neq in N.
      destruct (v_names0 _ _ H) as [A B]. split; auto. now apply LI.
    + cbn. now apply NoDup_map_filter.
  - split; auto.
    + exists []. cbn. now rewrite app_nil_r.
    + exists []. cbn. now rewrite app_nil_r.
    + intros x H. now right.
    + intros k x H L. apply LI in L as [_ N]. cbn. apply filter_In. split; auto. cbn. now apply negb_true_iff, Nat.eqb_neq.
Qed.

Lemma keep_result_ok s s' r : inv s -> inv s' -> later s s' -> match r with Ok t => live s' t = true | Raise _ => True end ->
  inv (keep_result (s', r)) /\ later s (keep_result (s', r)).
Proof.
  intros I I' L H. destruct r as [t|e]; cbn [keep_result]; auto. split; [now apply keep_inv|]. eapply later_trans; eauto using keep_later.
Qed.
Lemma call_step s m c : inv s -> mlive s m = true -> live s c = true ->
  inv (fst (call s m c)) /\ later s (fst (call s m c)) /\ match snd (call s m c) with Ok t => live (fst (call s m c)) t = true | Raise _ => True end.
Proof.
  intros I Lm Lc. destruct (call s m c) as [s' r] eqn:E. cbn [fst snd]. destruct (Nat.eq_dec m 0) as [->|Hm].
  - unfold call in E. cbn in E. inv E. auto using later_refl.
  - destruct (call_ok _ _ _ _ _ I Lm Lc E Hm) as (A & B & C). split; auto. split; [eauto using ext_later|]. destruct r; auto.
    apply find_cached_In in C. now apply (v_ok s' A) in C.
Qed.

Lemma step_ok s o : inv s -> inv (ostep s o) /\ later s (ostep s o).
Proof.
  intros I. destruct o as [bs|n b|m c|c ms|c|m|c|m]; cbn [ostep].
  - destruct (forallb (live s) _) eqn:F; [|auto using later_refl]. rewrite forallb_forall in F.
    unfold make_class. destruct (linearize s _) as [l|] eqn:L; [|auto using later_refl]. fold (tlen s).
    set (k := Kls _ _). assert (I' : inv (add_kls s k)) by (apply add_inv; auto).
    apply keep_result_ok; auto; [|now apply live_add_new]. apply (ext_later 0%nat 0%nat). split; auto.
    + exists [k]. reflexivity.
    + exists []. split; auto. intros e [].
  - destruct (make_modifier_ok s n b I) as (A & B & C). split.
    + eapply (same_inv (fst (make_modifier s n b))); try reflexivity; auto.
      * apply (v_held _ A).
      * intros x [<-|H]; auto. now apply (v_mheld _ A).
    + eapply later_trans; eauto. now apply same_later.
  - destruct (mlive s m && live s c)%bool eqn:E; [|auto using later_refl]. apply andb_true_iff in E as [A B].
    destruct (call_step s m c I A B) as (X & Y & Z). destruct (call s m c) as [s' r]. now apply keep_result_ok.
  - destruct (forallb (mlive s) ms && live s c)%bool eqn:E; [|auto using later_refl]. apply andb_true_iff in E as [A B].
    rewrite forallb_forall in A. destruct (wrap_modifier s c ms) as [s' r] eqn:W.
    destruct (wrap_ok s c ms s' r I B A W) as (X & Y & Z). apply keep_result_ok; auto. now destruct r.
  - split; [|now apply same_later]. eapply (same_inv s); try reflexivity; auto.
    + intros x H. apply in_remove in H as [H _]. now apply (v_held s I).
    + apply (v_mheld s I).
  - split; [|now apply same_later]. eapply (same_inv s); try reflexivity; auto.
    + apply (v_held s I).
    + intros x H. apply in_remove in H as [H _]. now apply (v_mheld s I).
  - destruct (live s c && negb (kept s c) && negb (Nat.eqb c 0))%bool eqn:E; [|auto using later_refl].
    apply andb_true_iff in E as [E _]. apply andb_true_iff in E as [A B]. apply negb_true_iff in B. now apply collect_ok.
  - destruct (mlive s m && negb (mkept s m) && negb (Nat.eqb m 0))%bool eqn:E; [|auto using later_refl].
    apply andb_true_iff in E as [E _]. apply andb_true_iff in E as [A B]. apply negb_true_iff in B. now apply collect_modifier_ok.
Qed.
Lemma run_ok h : forall s, inv s -> inv (orun s h) /\ later s (orun s h).
Proof.
  induction h as [|o h IH]; intros s I; cbn [orun fold_left]; [auto using later_refl|].
  destruct (step_ok s o I) as [I1 L1]. destruct (IH _ I1) as [I2 L2]. split; auto. eapply later_trans; eauto.
Qed.
Lemma mst0_inv : inv mst0.
Proof.
  assert (Z : forall c, (c < tlen mst0)%nat -> c = 0%nat) by (intros c; unfold tlen; cbn; lia).
  split.
  - intros c [].
  - intros c b Hc Hb. rewrite (Z c Hc) in Hb. destruct Hb.
  - intros c Hc. rewrite (Z c Hc). exists []. split; reflexivity.
  - intros c b Hc Hb. apply live_lt in Hc. rewrite (Z c Hc) in Hb. destruct Hb.
  - intros c [<-|[]]. reflexivity.
  - reflexivity.
  - reflexivity.
  - constructor.
  - constructor.
  - intros m c t [].
  - intros m c t x [].
  - intros m c t [].
  - intros m [].
  - intros m [<-|[]]. reflexivity.
  - intros n m [].
  - constructor.
Qed.
Lemma reachable_inv s : reachable s -> inv s.
Proof. intros (h & ->). apply run_ok, mst0_inv. Qed.
Lemma reachable_run s h : reachable s -> reachable (orun s h).
Proof. intros (h0 & ->). exists (h0 ++ h). unfold orun. now rewrite fold_left_app. Qed.
