(** Proofs of the theorems stated in ModProps.v. *)
From Coq Require Import Lia.
From Verif Require Import PyBase BVFacts MetaModel MergeFacts ModModel ModSpec ModFacts ModStepFacts ModRunFacts.





Lemma later_lookup s s' x : inv s -> inv s' -> later s s' -> (x < tlen s)%nat -> live s' x = true -> find_lookup s' x = find_lookup s x.
Proof.
  intros I I' L Hx Lx. destruct (find_lookup s x) as [m|] eqn:E.
  - apply (find_lookup_spec s I) in E as (c & H). apply (find_lookup_spec s' I'). exists c. now apply (l_cached _ _ L).
  - destruct (find_lookup s' x) as [m|] eqn:E'; auto. apply (find_lookup_spec s' I') in E' as (c & H).
    apply (l_back _ _ L) in H; auto. assert (find_lookup s x = Some m) by (apply (find_lookup_spec s I); eauto). congruence.
Qed.

Lemma entry_facts s m c t : inv s -> In (m, c, t) (cached s) ->
  is_modified s t = true /\ get_modifier s t = Ok m /\ get_unmodified s t = Ok c /\ subclasscheck s m t = true
  /\ call s m c = (s, Ok t) /\ (c < t)%nat /\ live s c = true /\ live s t = true.
Proof.
  intros I H. assert (E : find_lookup s t = Some m) by (apply (find_lookup_spec s I); eauto).
  destruct (v_shape s I _ _ _ H) as [Eb _]. destruct (v_ok s I _ _ _ H) as (Lt & Hm & _). destruct (cached_key s I _ _ _ H) as [K Lc].
  unfold is_modified, get_modifier, get_unmodified, is_modified. rewrite E, Eb. do 3 (split; [reflexivity|]).
  split; [|split; auto].
  - unfold subclasscheck. rewrite (v_subs s I). apply existsb_exists. exists (m, t). split; [|cbn; now rewrite !Nat.eqb_refl].
    apply in_map_iff. now exists (m, c, t).
  - apply call_cached; auto. apply find_of_In; auto. apply (v_keys s I).
Qed.

Lemma subclasscheck_spec s m t : inv s -> (subclasscheck s m t = true <-> exists c, In (m, c, t) (cached s)).
Proof.
  intros I. unfold subclasscheck. rewrite existsb_exists, (v_subs s I). split.
  - intros ([m' t'] & H & E). cbn in E. apply andb_true_iff in E as [A B]. apply Nat.eqb_eq in A, B. subst.
    apply in_map_iff in H as ([[m2 c] t2] & E & H). cbn in E. inv E. eauto.
  - intros (c & H). exists (m, t). split; [|cbn; now rewrite !Nat.eqb_refl]. apply in_map_iff. now exists (m, c, t).
Qed.

Lemma unwrap_fuel s : inv s -> forall t f f', live s t = true -> (t < f)%nat -> (t < f')%nat -> unwrap_aux f s t = unwrap_aux f' s t.
Proof.
  intros I. induction t as [t IH] using lt_wf_ind. intros f f' L Hf Hf'. destruct f as [|f]; [lia|]. destruct f' as [|f']; [lia|].
  cbn [unwrap_aux]. destruct (is_modified s t) eqn:E; cbn [negb]; auto. unfold is_modified in E.
  destruct (find_lookup s t) as [m|] eqn:F; [|discriminate]. apply (find_lookup_spec s I) in F as (c & F).
  destruct (entry_facts s m c t I F) as (_ & E1 & E2 & _ & _ & Lt & Lc & _). rewrite E1, E2. cbn [bind].
  rewrite (IH c Lt f f'); auto; lia.
Qed.

Lemma unwrap_step s m c t : inv s -> In (m, c, t) (cached s) ->
  unwrap_modifier s t = (r <- unwrap_modifier s c ;; Ok (fst r, snd r ++ [m])).
Proof.
  intros I H. destruct (entry_facts s m c t I H) as (E0 & E1 & E2 & _ & _ & Lt & Lc & Ltt).
  unfold unwrap_modifier. cbn [unwrap_aux]. rewrite E0, E1, E2. cbn [negb bind]. now rewrite (unwrap_fuel s I c t (S c)) by (auto; lia).
Qed.

Lemma unwrap_plain s t : is_modified s t = false -> unwrap_modifier s t = Ok (t, []).
Proof. intros H. unfold unwrap_modifier. cbn [unwrap_aux]. now rewrite H. Qed.

Lemma modified_entry s t : inv s -> is_modified s t = true -> exists m c, In (m, c, t) (cached s).
Proof.
  intros I H. unfold is_modified in H. destruct (find_lookup s t) as [m|] eqn:F; [|discriminate].
  apply (find_lookup_spec s I) in F as (c & F). eauto.
Qed.

Lemma wrap_all_app s t ms ms' s1 t1 : wrap_all s t ms = (s1, Ok t1) -> wrap_all s t (ms ++ ms') = wrap_all s1 t1 ms'.
Proof.
  revert s t. induction ms as [|m ms IH]; intros s t H; cbn [wrap_all app] in *; [now inv H|].
  destruct (call s m t) as [s2 [t2|e]]; [auto|discriminate].
Qed.

Lemma unwrap_spec s : inv s -> forall t, live s t = true ->
  exists u ms, unwrap_modifier s t = Ok (u, ms) /\ is_modified s u = false /\ wrap_all s u ms = (s, Ok t) /\ NoDup ms
    /\ live s u = true /\ get_all_modifiers s t = Ok ms
    /\ (forall m, In m ms -> mlive s m = true /\ exists x k, In x (k_mro (get_kls s t)) /\ In (m, k, x) (cached s)).
Proof.
  intros I. induction t as [t IH] using lt_wf_ind. intros L. destruct (is_modified s t) eqn:E.
  - destruct (modified_entry s t I E) as (m & c & H). destruct (entry_facts s m c t I H) as (_ & E1 & E2 & _ & EC & Lt & Lc & _).
    destruct (IH c Lt Lc) as (u & ms & A & B & C & D & F & G & K). exists u, (ms ++ [m]).
    rewrite (unwrap_step s m c t I H), A. cbn [bind fst snd]. split; auto. split; auto. split.
    { rewrite (wrap_all_app _ _ _ _ _ _ C). cbn [wrap_all]. now rewrite EC. }
    destruct (v_ok s I _ _ _ H) as (_ & Hm & Lm).
    split; [|split; [auto|split]].
    + apply NoDup_app_iff || idtac. clear -I H D K. induction ms as [|a ms IH]; cbn; [repeat constructor; auto|].
      inversion D as [|? ? N1 N2]; subst. constructor.
      * intros Q. apply in_app_iff in Q as [Q|[Q|[]]]; auto. subst a. destruct (K m (or_introl eq_refl)) as (_ & x & k & X1 & X2).
        exact (proj2 (v_up s I _ _ _ x H X1) k X2).
      * apply IH; auto. intros m' Hm'. apply K. now right.
    + assert (FU : forall x f f', live s x = true -> (x < f)%nat -> (x < f')%nat -> all_modifiers f s x = all_modifiers f' s x).
      { clear -I. induction x as [x IH] using lt_wf_ind. intros f f' L Hf Hf'. destruct f as [|f]; [lia|]. destruct f' as [|f']; [lia|].
        cbn [all_modifiers]. destruct (is_modified s x) eqn:E; auto.
        destruct (modified_entry s x I E) as (m & c & F).
        destruct (entry_facts s m c x I F) as (_ & E1 & E2 & _ & _ & Lt & Lc & _). rewrite E2. cbn [bind].
        rewrite (IH c Lt f f'); auto; lia. }
      unfold get_all_modifiers in *. cbn [all_modifiers]. rewrite E, E2. cbn [bind]. rewrite (FU c t (S c)) by (auto; lia).
      rewrite G. cbn [bind]. now rewrite E1.
    + assert (Tt : (t < tlen s)%nat) by now apply live_lt.
      destruct (v_shape s I _ _ _ H) as [Eb Em].
      intros m' Hm'. apply in_app_iff in Hm' as [Hm'|[<-|[]]].
      * destruct (K m' Hm') as (X0 & x & k & X1 & X2). split; auto. exists x, k. split; auto. rewrite Em. unfold dup, dbl. apply in_flat_map.
        exists x. split; auto. right; now left.
      * split; auto. exists t, c. split; auto. now apply (kmro_self s I).
  - exists t, []. rewrite (unwrap_plain s t E). split; auto. split; auto. split; [reflexivity|]. split; [constructor|]. split; auto.
    split; [|intros m []]. unfold get_all_modifiers. cbn [all_modifiers]. now rewrite E.
Qed.

Lemma has_dup_spec l : has_dup l = false <-> NoDup l.
Proof.
  induction l as [|a l IH]; cbn; [split; auto; constructor|]. rewrite orb_false_iff, IH, mem_false. split.
  - intros [A B]. now constructor.
  - intros N. now inversion N.
Qed.

Lemma unwrap_later s s' t : inv s -> inv s' -> later s s' -> live s t = true -> live s' t = true ->
  unwrap_modifier s' t = unwrap_modifier s t.
Proof.
  intros I I' L. induction t as [t IH] using lt_wf_ind. intros L1 L2.
  pose proof (live_lt s t L1) as Ht. pose proof (later_lookup s s' t I I' L Ht L2) as E.
  destruct (is_modified s t) eqn:M.
  - destruct (modified_entry s t I M) as (m & c & H). pose proof (l_cached _ _ L _ _ _ H L2) as H'.
    rewrite (unwrap_step s m c t I H), (unwrap_step s' m c t I' H').
    destruct (entry_facts s m c t I H) as (_ & _ & _ & _ & _ & Lt & Lc & _).
    destruct (entry_facts s' m c t I' H') as (_ & _ & _ & _ & _ & _ & Lc' & _). now rewrite IH.
  - rewrite (unwrap_plain s t M). apply unwrap_plain. unfold is_modified in *. now rewrite E.
Qed.

Lemma call_live s m c s' t : inv s -> mlive s m = true -> live s c = true -> call s m c = (s', Ok t) ->
  m <> 0%nat /\ inv s' /\ ext m c s s' /\ In (m, c, t) (cached s').
Proof.
  intros I Lm Lc H. assert (Hm : m <> 0%nat) by (intros ->; unfold call in H; cbn in H; discriminate).
  destruct (call_ok _ _ _ _ _ I Lm Lc H Hm) as (A & B & C). auto using find_cached_In.
Qed.

Lemma unwrap_wrap_all ms : forall s u s' t, inv s -> live s u = true -> (forall m, In m ms -> mlive s m = true) ->
  wrap_all s u ms = (s', Ok t) ->
  unwrap_modifier s' t = (r <- unwrap_modifier s u ;; Ok (fst r, snd r ++ ms)).
Proof.
  induction ms as [|m ms IH]; intros s u s' t I Lu Lm H; cbn [wrap_all] in H.
  - inv H. destruct (unwrap_modifier s' t) as [[a b]|e]; cbn; auto. now rewrite app_nil_r.
  - destruct (call s m u) as [s1 [t1|e]] eqn:E; [|discriminate].
    destruct (call_live _ _ _ _ _ I (Lm m (or_introl eq_refl)) Lu E) as (Hm & I1 & X & H1).
    assert (Lt : live s1 t1 = true) by now apply (v_ok s1 I1) in H1.
    rewrite (IH s1 t1 s' t); auto.
    + rewrite (unwrap_step s1 m u t1 I1 H1). rewrite (unwrap_later s s1 u); auto; [|eapply ext_later; eauto|eapply ext_live; eauto].
      destruct (unwrap_modifier s u) as [[a b]|e]; cbn; auto. now rewrite <- app_assoc.
    + intros m' Hm'. rewrite (ext_mlive _ _ _ _ _ X). apply Lm. now right.
Qed.

Lemma ancestor_ext m c s s' x y : inv s -> ext m c s s' -> (x < tlen s)%nat -> (ancestor s' x y <-> ancestor s x y).
Proof.
  intros I X. revert y. induction x as [x IH] using lt_wf_ind. intros y Hx. split; intros H.
  - inversion H as [|a b c' Hb Hs]; subst; [constructor|]. rewrite (ext_get _ _ _ _ _ X) in Hb by auto.
    pose proof (v_bases s I x b Hx Hb). econstructor; eauto. apply (IH b); auto. lia.
  - inversion H as [|a b c' Hb Hs]; subst; [constructor|]. pose proof (v_bases s I x b Hx Hb).
    econstructor; [rewrite (ext_get _ _ _ _ _ X) by auto; eauto|]. apply (IH b); auto. lia.
Qed.

Lemma mro_of_modified s m c t x : inv s -> In (m, c, t) (cached s) -> In x (k_mro (get_kls s c)) ->
  In (m, x, fc s m x) (cached s) /\ In (fc s m x) (k_mro (get_kls s t)) /\ In x (k_mro (get_kls s t)).
Proof.
  intros I H Hx. destruct (v_up s I _ _ _ x H Hx) as ((tx & E) & _). split; [eapply fc_In; eauto|].
  destruct (v_shape s I _ _ _ H) as [_ ->]. unfold dup, dbl.
  split; apply in_flat_map; exists x; (split; [auto|]); cbn; auto.
Qed.

Lemma wrap_all_succeeds ms : forall s u, inv s -> live s u = true -> NoDup ms ->
  (forall m, In m ms -> mlive s m = true /\ m <> 0%nat /\ ~ modified_above s m u) ->
  exists s' t, wrap_all s u ms = (s', Ok t).
Proof.
  induction ms as [|m ms IH]; intros s u I Lu N Hms; cbn [wrap_all]; [eauto|].
  destruct (Hms m (or_introl eq_refl)) as (Lm & Hm & Nm). destruct (call s m u) as [s1 r] eqn:E.
  destruct (call_ok _ _ _ _ _ I Lm Lu E Hm) as (I1 & X & R). inversion N as [|? ? N1 N2]; subst.
  pose proof (live_lt s u Lu) as Ku.
  destruct r as [t|e].
  - apply find_cached_In in R. assert (Lt : live s1 t = true) by now apply (v_ok s1 I1) in R.
    apply IH; auto. intros m' Hm'. destruct (Hms m' (or_intror Hm')) as (A & B & C).
    split; [rewrite (ext_mlive _ _ _ _ _ X); auto|]. split; auto. intros (x & Hx & Gx). apply C.
    apply (get_modifier_spec s1 I1) in Gx as (k & Gx). apply (kmro_anc s1 I1) in Hx; [|now apply live_lt].
    destruct (v_shape s1 I1 _ _ _ R) as [_ Em]. rewrite Em in Hx. unfold dup, dbl in Hx. apply in_flat_map in Hx as (y & Hy & Hx).
    destruct Hx as [Hx|[Hx|[]]].
    + destruct (mro_of_modified s1 m u t y I1 R Hy) as (Q & _). rewrite Hx in Q.
      pose proof (nodup_val (cached s1) _ _ _ (v_vals s1 I1) Q Gx) as EQ. inv EQ. contradiction.
    + subst y. rewrite (ext_get _ _ _ _ _ X) in Hy by auto. pose proof (kmro_le s I u x Ku Hy).
      exists x. split; [now apply (kmro_anc s I)|]. apply (get_modifier_spec s I). exists k. eapply ext_In_back; eauto. lia.
  - exfalso. destruct R as (_ & x & k & A & B). apply Nm. exists x. split; [now apply (kmro_anc s I)|].
    apply (get_modifier_spec s I). eauto.
Qed.

Lemma C50_issubclass_pf : forall s a b, reachable s -> live s a = true -> (is_sub s a b = true <-> ancestor s a b).
Proof.
  intros s a b R L. pose proof (reachable_inv s R) as I. unfold is_sub. rewrite mem_In. apply (kmro_anc s I). now apply live_lt.
Qed.

Lemma C50_same_pf : forall s m c s' t h, reachable s -> mlive s m = true -> live s c = true ->
  call s m c = (s', Ok t) ->
  let now := orun (ostep s (OApply m c)) h in
  live now t = true -> call now m c = (now, Ok t).
Proof.
  intros s m c s' t h R Lm Lc H now Lt. pose proof (reachable_inv s R) as I.
  destruct (call_live _ _ _ _ _ I Lm Lc H) as (Hm & I1 & X & H1).
  assert (E : ostep s (OApply m c) = keep s' t) by (cbn [ostep]; rewrite Lm, Lc, H; reflexivity).
  unfold now in *. rewrite E in *. assert (I2 : inv (keep s' t)) by (apply keep_inv; auto; now apply (v_ok s' I1) in H1).
  destruct (run_ok h _ I2) as [I3 L3]. eapply entry_facts; auto. apply (l_cached _ _ L3); auto.
Qed.

Lemma C50_held_pf : forall s c x, reachable s -> In c (held s) -> ancestor s c x -> live s x = true.
Proof.
  intros s c x R H A. pose proof (reachable_inv s R) as I. eapply anc_live; eauto. now apply (v_held s I).
Qed.

Lemma C50_parts_pf : forall s m c s' t h, reachable s -> mlive s m = true -> live s c = true ->
  call s m c = (s', Ok t) ->
  let now := orun (ostep s (OApply m c)) h in
  live now t = true ->
  is_modified now t = true /\ get_modifier now t = Ok m /\ get_unmodified now t = Ok c /\ subclasscheck now m t = true.
Proof.
  intros s m c s' t h R Lm Lc H now Lt. pose proof (reachable_inv s R) as I.
  destruct (call_live _ _ _ _ _ I Lm Lc H) as (Hm & I1 & X & H1).
  assert (E : ostep s (OApply m c) = keep s' t) by (cbn [ostep]; rewrite Lm, Lc, H; reflexivity).
  unfold now in *. rewrite E in *. assert (I2 : inv (keep s' t)) by (apply keep_inv; auto; now apply (v_ok s' I1) in H1).
  destruct (run_ok h _ I2) as [I3 L3]. assert (K : In (m, c, t) (cached (orun (keep s' t) h))) by (apply (l_cached _ _ L3); auto).
  destruct (entry_facts _ _ _ _ I3 K) as (A & B & C & D & _). auto.
Qed.

Lemma C50_subclass_pf : forall s m c s' t, reachable s -> mlive s m = true -> live s c = true ->
  call s m c = (s', Ok t) ->
  forall x, ancestor s c x -> is_sub s' t x = true /\ exists tx, call s' m x = (s', Ok tx) /\ is_sub s' t tx = true.
Proof.
  intros s m c s' t R Lm Lc H x A. pose proof (reachable_inv s R) as I.
  destruct (call_live _ _ _ _ _ I Lm Lc H) as (Hm & I1 & X & H1). pose proof (live_lt s c Lc) as Kc.
  apply (ancestor_ext _ _ _ _ c x I X Kc) in A. apply (kmro_anc s' I1) in A; [|pose proof (ext_tlen _ _ _ _ X); lia].
  destruct (mro_of_modified s' m c t x I1 H1 A) as (P & Q & T). unfold is_sub. split; [now apply mem_In|].
  exists (fc s' m x). split; [|now apply mem_In]. eapply entry_facts; eauto.
Qed.

Lemma C50_mro_pf : forall s m c s' t, reachable s -> mlive s m = true -> live s c = true ->
  call s m c = (s', Ok t) ->
  exists f, (forall x, In x (k_mro (get_kls s c)) -> call s' m x = (s', Ok (f x))) /\
    k_mro (get_kls s' t) = flat_map (fun x => [f x; x]) (k_mro (get_kls s c)).
Proof.
  intros s m c s' t R Lm Lc H. pose proof (reachable_inv s R) as I.
  destruct (call_live _ _ _ _ _ I Lm Lc H) as (Hm & I1 & X & H1). pose proof (live_lt s c Lc) as Kc.
  exists (fc s' m). rewrite <- (ext_get _ _ _ _ c X Kc). split.
  - intros x Hx. destruct (mro_of_modified s' m c t x I1 H1 Hx) as (P & _). eapply entry_facts; eauto.
  - now destruct (v_shape s' I1 _ _ _ H1) as [_ ->].
Qed.

Lemma C50_applies_pf : forall s m c, reachable s -> mlive s m = true -> m <> 0%nat -> live s c = true ->
  ((exists s' t, call s m c = (s', Ok t)) <-> ~ modified_above s m c) /\
  (modified_above s m c -> exists s', call s m c = (s', Raise ETypeError)).
Proof.
  intros s m c R Lm Hm Lc. pose proof (reachable_inv s R) as I. pose proof (live_lt s c Lc) as Kc.
  destruct (call s m c) as [s' r] eqn:H. destruct (call_ok _ _ _ _ _ I Lm Lc H Hm) as (I1 & X & Q). destruct r as [t|e].
  - assert (N : ~ modified_above s m c).
    { intros (x & A & G). apply (get_modifier_spec s I) in G as (k & G). apply (kmro_anc s I) in A; auto.
      apply find_cached_In in Q. rewrite <- (ext_get _ _ _ _ c X Kc) in A.
      apply (proj2 (v_up s' I1 _ _ _ x Q A) k). eapply ext_In; eauto. }
    split; [split; eauto|]. intros K. contradiction.
  - destruct Q as (-> & x & k & A & B).
    assert (M : modified_above s m c).
    { exists x. split; [now apply (kmro_anc s I)|]. apply (get_modifier_spec s I). eauto. }
    split; [|eauto]. split; [intros (s2 & t2 & E); discriminate|]. intros K. contradiction.
Qed.

Lemma C50_abstract_pf : forall s c, call s 0 c = (s, Raise ETypeError).
Proof. reflexivity. Qed.

Lemma C50_modifier_subclasses_pf : forall s m t, reachable s -> live s t = true ->
  (subclasscheck s m t = true <-> get_modifier s t = Ok m) /\
  (subclasscheck s m t = true <-> exists c, live s c = true /\ call s m c = (s, Ok t)).
Proof.
  intros s m t R L. pose proof (reachable_inv s R) as I. rewrite (subclasscheck_spec s m t I). split.
  - symmetry. apply (get_modifier_spec s I).
  - split.
    + intros (c & H). destruct (entry_facts s m c t I H) as (_ & _ & _ & _ & A & _ & B & _). eauto.
    + intros (c & Lc & H). exists c. unfold call in H. destruct (Nat.eqb_spec m 0) as [|Hm]; [discriminate|].
      rewrite modify_unfold in H. destruct (find_cached s m c) as [t'|] eqn:F; [inv H; now apply find_cached_In|].
      exfalso. destruct (go_mod c m s (k_bases (get_kls s c))) as [s1 [ts|e]] eqn:G; [|discriminate].
      unfold make_class in H. destruct (linearize s1 (c :: ts)) as [l|]; [|discriminate]. inversion H as [[E1 E2]].
      assert (LT : (t < tlen s)%nat) by now apply live_lt. rewrite <- E1 in LT. unfold tlen in LT. cbn in LT. rewrite app_length in LT. cbn in LT.
      assert (FN : find_cached s m c = Some (length (table s1))).
      { rewrite <- E1 at 1. rewrite register_find, !Nat.eqb_refl. reflexivity. }
      congruence.
Qed.

Lemma C50_plain_pf : forall s bs s' t h, reachable s -> bs <> [] -> forallb (live s) bs = true ->
  make_class s bs = (s', Ok t) ->
  let now := orun (ostep s (OClass bs)) h in
  live now t = true ->
  is_modified now t = false /\ get_modifier now t = Raise ETypeError /\ get_unmodified now t = Raise ETypeError /\
  unwrap_modifier now t = Ok (t, []) /\ get_all_modifiers now t = Ok [] /\ forall m, subclasscheck now m t = false.
Proof.
  intros s bs s' t h R Hn Lb H now Lt. pose proof (reachable_inv s R) as I.
  assert (E : ostep s (OClass bs) = keep s' t).
  { cbn [ostep]. destruct bs as [|b bs]; [congruence|]. now rewrite Lb, H. }
  assert (R1 : reachable (ostep s (OClass bs))).
  { destruct R as [h0 ->]. exists (h0 ++ [OClass bs]). unfold orun. now rewrite fold_left_app. }
  pose proof (reachable_inv _ R1) as I1. unfold now in *. destruct (run_ok h _ I1) as [I2 L2].
  assert (T : t = tlen s /\ cached s' = cached s /\ (t < tlen s')%nat).
  { unfold make_class in H. destruct (linearize s bs); [|discriminate]. inv H. unfold tlen. cbn. rewrite app_length. cbn. repeat split; lia. }
  destruct T as (T1 & T2 & T3).
  assert (F : find_lookup (ostep s (OClass bs)) t = None).
  { destruct (find_lookup _ t) as [m|] eqn:F; auto. apply (find_lookup_spec _ I1) in F as (c & F). rewrite E in F. cbn in F. rewrite T2 in F.
    apply (v_ok s I) in F as (L & _). apply live_lt in L. lia. }
  assert (F2 : find_lookup (orun (ostep s (OClass bs)) h) t = None).
  { rewrite (later_lookup _ _ t I1 I2 L2); auto. rewrite E. exact T3. }
  assert (M : is_modified (orun (ostep s (OClass bs)) h) t = false) by (unfold is_modified; now rewrite F2).
  split; [exact M|]. split; [unfold get_modifier; now rewrite F2|]. split; [unfold get_unmodified; now rewrite M|].
  split; [now apply unwrap_plain|]. split; [unfold get_all_modifiers; cbn [all_modifiers]; now rewrite M|].
  intros m. destruct (subclasscheck _ m t) eqn:S; auto. apply (subclasscheck_spec _ _ _ I2) in S as (c & S).
  assert (find_lookup (orun (ostep s (OClass bs)) h) t = Some m) by (apply (find_lookup_spec _ I2); eauto). congruence.
Qed.

Lemma C50_injective_pf : forall s m c s' t m2 c2 s2, reachable s -> mlive s m = true -> live s c = true ->
  call s m c = (s', Ok t) -> mlive s' m2 = true -> live s' c2 = true -> call s' m2 c2 = (s2, Ok t) -> m2 = m /\ c2 = c.
Proof.
  intros s m c s' t m2 c2 s2 R Lm Lc H Lm2 Lc2 H2. pose proof (reachable_inv s R) as I.
  destruct (call_live _ _ _ _ _ I Lm Lc H) as (Hm & I1 & X & H1).
  destruct (call_live _ _ _ _ _ I1 Lm2 Lc2 H2) as (Hm2 & I2 & X2 & H3).
  apply (ext_In _ _ _ _ _ X2) in H1. pose proof (nodup_val (cached s2) _ _ _ (v_vals s2 I2) H1 H3) as E. now inv E.
Qed.

Lemma C50_wrap_unwrap_pf : forall s t, reachable s -> live s t = true ->
  exists u ms, unwrap_modifier s t = Ok (u, ms) /\ is_modified s u = false /\ ancestor s t u /\ get_all_modifiers s t = Ok ms
    /\ NoDup ms /\ wrap_modifier s u ms = (s, Ok t).
Proof.
  intros s t R L. pose proof (reachable_inv s R) as I. destruct (unwrap_spec s I t L) as (u & ms & A & B & C & D & F & G & K).
  exists u, ms. split; auto. split; auto. split.
  - clear -I L A B. revert u ms A B. induction t as [t IH] using lt_wf_ind. intros u ms A B. destruct (is_modified s t) eqn:E.
    + destruct (modified_entry s t I E) as (m & c & H). destruct (entry_facts s m c t I H) as (_ & _ & _ & _ & _ & Lt & Lc & _).
      rewrite (unwrap_step s m c t I H) in A. destruct (unwrap_modifier s c) as [[u' ms']|e] eqn:Ec; [|discriminate]. cbn in A. inv A.
      destruct (v_shape s I _ _ _ H) as [Eb _]. econstructor; [rewrite Eb; now left|]. eapply IH; eauto.
    + rewrite (unwrap_plain s t E) in A. inv A. constructor.
  - do 2 (split; auto). unfold wrap_modifier. now rewrite (proj2 (has_dup_spec ms) D).
Qed.

Lemma C50_unwrap_wrap_pf : forall s u ms s' t, reachable s -> live s u = true -> (forall m, In m ms -> mlive s m = true) ->
  is_modified s u = false -> wrap_modifier s u ms = (s', Ok t) -> unwrap_modifier s' t = Ok (u, ms).
Proof.
  intros s u ms s' t R L Lm M H. pose proof (reachable_inv s R) as I. unfold wrap_modifier in H. destruct (has_dup ms); [discriminate|].
  rewrite (unwrap_wrap_all ms s u s' t I L Lm H). now rewrite (unwrap_plain s u M).
Qed.

Lemma C50_wrap_pf : forall s u ms, reachable s -> live s u = true -> (forall m, In m ms -> mlive s m = true /\ m <> 0%nat) ->
  (~ NoDup ms -> wrap_modifier s u ms = (s, Raise ETypeError)) /\
  (NoDup ms -> (forall m, In m ms -> ~ modified_above s m u) -> exists s' t, wrap_modifier s u ms = (s', Ok t)).
Proof.
  intros s u ms R L Lm. pose proof (reachable_inv s R) as I. unfold wrap_modifier. split.
  - intros N. destruct (has_dup ms) eqn:E; auto. apply has_dup_spec in E. contradiction.
  - intros N Hm. rewrite (proj2 (has_dup_spec ms) N). apply wrap_all_succeeds; auto. intros m K. destruct (Lm m K). auto.
Qed.

Lemma C50_make_modifier_pf : forall s n b s' m, reachable s -> make_modifier s n b = (s', m) ->
  mlive s' m = true /\ nth m (mnames s') ""%string = n /\ (b = false -> mlive s m = false) /\
  (b = true -> forall h, let now := orun (ostep s (OModifier n b)) h in mlive now m = true -> make_modifier now n true = (now, m)).
Proof.
  intros s n b s' m R H. pose proof (reachable_inv s R) as I. destruct (make_modifier_ok s n b I) as (I1 & L1 & M1).
  assert (ES : ostep s (OModifier n b) = mkeep s' m) by (cbn [ostep]; now rewrite H).
  rewrite H in *. cbn [fst snd] in *. split; auto.
  assert (FN : forall st k, find_name st n = Some k -> In (n, k) (by_name st)).
  { intros st k F. unfold find_name in F. destruct (find _ _) as [[n' k']|] eqn:E; [|discriminate]. cbn in F. inv F.
    apply find_some in E as [E1 E2]. cbn in E2. apply String.eqb_eq in E2. now subst. }
  assert (NF : forall st k, inv st -> In (n, k) (by_name st) -> find_name st n = Some k).
  { intros st k Ist K. unfold find_name. destruct (find _ _) as [[n' k']|] eqn:E.
    - apply find_some in E as [E1 E2]. cbn in E2. apply String.eqb_eq in E2. subst. cbn. f_equal.
      eapply nodup_key; [apply (v_nkeys st Ist)|exact E1|exact K].
    - apply find_none with (2 := K) in E. cbn in E. now rewrite String.eqb_refl in E. }
  assert (Q : nth m (mnames s') ""%string = n /\ (b = false -> mlive s m = false) /\ (b = true -> In (n, m) (by_name s'))).
  { unfold make_modifier in H. destruct (if b then find_name s n else None) as [k|] eqn:F.
    - inv H. destruct b; [|discriminate]. apply FN in F. destruct (v_names s' I _ _ F). split; auto. split; [discriminate|auto].
    - inv H. cbn. rewrite app_nth2, Nat.sub_diag by lia. split; auto. split.
      + intros _. unfold mlive. rewrite Nat.ltb_irrefl. reflexivity.
      + intros ->. now left. }
  destruct Q as (Q1 & Q2 & Q3). split; [exact Q1|]. split; [exact Q2|]. intros Hb h Lm. rewrite ES in Lm |- *.
  assert (I2 : inv (mkeep s' m)).
  { eapply (same_inv s'); try reflexivity; auto; [apply (v_held _ I1)|]. intros x [<-|K]; auto. now apply (v_mheld _ I1). }
  destruct (run_ok h _ I2) as [I3 L3]. unfold make_modifier. rewrite (NF _ m I3); auto. apply (l_byname _ _ L3); auto.
Qed.

Lemma demo_reachable : forall h, reachable (orun mst0 h).
Proof. intros h. now exists h. Qed.
