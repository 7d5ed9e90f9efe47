(** Lemmas about ModModel.v: the invariant of every history, and applying a modifier. *)
From Coq Require Import Lia.
From Verif Require Import PyBase BVFacts MetaModel MergeFacts ModModel ModSpec.

Definition tlen (s : mst) : nat := length (table s).
Definition fc (s : mst) (m x : nat) : nat := match find_cached s m x with Some t => t | None => 0%nat end.
Definition dup (f : nat -> nat) : list nat -> list nat := dbl (fun _ => true) f.

Lemma live_spec s c : live s c = true <-> (c < tlen s)%nat /\ ~ In c (gone s).
Proof. unfold live, tlen. rewrite andb_true_iff, Nat.ltb_lt, negb_true_iff, mem_false. tauto. Qed.
Lemma mlive_spec s c : mlive s c = true <-> (c < length (mnames s))%nat /\ ~ In c (mgone s).
Proof. unfold mlive. rewrite andb_true_iff, Nat.ltb_lt, negb_true_iff, mem_false. tauto. Qed.

Lemma merge_lists f : forall ls r l, merge f ls = Some r -> In l ls -> NoDup l.
Proof.
  induction f as [|f IH]; intros ls r l H Hl; pose proof (merge_cons _ _ _ H) as Q; destruct r as [|c r].
  1,3: apply heads_nil in Q; rewrite Forall_forall in Q; rewrite (Q _ Hl); constructor.
  { destruct Q as (_ & _ & f' & ? & _). discriminate. }
  destruct Q as (P & _ & f' & Ef & M). inv Ef. apply pick_spec in P as [_ P].
  specialize (IH _ _ (strip1 c l) M (in_map _ _ _ Hl)). specialize (P l Hl).
  destruct l as [|h t]; [constructor|]. cbn [strip1 in_tail] in *.
  destruct (Nat.eqb_spec h c) as [->|]; auto. constructor; auto. now apply mem_false.
Qed.
Lemma linearize_NoDup s bs l : linearize s bs = Some l -> NoDup bs.
Proof. intros H. eapply merge_lists; [exact H|]. apply in_app_iff. right. now left. Qed.
Lemma linearize_ext s s' bs : (forall b, In b bs -> get_kls s' b = get_kls s b) -> linearize s' bs = linearize s bs.
Proof.
  intros H. unfold linearize. replace (map (fun b => k_mro (get_kls s' b)) bs) with (map (fun b => k_mro (get_kls s b)) bs); auto.
  apply map_ext_in. intros b Hb. now rewrite H.
Qed.

Lemma find_cached_In s m c t : find_cached s m c = Some t -> In (m, c, t) (cached s).
Proof.
  unfold find_cached. intros H. destruct (find _ (cached s)) as [[[m' c'] t']|] eqn:E; [|discriminate].
  cbn in H. inv H. apply find_some in E as [E1 E2]. cbn in E2. apply andb_true_iff in E2 as [A B].
  apply Nat.eqb_eq in A, B. now subst.
Qed.
Lemma nodup_key {A B} (l : list (A * B)) a b b' : NoDup (map fst l) -> In (a, b) l -> In (a, b') l -> b = b'.
Proof.
  induction l as [|[x y] l IH]; cbn; [tauto|]. intros N. inversion N as [|? ? N1 N2]; subst. intros [E|K1] [E'|K2]; auto.
  - congruence.
  - inv E. exfalso. apply N1. apply in_map_iff. now exists (a, b').
  - inv E'. exfalso. apply N1. apply in_map_iff. now exists (a, b).
Qed.
Lemma nodup_val {A B} (l : list (A * B)) a a' b : NoDup (map snd l) -> In (a, b) l -> In (a', b) l -> a = a'.
Proof.
  induction l as [|[x y] l IH]; cbn; [tauto|]. intros N. inversion N as [|? ? N1 N2]; subst. intros [E|K1] [E'|K2]; auto.
  - congruence.
  - inv E. exfalso. apply N1. apply in_map_iff. now exists (a', b).
  - inv E'. exfalso. apply N1. apply in_map_iff. now exists (a, b).
Qed.

Record inv (s : mst) : Prop := {
  v_gone : forall c, In c (gone s) -> (c < tlen s)%nat;
  v_bases : forall c b, (c < tlen s)%nat -> In b (k_bases (get_kls s c)) -> (b < c)%nat;
  v_mro : forall c, (c < tlen s)%nat -> exists l, k_mro (get_kls s c) = c :: l /\ linearize s (k_bases (get_kls s c)) = Some l;
  v_live : forall c b, live s c = true -> In b (k_bases (get_kls s c)) -> live s b = true;
  v_held : forall c, In c (held s) -> live s c = true;
  v_lookup : lookup s = map (fun e => (snd e, fst (fst e))) (cached s);
  v_subs : subs s = map (fun e => (fst (fst e), snd e)) (cached s);
  v_keys : NoDup (map fst (cached s));
  v_vals : NoDup (map snd (cached s));
  v_ok : forall m c t, In (m, c, t) (cached s) -> live s t = true /\ m <> 0%nat /\ mlive s m = true;
  v_up : forall m c t x, In (m, c, t) (cached s) -> In x (k_mro (get_kls s c)) ->
    (exists tx, find_cached s m x = Some tx) /\ forall k, ~ In (m, k, x) (cached s);
  v_shape : forall m c t, In (m, c, t) (cached s) ->
    k_bases (get_kls s t) = c :: map (fc s m) (k_bases (get_kls s c)) /\ k_mro (get_kls s t) = dup (fc s m) (k_mro (get_kls s c));
  v_mgone : forall m, In m (mgone s) -> (m < length (mnames s))%nat;
  v_mheld : forall m, In m (mheld s) -> mlive s m = true;
  v_names : forall n m, In (n, m) (by_name s) -> mlive s m = true /\ nth m (mnames s) ""%string = n;
  v_nkeys : NoDup (map fst (by_name s))
}.

Lemma find_of_In s m c t : NoDup (map fst (cached s)) -> In (m, c, t) (cached s) -> find_cached s m c = Some t.
Proof.
  intros N H. unfold find_cached. destruct (find _ (cached s)) as [[[m' c'] t']|] eqn:E.
  - apply find_some in E as [E1 E2]. cbn in E2. apply andb_true_iff in E2 as [A B]. apply Nat.eqb_eq in A, B. subst.
    cbn. f_equal. eapply nodup_key; eauto.
  - apply find_none with (2 := H) in E. cbn in E. now rewrite !Nat.eqb_refl in E.
Qed.

Section Inv.
  Variable s : mst.
  Hypothesis I : inv s.

  Lemma kmro_In c x : (c < tlen s)%nat ->
    (In x (k_mro (get_kls s c)) <-> x = c \/ exists b, In b (k_bases (get_kls s c)) /\ In x (k_mro (get_kls s b))).
  Proof.
    intros Hc. destruct (v_mro s I c Hc) as (l & E & M). rewrite E. unfold linearize in M. cbn [In].
    rewrite (merge_In _ _ _ M). split.
    - intros [H|(q & Hq & Hx)]; [left; congruence|]. right. rewrite in_app_iff, in_map_iff in Hq.
      destruct Hq as [(b & <- & Hb)|[<-|[]]]; eauto. exists x. split; auto.
      destruct (v_mro s I x) as (l' & E' & _); [|rewrite E'; now left]. pose proof (v_bases s I c x Hc Hx). lia.
    - intros [->|(b & Hb & Hx)]; [now left|]. right. exists (k_mro (get_kls s b)). split; auto.
      apply in_app_iff. left. apply in_map_iff. eauto.
  Qed.
  Lemma kmro_self c : (c < tlen s)%nat -> In c (k_mro (get_kls s c)).
  Proof. intros H. apply kmro_In; auto. Qed.
  Lemma kmro_base c b : (c < tlen s)%nat -> In b (k_bases (get_kls s c)) -> In b (k_mro (get_kls s c)).
  Proof. intros H Hb. apply kmro_In; auto. right. exists b. split; auto. apply kmro_self. pose proof (v_bases s I c b H Hb). lia. Qed.
  Lemma kmro_le c : forall x, (c < tlen s)%nat -> In x (k_mro (get_kls s c)) -> (x <= c)%nat.
  Proof.
    induction c as [c IH] using lt_wf_ind. intros x Hc Hx. apply kmro_In in Hx; auto.
    destruct Hx as [->|(b & Hb & Hx)]; auto. pose proof (v_bases s I c b Hc Hb). specialize (IH b H x ltac:(lia) Hx). lia.
  Qed.
  Lemma kmro_anc c : forall x, (c < tlen s)%nat -> (In x (k_mro (get_kls s c)) <-> ancestor s c x).
  Proof.
    induction c as [c IH] using lt_wf_ind. intros x Hc. rewrite kmro_In by auto. split.
    - intros [->|(b & Hb & Hx)]; [constructor|]. pose proof (v_bases s I c b Hc Hb).
      econstructor; eauto. apply IH; auto. lia.
    - intros H. inversion H as [|a b c' Hb Hs]; subst; auto. right. pose proof (v_bases s I c b Hc Hb).
      exists b. split; auto. apply IH; auto. lia.
  Qed.
  Lemma anc_live a b : live s a = true -> ancestor s a b -> live s b = true.
  Proof. intros Ha H. induction H as [|a b c Hb H IH]; auto. apply IH. eapply v_live; eauto. Qed.
  Lemma anc_trans a b c : ancestor s a b -> ancestor s b c -> ancestor s a c.
  Proof. intros H. induction H; auto. intros Hc. econstructor; eauto. Qed.
  Lemma live_lt c : live s c = true -> (c < tlen s)%nat.
  Proof. intros H. now apply live_spec in H. Qed.
  Lemma kmro_live c x : live s c = true -> In x (k_mro (get_kls s c)) -> live s x = true.
  Proof. intros H Hx. eapply anc_live; eauto. apply kmro_anc; auto. now apply live_lt. Qed.
  (** Every class above a live one, other than itself, is a base of a live class. *)
  Lemma anc_kept a b : live s a = true -> ancestor s a b -> b = a \/ kept s b = true.
  Proof.
    intros Ha H. induction H as [|a b c Hb H IH]; auto. right.
    assert (Lb : live s b = true) by (eapply v_live; eauto). destruct (IH Lb) as [->|]; auto.
    unfold kept. apply orb_true_iff. right. apply existsb_exists. exists a. rewrite in_seq. pose proof (live_lt a Ha).
    split; [unfold tlen in *; lia|]. rewrite Ha. cbn. now apply mem_In.
  Qed.
  Lemma cached_key m c t : In (m, c, t) (cached s) -> (c < t)%nat /\ live s c = true.
  Proof.
    intros H. destruct (v_ok s I _ _ _ H) as (L & _). destruct (v_shape s I _ _ _ H) as (E & _).
    assert (In c (k_bases (get_kls s t))) by (rewrite E; now left). split; [|eapply v_live; eauto].
    apply (v_bases s I t c); auto. now apply live_lt.
  Qed.
  Lemma fc_In m x tx : find_cached s m x = Some tx -> In (m, x, fc s m x) (cached s).
  Proof. intros H. unfold fc. rewrite H. now apply find_cached_In. Qed.
  Lemma fc_inj m x y tx ty : find_cached s m x = Some tx -> find_cached s m y = Some ty -> fc s m x = fc s m y -> x = y.
  Proof.
    intros Hx Hy E. apply fc_In in Hx, Hy. rewrite E in Hx.
    pose proof (nodup_val (cached s) _ _ _ (v_vals s I) Hx Hy). congruence.
  Qed.
  Lemma find_lookup_spec t m : find_lookup s t = Some m <-> exists c, In (m, c, t) (cached s).
  Proof.
    unfold find_lookup. rewrite (v_lookup s I). split.
    - intros H. destruct (find _ _) as [[t' m']|] eqn:E; [|discriminate]. cbn in H. inv H.
      apply find_some in E as [E1 E2]. cbn in E2. apply Nat.eqb_eq in E2. subst.
      apply in_map_iff in E1 as ([[m' c] t'] & E & H). cbn in E. inv E. eauto.
    - intros (c & H). destruct (find _ _) as [[t' m']|] eqn:E.
      + apply find_some in E as [E1 E2]. cbn in E2. apply Nat.eqb_eq in E2. subst.
        apply in_map_iff in E1 as ([[m2 c2] t2] & E & H2). cbn in E. inv E. cbn. f_equal.
        pose proof (nodup_val (cached s) _ _ _ (v_vals s I) H H2). congruence.
      + apply find_none with (x := (t, m)) in E; [cbn in E; now rewrite Nat.eqb_refl in E|].
        apply in_map_iff. now exists (m, c, t).
  Qed.
  Lemma get_modifier_spec t m : get_modifier s t = Ok m <-> exists c, In (m, c, t) (cached s).
  Proof.
    rewrite <- find_lookup_spec. unfold get_modifier. destruct (find_lookup s t); split; congruence.
  Qed.

  (** The linearization of M(C), when every base of C is already modified and nothing above C carries M. *)
  Lemma linearize_modified c m : (c < tlen s)%nat ->
    (forall b, In b (k_bases (get_kls s c)) -> exists tb, find_cached s m b = Some tb) ->
    (forall k, ~ In (m, k, c) (cached s)) ->
    exists M, k_mro (get_kls s c) = c :: M /\
      linearize s (c :: map (fc s m) (k_bases (get_kls s c))) = Some (c :: dup (fc s m) M).
  Proof.
    intros Hc Hcl Hn. destruct (v_mro s I c Hc) as (M & EM & M3). exists M. split; auto.
    set (A := k_bases (get_kls s c)) in *.
    assert (LB : forall b, In b A -> (b < c)%nat) by (intros; now apply (v_bases s I c b)).
    set (U := fun x => (exists tx, find_cached s m x = Some tx) /\ forall k, ~ In (m, k, x) (cached s)).
    assert (finj : forall x y, U x -> U y -> true = true -> true = true -> fc s m x = fc s m y -> x = y).
    { intros x y ((tx & Hx) & _) ((ty & Hy) & _) _ _. eapply fc_inj; eauto. }
    assert (fout : forall x y, U x -> U y -> true = true -> fc s m x <> y).
    { intros x y ((tx & Hx) & _) (_ & Hy) _ E. apply fc_In in Hx. rewrite E in Hx. now apply Hy in Hx. }
    assert (UB : forall b x, In b A -> In x (k_mro (get_kls s b)) -> U x).
    { intros b x Hb Hx. destruct (Hcl b Hb) as (tb & Eb). apply find_cached_In in Eb. exact (v_up s I m b tb x Eb Hx). }
    assert (SB : forall b, In b A -> In b (k_mro (get_kls s b))) by (intros b Hb; apply kmro_self; pose proof (LB b Hb); lia).
    unfold linearize in M3. fold A in M3.
    edestruct (merge_double (fun _ => true) (fc s m) U finj fout (total_len (map (fun b => k_mro (get_kls s b)) A ++ [A]))
                 (map (fun b => k_mro (get_kls s b)) A) [] A [] M) as (fu & Efu).
    - rewrite app_nil_r. exact M3.
    - apply Forall_forall. intros l Hl. apply in_map_iff in Hl as (b & <- & Hl). apply Forall_forall. intros x Hx. eauto.
    - constructor.
    - apply Forall_forall. eauto.
    - constructor.
    - constructor.
    - now apply Forall_forall.
    - constructor.
    - intros x Hx. exists (k_mro (get_kls s x)). split; [apply in_map_iff; eauto|auto].
    - intros x Hx _. rewrite (merge_In _ _ _ M3) in Hx. destruct Hx as (l & Hl & Hx).
      rewrite in_app_iff in Hl. destruct Hl as [Hl|[<-|[]]]; eauto.
      exists (k_mro (get_kls s x)). split; [apply in_map_iff; eauto|auto].
    - unfold linearize. cbn [map]. rewrite EM. cbn [app].
      set (D := map (fun b => k_mro (get_kls s b)) (map (fc s m) A)).
      assert (ED : D = map (dup (fc s m)) (map (fun b => k_mro (get_kls s b)) A)).
      { unfold D. rewrite !map_map. apply map_ext_in. intros b Hb. destruct (Hcl b Hb) as (tb & Etb).
        unfold fc at 1. rewrite Etb. apply find_cached_In in Etb. now apply (v_shape s I) in Etb as (_ & ->). }
      apply (merge_fuel (S fu)). cbn [merge].
      change (heads ((c :: M) :: D ++ [c :: map (fc s m) A])) with (c :: heads (D ++ [c :: map (fc s m) A])).
      assert (NM : ~ In c M).
      { intros Hx. apply (merge_In _ _ _ M3) in Hx as (l & Hl & Hx). apply in_app_iff in Hl as [Hl|[<-|[]]].
        - apply in_map_iff in Hl as (b & <- & Hl). pose proof (LB _ Hl). pose proof (kmro_le b c ltac:(lia) Hx). lia.
        - pose proof (LB _ Hx). lia. }
      assert (ND : forall b, In b A -> ~ In c (dup (fc s m) (k_mro (get_kls s b)))).
      { intros b Hb K. unfold dup, dbl in K. apply in_flat_map in K as (y & Hy & [K|[K|[]]]).
        - destruct (UB b y Hb Hy) as ((ty & Ey) & _). apply fc_In in Ey. rewrite K in Ey. now apply Hn in Ey.
        - pose proof (LB b Hb). pose proof (kmro_le b y ltac:(lia) Hy). lia. }
      assert (NA : ~ In c (map (fc s m) A)).
      { intros K. apply in_map_iff in K as (y & E & Hy). destruct (Hcl y Hy) as (ty & Ey).
        apply fc_In in Ey. rewrite E in Ey. now apply Hn in Ey. }
      assert (Pk : pick ((c :: M) :: D ++ [c :: map (fc s m) A]) = Some c).
      { unfold pick. change (heads ((c :: M) :: D ++ [c :: map (fc s m) A])) with (c :: heads (D ++ [c :: map (fc s m) A])).
        cbn [find]. replace (forallb _ ((c :: M) :: D ++ [c :: map (fc s m) A])) with true; auto. symmetry.
        apply good_all. intros l [<-|Hl].
        - cbn [in_tail]. now apply mem_false.
        - apply in_app_iff in Hl as [Hl|[<-|[]]].
          + rewrite ED in Hl. apply in_map_iff in Hl as (l' & <- & Hl). apply in_map_iff in Hl as (b & <- & Hl).
            destruct (in_tail c _) eqn:K; auto. apply in_tail_In in K. now apply ND in K.
          + cbn [in_tail]. now apply mem_false. }
      rewrite Pk. cbn [map]. cbn [strip1]. rewrite Nat.eqb_refl.
      replace (map (strip1 c) (D ++ [c :: map (fc s m) A])) with (map (dup (fc s m)) (map (fun b => k_mro (get_kls s b)) A) ++ [map (fc s m) A]).
      + unfold dup in *. rewrite Efu. reflexivity.
      + rewrite map_app. cbn [map]. cbn [strip1]. rewrite Nat.eqb_refl. f_equal. rewrite ED, !map_map. apply map_ext_in. intros b Hl.
        specialize (ND b Hl). destruct (dup _ (k_mro (get_kls s b))) as [|h t] eqn:Ed; auto. cbn [strip1].
        destruct (Nat.eqb_spec h c) as [->|]; auto. exfalso. apply ND. now left.
  Qed.
End Inv.
