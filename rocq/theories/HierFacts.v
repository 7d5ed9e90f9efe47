(** Lemmas about HierModel.v: the invariant of every history, indexing and class statements. *)
From Coq Require Import Lia.
From Verif Require Import PyBase BVFacts MetaModel MergeFacts HierModel HierSpec.

Definition len (s : hst) : nat := length (hclasses s).
Notation kd s c := (h_kind (hget s c)).

(** ** Decidable equalities *)
Lemma pair_eqb_iff a b : pair_eqb a b = true <-> a = b.
Proof.
  unfold pair_eqb. rewrite andb_true_iff, String.eqb_eq, Nat.eqb_eq. destruct a, b; cbn. split; [intros [-> ->]; auto|intros H; inv H; auto].
Qed.
Lemma list_eqb_iff {A} (eqb : A -> A -> bool) (E : forall x y, eqb x y = true <-> x = y) a : forall b, list_eqb eqb a b = true <-> a = b.
Proof.
  induction a as [|x a IH]; intros [|y b]; cbn; try (split; congruence). rewrite andb_true_iff, E, IH.
  split; [intros [-> ->]; auto|intros H; inv H; auto].
Qed.
Lemma fields_eqb_iff a b : list_eqb pair_eqb a b = true <-> a = b.
Proof. apply list_eqb_iff, pair_eqb_iff. Qed.
Lemma nats_eqb_iff a b : list_eqb Nat.eqb a b = true <-> a = b.
Proof. apply list_eqb_iff, Nat.eqb_eq. Qed.
Lemma same_set_iff a b : same_set a b = true <-> forall x, In x a <-> In x b.
Proof.
  unfold same_set. rewrite andb_true_iff, !forallb_forall.
  assert (Q : forall x l, existsb (pair_eqb x) l = true <-> In x l).
  { intros x l. rewrite existsb_exists. split; [intros (y & H & E); apply pair_eqb_iff in E; now subst|].
    intros H. exists x. split; auto. now apply pair_eqb_iff. }
  split.
  - intros [A B] x. split; intros H; apply Q; auto.
  - intros H. split; intros x Hx; apply Q, H; auto.
Qed.
Lemma key_index_eqb o k fs key : key_eqb o (KIndex k fs) key = true <-> key = KIndex k fs.
Proof.
  destruct key as [k' fs'|]; cbn [key_eqb]; [|split; discriminate]. rewrite andb_true_iff, Nat.eqb_eq, fields_eqb_iff.
  split; [intros [-> ->]; auto|intros H; inv H; auto].
Qed.
Lemma is_kind_iff a b : is_kind a b = true <-> a = b.
Proof. destruct a, b; cbn; split; congruence. Qed.
Lemma below_trans a b c : below a b = true -> below b c = true -> below a c = true.
Proof. destruct a, b, c; cbn; congruence. Qed.
Lemma below_refl a : below a a = true.
Proof. now destruct a. Qed.
Lemma distinct_iff l : distinct l = true <-> NoDup l.
Proof.
  induction l as [|n l IH]; cbn [distinct]; [split; [constructor|auto]|]. rewrite andb_true_iff, negb_true_iff, IH.
  split.
  - intros [A B]. constructor; auto. intros H. assert (existsb (String.eqb n) l = true); [|congruence].
    apply existsb_exists. exists n. split; auto. apply String.eqb_refl.
  - intros H. inv H. split; auto. destruct (existsb _ l) eqn:E; auto. apply existsb_exists in E as (y & Hy & E).
    apply String.eqb_eq in E. subst. contradiction.
Qed.

(** ** The sorted list of a frozenset *)
Lemma insert_In x l y : In y (insert x l) <-> y = x \/ In y l.
Proof.
  induction l as [|a l IH]; cbn [insert In]; [intuition|]. destruct (Nat.ltb x a); [cbn; intuition|].
  destruct (Nat.eqb_spec x a); [subst; cbn; intuition|]. cbn [In]. rewrite IH. intuition.
Qed.
Lemma sorted_In l x : In x (sorted l) <-> In x l.
Proof. induction l as [|a l IH]; cbn; [tauto|]. rewrite insert_In. fold (sorted l). rewrite IH. intuition. Qed.
Inductive incr : list nat -> Prop :=
| incr_nil : incr []
| incr_cons : forall x l, (forall y, In y l -> (x < y)%nat) -> incr l -> incr (x :: l).
Lemma insert_incr x l : incr l -> incr (insert x l).
Proof.
  induction 1 as [|a l H K IH]; cbn [insert]; [constructor; [intros ? []|constructor]|].
  destruct (Nat.ltb_spec x a); [|destruct (Nat.eqb_spec x a)].
  - constructor; [|now constructor]. intros y [<-|Hy]; auto. specialize (H y Hy). lia.
  - now constructor.
  - constructor; auto. intros y Hy. apply insert_In in Hy as [->|Hy]; [lia|auto].
Qed.
Lemma sorted_incr l : incr (sorted l).
Proof. induction l as [|a l IH]; [constructor|]. now apply insert_incr. Qed.
Lemma incr_ext a : forall b, incr a -> incr b -> (forall x, In x a <-> In x b) -> a = b.
Proof.
  induction a as [|x a IH]; intros [|y b] A B E; auto.
  - exfalso. apply (E y). now left.
  - exfalso. apply (E x). now left.
  - inversion A as [|? ? Ax A']; inversion B as [|? ? By B']; subst.
    assert (x = y).
    { destruct (proj1 (E x) (or_introl eq_refl)) as [->|H]; auto. destruct (proj2 (E y) (or_introl eq_refl)) as [->|H']; auto.
      specialize (Ax _ H'). specialize (By _ H). lia. }
    subst. f_equal. apply IH; auto. intros z. split; intros Hz.
    + destruct (proj1 (E z) (or_intror Hz)) as [->|]; auto. specialize (Ax z Hz). lia.
    + destruct (proj2 (E z) (or_intror Hz)) as [->|]; auto. specialize (By z Hz). lia.
Qed.
Lemma incr_NoDup l : incr l -> NoDup l.
Proof. induction 1 as [|x l H K IH]; constructor; auto. intros Hx. specialize (H _ Hx). lia. Qed.
Lemma sorted_eq l m : sorted l = sorted m <-> forall x, In x l <-> In x m.
Proof.
  split.
  - intros E x. rewrite <- (sorted_In l), <- (sorted_In m), E. tauto.
  - intros E. apply incr_ext; auto using sorted_incr. intros x. rewrite !sorted_In. apply E.
Qed.

Lemma types_snd l : map snd (types l) = l.
Proof. unfold types. induction l as [|x l IH]; cbn; auto. now rewrite IH. Qed.

(** ** States *)
Lemma alive_spec s c : halive s c = true <-> (c < len s)%nat /\ ~ In c (hdead s).
Proof. unfold halive, len. rewrite andb_true_iff, Nat.ltb_lt, negb_true_iff, mem_false. tauto. Qed.
Lemma get_app s s' x c : hclasses s' = hclasses s ++ x -> (c < len s)%nat -> hget s' c = hget s c.
Proof. intros E H. unfold hget. rewrite E. now apply app_nth1. Qed.
Lemma c3_ext s s' bs : (forall b, In b bs -> hget s' b = hget s b) -> hc3 s' bs = hc3 s bs.
Proof.
  intros H. unfold hc3. replace (map (fun b => h_mro (hget s' b)) bs) with (map (fun b => h_mro (hget s b)) bs); auto.
  apply map_ext_in. intros b Hb. now rewrite H.
Qed.

Definition root (k : kind) : nat := match k with KType => 0 | KTuple => 1 | KAnon => 2 | KProd => 3 | KSum => 4 | KTag => 5 end.
Definition by_index (k : kind) : Prop := k = KTuple \/ k = KAnon \/ k = KSum.

(** What a class made under a key looks like. *)
Definition index_shape (s : hst) (c k : nat) (fs : fields) : Prop :=
  (k < c)%nat /\ kd s c = kd s k /\ by_index (kd s k) /\ h_fields (hget s k) = None /\ h_fields (hget s c) = Some (map snd fs) /\
  h_unbound (hget s c) = Some k /\
  (exists ts ex, h_bases (hget s c) = k :: ts ++ ex /\
     Forall2 (fun b t => h_key (hget s t) = Some (KIndex b fs)) (filter (fun b => below (kd s b) (kd s k)) (h_bases (hget s k))) ts /\
     (kd s k = KAnon -> exists b t, ex = [t] /\ kd s b = KTuple /\ h_key (hget s t) = Some (KIndex b (unname fs)) /\
        find_base (S k) s KTuple [k] = Some b) /\
     (kd s k <> KAnon -> ex = [])) /\
  h_table (hget s c) = (if is_kind (kd s k) KAnon then Some fs else None) /\
  h_attrs (hget s c) = (if is_kind (kd s k) KAnon then props fs else []).
Definition stmt_shape (s : hst) (c : nat) (fs : fields) (bs : list nat) (o : fields) : Prop :=
  fs <> [] /\ exists b t, h_bases (hget s c) = bs ++ [t] /\ h_fields (hget s b) = None /\
  h_unbound (hget s c) = match filter (fun b => is_adt s b && negb (bound s b)) bs with [b] => Some b | _ => None end /\
  (kd s c = KProd /\ kd s b = KAnon /\ h_key (hget s t) = Some (KIndex b fs) /\ h_table (hget s c) = None /\
     h_attrs (hget s c) = others_of o
   \/ kd s c = KTag /\ kd s b = KSum /\ h_key (hget s t) = Some (KIndex b (types (sorted (map snd fs)))) /\
     h_table (hget s c) = Some fs /\ h_attrs (hget s c) = props fs ++ others_of o).
Definition only_others (l : list (string * attr)) : Prop := forall n a, In (n, a) l -> exists v, a = AOther v.

Record hinv (s : hst) : Prop := {
  v_len : (6 <= len s)%nat;
  v_dead : forall c, In c (hdead s) -> (6 <= c < len s)%nat;
  v_builtin : forall c, (c < 6)%nat -> hget s c = hget hst0 c;
  v_bases : forall c b, (c < len s)%nat -> In b (h_bases (hget s c)) -> (b < c)%nat;
  v_mro : forall c, (c < len s)%nat -> exists l, h_mro (hget s c) = c :: l /\ hc3 s (h_bases (hget s c)) = Some l;
  v_kind : forall c b, (c < len s)%nat -> In b (h_bases (hget s c)) -> below (kd s c) (kd s b) = true;
  v_fields : forall c b m, (c < len s)%nat -> In b (h_bases (hget s c)) -> h_fields (hget s b) = Some m -> h_fields (hget s c) = Some m;
  v_adt : forall c m, (c < len s)%nat -> h_fields (hget s c) = Some m -> kd s c <> KType;
  v_unb : forall c, (c < len s)%nat -> kd s c <> KType -> h_fields (hget s c) = None -> h_unbound (hget s c) = Some c;
  v_root : forall c, (c < len s)%nat -> kd s c <> KType -> hsub s c (root (kd s c));
  v_alive : forall c r, halive s c = true -> In r (refs_of (hget s c)) -> halive s r = true;
  v_vars : forall c, In c (hvars s) -> halive s c = true;
  v_cache : forall k t, In (k, t) (hcache s) -> halive s t = true /\ h_key (hget s t) = Some k;
  v_find : forall t k fs, halive s t = true -> h_key (hget s t) = Some (KIndex k fs) -> lookup s true (KIndex k fs) = Some t;
  v_index : forall c k fs, (c < len s)%nat -> h_key (hget s c) = Some (KIndex k fs) -> index_shape s c k fs;
  v_stmt : forall c fs bs n o, (c < len s)%nat -> h_key (hget s c) = Some (KStmt fs bs n o) -> stmt_shape s c fs bs o;
  v_none : forall c, (c < len s)%nat -> h_key (hget s c) = None -> h_table (hget s c) = None /\ only_others (h_attrs (hget s c))
}.

Section Inv.
  Variable s : hst.
  Hypothesis I : hinv s.

  Lemma mro_In c x : (c < len s)%nat ->
    (In x (h_mro (hget s c)) <-> x = c \/ exists b, In b (h_bases (hget s c)) /\ In x (h_mro (hget s b))).
  Proof.
    intros Hc. destruct (v_mro s I c Hc) as (l & E & M). rewrite E. unfold hc3 in M. cbn [In].
    rewrite (merge_In _ _ _ M). split.
    - intros [H|(q & Hq & Hx)]; [left; congruence|]. right. rewrite in_app_iff, in_map_iff in Hq.
      destruct Hq as [(b & <- & Hb)|[<-|[]]]; eauto. exists x. split; auto.
      destruct (v_mro s I x) as (l' & E' & _); [|rewrite E'; now left]. pose proof (v_bases s I c x Hc Hx). lia.
    - intros [->|(b & Hb & Hx)]; [now left|]. right. exists (h_mro (hget s b)). split; auto.
      apply in_app_iff. left. apply in_map_iff. eauto.
  Qed.
  Lemma mro_le c : forall x, (c < len s)%nat -> In x (h_mro (hget s c)) -> (x <= c)%nat.
  Proof.
    induction c as [c IH] using lt_wf_ind. intros x Hc Hx. apply mro_In in Hx; auto.
    destruct Hx as [->|(b & Hb & Hx)]; auto. pose proof (v_bases s I c b Hc Hb). specialize (IH b H x ltac:(lia) Hx). lia.
  Qed.
  Lemma mro_sub c : forall x, (c < len s)%nat -> (In x (h_mro (hget s c)) <-> hsub s c x).
  Proof.
    induction c as [c IH] using lt_wf_ind. intros x Hc. rewrite mro_In by auto. split.
    - intros [->|(b & Hb & Hx)]; [constructor|]. pose proof (v_bases s I c b Hc Hb).
      econstructor; eauto. apply IH; auto. lia.
    - intros H. inversion H as [|a b c' Hb Hs]; subst; auto. right. pose proof (v_bases s I c b Hc Hb).
      exists b. split; auto. apply IH; auto. lia.
  Qed.
  Lemma issub_sub a b : (a < len s)%nat -> (hissub s a b = true <-> hsub s a b).
  Proof. intros H. unfold hissub. rewrite mem_In. now apply mro_sub. Qed.
  Lemma sub_le a b : (a < len s)%nat -> hsub s a b -> (b <= a)%nat.
  Proof. intros H Hs. apply mro_sub in Hs; auto. now apply mro_le. Qed.
  Lemma sub_trans a b c : hsub s a b -> hsub s b c -> hsub s a c.
  Proof. intros H. induction H; auto. intros Hc. econstructor; eauto. Qed.
  Lemma sub_base a b : In b (h_bases (hget s a)) -> hsub s a b.
  Proof. intros H. econstructor; [exact H|constructor]. Qed.
  Lemma sub_fields a b m : (a < len s)%nat -> hsub s a b -> h_fields (hget s b) = Some m -> h_fields (hget s a) = Some m.
  Proof.
    intros Ha H. induction H as [|a b c Hb H IH]; auto. intros E. pose proof (v_bases s I a b Ha Hb).
    eapply v_fields; eauto. apply IH; auto. lia.
  Qed.
  Lemma sub_kind a b : (a < len s)%nat -> hsub s a b -> below (kd s a) (kd s b) = true.
  Proof.
    intros Ha H. induction H as [|a b c Hb H IH]; auto using below_refl. pose proof (v_bases s I a b Ha Hb).
    eapply below_trans; [eapply v_kind; eauto|apply IH; lia].
  Qed.
  Lemma bases_alive a b : halive s a = true -> In b (h_bases (hget s a)) -> halive s b = true.
  Proof. intros Ha Hb. eapply v_alive; eauto. apply in_app_iff. now left. Qed.
  Lemma sub_alive a b : halive s a = true -> hsub s a b -> halive s b = true.
  Proof. intros Ha H. induction H as [|a b c Hb H IH]; auto. apply IH. eapply bases_alive; eauto. Qed.
  Lemma lookup_In o k t : lookup s o k = Some t -> exists k', In (k', t) (hcache s) /\ key_eqb o k k' = true.
  Proof.
    unfold lookup. intros H. destruct (find _ (hcache s)) as [[k' t']|] eqn:E; [|discriminate]. cbn in H. inv H.
    apply find_some in E as [E1 E2]. eauto.
  Qed.
  Lemma lookup_index o k fs t : lookup s o (KIndex k fs) = Some t -> halive s t = true /\ h_key (hget s t) = Some (KIndex k fs).
  Proof. intros H. apply lookup_In in H as (k' & H & E). apply key_index_eqb in E. subst. now apply (v_cache s I). Qed.
  Lemma index_of t k fs : halive s t = true -> h_key (hget s t) = Some (KIndex k fs) -> index_shape s t k fs /\ halive s k = true.
  Proof.
    intros A K. assert (L := proj1 (proj1 (alive_spec s t) A)). assert (Q := v_index s I t k fs L K). split; auto.
    destruct Q as (_ & _ & _ & _ & _ & _ & (ts & ex & E & _) & _). apply (bases_alive t k); auto. rewrite E. now left.
  Qed.
  Lemma unique_index t t' k fs : halive s t = true -> halive s t' = true -> h_key (hget s t) = Some (KIndex k fs) ->
    h_key (hget s t') = Some (KIndex k fs) -> t = t'.
  Proof. intros A A' K K'. apply (v_find s I) in K; auto. apply (v_find s I) in K'; auto. congruence. Qed.
End Inv.

(** ** Larger states *)
Record mext (s s' : hst) : Prop := {
  e_classes : exists l, hclasses s' = hclasses s ++ l;
  e_dead : hdead s' = hdead s;
  e_vars : hvars s' = hvars s
}.
Lemma mext_refl s : mext s s.
Proof. split; auto. exists []. now rewrite app_nil_r. Qed.
Lemma mext_trans a b c : mext a b -> mext b c -> mext a c.
Proof.
  intros [[l1 E1] D1 V1] [[l2 E2] D2 V2]. split; try congruence; auto.
  exists (l1 ++ l2). rewrite E2, E1. now rewrite app_assoc.
Qed.
Lemma mext_get s s' c : mext s s' -> (c < len s)%nat -> hget s' c = hget s c.
Proof. intros [[l E] _ _]. eapply get_app; eauto. Qed.
Lemma mext_len s s' : mext s s' -> (len s <= len s')%nat.
Proof. intros [[l E] _ _]. unfold len. rewrite E, app_length. lia. Qed.
Lemma mext_alive s s' c : mext s s' -> halive s c = true -> halive s' c = true.
Proof. intros H. rewrite !alive_spec. intros [A B]. pose proof (mext_len _ _ H). rewrite (e_dead _ _ H). split; auto; lia. Qed.
Lemma mext_alive_inv s s' c : mext s s' -> (c < len s)%nat -> halive s' c = true -> halive s c = true.
Proof. intros H L. rewrite !alive_spec. rewrite (e_dead _ _ H). tauto. Qed.

Definition same_classes (s s' : hst) : Prop := exists l, hclasses s' = hclasses s ++ l.
Lemma same_get s s' c : same_classes s s' -> (c < len s)%nat -> hget s' c = hget s c.
Proof. intros [l E]. eapply get_app; eauto. Qed.
Lemma same_sub s s' a b : (forall c x, (c < len s)%nat -> In x (h_bases (hget s c)) -> (x < c)%nat) -> same_classes s s' ->
  (a < len s)%nat -> (hsub s a b <-> hsub s' a b).
Proof.
  intros B E. revert b. induction a as [a IH] using lt_wf_ind. intros b Ha. split; intros H.
  - inversion H as [|a' x c Hx Hs]; subst; [constructor|]. pose proof (B a x Ha Hx).
    econstructor; [rewrite (same_get s s') by auto; eauto|]. apply (IH x); auto. lia.
  - inversion H as [|a' x c Hx Hs]; subst; [constructor|]. rewrite (same_get s s') in Hx by auto.
    pose proof (B a x Ha Hx). econstructor; eauto. apply (IH x); auto. lia.
Qed.
Lemma mext_sub s s' a b : hinv s -> mext s s' -> (a < len s)%nat -> (hsub s a b <-> hsub s' a b).
Proof. intros I E. apply same_sub; [apply (v_bases s I)|apply (e_classes _ _ E)]. Qed.

(** The shapes only speak of classes that stay as they are. *)
Definition go_base (f : nat) (s : hst) (k : kind) := fix go (bs : list nat) : option nat :=
  match bs with
  | [] => None
  | b :: bs => if is_kind (hkind s b) k then Some b
               else match find_base f s k (h_bases (hget s b)) with Some r => Some r | None => go bs end
  end.
Lemma find_base_unfold f s k bs : find_base (S f) s k bs = go_base f s k bs.
Proof. reflexivity. Qed.
(** Old classes decide, with any fuel above them. *)
Lemma find_base_ext f : forall f' s s' k bs, (forall c x, (c < len s)%nat -> In x (h_bases (hget s c)) -> (x < c)%nat) ->
  (forall c, (c < len s)%nat -> hget s' c = hget s c) -> (forall b, In b bs -> (b < len s /\ b < f /\ b < f')%nat) -> bs <> [] ->
  find_base f s k bs = find_base f' s' k bs.
Proof.
  induction f as [|f IH]; intros f' s s' k bs B G H N.
  { destruct bs as [|b bs]; [congruence|]. destruct (H b (or_introl eq_refl)). lia. }
  destruct f' as [|f'].
  { destruct bs as [|b bs]; [congruence|]. destruct (H b (or_introl eq_refl)). lia. }
  rewrite !find_base_unfold. clear N. induction bs as [|b bs IHb]; auto. cbn [go_base]. fold (go_base f s k). fold (go_base f' s' k).
  destruct (H b (or_introl eq_refl)) as (L1 & L2 & L3). unfold hkind. rewrite G by auto. rewrite IHb by (intros; apply H; now right).
  replace (find_base f' s' k (h_bases (hget s b))) with (find_base f s k (h_bases (hget s b))); auto.
  destruct (h_bases (hget s b)) as [|y l] eqn:E.
  - destruct f, f'; reflexivity.
  - apply IH; auto; [|discriminate]. intros x Hx. rewrite <- E in Hx. specialize (B b x L1 Hx). lia.
Qed.
Lemma index_shape_ext s s' c k fs : (forall c x, (c < len s)%nat -> In x (h_bases (hget s c)) -> (x < c)%nat) ->
  (forall t k fs, h_key (hget s t) = Some (KIndex k fs) -> (t < len s)%nat) ->
  same_classes s s' -> (c < len s)%nat -> index_shape s c k fs -> index_shape s' c k fs.
Proof.
  intros B K E Lc (A0 & A1 & A2 & A3 & A4 & A5 & (ts & ex & A6 & A7 & A8 & A9) & A10 & A11).
  assert (G := fun x => same_get s s' x E). unfold index_shape. rewrite !(G c) by lia. rewrite !(G k) by lia.
  repeat (split; [assumption|]). split; [|auto]. exists ts, ex. split; auto. split; [|split; auto].
  - replace (filter (fun b => below (kd s' b) (kd s k)) (h_bases (hget s k))) with (filter (fun b => below (kd s b) (kd s k)) (h_bases (hget s k))).
    + clear - A7 G K. induction A7 as [|b t lb lt H _ IH]; constructor; auto. now rewrite G by eauto.
    + apply filter_ext_in. intros x Hx. rewrite G; auto. pose proof (B k x ltac:(lia) Hx). lia.
  - intros Q. destruct (A8 Q) as (b & t & -> & Kb & Kt & FB). exists b, t. split; auto.
    assert (Lt : (t < len s)%nat) by eauto. rewrite (G t) by auto.
    assert (FB' : find_base (S k) s' KTuple [k] = Some b).
    { rewrite <- FB. symmetry. apply find_base_ext; auto; [|discriminate]. intros x [<-|[]]. lia. }
    split; [|auto].
    destruct (Nat.lt_ge_cases b (len s)) as [L|L]; [now rewrite G|]. exfalso. unfold hget in Kb. rewrite nth_overflow in Kb by exact L. discriminate.
Qed.
Lemma filter_adt_ext s s' bs : (forall b, In b bs -> hget s' b = hget s b) ->
  filter (fun b => is_adt s' b && negb (bound s' b)) bs = filter (fun b => is_adt s b && negb (bound s b)) bs.
Proof.
  induction bs as [|b bs IH]; cbn [filter]; auto. intros H. rewrite IH by (intros; apply H; now right).
  unfold is_adt, bound, hkind. now rewrite H by now left.
Qed.
Lemma stmt_shape_ext s s' c fs bs o : (forall c x, (c < len s)%nat -> In x (h_bases (hget s c)) -> (x < c)%nat) -> (forall t k fs, h_key (hget s t) = Some (KIndex k fs) -> (t < len s)%nat) ->
  same_classes s s' -> (c < len s)%nat -> stmt_shape s c fs bs o -> stmt_shape s' c fs bs o.
Proof.
  intros B K E Lc (A0 & b & t & A1 & A2 & A2' & A3). assert (G := fun x => same_get s s' x E). split; auto. exists b, t.
  rewrite !(G c) by lia. rewrite (filter_adt_ext s s').
  2:{ intros x Hx. apply G. pose proof (B c x Lc). rewrite A1, in_app_iff in H. specialize (H (or_introl Hx)). lia. }
  assert (Lt : (t < len s)%nat) by (destruct A3 as [(_ & _ & Q & _)|(_ & _ & Q & _)]; eauto).
  assert (Lb : (b < len s)%nat).
  { destruct (Nat.lt_ge_cases b (len s)) as [L|L]; auto. exfalso. destruct A3 as [(_ & Q & _)|(_ & Q & _)]; unfold hget in Q; rewrite nth_overflow in Q by exact L; discriminate. }
  rewrite !(G t), !(G b) by auto. auto.
Qed.
Lemma key_lt s t k : h_key (hget s t) = Some k -> (t < len s)%nat.
Proof. intros H. destruct (Nat.lt_ge_cases t (len s)) as [L|L]; auto. unfold hget in H. rewrite nth_overflow in H by exact L. discriminate. Qed.

(** ** Adding a class, with its cache entry *)
Definition put (s : hst) (c : hcls) : hst :=
  HS (hclasses s ++ [c]) (hdead s) (match h_key c with Some k => (k, len s) :: hcache s | None => hcache s end) (hvars s).
Lemma len_put s c : len (put s c) = S (len s).
Proof. unfold len. cbn. rewrite app_length. cbn. lia. Qed.
Lemma get_put_old s c x : (x < len s)%nat -> hget (put s c) x = hget s x.
Proof. intros H. apply (get_app s (put s c) [c]); auto. Qed.
Lemma get_put_new s c : hget (put s c) (len s) = c.
Proof. unfold hget, len. cbn. rewrite app_nth2 by lia. now rewrite Nat.sub_diag. Qed.
Lemma mext_put s c : mext s (put s c).
Proof. split; auto. exists [c]. reflexivity. Qed.
Lemma lookup_put s c k fs : lookup (put s c) true (KIndex k fs) =
  match h_key c with
  | Some k' => if key_eqb true (KIndex k fs) k' then Some (len s) else lookup s true (KIndex k fs)
  | None => lookup s true (KIndex k fs)
  end.
Proof. unfold lookup, put. cbn [hcache]. destruct (h_key c) as [k'|]; auto. cbn [find fst]. destruct (key_eqb true (KIndex k fs) k'); auto. Qed.

Lemma put_inv s c l : hinv s ->
  h_mro c = len s :: l -> hc3 s (h_bases c) = Some l ->
  (forall r, In r (refs_of c) -> halive s r = true) ->
  (forall b, In b (h_bases c) -> below (h_kind c) (kd s b) = true) ->
  (forall b m, In b (h_bases c) -> h_fields (hget s b) = Some m -> h_fields c = Some m) ->
  (forall m, h_fields c = Some m -> h_kind c <> KType) ->
  (h_kind c <> KType -> h_fields c = None -> h_unbound c = Some (len s)) ->
  (h_kind c <> KType -> exists b, In b (h_bases c) /\ hsub s b (root (h_kind c))) ->
  match h_key c with
  | Some (KIndex k fs) => lookup s true (KIndex k fs) = None /\ index_shape (put s c) (len s) k fs
  | Some (KStmt fs bs n o) => stmt_shape (put s c) (len s) fs bs o
  | None => h_table c = None /\ only_others (h_attrs c)
  end ->
  hinv (put s c).
Proof.
  intros I M C3 AL HK HF HA HU HR HS. set (s' := put s c).
  assert (X : mext s s') by apply mext_put.
  assert (G : forall x, (x < len s')%nat -> (x < len s)%nat \/ x = len s) by (intros x; unfold s'; rewrite len_put; lia).
  assert (Go : forall x, (x < len s)%nat -> hget s' x = hget s x) by (intros; now apply get_put_old).
  assert (Gn : hget s' (len s) = c) by apply get_put_new.
  assert (LB : forall b, In b (h_bases c) -> (b < len s)%nat).
  { intros b Hb. apply (alive_spec s b). apply AL. apply in_app_iff. now left. }
  assert (B1 : forall x b, (x < len s)%nat -> In b (h_bases (hget s x)) -> (b < len s)%nat).
  { intros x b Hx Hb. pose proof (v_bases s I x b Hx Hb). lia. }
  assert (BB : forall x b, (x < len s')%nat -> In b (h_bases (hget s' x)) -> (b < x)%nat).
  { intros x b Hx Hb. destruct (G _ Hx) as [L| ->]; [rewrite Go in Hb by auto; now apply (v_bases s I)|rewrite Gn in Hb; auto]. }
  assert (SC : same_classes s s') by apply (e_classes _ _ X).
  split.
  - unfold s'. rewrite len_put. pose proof (v_len s I). lia.
  - intros x Hx. apply (v_dead s I) in Hx. unfold s'. rewrite len_put. lia.
  - intros x Hx. rewrite Go by (pose proof (v_len s I); lia). now apply (v_builtin s I).
  - exact BB.
  - intros x Hx. destruct (G _ Hx) as [L| ->].
    + rewrite Go by auto. destruct (v_mro s I x L) as (l' & E & E'). exists l'. split; auto. rewrite (c3_ext s); auto. intros b Hb. apply Go. eauto.
    + rewrite Gn. exists l. split; auto. rewrite (c3_ext s); auto.
  - intros x b Hx Hb. destruct (G _ Hx) as [L| ->].
    + rewrite Go in Hb |- * by auto. rewrite (Go b) by eauto. now apply (v_kind s I).
    + rewrite Gn in Hb |- *. rewrite (Go b) by auto. auto.
  - intros x b m Hx Hb E. destruct (G _ Hx) as [L| ->].
    + rewrite Go in Hb |- * by auto. rewrite (Go b) in E by eauto. now apply (v_fields s I x b m).
    + rewrite Gn in Hb |- *. rewrite (Go b) in E by auto. eauto.
  - intros x m Hx E. destruct (G _ Hx) as [L| ->]; [rewrite Go in * by auto; now apply (v_adt s I x m)|rewrite Gn in *; eauto].
  - intros x Hx K E. destruct (G _ Hx) as [L| ->]; [rewrite Go in * by auto; now apply (v_unb s I x)|rewrite Gn in *; eauto].
  - intros x Hx K. destruct (G _ Hx) as [L| ->].
    + rewrite Go in * by auto. apply (mext_sub s s'); auto. now apply (v_root s I).
    + rewrite Gn in *. destruct (HR K) as (b & Hb & S). econstructor; [rewrite Gn; exact Hb|]. apply (mext_sub s s'); auto.
  - intros x r Hx Hr. apply alive_spec in Hx as [Lx Dx]. eapply mext_alive; [exact X|]. destruct (G _ Lx) as [L| ->].
    + rewrite Go in Hr by auto. apply (v_alive s I x r); auto. apply alive_spec. auto.
    + rewrite Gn in Hr. auto.
  - intros x Hx. eapply mext_alive; [exact X|]. now apply (v_vars s I).
  - intros k t Hc.
    assert (HN : halive s' (len s) = true).
    { apply alive_spec. unfold s'. rewrite len_put. split; [lia|]. intros D. apply (v_dead s I) in D. lia. }
    assert (Ho : In (k, t) (hcache s) -> halive s' t = true /\ h_key (hget s' t) = Some k).
    { intros Hc'. destruct (v_cache s I k t Hc') as [A B]. split; [eapply mext_alive; eauto|]. rewrite Go; auto. now apply alive_spec in A. }
    unfold s', put in Hc. cbn [hcache] in Hc. destruct (h_key c) as [k0|] eqn:EK; auto.
    destruct Hc as [E|Hc]; auto. injection E as <- <-. split; auto. now rewrite Gn.
  - intros t k fs A K. unfold s'. rewrite lookup_put. apply alive_spec in A as [Lt Dt]. destruct (G _ Lt) as [L| ->].
    + rewrite Go in K by auto. assert (F : lookup s true (KIndex k fs) = Some t) by (apply (v_find s I); auto; apply alive_spec; auto).
      destruct (h_key c) as [[k0 fs0|]|] eqn:EK; auto.
      destruct (key_eqb true (KIndex k fs) (KIndex k0 fs0)) eqn:E; auto. apply key_index_eqb in E. destruct HS as [HN _]. congruence.
    + rewrite Gn in K. rewrite K. assert (E : key_eqb true (KIndex k fs) (KIndex k fs) = true) by now apply key_index_eqb. now rewrite E.
  - intros x k fs Hx K. destruct (G _ Hx) as [L| ->].
    + rewrite Go in K by auto. apply (index_shape_ext s s'); auto; [apply (v_bases s I)|intros; eapply key_lt; eauto|now apply (v_index s I)].
    + rewrite Gn in K. rewrite K in HS. apply HS.
  - intros x fs bs n o Hx K. destruct (G _ Hx) as [L| ->].
    + rewrite Go in K by auto. apply (stmt_shape_ext s s'); auto; [apply (v_bases s I)|intros; eapply key_lt; eauto|now apply (v_stmt s I x fs bs n o)].
    + rewrite Gn in K. rewrite K in HS. apply HS.
  - intros x Hx K. destruct (G _ Hx) as [L| ->]; [rewrite Go in * by auto; now apply (v_none s I)|]. rewrite Gn in *. now rewrite K in HS.
Qed.

(** ** The base with a given metaclass *)
Lemma find_base_sound f : forall s k bs r, find_base f s k bs = Some r -> kd s r = k /\ exists b, In b bs /\ hsub s b r.
Proof.
  induction f as [|f IH]; intros s k bs r; [discriminate|]. rewrite find_base_unfold.
  induction bs as [|b bs IHb]; cbn [go_base]; [discriminate|]. fold (go_base f s k).
  destruct (is_kind (hkind s b) k) eqn:E.
  - intros H. inv H. apply is_kind_iff in E. split; auto. exists r. split; [now left|constructor].
  - destruct (find_base f s k (h_bases (hget s b))) as [q|] eqn:F.
    + intros H. inv H. apply IH in F as (A & x & Hx & Hs). split; auto. exists b. split; [now left|]. econstructor; eauto.
    + intros H. apply IHb in H as (A & x & Hx & Hs). split; auto. exists x. split; auto. now right.
Qed.
Lemma find_base_complete f : forall s k bs, (forall c x, In x (h_bases (hget s c)) -> (x < c)%nat) -> find_base f s k bs = None ->
  forall b r, In b bs -> (b < f)%nat -> hsub s b r -> kd s r <> k.
Proof.
  induction f as [|f IH]; intros s k bs B H b r Hb Lb Hs; [lia|]. rewrite find_base_unfold in H.
  induction bs as [|a bs IHb]; [destruct Hb|]. cbn [go_base] in H. fold (go_base f s k) in H.
  destruct (is_kind (hkind s a) k) eqn:E; [discriminate|].
  destruct (find_base f s k (h_bases (hget s a))) as [q|] eqn:F; [discriminate|].
  destruct Hb as [->|Hb]; [|auto].
  inversion Hs as [|x y z Hy Hs']; subst.
  - intros K. apply is_kind_iff in K. unfold hkind in E. congruence.
  - eapply IH; eauto. specialize (B b y Hy). lia.
Qed.
(** The first base that leads to it decides. *)
Lemma find_base_first f s k b bs r : find_base f s k [b] = Some r -> find_base f s k (b :: bs) = Some r.
Proof.
  destruct f as [|f]; [discriminate|]. rewrite !find_base_unfold. cbn [go_base]. destruct (is_kind (hkind s b) k); auto.
  destruct (find_base f s k (h_bases (hget s b))); auto. discriminate.
Qed.

(** ** The fields the bases agree on *)
Lemma join_same s m ts : (forall t, In t ts -> h_fields (hget s t) = Some m \/ h_fields (hget s t) = None) -> join_fields s (Some m) ts = Ok (Some m).
Proof.
  induction ts as [|t ts IH]; cbn; auto. intros H. destruct (H t (or_introl eq_refl)) as [-> | ->]; auto.
  assert (E : list_eqb Nat.eqb m m = true) by now apply nats_eqb_iff. rewrite E. auto.
Qed.
Lemma join_all s : forall bs ft r, join_fields s ft bs = Ok r ->
  (forall k, ft = Some k -> r = Some k) /\ forall b m, In b bs -> h_fields (hget s b) = Some m -> r = Some m.
Proof.
  induction bs as [|b bs IH]; cbn; intros ft r H.
  - inv H. split; [auto|intros ? ? []].
  - destruct (h_fields (hget s b)) as [m|] eqn:E.
    + destruct ft as [k|].
      * destruct (list_eqb Nat.eqb k m) eqn:EK; [apply nats_eqb_iff in EK; subst|discriminate]. apply IH in H as [A B]. split; auto.
        intros b' m' [<-|Hb] E'; [rewrite E in E'; inv E'; auto|eauto].
      * apply IH in H as [A B]. split; [discriminate|]. intros b' m' [<-|Hb] E'; [rewrite E in E'; inv E'; auto|eauto].
    + apply IH in H as [A B]. split; auto. intros b' m' [<-|Hb] E'; [congruence|eauto].
Qed.
Lemma join_some s : forall bs ft m, join_fields s ft bs = Ok (Some m) -> ft = Some m \/ exists b, In b bs /\ h_fields (hget s b) = Some m.
Proof.
  induction bs as [|b bs IH]; cbn; intros ft m H; [inv H; auto|].
  destruct (h_fields (hget s b)) as [k|] eqn:E.
  - destruct ft as [j|].
    + destruct (list_eqb Nat.eqb j k) eqn:EK; [apply nats_eqb_iff in EK; subst|discriminate]. apply IH in H as [A|(b' & A & B)]; eauto.
    + apply IH in H as [A|(b' & A & B)]; [inv A|]; eauto.
  - apply IH in H as [A|(b' & A & B)]; eauto.
Qed.
Lemma join_raise s : forall bs ft e, join_fields s ft bs = Raise e -> e = ETypeError.
Proof.
  induction bs as [|b bs IH]; cbn; intros ft e H; [discriminate|].
  destruct (h_fields (hget s b)) as [k|]; [destruct ft as [j|]; [destruct (list_eqb Nat.eqb j k)|]|]; eauto. now inv H.
Qed.

(** ** Indexing *)
Definition go_index (f : nat) (k : kind) (fs : fields) := fix go (s : hst) (bs : list nat) : res (hst * list nat) :=
  match bs with
  | [] => Ok (s, [])
  | b :: bs =>
      if below (hkind s b) k
      then r <- index f s b fs ;; rs <- go (fst r) bs ;; Ok (fst rs, snd r :: snd rs)
      else go s bs
  end.
Definition tuple_part (f : nat) (c : nat) (k : kind) (fs : fields) (r : hst * list nat) : res (hst * list nat) :=
  if is_kind k KAnon
  then match find_base (S (length (hclasses (fst r)))) (fst r) KTuple (c :: snd r) with
       | Some b => q <- index f (fst r) b (unname fs) ;; Ok (fst q, snd r ++ [snd q])
       | None => Raise ETypeError
       end
  else Ok r.
Lemma index_unfold f s c fs : index (S f) s c fs =
  match lookup s true (KIndex c fs) with
  | Some t => Ok (s, t)
  | None =>
      if bound s c then Raise ETypeError else
      r <- go_index f (hkind s c) fs s (h_bases (hget s c)) ;;
      r <- tuple_part f c (hkind s c) fs r ;;
      q <- new_adt (fst r) (hkind s c) (c :: snd r) (Some (map snd fs)) (if is_kind (hkind s c) KAnon then Some fs else None)
             (if is_kind (hkind s c) KAnon then props fs else []) (Some (KIndex c fs)) ;;
      Ok (store (fst q) (KIndex c fs) (snd q), snd q)
  end.
Proof. reflexivity. Qed.

Definition keeps (c : nat) (s s' : hst) : Prop := forall k m, (c <= k)%nat -> lookup s' true (KIndex k m) = lookup s true (KIndex k m).
Lemma keeps_trans c a b d : keeps c a b -> keeps c b d -> keeps c a d.
Proof. intros A B k m H. rewrite B, A; auto. Qed.
Lemma keeps_mono c d a b : (c <= d)%nat -> keeps c a b -> keeps d a b.
Proof. intros L A k m H. apply A. lia. Qed.
Definition made (s s' : hst) (c t : nat) (fs : fields) : Prop :=
  hinv s' /\ mext s s' /\ keeps (S c) s s' /\ lookup s' true (KIndex c fs) = Some t.
Definition index_spec (f : nat) : Prop := forall s c fs, hinv s -> halive s c = true -> by_index (kd s c) ->
  (forall x, In x (map snd fs) -> halive s x = true) -> (c < f)%nat ->
  match index f s c fs with Ok (s', t) => made s s' c t fs | Raise e => e = ETypeError end.

Lemma by_index_below k b : by_index k -> below b k = true -> below k b = true -> by_index b.
Proof. intros H. destruct k, b; cbn; try discriminate; intros; auto; destruct H as [H|[H|H]]; discriminate. Qed.
Lemma filter_ext_kd (s s' : hst) k : forall bs, (forall b, In b bs -> kd s' b = kd s b) ->
  filter (fun b => below (kd s' b) k) bs = filter (fun b => below (kd s b) k) bs.
Proof. induction bs as [|b bs IH]; cbn; auto. intros H. rewrite H by auto. rewrite IH by auto. reflexivity. Qed.

Lemma lookup_keep s s' k fs t : hinv s -> hinv s' -> mext s s' -> lookup s true (KIndex k fs) = Some t -> lookup s' true (KIndex k fs) = Some t.
Proof.
  intros I I' X L. destruct (lookup_index s I _ _ _ _ L) as [At Kt]. apply (v_find s' I'); [eapply mext_alive; eauto|].
  rewrite (mext_get s s'); auto. now apply alive_spec in At.
Qed.

(** The tuple type an anonymous product is indexed with. *)
Lemma tuple_base_ok s c bs b : hinv s -> halive s c = true -> kd s c = KAnon ->
  find_base (S (len s)) s KTuple (c :: bs) = Some b -> hsub s c b /\ kd s b = KTuple /\ (b < c)%nat /\ halive s b = true.
Proof.
  intros I A K H. assert (Lc := proj1 (proj1 (alive_spec _ _) A)).
  assert (BS : forall x y, In y (h_bases (hget s x)) -> (y < x)%nat).
  { intros x y Hy. destruct (Nat.lt_ge_cases x (len s)) as [L|L]; [now apply (v_bases s I x y)|].
    unfold hget in Hy. rewrite nth_overflow in Hy by exact L. destruct Hy. }
  destruct (find_base (S (len s)) s KTuple [c]) as [b'|] eqn:E.
  - rewrite (find_base_first _ _ _ _ bs _ E) in H. inv H. apply find_base_sound in E as (Kb & x & [->|[]] & Hs).
    split; auto. split; auto. split; [|eapply sub_alive; eauto].
    assert (b <= x)%nat by (eapply sub_le; eauto). assert (b <> x) by congruence. lia.
  - exfalso. refine (find_base_complete _ _ _ _ BS E c c_Tuple _ _ _ _); [now left|lia| |].
    + eapply sub_trans; [eapply v_root; eauto; rewrite K; discriminate|]. rewrite K. cbn [root].
      eapply hsub_step with (b := 1%nat); [|constructor]. rewrite (v_builtin s I) by lia. now left.
    + rewrite (v_builtin s I) by (unfold c_Tuple; lia). reflexivity.
Qed.

Lemma tuple_base_alone s c bs b : hinv s -> halive s c = true -> kd s c = KAnon ->
  find_base (S (len s)) s KTuple (c :: bs) = Some b -> find_base (S (len s)) s KTuple [c] = Some b.
Proof.
  intros I A K H. assert (Lc := proj1 (proj1 (alive_spec _ _) A)).
  assert (BS : forall x y, In y (h_bases (hget s x)) -> (y < x)%nat).
  { intros x y Hy. destruct (Nat.lt_ge_cases x (len s)) as [L|L]; [now apply (v_bases s I x y)|].
    unfold hget in Hy. rewrite nth_overflow in Hy by exact L. destruct Hy. }
  destruct (find_base (S (len s)) s KTuple [c]) as [b'|] eqn:E.
  - now rewrite (find_base_first _ _ _ _ bs _ E) in H.
  - exfalso. refine (find_base_complete _ _ _ _ BS E c c_Tuple _ _ _ _); [now left|lia| |].
    + eapply sub_trans; [eapply v_root; eauto; rewrite K; discriminate|]. rewrite K. cbn [root].
      eapply hsub_step with (b := 1%nat); [|constructor]. rewrite (v_builtin s I) by lia. now left.
    + rewrite (v_builtin s I) by (unfold c_Tuple; lia). reflexivity.
Qed.
Lemma new_adt_spec s k bases ft table attrs key : match new_adt s k bases ft table attrs key with
  | Ok (s', t) => exists ft' l u, join_fields s ft bases = Ok ft' /\ hc3 s bases = Some l /\
      t = len s /\ s' = fst (add s (HC k bases (t :: l) u ft' table attrs key)) /\
      (ft' = None -> u = Some t) /\
      (forall m, ft' = Some m -> forall b, filter (fun b => is_adt s b && negb (bound s b)) bases = [b] -> u = Some b) /\
      (forall m, ft' = Some m -> (forall b, filter (fun b => is_adt s b && negb (bound s b)) bases <> [b]) -> u = None)
  | Raise e => e = ETypeError \/ e = EAssertion /\ ft <> None /\ existsb (bound s) bases = false /\
      forall b, filter (fun b => is_adt s b && negb (bound s b)) bases <> [b]
  end.
Proof.
  unfold new_adt. destruct (join_fields s ft bases) as [ft'|e] eqn:J; cbn [bind]; [|left; eapply join_raise; eauto].
  destruct (hc3 s bases) as [l|]; auto.
  destruct ft' as [m|]; cbn [bind].
  2:{ exists None, l, (Some (len s)). repeat split; auto; intros; discriminate. }
  assert (NB : existsb (bound s) bases = false -> ft <> None).
  { intros EB ->. apply join_some in J as [J|(b & Hb & E)]; [discriminate|].
    assert (existsb (bound s) bases = true); [|congruence]. apply existsb_exists. exists b. split; auto. unfold bound. now rewrite E. }
  destruct (filter _ bases) as [|x [|y r]] eqn:F.
  - destruct (existsb (bound s) bases) eqn:EB; cbn [bind].
    + exists (Some m), l, None. repeat split; auto; intros; congruence.
    + right. repeat split; auto. intros; congruence.
  - cbn [bind]. exists (Some m), l, (Some x). repeat split; auto; try congruence.
  - destruct (existsb (bound s) bases) eqn:EB; cbn [bind].
    + exists (Some m), l, None. repeat split; auto; intros; congruence.
    + right. repeat split; auto. intros; congruence.
Qed.

Lemma index_ok f : index_spec f.
Proof.
  induction f as [|f IS]; intros s c fs I A K HR L; [lia|]. rewrite index_unfold.
  destruct (lookup s true (KIndex c fs)) as [t|] eqn:EL.
  { split; auto. split; [apply mext_refl|]. split; auto. intros ? ? ?; reflexivity. }
  destruct (bound s c) eqn:EB; auto.
  assert (UB : h_fields (hget s c) = None) by (unfold bound in EB; destruct (h_fields (hget s c)); congruence).
  assert (Lc := proj1 (proj1 (alive_spec _ _) A)).
  assert (HB : forall b, In b (h_bases (hget s c)) -> halive s b = true /\ below (kd s c) (kd s b) = true /\ (b < f)%nat).
  { intros b Hb. split; [eapply bases_alive; eauto|]. split; [now apply (v_kind s I)|]. pose proof (v_bases s I c b Lc Hb). lia. }
  (* strengthen the frame to c: every recursive call is on a smaller class *)
  assert (GO : match go_index f (hkind s c) fs s (h_bases (hget s c)) with
    | Ok (s', ts) => hinv s' /\ mext s s' /\ keeps c s s' /\
        Forall2 (fun b t => lookup s' true (KIndex b fs) = Some t) (filter (fun b => below (kd s b) (kd s c)) (h_bases (hget s c))) ts
    | Raise e => e = ETypeError end).
  { assert (IS' : forall s0 b fs0, hinv s0 -> halive s0 b = true -> by_index (kd s0 b) -> (forall x, In x (map snd fs0) -> halive s0 x = true) ->
      (b < f)%nat -> match index f s0 b fs0 with Ok (s', t) => made s0 s' b t fs0 | Raise e => e = ETypeError end) by exact IS.
    assert (HB' : forall b, In b (h_bases (hget s c)) -> halive s b = true /\ below (kd s c) (kd s b) = true /\ (b < c)%nat).
    { intros b Hb. destruct (HB b Hb) as (? & ? & ?). split; auto. split; auto. now apply (v_bases s I). }
    clear EL EB UB HB. unfold hkind. remember (h_bases (hget s c)) as bs eqn:Ebs. clear Ebs. remember (kd s c) as k eqn:Ek. clear Ek A Lc. revert s I HR HB'.
    induction bs as [|b bs IH]; intros s I HR HB; cbn [go_index].
    - split; auto. split; [apply mext_refl|]. split; [intros ? ? ?; reflexivity|constructor].
    - fold (go_index f k fs). destruct (HB b (or_introl eq_refl)) as (Ab & Kb & Lb). unfold hkind. cbn [filter].
      destruct (below (kd s b) k) eqn:E.
      + assert (Q := IS' s b fs I Ab (by_index_below _ _ K E Kb) HR ltac:(lia)). destruct (index f s b fs) as [[s1 t]|e]; cbn [bind fst snd]; auto.
        destruct Q as (I1 & X1 & F1 & L1).
        assert (HB1 : forall b', In b' bs -> halive s1 b' = true /\ below k (kd s1 b') = true /\ (b' < c)%nat).
        { intros b' Hb. destruct (HB b' (or_intror Hb)) as (A' & B' & C'). split; [eapply mext_alive; eauto|]. split; auto.
          rewrite (mext_get s s1); auto. now apply alive_spec in A'. }
        specialize (IH s1 I1 (fun x Hx => mext_alive _ _ _ X1 (HR x Hx)) HB1).
        destruct (go_index f k fs s1 bs) as [[s2 ts]|e]; cbn [bind fst snd]; auto.
        destruct IH as (I2 & X2 & F2 & L2). split; auto. split; [eapply mext_trans; eauto|]. split.
        { eapply keeps_trans; [|exact F2]. eapply keeps_mono; [|exact F1]. lia. }
        rewrite (filter_ext_kd s s1) in L2.
        2:{ intros b' Hb. rewrite (mext_get s s1); auto. destruct (HB b' (or_intror Hb)) as (A' & _). now apply alive_spec in A'. }
        constructor; auto. now apply (lookup_keep s1 s2).
      + apply IH; auto. intros b' Hb. apply HB. now right. }
  destruct (go_index f (hkind s c) fs s (h_bases (hget s c))) as [[s1 ts]|e]; cbn [bind]; auto.
  destruct GO as (I1 & X1 & F1 & L1).
  assert (A1 := mext_alive _ _ _ X1 A). assert (G1 := mext_get _ _ c X1 Lc).
  (* the tuple base *)
  assert (TP : match tuple_part f c (hkind s c) fs (s1, ts) with
    | Ok (s', ts') => hinv s' /\ mext s1 s' /\ keeps c s1 s' /\ exists ex, ts' = ts ++ ex /\
        (kd s c = KAnon -> exists b t, ex = [t] /\ kd s' b = KTuple /\ lookup s' true (KIndex b (unname fs)) = Some t /\
          find_base (S c) s' KTuple [c] = Some b) /\ (kd s c <> KAnon -> ex = [])
    | Raise e => e = ETypeError end).
  { unfold tuple_part, hkind. cbn [fst snd]. destruct (is_kind (kd s c) KAnon) eqn:EK.
    - apply is_kind_iff in EK. destruct (find_base (S (length (hclasses s1))) s1 KTuple (c :: ts)) as [b|] eqn:FB; auto.
      assert (FB1 := FB). apply tuple_base_alone in FB1; auto; [|congruence].
      apply tuple_base_ok in FB as (Sb & Kb & Lb & Ab); auto; [|congruence].
      assert (Q := IS s1 b (unname fs) I1 Ab). rewrite Kb in Q. specialize (Q (or_introl eq_refl)).
      assert (HU : forall x, In x (map snd (unname fs)) -> halive s1 x = true).
      { intros x Hx. unfold unname in Hx. rewrite map_map in Hx. cbn [snd] in Hx. apply (mext_alive _ _ _ X1). auto. }
      specialize (Q HU ltac:(lia)). destruct (index f s1 b (unname fs)) as [[s2 t]|e]; cbn [bind fst snd]; auto.
      destruct Q as (I2 & X2 & F2 & L2). split; auto. split; auto. split; [eapply keeps_mono; [|exact F2]; lia|].
      exists [t]. split; auto. split; [|congruence]. intros _. exists b, t. split; auto. split.
      { rewrite (mext_get s1 s2); auto. now apply alive_spec in Ab. }
      split; auto. rewrite <- FB1. symmetry. pose proof (mext_len _ _ X1).
      apply find_base_ext; [apply (v_bases s1 I1)|intros; now apply mext_get| |discriminate]. intros x [<-|[]]. unfold len in *. lia.
    - split; auto. split; [apply mext_refl|]. split; [intros ? ? ?; reflexivity|]. exists []. rewrite app_nil_r. split; auto. split; auto.
      intros Q. apply is_kind_iff in Q. congruence. }
  destruct (tuple_part f c (hkind s c) fs (s1, ts)) as [[s2 ts2]|e]; cbn [bind fst snd]; auto.
  destruct TP as (I2 & X2 & F2 & ex & -> & EX1 & EX2).
  assert (X := mext_trans _ _ _ X1 X2). assert (A2 := mext_alive _ _ _ X A). assert (G2 := mext_get _ _ c X Lc).
  (* what the new bases are *)
  assert (TS : forall t, In t ts -> halive s2 t = true /\ h_fields (hget s2 t) = Some (map snd fs) /\ kd s2 t <> KType /\ below (kd s c) (kd s2 t) = true).
  { intros t Ht. assert (exists b, lookup s2 true (KIndex b fs) = Some t /\ In b (h_bases (hget s c))) as (b & Lb & Hb).
    { clear - L1 Ht I1 I2 X2. remember (filter (fun b => below (kd s b) (kd s c)) (h_bases (hget s c))) as bs eqn:E.
      assert (Q : forall b, In b bs -> In b (h_bases (hget s c))) by (subst; intros b Hb; now apply filter_In in Hb). clear E.
      induction L1 as [|b t' bs ts' H L IH]; [destruct Ht|]. destruct Ht as [->|Ht].
      - exists b. split; [now apply (lookup_keep s1 s2)|apply Q; now left].
      - apply IH; auto. intros b' Hb'. apply Q. now right. }
    destruct (lookup_index s2 I2 _ _ _ _ Lb) as [At Kt]. destruct (index_of s2 I2 t b fs At Kt) as ((_ & B1 & B2 & _ & B4 & _) & _).
    split; auto. split; auto. split; [rewrite B1; destruct B2 as [->|[->| ->]]; discriminate|]. rewrite B1.
    assert (Lb' : (b < len s)%nat) by (pose proof (v_bases s I c b Lc Hb); lia). rewrite (mext_get s s2) by auto. now apply (v_kind s I). }
  assert (EX : forall t, In t ex -> halive s2 t = true /\ h_fields (hget s2 t) = Some (map snd fs) /\ kd s2 t <> KType /\ below (kd s c) (kd s2 t) = true).
  { intros t Ht. destruct (is_kind (kd s c) KAnon) eqn:EK.
    - apply is_kind_iff in EK. destruct (EX1 EK) as (b & t' & -> & Kb & Lb & _). destruct Ht as [->|[]].
      destruct (lookup_index s2 I2 _ _ _ _ Lb) as [At Kt]. destruct (index_of s2 I2 t b _ At Kt) as ((_ & B1 & _ & _ & B4 & _) & _).
      split; auto. split; [rewrite B4; unfold unname; now rewrite map_map|]. rewrite B1, Kb, EK. split; [discriminate|reflexivity].
    - rewrite EX2 in Ht; [destruct Ht|]. intros Q. apply is_kind_iff in Q. congruence. }
  assert (ALL : forall t, In t (ts ++ ex) -> halive s2 t = true /\ h_fields (hget s2 t) = Some (map snd fs) /\ kd s2 t <> KType /\ below (kd s c) (kd s2 t) = true).
  { intros t Ht. apply in_app_iff in Ht as [Ht|Ht]; auto. }
  assert (FL : filter (fun b => is_adt s2 b && negb (bound s2 b)) (c :: ts ++ ex) = [c]).
  { cbn [filter]. assert (E : is_adt s2 c && negb (bound s2 c) = true).
    { unfold is_adt, bound, hkind. rewrite G2, UB. destruct (kd s c) eqn:Q; auto. destruct K as [K|[K|K]]; discriminate. }
    rewrite E. f_equal. revert ALL. generalize (ts ++ ex) as bs. induction bs as [|b bs IH]; cbn [filter]; auto. intros ALL.
    destruct (ALL b (or_introl eq_refl)) as (_ & E' & _). unfold bound at 1. rewrite E'. rewrite andb_false_r. apply IH. intros t Ht. apply ALL. now right. }
  assert (N := new_adt_spec s2 (hkind s c) (c :: ts ++ ex) (Some (map snd fs)) (if is_kind (hkind s c) KAnon then Some fs else None)
             (if is_kind (hkind s c) KAnon then props fs else []) (Some (KIndex c fs))).
  destruct (new_adt s2 _ _ _ _ _ _) as [[s3 t]|e]; cbn [bind fst snd].
  2:{ destruct N as [N|(_ & _ & _ & N)]; auto. now elim (N c). }
  destruct N as (ft' & l & u & J & C3 & -> & -> & _ & U & _).
  assert (Eft : ft' = Some (map snd fs)).
  { rewrite join_same in J; [now inv J|]. intros t [<-|Ht]; [right; now rewrite G2|left; now apply ALL]. }
  rewrite Eft in *. assert (Eu : u = Some c) by (eapply U; eauto). rewrite Eu in *. unfold hkind.
  match goal with |- context [store (fst (add s2 ?c0))] => set (nc := c0) end.
  change (made s (put s2 nc) c (len s2) fs).
  assert (EKN : lookup s2 true (KIndex c fs) = None) by (rewrite F2, F1 by lia; exact EL).
  assert (Gn := get_put_new s2 nc). assert (Go : forall x, (x < len s2)%nat -> hget (put s2 nc) x = hget s2 x) by (intros; now apply get_put_old).
  assert (Lc2 := proj1 (proj1 (alive_spec _ _) A2)).
  assert (I3 : hinv (put s2 nc)).
  { apply (put_inv s2 nc l); auto; subst nc; cbn [h_mro h_bases h_kind h_fields h_unbound h_key h_table h_attrs refs_of].
    - intros r. unfold refs_of. cbn [h_bases h_fields h_table]. rewrite !in_app_iff. intros [[<-|Hr]|[Hr|Hr]]; auto.
      + now apply ALL.
      + apply (mext_alive _ _ _ X). auto.
      + destruct (is_kind (kd s c) KAnon); [|destruct Hr]. apply (mext_alive _ _ _ X). auto.
    - intros b [<-|Hb]; [rewrite G2; apply below_refl|now apply ALL].
    - intros b m [<-|Hb] E; [rewrite G2 in E; congruence|]. destruct (ALL b Hb) as (_ & E' & _). congruence.
    - intros m _ Q. rewrite Q in K. destruct K as [K|[K|K]]; discriminate.
    - discriminate.
    - intros Q. exists c. split; [now left|]. apply (mext_sub s s2); auto. now apply (v_root s I).
    - split; auto. unfold index_shape. rewrite Gn. rewrite !(Go c) by auto. rewrite G2. cbn [h_bases h_kind h_fields h_unbound h_table h_attrs].
      do 6 (split; [solve [auto]|]). split; [|auto]. exists ts, ex. split; auto. split; [|split; auto].
      + rewrite (filter_ext_kd s (put s2 _)).
        2:{ intros b Hb. assert (Lb : (b < len s)%nat) by (pose proof (v_bases s I c b Lc Hb); lia). rewrite Go by (pose proof (mext_len _ _ X); lia). now rewrite (mext_get s s2). }
        match goal with |- Forall2 (fun _ _ => h_key (hget (put s2 ?n) _) = _) _ _ => generalize n; intros n0 end.
        clear - L1 I1 I2 X2. induction L1 as [|b t' bs ts' H L IH]; constructor; auto.
        apply (lookup_keep s1 s2) in H; auto. destruct (lookup_index s2 I2 _ _ _ _ H) as [At Kt]. rewrite get_put_old; auto. now apply alive_spec in At.
      + intros Q. destruct (EX1 Q) as (b & t' & -> & Kb & Lb & FB). exists b, t'. split; auto.
        destruct (lookup_index s2 I2 _ _ _ _ Lb) as [At Kt]. split; [|split; [rewrite Go; auto; now apply alive_spec in At|]].
        * destruct (index_of s2 I2 _ _ _ At Kt) as (_ & Ab). rewrite Go; auto. now apply alive_spec in Ab.
        * rewrite <- FB. symmetry. apply find_base_ext; [apply (v_bases s2 I2)|intros; now apply Go| |discriminate]. intros x [<-|[]]. lia. }
  split; auto. split; [eapply mext_trans; [exact X|apply mext_put]|]. split.
  - intros k m Hk. rewrite lookup_put. subst nc. cbn [h_key]. destruct (key_eqb true (KIndex k m) (KIndex c fs)) eqn:E.
    + apply key_index_eqb in E. injection E as -> ->. lia.
    + rewrite F2, F1 by lia. reflexivity.
  - rewrite lookup_put. subst nc. cbn [h_key]. assert (E : key_eqb true (KIndex c fs) (KIndex c fs) = true) by now apply key_index_eqb. now rewrite E.
Qed.

(** ** Class statements *)
Lemma winner_spec s : forall bs k r, winner s k bs = Ok r ->
  below r k = true /\ (forall b, In b bs -> below r (kd s b) = true) /\ (r = k \/ exists b, In b bs /\ kd s b = r).
Proof.
  induction bs as [|b bs IH]; cbn [winner]; intros k r H.
  - inv H. split; [apply below_refl|]. split; [intros ? []|auto].
  - unfold hkind in H. destruct (below k (kd s b)) eqn:E.
    + apply IH in H as (A & B & C). split; auto. split.
      * intros x [<-|Hx]; auto. eapply below_trans; eauto.
      * destruct C as [C|(x & Hx & C)]; auto. right. exists x. split; auto. now right.
    + destruct (below (kd s b) k) eqn:E'; [|discriminate]. apply IH in H as (A & B & C). split; [eapply below_trans; eauto|]. split.
      * intros x [<-|Hx]; auto.
      * right. destruct C as [C|(x & Hx & C)]; [exists b; split; [now left|auto]|exists x; split; [now right|auto]].
Qed.
Lemma others_only o : only_others (others_of o).
Proof. intros n a H. unfold others_of in H. apply in_map_iff in H as (p & E & _). inv E. eauto. Qed.

(** A class without a cache entry. *)
Lemma plain_ok s k bases attrs : hinv s -> (forall b, In b bases -> halive s b = true) ->
  (forall b, In b bases -> below k (kd s b) = true) -> (k <> KType -> exists b, In b bases /\ kd s b = k) -> only_others attrs ->
  match new_adt s k bases None None attrs None with
  | Ok (s', t) => hinv s' /\ mext s s' /\ halive s' t = true
  | Raise _ => True
  end.
Proof.
  intros I A B C O. assert (N := new_adt_spec s k bases None None attrs None). destruct (new_adt s k bases None None attrs None) as [[s' t]|e]; auto.
  destruct N as (ft & l & u & J & C3 & -> & -> & U & _).
  match goal with |- context [fst (add s ?c0)] => set (nc := c0) end. change (fst (add s nc)) with (put s nc).
  destruct (join_all _ _ _ _ J) as [_ JA].
  assert (FA : forall m r, ft = Some m -> In r m -> halive s r = true).
  { intros m r E Hr. rewrite E in J. apply join_some in J as [J|(b & Hb & J)]; [discriminate|]. apply (v_alive s I b); auto.
    unfold refs_of. rewrite J. rewrite !in_app_iff. auto. }
  assert (I' : hinv (put s nc)).
  { apply (put_inv s nc l); auto; subst nc; cbn [h_mro h_bases h_kind h_fields h_unbound h_key h_table h_attrs refs_of].
    - intros r. unfold refs_of. cbn [h_bases h_fields h_table]. rewrite !in_app_iff. intros [Hr|[Hr|[]]]; auto. destruct ft as [m|]; [eauto|destruct Hr].
    - intros m -> Q. apply join_some in J as [J|(b & Hb & J)]; [discriminate|]. specialize (B b Hb). rewrite Q in B.
      apply (v_adt s I b m); [now apply alive_spec, A|auto|]. destruct (kd s b); cbn in B; congruence.
    - intros Q. destruct (C Q) as (b & Hb & E). exists b. split; auto. rewrite <- E in Q |- *. apply (v_root s I); auto. now apply alive_spec, A.
    - auto. }
  split; auto. split; [apply mext_put|]. apply alive_spec. rewrite len_put. split; [lia|]. intros D. apply (v_dead s I) in D. lia.
Qed.
Definition stmt_key (s : hst) (t : nat) (k : kind) (fs : fields) (bs : list nat) (n : string) (o : fields) : Prop :=
  exists fs' o', h_key (hget s t) = Some (KStmt fs' bs n o') /\ same_fields k fs fs' /\ (forall x, In x o <-> In x o').
Lemma alive_new s c : hinv s -> halive (put s c) (len s) = true.
Proof. intros I. apply alive_spec. rewrite len_put. split; [lia|]. intros D. apply (v_dead s I) in D. lia. Qed.

Lemma attr_ok s k bases n fs o : hinv s -> (forall b, In b bases -> halive s b = true) ->
  (forall x, In x (map snd fs) -> halive s x = true) ->
  (forall b, In b bases -> below k (kd s b) = true) -> (exists b, In b bases /\ kd s b = k) -> k = KProd \/ k = KTag ->
  match attr_class s k bases n fs o with
  | Ok (s', t) => hinv s' /\ mext s s' /\ halive s' t = true /\ (fs <> [] -> kd s' t = k /\ stmt_key s' t k fs bases n o)
  | Raise e => e = ETypeError \/ e = EKeyError
  end.
Proof.
  intros I A HR B C K. destruct fs as [|f fs0].
  { unfold attr_class. assert (P := plain_ok s k bases (others_of o) I A B (fun _ => C) (others_only o)).
    assert (N := new_adt_spec s k bases None None (others_of o) None).
    destruct (new_adt s k bases None None (others_of o) None) as [[s' t]|e]; [|destruct N as [N|(_ & N & _)]; [auto|now elim N]].
    destruct P as (P1 & P2 & P3). split; auto. split; auto. split; auto. intros Q. now elim Q. }
  set (fs := f :: fs0) in *.
  assert (HB : exists b, In b bases /\ below (kd s b) k = true /\ below k (kd s b) = true).
  { destruct C as (b & Hb & <-). exists b. split; [assumption|]. split; apply below_refl. }
  unfold attr_class. unfold fs at 1. cbv zeta iota. fold fs.
  destruct (lookup s (negb (is_kind k KTag)) (KStmt fs bases n o)) as [t|] eqn:EL.
  { split; auto. split; [apply mext_refl|]. apply lookup_In in EL as (k' & Hc & E). destruct (v_cache s I _ _ Hc) as [At Kt]. split; auto. intros _.
    destruct k' as [|fs' bs' n' o']; [discriminate|]. cbn [key_eqb] in E. rewrite !andb_true_iff, nats_eqb_iff, String.eqb_eq, same_set_iff in E.
    destruct E as (((E1 & <-) & <-) & E2).
    assert (Lt := proj1 (proj1 (alive_spec _ _) At)). destruct (v_stmt s I t fs' bases n o' Lt Kt) as (_ & b & t' & EB & _ & _ & Q).
    assert (EK : kd s t = k).
    { destruct HB as (x & Hx & X1 & X2). assert (Hx' : In x (h_bases (hget s t))) by (rewrite EB; apply in_app_iff; now left).
      assert (X3 := v_kind s I t x Lt Hx'). assert (X4 := below_trans _ _ _ X3 X1).
      destruct K as [-> | ->]; destruct (kd s t); cbn in X4; congruence. }
    split; auto. exists fs', o'. split; auto. split; auto. unfold same_fields. destruct K as [-> | ->]; cbn [is_kind below andb negb] in E1.
    - now apply fields_eqb_iff in E1.
    - now apply same_set_iff. }
  destruct (find_base (S (length (hclasses s))) s (if is_kind k KTag then KSum else KAnon) bases) as [b|] eqn:FB; auto.
  destruct (bound s b) eqn:EB; [destruct (is_kind k KTag); auto|].
  apply find_base_sound in FB as (Kb & x & Hx & Sx). assert (Ab : halive s b = true) by (eapply sub_alive; eauto).
  assert (UB : h_fields (hget s b) = None) by (unfold bound in EB; destruct (h_fields (hget s b)); congruence).
  set (idx := if is_kind k KTag then types (sorted (map snd fs)) else fs) in *.
  assert (HI : forall y, In y (map snd idx) -> In y (map snd fs)).
  { unfold idx. destruct (is_kind k KTag); auto. intros y Hy. rewrite types_snd in Hy. now rewrite sorted_In in Hy. }
  assert (Q := index_ok (S b) s b idx I Ab). rewrite Kb in Q.
  assert (BI : by_index (if is_kind k KTag then KSum else KAnon)) by (unfold by_index; destruct (is_kind k KTag); auto).
  specialize (Q BI (fun y Hy => HR y (HI y Hy)) (Nat.lt_succ_diag_r b)).
  destruct (index (S b) s b idx) as [[s1 t]|e]; cbn [bind fst snd]; auto.
  destruct Q as (I1 & X & F & L). destruct (lookup_index s1 I1 _ _ _ _ L) as [At Kt].
  destruct (index_of s1 I1 _ _ _ At Kt) as ((_ & T1 & _ & _ & T4 & _) & _).
  assert (A1 : forall y, In y (bases ++ [t]) -> halive s1 y = true).
  { intros y Hy. apply in_app_iff in Hy as [Hy|[<-|[]]]; auto. eapply mext_alive; eauto. }
  assert (G : forall y, In y bases -> hget s1 y = hget s y). { intros y Hy. apply (mext_get s s1); auto. now apply alive_spec, A. }
  assert (Gb : hget s1 b = hget s b) by (apply (mext_get s s1); auto; now apply alive_spec in Ab).
  assert (B1 : forall y, In y (bases ++ [t]) -> below k (kd s1 y) = true).
  { intros y Hy. apply in_app_iff in Hy as [Hy|[<-|[]]]; [rewrite G; auto|]. rewrite T1, Gb, Kb. destruct K as [-> | ->]; reflexivity. }
  match goal with |- context [new_adt s1 k _ None ?a ?b _] => set (tab := a); set (ats := b) end.
  assert (N := new_adt_spec s1 k (bases ++ [t]) None tab ats (Some (KStmt fs bases n o))).
  destruct (new_adt s1 k (bases ++ [t]) None tab ats (Some (KStmt fs bases n o))) as [[s2 t2]|e]; cbn [bind fst snd].
  2:{ destruct N as [N|(_ & N & _)]; auto. now elim N. }
  destruct N as (ft & l & u & J & C3 & -> & -> & U & U1 & U2).
  destruct (join_all _ _ _ _ J) as [_ JA].
  assert (Eft : ft = Some (map snd idx)) by (apply (JA t); auto; apply in_app_iff; right; now left).
  match goal with |- context [store (fst (add s1 ?c0))] => set (nc := c0) end.
  change (store (fst (add s1 nc)) (KStmt fs bases n o) (len s1)) with (put s1 nc).
  assert (Gn := get_put_new s1 nc). assert (Go : forall x, (x < len s1)%nat -> hget (put s1 nc) x = hget s1 x) by (intros; now apply get_put_old).
  assert (KN : k <> KType) by (destruct K as [-> | ->]; discriminate).
  assert (EU : u = match filter (fun b => is_adt s1 b && negb (bound s1 b)) bases with [b] => Some b | _ => None end).
  { assert (FE : filter (fun b => is_adt s1 b && negb (bound s1 b)) (bases ++ [t]) = filter (fun b => is_adt s1 b && negb (bound s1 b)) bases).
    { rewrite filter_app. cbn [filter]. unfold bound at 2. rewrite T4, andb_false_r. now rewrite app_nil_r. }
    rewrite FE in U1, U2. specialize (U1 _ Eft). specialize (U2 _ Eft).
    destruct (filter _ bases) as [|y [|z r]]; [apply U2; discriminate|now apply U1|apply U2; discriminate]. }
  assert (I2 : hinv (put s1 nc)).
  { apply (put_inv s1 nc l); auto; subst nc; cbn [h_mro h_bases h_kind h_fields h_unbound h_key h_table h_attrs refs_of].
    - intros r. unfold refs_of. cbn [h_bases h_fields h_table]. rewrite Eft. rewrite !in_app_iff, <- in_app_iff. intros [Hr|[Hr|Hr]]; auto.
      + apply (mext_alive _ _ _ X). auto.
      + unfold tab in Hr. destruct (is_kind k KTag); [|destruct Hr]. apply (mext_alive _ _ _ X). auto.
    - intros _. destruct C as (y & Hy & E). exists y. split; [apply in_app_iff; now left|]. rewrite <- E, <- (G y Hy). apply (v_root s1 I1); [|rewrite G; congruence].
      apply alive_spec, A1, in_app_iff. now left.
    - split; [discriminate|]. exists b, t. rewrite Gn. cbn [h_bases h_kind h_table h_attrs]. split; auto.
      rewrite (Go b) by (rewrite <- Gb in *; apply alive_spec; eapply mext_alive; eauto). rewrite (Go t) by (now apply alive_spec in At). rewrite Gb, Kt, Kb. split; auto. split.
      { cbn [h_unbound]. rewrite (filter_adt_ext s1); auto. intros y Hy. apply get_put_old. apply alive_spec, A1, in_app_iff. now left. }
      unfold tab, ats, idx. destruct K as [-> | ->]; [left|right]; cbn [is_kind below andb]; auto. }
  split; auto. split; [eapply mext_trans; [exact X|apply mext_put]|]. split; [now apply alive_new|]. intros _. rewrite Gn.
  split; [reflexivity|]. exists fs, o. unfold stmt_key. rewrite Gn. split; [reflexivity|]. split; [|tauto]. unfold same_fields. destruct k; tauto.
Qed.

Lemma class_ok s bs n fs o : hinv s -> (forall b, In b bs -> halive s b = true) -> (forall x, In x (map snd fs) -> halive s x = true) ->
  match class_stmt s bs n fs o with
  | Ok (s', t) => hinv s' /\ mext s s' /\ halive s' t = true
  | Raise _ => True
  end.
Proof.
  intros I A HR. unfold class_stmt. set (bases := match bs with [] => [0%nat] | _ => bs end).
  assert (A' : forall b, In b bases -> halive s b = true).
  { unfold bases. destruct bs; auto. intros b [<-|[]]. apply alive_spec. pose proof (v_len s I). split; [lia|]. intros D. apply (v_dead s I) in D. lia. }
  destruct (winner s KType bases) as [k|e] eqn:W; cbn [bind]; auto.
  destruct (winner_spec _ _ _ _ W) as (_ & B & C).
  assert (C' : k <> KType -> exists b, In b bases /\ kd s b = k) by (intros Q; destruct C; [contradiction|auto]).
  assert (P := plain_ok s k bases (others_of (fs ++ o)) I A' B C' (others_only _)).
  destruct k; try exact P; cbn [hd].
  - destruct (hc3 s bases) as [l|] eqn:C3; auto.
    match goal with |- context [add s ?c0] => set (nc := c0) end. change (add s nc) with (put s nc, len s).
    assert (KB : forall b, In b bases -> kd s b = KType) by (intros b Hb; specialize (B b Hb); destruct (kd s b); cbn in B; congruence).
    assert (I' : hinv (put s nc)).
    { apply (put_inv s nc l); auto; subst nc; cbn [h_mro h_bases h_kind h_fields h_unbound h_key h_table h_attrs refs_of].
      - intros r. unfold refs_of. cbn [h_bases h_fields h_table]. rewrite !in_app_iff. intros [Hr|[[]|[]]]; auto.
      - intros b m Hb E. exfalso. apply (v_adt s I b m); auto. now apply alive_spec, A'.
      - discriminate.
      - intros Q. now elim Q.
      - intros Q. now elim Q.
      - split; auto. apply others_only. }
    split; auto. split; [apply mext_put|now apply alive_new].
  - assert (Q := attr_ok s KProd bases n fs o I A' HR B (C' ltac:(discriminate)) (or_introl eq_refl)).
    destruct (attr_class s KProd bases n fs o) as [[s' t]|e]; auto. destruct Q as (? & ? & ? & _). auto.
  - assert (Q := attr_ok s KTag bases n fs o I A' HR B (C' ltac:(discriminate)) (or_intror eq_refl)).
    destruct (attr_class s KTag bases n fs o) as [[s' t]|e]; auto. destruct Q as (? & ? & ? & _). auto.
Qed.

(** ** Histories *)
Lemma hinv0 : hinv hst0.
Proof.
  assert (B : forall c, (c < 6)%nat -> c = 0%nat \/ c = 1%nat \/ c = 2%nat \/ c = 3%nat \/ c = 4%nat \/ c = 5%nat) by (intros; lia).
  assert (L : len hst0 = 6%nat) by reflexivity.
  split; rewrite ?L.
  - lia.
  - intros c [].
  - auto.
  - intros c b Hc Hb. apply B in Hc as [->|[->|[->|[->|[->| ->]]]]]; cbn in Hb; intuition lia.
  - intros c Hc. apply B in Hc as [->|[->|[->|[->|[->| ->]]]]]; eexists; split; vm_compute; reflexivity.
  - intros c b Hc Hb. apply B in Hc as [->|[->|[->|[->|[->| ->]]]]]; cbn in Hb; destruct Hb as [<-|[]] || destruct Hb; reflexivity.
  - intros c b m Hc Hb E. apply B in Hc as [->|[->|[->|[->|[->| ->]]]]]; cbn in Hb; destruct Hb as [<-|[]] || destruct Hb; discriminate.
  - intros c m Hc E. apply B in Hc as [->|[->|[->|[->|[->| ->]]]]]; discriminate.
  - intros c Hc K _. apply B in Hc as [->|[->|[->|[->|[->| ->]]]]]; try reflexivity. now elim K.
  - intros c Hc K. apply B in Hc as [->|[->|[->|[->|[->| ->]]]]]; try constructor.
  - intros c r Hc Hr. apply alive_spec in Hc as [Hc _]. rewrite L in Hc. apply B in Hc as [->|[->|[->|[->|[->| ->]]]]]; cbn in Hr; destruct Hr as [<-|[]] || destruct Hr; reflexivity.
  - intros c Hc. cbn in Hc. intuition (subst; reflexivity).
  - intros k t [].
  - intros t k fs A. apply alive_spec in A as [A _]. rewrite L in A. apply B in A as [->|[->|[->|[->|[->| ->]]]]]; discriminate.
  - intros c k fs Hc E. apply B in Hc as [->|[->|[->|[->|[->| ->]]]]]; discriminate.
  - intros c fs bs n o Hc E. apply B in Hc as [->|[->|[->|[->|[->| ->]]]]]; discriminate.
  - intros c Hc E. apply B in Hc as [->|[->|[->|[->|[->| ->]]]]]; (split; [reflexivity|]); intros n a Ha; cbn in Ha;
      repeat (destruct Ha as [Ha|Ha]; [inv Ha; eauto|]); destruct Ha.
Qed.

(** The variables of the program do not matter as long as they hold live classes. *)
Lemma vars_inv s v : hinv s -> (forall c, In c v -> halive s c = true) -> hinv (HS (hclasses s) (hdead s) (hcache s) v).
Proof.
  intros I V. assert (R := v_root s I). assert (B := v_bases s I). assert (X := v_index s I). destruct I. split; auto.
  - intros c Hc K. apply (same_sub s); auto. exists []. now rewrite app_nil_r. exact (R c Hc K).
  - intros c k fs Hc K. apply (index_shape_ext s); auto; [intros; eapply key_lt; eauto|]. exists []. now rewrite app_nil_r.
Qed.
Lemma hold_inv s r : hinv s -> match r with Ok (s', t) => hinv s' /\ halive s' t = true | Raise _ => True end -> hinv (hold s r).
Proof.
  intros I H. destruct r as [[s' t]|e]; cbn [hold]; auto. destruct H as [H A]. apply vars_inv; auto.
  intros c [<-|Hc]; auto. now apply (v_vars s' H).
Qed.
Lemma find_filter {A} (p q : A -> bool) l x : find p l = Some x -> q x = true -> find p (filter q l) = Some x.
Proof.
  induction l as [|y l IH]; cbn [find filter]; [discriminate|]. destruct (p y) eqn:E.
  - intros H Q. inv H. rewrite Q. cbn [find]. now rewrite E.
  - intros H Q. destruct (q y); auto. cbn [find]. rewrite E. auto.
Qed.
Lemma collect_inv s c : hinv s -> halive s c = true -> referenced s c = false -> (6 <= c)%nat ->
  hinv (HS (hclasses s) (c :: hdead s) (filter (fun e => negb (Nat.eqb (snd e) c)) (hcache s)) (hvars s)).
Proof.
  intros I A R L. set (s' := HS _ _ _ _). apply orb_false_iff in R as [R1 R2].
  assert (AL : forall x, halive s' x = true <-> halive s x = true /\ x <> c).
  { intros x. rewrite !alive_spec. unfold s', len. cbn [hclasses hdead In]. intuition. }
  assert (LE : len s' = len s) by reflexivity.
  split; rewrite ?LE.
  - apply (v_len s I).
  - intros x [<-|Hx]; [|now apply (v_dead s I)]. apply alive_spec in A as [A _]. auto.
  - apply (v_builtin s I).
  - apply (v_bases s I).
  - apply (v_mro s I).
  - apply (v_kind s I).
  - apply (v_fields s I).
  - apply (v_adt s I).
  - apply (v_unb s I).
  - intros x Hx K. apply (same_sub s s'); auto; [apply (v_bases s I)|exists []; now rewrite app_nil_r|now apply (v_root s I)].
  - intros x r Hx Hr. apply AL in Hx as [Hx Nx]. apply AL. split; [eapply v_alive; eauto|]. intros ->.
    assert (Q : existsb (fun d => halive s d && mem c (refs_of (hget s d))) (seq 0 (length (hclasses s))) = true); [|congruence].
    apply existsb_exists. exists x. split; [apply in_seq; apply alive_spec in Hx as [Hx _]; unfold len in Hx; lia|].
    rewrite Hx. now apply mem_In.
  - intros x Hx. apply AL. split; [now apply (v_vars s I)|]. intros ->. assert (mem c (hvars s) = true) by now apply mem_In. congruence.
  - intros k t Hc. unfold s' in Hc. cbn [hcache] in Hc. apply filter_In in Hc as [Hc N]. cbn [snd] in N. apply negb_true_iff, Nat.eqb_neq in N.
    destruct (v_cache s I k t Hc) as [X Y]. split; auto. apply AL. auto.
  - intros t k fs At Kt. apply AL in At as [At Nt]. assert (F := v_find s I t k fs At Kt). unfold lookup in F |- *. unfold s'. cbn [hcache].
    destruct (find _ (hcache s)) as [[k' t']|] eqn:E; [|discriminate]. cbn in F. inv F.
    rewrite (find_filter _ _ _ _ E); auto. cbn [snd]. now apply negb_true_iff, Nat.eqb_neq.
  - intros c0 k fs Hc K. apply (index_shape_ext s); auto; [apply (v_bases s I)|intros; eapply key_lt; eauto| |now apply (v_index s I)].
    exists []. now rewrite app_nil_r.
  - apply (v_stmt s I).
  - apply (v_none s I).
Qed.

Lemma getitem_ok s c i : hinv s -> halive s c = true -> (forall x, In x (idx_refs i) -> halive s x = true) ->
  match getitem s c i with
  | Ok (s', t) => exists fs, get_idx (kd s c) i = Ok fs /\ made s s' c t fs
  | Raise e => e = ETypeError
  end.
Proof.
  intros I A HR. unfold getitem, hkind.
  assert (G : match get_idx (kd s c) i with Ok fs => by_index (kd s c) /\ (forall x, In x (map snd fs) -> In x (idx_refs i)) | Raise e => e = ETypeError end).
  { destruct (kd s c), i; cbn [get_idx idx_refs]; auto; (split; [unfold by_index; auto|]); intros x Hx; rewrite ?types_snd in Hx; auto.
    now rewrite sorted_In in Hx. }
  destruct (get_idx (kd s c) i) as [fs|e]; cbn [bind]; auto. destruct G as [G1 G2].
  assert (Q := index_ok (S c) s c fs I A G1 (fun x Hx => HR x (G2 x Hx)) (Nat.lt_succ_diag_r c)).
  destruct (index (S c) s c fs) as [[s' t]|e]; auto. exists fs. split; auto.
Qed.
Lemma made_alive s s' c t fs : made s s' c t fs -> halive s' t = true /\ h_key (hget s' t) = Some (KIndex c fs).
Proof. intros (I & _ & _ & L). eapply lookup_index; eauto. Qed.

Lemma step_inv s o : hinv s -> hinv (hstep s o).
Proof.
  intros I. unfold hstep. destruct (forallb (halive s) (op_refs o) && keys_ok o) eqn:E; auto. apply andb_true_iff in E as [E _].
  rewrite forallb_forall in E. destruct o as [bs n fs o|c i|c|c]; cbn [op_refs] in E.
  - apply hold_inv; auto. assert (Q := class_ok s bs n fs o I (fun b Hb => E b (proj2 (in_app_iff _ _ _) (or_introl Hb))) (fun b Hb => E b (proj2 (in_app_iff _ _ _) (or_intror Hb)))).
    destruct (class_stmt s bs n fs o) as [[s' t]|e]; auto. tauto.
  - destruct (bound s c || negb (is_adt s c)); auto. apply hold_inv; auto.
    assert (Q := getitem_ok s c i I (E c (or_introl eq_refl)) (fun x Hx => E x (or_intror Hx))).
    destruct (getitem s c i) as [[s' t]|e]; auto. destruct Q as (fs & _ & Q). split; [apply Q|]. eapply made_alive; eauto.
  - apply vars_inv; auto. intros x Hx. apply (v_vars s I). apply in_remove in Hx. tauto.
  - destruct (halive s c && negb (referenced s c) && Nat.leb n_builtin c) eqn:Q; auto. rewrite !andb_true_iff, negb_true_iff, Nat.leb_le in Q.
    destruct Q as [[Q1 Q2] Q3]. now apply collect_inv.
Qed.
Lemma fold_inv h : forall s, hinv s -> hinv (fold_left hstep h s).
Proof. induction h as [|o h IH]; cbn; auto. intros s I. apply IH. now apply step_inv. Qed.
Lemma run_inv h : hinv (hrun h).
Proof. apply fold_inv, hinv0. Qed.

(** Classes stay as they were made. *)
Lemma step_classes s o : hinv s -> same_classes s (hstep s o) /\ (forall c, In c (hdead s) -> In c (hdead (hstep s o))).
Proof.
  intros I. unfold hstep. assert (R : same_classes s s /\ (forall c, In c (hdead s) -> In c (hdead s))) by (split; auto; exists []; now rewrite app_nil_r).
  destruct (forallb (halive s) (op_refs o) && keys_ok o) eqn:E; auto. apply andb_true_iff in E as [E _].
  rewrite forallb_forall in E. destruct o as [bs n fs o|c i|c|c]; cbn [op_refs] in E; auto.
  - assert (Q := class_ok s bs n fs o I (fun b Hb => E b (proj2 (in_app_iff _ _ _) (or_introl Hb))) (fun b Hb => E b (proj2 (in_app_iff _ _ _) (or_intror Hb)))).
    destruct (class_stmt s bs n fs o) as [[s' t]|e]; auto. destruct Q as (_ & X & _). split; [apply (e_classes _ _ X)|]. cbn. now rewrite (e_dead _ _ X).
  - destruct (bound s c || negb (is_adt s c)); auto.
    assert (Q := getitem_ok s c i I (E c (or_introl eq_refl)) (fun x Hx => E x (or_intror Hx))).
    destruct (getitem s c i) as [[s' t]|e]; auto. destruct Q as (fs & _ & _ & X & _). split; [apply (e_classes _ _ X)|]. cbn. now rewrite (e_dead _ _ X).
  - destruct (halive s c && negb (referenced s c) && Nat.leb n_builtin c); auto. split; [exists []; cbn; now rewrite app_nil_r|]. cbn. auto.
Qed.
Lemma fold_classes h : forall s, hinv s -> same_classes s (fold_left hstep h s) /\ (forall c, In c (hdead s) -> In c (hdead (fold_left hstep h s))).
Proof.
  induction h as [|o h IH]; cbn; intros s I; [split; auto; exists []; now rewrite app_nil_r|].
  destruct (step_classes s o I) as [[l1 E1] D1]. destruct (IH _ (step_inv s o I)) as [[l2 E2] D2]. split; auto.
  exists (l1 ++ l2). rewrite E2, E1. now rewrite app_assoc.
Qed.
Lemma run_app h1 h2 : hrun (h1 ++ h2) = fold_left hstep h2 (hrun h1).
Proof. unfold hrun. apply fold_left_app. Qed.

(** ** Indexing and subclassing *)
Section Sub.
  Variable s : hst.
  Hypothesis I : hinv s.

  Lemma by_key t k fs : halive s t = true -> h_key (hget s t) = Some (KIndex k fs) ->
    h_fields (hget s t) = Some (map snd fs) /\ h_unbound (hget s t) = Some k /\ kd s t = kd s k /\ hsub s t k /\ h_fields (hget s k) = None.
  Proof.
    intros A K. destruct (index_of s I t k fs A K) as ((_ & B1 & _ & B3 & B4 & B5 & (ts & ex & B6 & _) & _) & _).
    repeat (split; auto). apply sub_base. rewrite B6. now left.
  Qed.
  (** Above K[i] there is L[i] for every L above K of the same metaclass. *)
  Lemma up k l : hsub s k l -> kd s l = kd s k -> forall t fs, halive s t = true -> h_key (hget s t) = Some (KIndex k fs) ->
    exists t', halive s t' = true /\ h_key (hget s t') = Some (KIndex l fs) /\ hsub s t t'.
  Proof.
    intros H. induction H as [k|k b l Hb H IH]; intros E t fs A K.
    - exists t. split; auto. split; auto. constructor.
    - destruct (index_of s I t k fs A K) as ((Lk & B1 & B2 & B3 & B4 & B5 & (ts & ex & B6 & B7 & _) & _) & Ak).
      assert (L := proj1 (proj1 (alive_spec _ _) Ak)).
      assert (Ab := bases_alive s I k b Ak Hb). assert (Lb := proj1 (proj1 (alive_spec _ _) Ab)).
      assert (Q1 := v_kind s I k b L Hb). assert (Q2 := sub_kind s I b l Lb H). rewrite E in Q2.
      assert (EK : kd s b = kd s k) by (destruct (kd s b), (kd s k); cbn in Q1, Q2; congruence).
      assert (exists t', In t' ts /\ h_key (hget s t') = Some (KIndex b fs)) as (t' & Ht & Kt).
      { clear - B7 Hb EK. assert (Hf : In b (filter (fun b => below (kd s b) (kd s k)) (h_bases (hget s k)))).
        { apply filter_In. split; auto. rewrite EK. apply below_refl. }
        revert Hf. induction B7 as [|x y xs ys Hxy _ IH]; [intros []|]. intros [->|Hf]; [exists y; split; auto; now left|].
        destruct (IH Hf) as (t' & Ht & Kt). exists t'. split; auto. now right. }
      assert (Hbt : In t' (h_bases (hget s t))) by (rewrite B6; right; apply in_app_iff; now left).
      destruct (IH ltac:(congruence) t' fs (bases_alive s I t t' A Hbt) Kt) as (t2 & A2 & K2 & S2).
      exists t2. split; auto. split; auto. econstructor; eauto.
  Qed.
  Lemma sub_index t1 t2 k1 k2 fs1 fs2 : halive s t1 = true -> halive s t2 = true ->
    h_key (hget s t1) = Some (KIndex k1 fs1) -> h_key (hget s t2) = Some (KIndex k2 fs2) -> kd s k1 = kd s k2 ->
    (hsub s t1 t2 <-> hsub s k1 k2 /\ fs1 = fs2).
  Proof.
    intros A1 A2 K1 K2 EK. split.
    - intros H. revert k1 fs1 A1 K1 EK. induction H as [t|t b t2 Hb H IH]; intros k1 fs1 A1 K1 EK.
      + rewrite K1 in K2. inv K2. split; auto. constructor.
      + assert (Ab := bases_alive s I t b A1 Hb). assert (Lb := proj1 (proj1 (alive_spec _ _) Ab)).
        destruct (index_of s I t k1 fs1 A1 K1) as ((_ & B1 & B2 & B3 & B4 & B5 & (ts & ex & B6 & B7 & B8 & B9) & _) & Ak).
        destruct (by_key t2 k2 fs2 A2 K2) as (F2 & _ & T2 & _ & _).
        rewrite B6 in Hb. destruct Hb as [<-|Hb].
        { exfalso. assert (X := sub_fields s I k1 t2 _ Lb H F2). congruence. }
        apply in_app_iff in Hb as [Hb|Hb].
        * assert (exists x, In x (h_bases (hget s k1)) /\ below (kd s x) (kd s k1) = true /\ h_key (hget s b) = Some (KIndex x fs1)) as (x & Hx & Kx & Kb).
          { clear - B7 Hb. remember (filter _ (h_bases (hget s k1))) as xs eqn:E.
            assert (Q : forall x, In x xs -> In x (h_bases (hget s k1)) /\ below (kd s x) (kd s k1) = true) by (intros x Hx; subst xs; now apply filter_In in Hx).
            clear E. induction B7 as [|x y xs ys Hxy _ IH]; [destruct Hb|]. destruct Hb as [->|Hb]; [exists x; split; [apply Q; now left|split; auto; apply Q; now left]|].
            apply IH; auto. intros z Hz. apply Q. now right. }
          assert (Lk := proj1 (proj1 (alive_spec _ _) Ak)). assert (Q := v_kind s I k1 x Lk Hx).
          assert (EKx : kd s x = kd s k1) by (destruct (kd s x), (kd s k1); cbn in Q, Kx; congruence).
          destruct (IH A2 K2 x fs1 Ab Kb ltac:(congruence)) as [S E]. split; auto. econstructor; eauto.
        * exfalso. destruct (is_kind (kd s k1) KAnon) eqn:EA.
          -- apply is_kind_iff in EA. destruct (B8 EA) as (x & y & -> & Kx & Ky). destruct Hb as [->|[]].
             destruct (by_key b x _ Ab (proj1 Ky)) as (_ & _ & Tb & _). assert (X := sub_kind s I b t2 Lb H). rewrite Tb, Kx, T2, <- EK, EA in X. discriminate.
          -- rewrite B9 in Hb; [destruct Hb|]. intros Q. apply is_kind_iff in Q. congruence.
    - intros [H <-]. destruct (up k1 k2 H (eq_sym EK) t1 fs1 A1 K1) as (t' & A' & K' & S'). now rewrite (unique_index s I t2 t' k2 fs1 A2 A' K2 K').
  Qed.
  (** An anonymous product is a Tuple of its types. *)
  Lemma builtin_get c : (c < 6)%nat -> hget s c = hget hst0 c.
  Proof. apply (v_builtin s I). Qed.
  Lemma builtin_alive c : (c < 6)%nat -> halive s c = true.
  Proof. intros H. apply alive_spec. pose proof (v_len s I). split; [lia|]. intros D. apply (v_dead s I) in D. lia. Qed.
  Lemma anon_tuple t k fs : halive s t = true -> h_key (hget s t) = Some (KIndex k fs) -> kd s k = KAnon ->
    exists t', halive s t' = true /\ h_key (hget s t') = Some (KIndex c_Tuple (unname fs)) /\ hsub s t t'.
  Proof.
    intros A K EK. destruct (index_of s I t k fs A K) as ((_ & B1 & B2 & B3 & B4 & B5 & (ts & ex & B6 & B7 & B8 & B9) & _) & Ak).
    destruct (B8 EK) as (b & x & -> & Kb & Kx & _).
    assert (Hx : In x (h_bases (hget s t))) by (rewrite B6; right; apply in_app_iff; right; now left).
    assert (Ax := bases_alive s I t x A Hx). destruct (index_of s I x b _ Ax Kx) as (_ & Ab).
    assert (R : hsub s b c_Tuple) by (replace c_Tuple with (root (kd s b)) by (now rewrite Kb); apply (v_root s I); [now apply alive_spec in Ab|congruence]).
    assert (E1 : kd s c_Tuple = kd s b) by (rewrite Kb, builtin_get by (unfold c_Tuple; lia); reflexivity).
    destruct (up b c_Tuple R E1 x _ Ax Kx) as (t' & A' & K' & S').
    exists t'. split; auto. split; auto. econstructor; eauto.
  Qed.
  Lemma table_bound x m : (x < len s)%nat -> h_table (hget s x) = Some m -> exists f, h_fields (hget s x) = Some f.
  Proof.
    intros L T. destruct (h_key (hget s x)) as [[k fs|fs bs n o]|] eqn:K.
    - destruct (v_index s I x k fs L K) as (_ & _ & _ & _ & B & _). eauto.
    - destruct (v_stmt s I x fs bs n o L K) as (_ & b & t & EB & _ & _ & [(_ & _ & Kt & _)|(_ & _ & Kt & _)]);
        assert (Lt := key_lt _ _ _ Kt); destruct (v_index s I t _ _ Lt Kt) as (_ & _ & _ & _ & B & _);
        (eexists; eapply (v_fields s I x t); eauto; rewrite EB; apply in_app_iff; right; now left).
    - destruct (v_none s I x L K) as [N _]. congruence.
  Qed.
  Lemma table_kind x m : (x < len s)%nat -> h_table (hget s x) = Some m -> kd s x = KAnon \/ kd s x = KTag.
  Proof.
    intros L T. destruct (h_key (hget s x)) as [[k fs|fs bs n o]|] eqn:K.
    - destruct (v_index s I x k fs L K) as (_ & B & _ & _ & _ & _ & _ & B' & _). rewrite B' in T. rewrite B. left.
      destruct (is_kind (kd s k) KAnon) eqn:E; [now apply is_kind_iff in E|discriminate].
    - destruct (v_stmt s I x fs bs n o L K) as (_ & b & t & EB & _ & _ & [(B & _ & _ & B' & _)|(B & _ & _ & B' & _)]); auto. congruence.
    - destruct (v_none s I x L K) as [N _]. congruence.
  Qed.
  (** All field tables above AnonymousProduct[m] are m. *)
  Lemma tables_above t : forall k fs x m, (t < len s)%nat -> h_key (hget s t) = Some (KIndex k fs) -> kd s k = KAnon -> hsub s t x ->
    h_table (hget s x) = Some m -> m = fs.
  Proof.
    induction t as [t IH] using lt_wf_ind. intros k fs x m L K EK H T.
    destruct (v_index s I t k fs L K) as (Lk & B1 & B2 & B3 & B4 & B5 & (ts & ex & B6 & B7 & B8 & B9) & B10 & _).
    inversion H as [|a b c Hb Hs]; subst.
    { rewrite B10, EK in T. cbn in T. congruence. }
    assert (Lb := v_bases s I t b L Hb). rewrite B6 in Hb. destruct Hb as [<-|Hb].
    { exfalso. assert (Lx : (x < len s)%nat) by (assert (Z := sub_le s I k x ltac:(lia) Hs); lia).
      destruct (table_bound x m Lx T) as (f & F). assert (Z := sub_fields s I k x f ltac:(lia) Hs F). congruence. }
    apply in_app_iff in Hb as [Hb|Hb].
    - assert (exists y, h_key (hget s b) = Some (KIndex y fs) /\ kd s y = KAnon) as (y & Ky & Ey).
      { assert (Q : forall y, In y (filter (fun b => below (kd s b) (kd s k)) (h_bases (hget s k))) -> kd s y = KAnon).
        { intros y Hy. apply filter_In in Hy as [Hy E]. assert (Z := v_kind s I k y ltac:(lia) Hy). rewrite EK in *. destruct (kd s y); cbn in E, Z; congruence. }
        clear - B7 Hb Q. induction B7 as [|p q ps qs Hpq _ IHp]; [destruct Hb|]. destruct Hb as [->|Hb].
        - exists p. split; auto. apply Q. now left.
        - apply IHp; auto. intros y Hy. apply Q. now right. }
      apply (IH b ltac:(lia) y fs x m ltac:(lia) Ky Ey Hs T).
    - exfalso. destruct (B8 EK) as (y & z & -> & Ky & Kz). destruct Hb as [->|[]].
      destruct (v_index s I b y _ ltac:(lia) (proj1 Kz)) as (_ & Tb & _).
      assert (Lx : (x < len s)%nat) by (assert (Z := sub_le s I b x ltac:(lia) Hs); lia).
      assert (X := sub_kind s I b x ltac:(lia) Hs). rewrite Tb, Ky in X. destruct (table_kind x m Lx T) as [E|E]; rewrite E in X; discriminate.
  Qed.
End Sub.

(** ** The order of method resolution *)
Section Order.
  Variable s : hst.
  Hypothesis I : hinv s.
  (** A class comes before its superclasses. *)
  Lemma mro_order c : forall a b, (c < len s)%nat -> hsub s c a -> hsub s a b -> a <> b -> forall r1 r2, h_mro (hget s c) = r1 ++ b :: r2 -> In a r1.
  Proof.
    induction c as [c IH] using lt_wf_ind. intros a b L Ha Hab Nab r1 r2 E.
    destruct (v_mro s I c L) as (l & El & M). rewrite El in E.
    destruct r1 as [|c' r1]; cbn [app] in E.
    - injection E as -> _. exfalso. apply Nab. assert (b < len s)%nat by auto.
      assert (X := sub_le s I b a L Ha). assert (Y := sub_le s I a b ltac:(lia) Hab). lia.
    - injection E as -> E. destruct (Nat.eq_dec a c') as [->|Na]; [now left|]. right.
      inversion Ha as [|x y z Hy Hs]; subst; [contradiction|]. assert (Ly := v_bases s I c' y L Hy).
      assert (Hby : In b (h_mro (hget s y))) by (apply mro_sub; auto; [lia|eapply sub_trans; eauto]).
      apply in_split in Hby as (u1 & u2 & Eu). assert (Hu := IH y Ly a b ltac:(lia) Hs Hab Nab u1 u2 Eu).
      apply in_split in Hu as (v1 & v2 & Ev). subst u1. rewrite <- app_assoc in Eu. cbn [app] in Eu.
      unfold hc3 in M. eapply (merge_order _ _ _ v1 a (v2 ++ b :: u2) b M); [| |reflexivity].
      + apply in_app_iff. left. apply in_map_iff. exists y. split; auto.
      + apply in_app_iff. right. now left.
  Qed.
End Order.
Lemma first_some_split {A} (f : nat -> option A) l x : In x l -> f x <> None ->
  exists l1 y l2 a, l = l1 ++ y :: l2 /\ (forall z, In z l1 -> f z = None) /\ f y = Some a /\ first_some f l = Some a.
Proof.
  induction l as [|y l IH]; [intros []|]. intros H N. cbn [first_some]. destruct (f y) as [a|] eqn:E.
  - exists [], y, l, a. split; auto. split; [intros ? []|auto].
  - destruct H as [->|H]; [contradiction|]. destruct (IH H N) as (l1 & z & l2 & a & -> & B & C & D). exists (y :: l1), z, l2, a.
    split; auto. split; auto. intros w [<-|Hw]; auto.
Qed.
Lemma first_some_all {A} (f : nat -> option A) l x a : In x l -> f x <> None -> (forall y b, In y l -> f y = Some b -> b = a) -> first_some f l = Some a.
Proof.
  intros H N U. destruct (first_some_split f l x H N) as (l1 & y & l2 & b & -> & _ & E & ->). rewrite (U y b); auto. apply in_app_iff. right. now left.
Qed.
Lemma first_some_ext {A} (f g : nat -> option A) l : (forall x, In x l -> f x = g x) -> first_some f l = first_some g l.
Proof. induction l as [|x l IH]; cbn [first_some]; auto. intros H. rewrite H by now left. rewrite IH by (intros; apply H; now right). reflexivity. Qed.

(** ** Properties of components *)
Lemma own_app a b n : own (a ++ b) n = match own a n with Some x => Some x | None => own b n end.
Proof. unfold own. rewrite find_app. destruct (find _ a); auto. Qed.
Lemma own_others o n : ~ In n (map fst o) -> own (others_of o) n = None.
Proof.
  unfold own, others_of. induction o as [|p o IH]; cbn; auto. intros H. destruct (String.eqb_spec (fst p) n); [tauto|]. apply IH. tauto.
Qed.
Lemma own_props_from fs : forall i0 i n t, NoDup (map fst fs) -> nth_error fs i = Some (n, t) ->
  own (map (fun p => (fst (snd p), AField (snd (snd p)) (fst p))) (combine (seq i0 (length fs)) fs)) n = Some (AField t (i0 + i)).
Proof.
  induction fs as [|[m u] fs IH]; intros i0 i n t N H; [destruct i; discriminate|]. cbn [map fst] in N. inversion N as [|? ? N1 N2]; subst.
  cbn [length seq combine map fst snd]. unfold own. cbn [find fst]. destruct i as [|i]; cbn in H.
  - inv H. rewrite String.eqb_refl. cbn. now rewrite Nat.add_0_r.
  - destruct (String.eqb_spec m n) as [->|]; [exfalso; apply N1; apply nth_error_In in H; apply in_map_iff; eexists; split; [|exact H]; reflexivity|].
    specialize (IH (S i0) i n t N2 H). unfold own in IH. rewrite IH. f_equal. f_equal. lia.
Qed.
Lemma own_props fs i n t : NoDup (map fst fs) -> nth_error fs i = Some (n, t) -> own (props fs) n = Some (AField t i).
Proof. intros N H. apply (own_props_from fs 0 i n t N H). Qed.

(** ** One base *)
Lemma mro_NoDup s c : hinv s -> (c < len s)%nat -> NoDup (h_mro (hget s c)).
Proof.
  intros I L. destruct (v_mro s I c L) as (l & -> & M). constructor.
  - unfold hc3 in M. rewrite (merge_In _ _ _ M). intros (q & Hq & Hc). apply in_app_iff in Hq as [Hq|[<-|[]]].
    + apply in_map_iff in Hq as (b & <- & Hb). assert (Lb := v_bases s I c b L Hb). assert (X := mro_le s I b c ltac:(lia) Hc). lia.
    + assert (Lb := v_bases s I c c L Hc). lia.
  - eapply merge_NoDup; eauto.
Qed.
Lemma c3_single s a : hinv s -> (a < len s)%nat -> hc3 s [a] = Some (h_mro (hget s a)).
Proof.
  intros I L. unfold hc3. assert (N := mro_NoDup s a I L). destruct (v_mro s I a L) as (l & E & _). cbn [map app]. rewrite E in *.
  inversion N as [|? ? N1 N2]; subst. destruct (merge_one l N2) as (f & M). eapply (merge_fuel (S f)). cbn [merge heads flat_map app].
  unfold pick. cbn [heads flat_map app find forallb in_tail]. assert (Ma : mem a l = false) by now apply mem_false. rewrite Ma.
  assert (Mn : mem a [] = false) by reflexivity. rewrite Mn. cbn [negb andb]. cbn [map strip1]. rewrite Nat.eqb_refl. now rewrite M.
Qed.
Lemma single_ok s a n o s' t : hinv s -> halive s a = true -> class_stmt s [a] n [] o = Ok (s', t) ->
  t = len s /\ mext s s' /\ h_mro (hget s' t) = t :: h_mro (hget s a) /\ h_fields (hget s' t) = h_fields (hget s a) /\
  h_table (hget s' t) = None /\ h_attrs (hget s' t) = others_of o.
Proof.
  intros I A. assert (L := proj1 (proj1 (alive_spec _ _) A)). unfold class_stmt. cbv iota.
  assert (W : winner s KType [a] = Ok (kd s a)).
  { cbn [winner]. unfold hkind. destruct (kd s a); reflexivity. }
  rewrite W. cbn [bind]. assert (C := c3_single s a I L).
  assert (P : forall k r, new_adt s k [a] None None (others_of o) None = Ok r ->
    fst r = put s (HC k [a] (len s :: h_mro (hget s a)) (h_unbound (hget (fst r) (snd r))) (h_fields (hget s a)) None (others_of o) None) /\ snd r = len s).
  { intros k [s1 t1] H. assert (N := new_adt_spec s k [a] None None (others_of o) None). rewrite H in N.
    destruct N as (ft & l & u & J & C3 & -> & -> & _). cbn [fst snd]. split; auto. rewrite C in C3. injection C3 as <-.
    assert (Eft : ft = h_fields (hget s a)) by (cbn [join_fields] in J; destruct (h_fields (hget s a)); now inv J).
    rewrite Eft. change (fst (add s ?c)) with (put s c). rewrite get_put_new. reflexivity. }
  assert (R : forall k r, new_adt s k [a] None None (others_of o) None = Ok r -> r = (s', t) ->
    t = len s /\ mext s s' /\ h_mro (hget s' t) = t :: h_mro (hget s a) /\ h_fields (hget s' t) = h_fields (hget s a) /\
    h_table (hget s' t) = None /\ h_attrs (hget s' t) = others_of o).
  { intros k r H ->. apply P in H as [E1 E2]. cbn [fst snd] in E1, E2. subst t. rewrite E1. rewrite get_put_new. cbn [h_mro h_fields h_table h_attrs].
    split; auto. split; [apply mext_put|]. auto. }
  destruct (kd s a) eqn:K; cbn [app attr_class]; intros H; try (eapply R; [exact H|reflexivity]).
  rewrite C in H. injection H as <- <-. change (fst (add s ?c)) with (put s c).
  match goal with |- context [HC KType ?b ?m ?u ?f ?tb ?at' ?k] => change (HS (hclasses s ++ [HC KType b m u f tb at' k]) (hdead s) (hcache s) (hvars s)) with (put s (HC KType b m u f tb at' k)) end.
  change (length (hclasses s)) with (len s). rewrite get_put_new. cbn [h_mro h_fields h_table h_attrs]. split; auto. split; [apply mext_put|].
  split; auto. split; [|auto]. destruct (h_fields (hget s a)) as [m|] eqn:F; auto. exfalso. now apply (v_adt s I a m).
Qed.

(** ** The metaclass of a class statement *)
Lemma winner_plain s k : forall bs k0, below k k0 = true -> (forall b, In b bs -> below k (kd s b) = true) -> exists r, winner s k0 bs = Ok r /\ below k r = true.
Proof.
  induction bs as [|b bs IH]; cbn [winner]; intros k0 H HB; [eauto|]. unfold hkind. assert (Hb := HB b (or_introl eq_refl)).
  assert (T : below k0 (kd s b) = true \/ below (kd s b) k0 = true) by (destruct k, k0, (kd s b); cbn in H, Hb |- *; auto; discriminate).
  destruct (below k0 (kd s b)) eqn:E; [apply IH; auto; intros; apply HB; now right|]. destruct T as [T|T]; [discriminate|]. rewrite T. apply IH; auto. intros; apply HB; now right.
Qed.
Lemma winner_is s k bs : (exists b, In b bs /\ kd s b = k) -> (forall b, In b bs -> below k (kd s b) = true) -> winner s KType bs = Ok k.
Proof.
  intros (b & Hb & E) HB. destruct (winner_plain s k bs KType) as (r & W & R); [destruct k; reflexivity|auto|]. rewrite W. f_equal.
  destruct (winner_spec _ _ _ _ W) as (_ & Q & _). specialize (Q b Hb). rewrite E in Q. destruct r, k; cbn in Q, R; congruence.
Qed.
Lemma defines_own s x n : defines s x n <-> own (h_attrs (hget s x)) n <> None.
Proof.
  unfold defines, own. split.
  - intros (a & Ha) H. destruct (find _ (h_attrs (hget s x))) eqn:E; [discriminate|]. eapply find_none in E; [|exact Ha]. cbn in E. now rewrite String.eqb_refl in E.
  - intros H. destruct (find _ (h_attrs (hget s x))) as [[m a]|] eqn:E; [|now elim H]. apply find_some in E as [E1 E2]. cbn in E2. apply String.eqb_eq in E2. subst. eauto.
Qed.
Lemma get_idx_same k i j fs gs : get_idx k i = Ok fs -> get_idx k j = Ok gs -> (fs = gs <-> same_index k i j).
Proof.
  assert (TI : forall a b, types a = types b -> a = b) by (intros a b H; rewrite <- (types_snd a), <- (types_snd b); now rewrite H).
  destruct k, i, j; cbn [get_idx same_index]; intros H1 H2; try discriminate; injection H1 as <-; injection H2 as <-.
  - split; [intros H; apply TI in H; congruence|congruence].
  - split; congruence.
  - rewrite <- sorted_eq. split; [apply TI|congruence].
Qed.
Lemma get_idx_say k i fs : get_idx k i = Ok fs -> fields_say k i (map snd fs).
Proof.
  destruct k, i; cbn [get_idx fields_say is_kind below andb]; intros H; try discriminate; injection H as <-; rewrite ?types_snd; auto.
  split; [apply sorted_In|apply incr_NoDup, sorted_incr].
Qed.
