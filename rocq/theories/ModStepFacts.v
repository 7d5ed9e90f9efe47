(** Lemmas about ModModel.v: making classes and applying modifiers keeps the invariant. *)
From Coq Require Import Lia.
From Verif Require Import PyBase BVFacts MetaModel MergeFacts ModModel ModSpec ModFacts.

Lemma get_kls_app s s' l c : table s' = table s ++ l -> (c < tlen s)%nat -> get_kls s' c = get_kls s c.
Proof. intros E H. unfold get_kls. rewrite E. now apply app_nth1. Qed.
Lemma get_kls_new s k : get_kls (add_kls s k) (tlen s) = k.
Proof. unfold get_kls, add_kls, tlen. cbn [table]. rewrite app_nth2 by lia. now rewrite Nat.sub_diag. Qed.
Lemma get_kls_old s k c : (c < tlen s)%nat -> get_kls (add_kls s k) c = get_kls s c.
Proof. intros H. eapply get_kls_app; eauto. reflexivity. Qed.
Lemma tlen_add s k : tlen (add_kls s k) = S (tlen s).
Proof. unfold tlen, add_kls. cbn [table]. rewrite app_length. cbn. lia. Qed.
Lemma live_add s k c : live s c = true -> live (add_kls s k) c = true.
Proof. rewrite !live_spec, tlen_add. intros [A B]. split; [lia|exact B]. Qed.
Lemma live_add_new s k : inv s -> live (add_kls s k) (tlen s) = true.
Proof. intros I. rewrite live_spec, tlen_add. split; [lia|]. cbn. intros H. apply (v_gone s I) in H. lia. Qed.
Lemma live_add_back s k c : (c < tlen s)%nat -> live (add_kls s k) c = true -> live s c = true.
Proof. rewrite !live_spec. intros H [A B]. split; auto. Qed.

Lemma dup_ext f g l : (forall x, In x l -> f x = g x) -> dup f l = dup g l.
Proof.
  unfold dup, dbl. induction l as [|a l IH]; intros H; auto. cbn [flat_map]. rewrite H by now left.
  f_equal. apply IH. intros. apply H. now right.
Qed.

Lemma add_inv s bs l : inv s -> linearize s bs = Some l -> (forall b, In b bs -> live s b = true) ->
  inv (add_kls s (Kls bs (tlen s :: l))).
Proof.
  intros I L Lb. set (k := Kls bs (tlen s :: l)).
  assert (LT : forall b, In b bs -> (b < tlen s)%nat) by (intros; apply live_lt; auto).
  assert (OLD : forall c, (c < tlen s)%nat -> get_kls (add_kls s k) c = get_kls s c) by (intros; now apply get_kls_old).
  assert (CL : forall m c t, In (m, c, t) (cached s) -> (c < tlen s)%nat /\ (t < tlen s)%nat).
  { intros m c t H. pose proof (cached_key s I _ _ _ H) as [A _]. destruct (v_ok s I _ _ _ H) as (B & _). apply live_lt in B. lia. }
  split.
  - intros c H. rewrite tlen_add. apply (v_gone s I) in H. lia.
  - intros c b Hc Hb. rewrite tlen_add in Hc. destruct (Nat.eq_dec c (tlen s)) as [->|N].
    + rewrite get_kls_new in Hb. auto.
    + rewrite OLD in Hb by lia. apply (v_bases s I c b); auto. lia.
  - intros c Hc. rewrite tlen_add in Hc. destruct (Nat.eq_dec c (tlen s)) as [->|N].
    + rewrite get_kls_new. exists l. split; auto. cbn [k_bases k]. rewrite <- L. apply linearize_ext. intros. apply OLD; auto.
    + rewrite OLD by lia. destruct (v_mro s I c) as (l' & E & L'); [lia|]. exists l'. split; auto. rewrite <- L'. apply linearize_ext.
      intros b Hb. apply OLD. pose proof (v_bases s I c b ltac:(lia) Hb). lia.
  - intros c b Hc Hb. apply live_add. destruct (Nat.eq_dec c (tlen s)) as [->|N].
    + rewrite get_kls_new in Hb. auto.
    + assert (c < tlen s)%nat by (apply live_lt in Hc; rewrite tlen_add in Hc; lia). rewrite OLD in Hb by lia.
      apply live_add_back in Hc; auto. eapply v_live; eauto.
  - intros c H. apply live_add. now apply (v_held s I).
  - apply (v_lookup s I).
  - apply (v_subs s I).
  - apply (v_keys s I).
  - apply (v_vals s I).
  - intros m c t H. destruct (v_ok s I _ _ _ H) as (A & B). split; [now apply live_add|exact B].
  - intros m c t x H Hx. destruct (CL _ _ _ H). rewrite OLD in Hx by auto. exact (v_up s I _ _ _ x H Hx).
  - intros m c t H. destruct (CL _ _ _ H). rewrite !OLD by auto. exact (v_shape s I _ _ _ H).
  - apply (v_mgone s I).
  - apply (v_mheld s I).
  - apply (v_names s I).
  - apply (v_nkeys s I).
Qed.

Lemma register_find s m c t m' c' :
  find_cached (register s m c t) m' c' = if (Nat.eqb m m' && Nat.eqb c c')%bool then Some t else find_cached s m' c'.
Proof. unfold find_cached, register. cbn [cached find fst snd]. destruct (Nat.eqb m m' && Nat.eqb c c')%bool; reflexivity. Qed.

Lemma register_inv s m c t M : inv s -> tlen s = S t -> live s t = true -> (forall e, In e (cached s) -> snd e <> t) ->
  m <> 0%nat -> mlive s m = true -> find_cached s m c = None -> (c < t)%nat ->
  k_mro (get_kls s c) = c :: M ->
  (forall x, In x M -> exists tx, find_cached s m x = Some tx) ->
  (forall x k, In x (k_mro (get_kls s c)) -> ~ In (m, k, x) (cached s)) ->
  k_bases (get_kls s t) = c :: map (fc s m) (k_bases (get_kls s c)) ->
  k_mro (get_kls s t) = t :: c :: dup (fc s m) M ->
  inv (register s m c t).
Proof.
  intros I Ht Lt Ft Hm Lm Fn Hc EM Up Un Eb Em. set (s' := register s m c t).
  assert (FK : forall e, In e (cached s) -> fst e <> (m, c)).
  { intros [[m' c'] t'] H E. cbn in E. inv E. apply (find_of_In s) in H; [congruence|apply (v_keys s I)]. }
  assert (FO : forall m' x tx, find_cached s m' x = Some tx -> find_cached s' m' x = Some tx).
  { intros m' x tx H. unfold s'. rewrite register_find. destruct (Nat.eqb m m' && Nat.eqb c x)%bool eqn:E; auto.
    apply andb_true_iff in E as [A B]. apply Nat.eqb_eq in A, B. subst. congruence. }
  assert (FCO : forall m' x tx, find_cached s m' x = Some tx -> fc s' m' x = fc s m' x).
  { intros m' x tx H. unfold fc. now rewrite (FO _ _ _ H), H. }
  assert (NM : ~ In c M).
  { intros H. destruct (Up c H) as (tx & E). congruence. }
  assert (MT : forall x, In x (k_mro (get_kls s c)) -> (x <= c)%nat).
  { intros x Hx. apply (kmro_le s I c x); auto. lia. }
  split.
  - apply (v_gone s I).
  - apply (v_bases s I).
  - apply (v_mro s I).
  - apply (v_live s I).
  - apply (v_held s I).
  - unfold s', register. cbn [lookup cached map fst snd]. now rewrite (v_lookup s I).
  - unfold s', register. cbn [subs cached map fst snd]. now rewrite (v_subs s I).
  - unfold s', register. cbn [cached map fst]. constructor; [|apply (v_keys s I)].
    intros H. apply in_map_iff in H as (e & E & H). now apply FK in H.
  - unfold s', register. cbn [cached map snd]. constructor; [|apply (v_vals s I)].
    intros H. apply in_map_iff in H as (e & E & H). now apply Ft in H.
  - intros m' c' t' [E|H]; [inv E; auto|]. exact (v_ok s I _ _ _ H).
  - change (get_kls s') with (get_kls s). intros m' c' t' x [E|H] Hx.
    + inv E. split.
      * unfold s'. rewrite register_find. destruct (Nat.eqb_spec c' x) as [->|N].
        -- rewrite Nat.eqb_refl. cbn. eauto.
        -- rewrite andb_false_r. rewrite EM in Hx. destruct Hx as [Hx|Hx]; [congruence|auto].
      * intros k [E|H]; [|now apply (Un x k) in H]. inv E. specialize (MT _ Hx). lia.
    + destruct (v_up s I _ _ _ x H Hx) as ((tx & E) & U). split; [eauto|]. intros k [K|K]; [|now apply U in K].
      inv K. pose proof (cached_key s I _ _ _ H) as [A B]. apply live_lt in B.
      pose proof (kmro_le s I c' x B Hx). destruct (v_ok s I _ _ _ H) as (L & _). apply live_lt in L. lia.
  - change (get_kls s') with (get_kls s). intros m' c' t' [E|H].
    + inv E. assert (E1 : fc s' m' c' = t') by (unfold fc, s'; rewrite register_find, !Nat.eqb_refl; reflexivity).
      assert (E2 : forall x, In x M -> fc s' m' x = fc s m' x) by (intros x Hx; destruct (Up x Hx); eauto).
      split.
      * rewrite Eb. f_equal. apply map_ext_in. intros b Hb. symmetry. apply E2.
        assert (K : In b (k_mro (get_kls s c'))) by (apply (kmro_base s I); auto; lia). rewrite EM in K.
        destruct K as [->|]; auto. pose proof (v_bases s I b b ltac:(lia) Hb). lia.
      * rewrite Em, EM. unfold dup at 2. rewrite dbl_cons. rewrite E1. cbn [app]. f_equal. f_equal.
        apply dup_ext. intros x Hx. symmetry. auto.
    + destruct (v_shape s I _ _ _ H) as [A B]. pose proof (cached_key s I _ _ _ H) as [C D]. apply live_lt in D. split.
      * rewrite A. f_equal. apply map_ext_in. intros b Hb.
        destruct (v_up s I _ _ _ b H (kmro_base s I c' b D Hb)) as ((tx & E) & _). symmetry. eauto.
      * rewrite B. apply dup_ext. intros x Hx. destruct (v_up s I _ _ _ x H Hx) as ((tx & E) & _). symmetry. eauto.
  - apply (v_mgone s I).
  - apply (v_mheld s I).
  - apply (v_names s I).
  - apply (v_nkeys s I).
Qed.

(** What applying the modifier m to a class no newer than c changes. *)
Record ext (m c : nat) (s s' : mst) : Prop := {
  x_table : exists l, table s' = table s ++ l;
  x_gone : gone s' = gone s;
  x_cached : exists l, cached s' = l ++ cached s /\
    forall e, In e l -> fst (fst e) = m /\ (snd (fst e) <= c)%nat /\ (tlen s <= snd e)%nat;
  x_rest : mnames s' = mnames s /\ mgone s' = mgone s /\ by_name s' = by_name s /\ held s' = held s /\ mheld s' = mheld s
}.
Lemma ext_refl m c s : ext m c s s.
Proof. split; auto. { exists []. now rewrite app_nil_r. } { exists []. split; auto. intros e []. } Qed.
Lemma ext_tlen m c s s' : ext m c s s' -> (tlen s <= tlen s')%nat.
Proof. intros [[l E] _ _ _]. unfold tlen. rewrite E, app_length. lia. Qed.
Lemma ext_trans m c c' s s1 s2 : ext m c s s1 -> ext m c' s1 s2 -> (c <= c')%nat -> ext m c' s s2.
Proof.
  intros X Y Hc. pose proof (ext_tlen _ _ _ _ X) as LL. destruct X as [[l1 E1] G1 (k1 & C1 & D1) R1], Y as [[l2 E2] G2 (k2 & C2 & D2) R2].
  split.
  - exists (l1 ++ l2). now rewrite E2, E1, app_assoc.
  - congruence.
  - exists (k2 ++ k1). split; [rewrite C2, C1; apply app_assoc|]. intros e He. apply in_app_iff in He as [He|He].
    + destruct (D2 e He) as (A & B & C). do 2 (split; auto). lia.
    + destruct (D1 e He) as (A & B & C). do 2 (split; auto). lia.
  - intuition congruence.
Qed.
Lemma ext_weaken m c c' s s' : ext m c s s' -> (c <= c')%nat -> ext m c' s s'.
Proof. intros X H. eapply ext_trans; [exact X|apply ext_refl|exact H]. Qed.
Lemma ext_get m c s s' x : ext m c s s' -> (x < tlen s)%nat -> get_kls s' x = get_kls s x.
Proof. intros [[l E] _ _ _]. eapply get_kls_app; eauto. Qed.
Lemma ext_live m c s s' x : ext m c s s' -> live s x = true -> live s' x = true.
Proof. intros X. rewrite !live_spec. intros [A B]. pose proof (ext_tlen _ _ _ _ X). rewrite (x_gone _ _ _ _ X). split; auto. lia. Qed.
Lemma ext_mlive m c s s' x : ext m c s s' -> mlive s' x = mlive s x.
Proof. intros [_ _ _ (A & B & _)]. unfold mlive. now rewrite A, B. Qed.
Lemma ext_In m c s s' e : ext m c s s' -> In e (cached s) -> In e (cached s').
Proof. intros [_ _ (l & E & _) _] H. rewrite E. apply in_app_iff. auto. Qed.
Lemma ext_In_back m c s s' m' k x : ext m c s s' -> (x < tlen s)%nat -> In (m', k, x) (cached s') -> In (m', k, x) (cached s).
Proof. intros [_ _ (l & E & D) _] Hx H. rewrite E in H. apply in_app_iff in H as [H|]; auto. apply D in H. cbn in H. lia. Qed.
Lemma ext_find m c s s' m' k t : inv s' -> ext m c s s' -> find_cached s m' k = Some t -> find_cached s' m' k = Some t.
Proof. intros I X H. apply find_of_In; [apply (v_keys _ I)|]. eapply ext_In; eauto. now apply find_cached_In. Qed.
Lemma ext_find_none m c s s' m' k : ext m c s s' -> (c < k)%nat -> find_cached s m' k = None -> find_cached s' m' k = None.
Proof.
  intros X Hk H. destruct (find_cached s' m' k) as [t|] eqn:E; auto. apply find_cached_In in E.
  destruct X as [_ _ (l & El & D) _]. rewrite El in E. apply in_app_iff in E as [E|E].
  - apply D in E. cbn in E. lia.
  - unfold find_cached in H. destruct (find _ (cached s)) eqn:F; [discriminate|]. apply find_none with (2 := E) in F. cbn in F.
    now rewrite !Nat.eqb_refl in F.
Qed.

Definition go_mod (f m : nat) := fix go (s : mst) (bs : list nat) : mst * res (list nat) :=
  match bs with
  | [] => (s, Ok [])
  | b :: bs =>
      match modify f s m b with
      | (s, Ok t) => match go s bs with (s, Ok ts) => (s, Ok (t :: ts)) | (s, Raise e) => (s, Raise e) end
      | (s, Raise e) => (s, Raise e)
      end
  end.
Lemma modify_unfold f s m c : modify (S f) s m c =
  match find_cached s m c with
  | Some t => (s, Ok t)
  | None =>
      match go_mod f m s (k_bases (get_kls s c)) with
      | (s, Raise e) => (s, Raise e)
      | (s, Ok ts) =>
          match make_class s (c :: ts) with
          | (s, Ok t) => (register s m c t, Ok t)
          | (s, Raise e) => (s, Raise e)
          end
      end
  end.
Proof. reflexivity. Qed.

Definition good (m c : nat) (s s' : mst) (r : res nat) : Prop :=
  inv s' /\ ext m c s s' /\
  match r with
  | Ok t => find_cached s' m c = Some t
  | Raise e => e = ETypeError /\ exists x k, In x (k_mro (get_kls s c)) /\ In (m, k, x) (cached s)
  end.

Lemma go_ok f m : m <> 0%nat ->
  (forall s c, inv s -> mlive s m = true -> live s c = true -> (c < f)%nat ->
    forall s' r, modify f s m c = (s', r) -> good m c s s' r) ->
  forall bs s c, inv s -> mlive s m = true -> (forall b, In b bs -> live s b = true /\ (b < c)%nat) -> (c <= f)%nat ->
  forall s' r, go_mod f m s bs = (s', r) ->
    inv s' /\ (bs <> [] -> exists k, (k < c)%nat /\ ext m k s s') /\ (bs = [] -> s' = s) /\
    match r with
    | Ok ts => ts = map (fc s' m) bs /\ forall b, In b bs -> exists tb, find_cached s' m b = Some tb
    | Raise e => e = ETypeError /\ exists b x k, In b bs /\ In x (k_mro (get_kls s b)) /\ In (m, k, x) (cached s)
    end.
Proof.
  intros Hm IH. induction bs as [|b bs IHb]; intros s c I Lm Hb Hc s' r H; cbn [go_mod] in H.
  - inv H. split; auto. split; [easy|]. split; auto. split; [reflexivity|easy].
  - destruct (Hb b (or_introl eq_refl)) as [Lb Kb]. destruct (modify f s m b) as [s1 r1] eqn:E1.
    destruct (IH s b I Lm Lb ltac:(lia) _ _ E1) as (I1 & X1 & R1). destruct r1 as [t|e].
    + destruct (go_mod f m s1 bs) as [s2 r2] eqn:E2.
      assert (Lm1 : mlive s1 m = true) by (rewrite (ext_mlive _ _ _ _ _ X1); auto).
      assert (Hb1 : forall b', In b' bs -> live s1 b' = true /\ (b' < c)%nat).
      { intros b' Hb'. destruct (Hb b' (or_intror Hb')). split; auto. eapply ext_live; eauto. }
      destruct (IHb s1 c I1 Lm1 Hb1 Hc _ _ E2) as (I2 & X2 & Z2 & R2).
      assert (X : exists k, (k < c)%nat /\ ext m k s s2).
      { destruct bs as [|b2 bs]; [rewrite (Z2 eq_refl); eauto|]. destruct X2 as (k & Hk & X2); [easy|].
        exists (Nat.max b k). split; [lia|]. eapply ext_trans; [exact X1|eapply ext_weaken; [exact X2|]|]; lia. }
      assert (EX : exists k, ext m k s1 s2).
      { destruct bs as [|b2 bs]; [rewrite (Z2 eq_refl); exists 0%nat; apply ext_refl|]. destruct X2 as (k & Hk & X2); eauto. easy. }
      destruct EX as (kk & EX).
      destruct r2 as [ts|e]; inv H; (split; [auto|]); (split; [auto|]); (split; [easy|]).
      * destruct R2 as [-> Q]. assert (F : find_cached s' m b = Some t) by (eapply ext_find; eauto).
        split; [cbn [map]; f_equal; unfold fc; now rewrite F|]. intros b' [<-|Hb']; eauto.
      * destruct R2 as (-> & b' & x & k & A & B & C). split; auto. exists b', x, k. split; [now right|].
        destruct (Hb b' (or_intror A)) as [Lb' _]. pose proof (live_lt s b' Lb') as Lt.
        rewrite (ext_get _ _ _ _ _ X1) in B by auto. split; auto.
        eapply ext_In_back; [exact X1| |exact C]. pose proof (kmro_le s I b' x Lt B). lia.
    + inv H. split; auto. split; [eauto|]. split; [easy|]. destruct R1 as (-> & x & k & A & B). split; auto.
      exists b, x, k. split; [now left|auto].
Qed.

Lemma modify_ok f : forall s m c, m <> 0%nat -> inv s -> mlive s m = true -> live s c = true -> (c < f)%nat ->
  forall s' r, modify f s m c = (s', r) -> good m c s s' r.
Proof.
  induction f as [|f IH]; intros s m c Hm I Lm Lc Hf s' r H; [lia|]. rewrite modify_unfold in H.
  destruct (find_cached s m c) as [t|] eqn:F.
  { inv H. split; auto. split; [apply ext_refl|auto]. }
  pose proof (live_lt s c Lc) as Hc.
  destruct (go_mod f m s (k_bases (get_kls s c))) as [s1 r1] eqn:G.
  assert (Hb : forall b, In b (k_bases (get_kls s c)) -> live s b = true /\ (b < c)%nat).
  { intros b Hb. split; [eapply v_live; eauto|now apply (v_bases s I c b)]. }
  destruct (go_ok f m Hm (fun s c => IH s m c Hm) _ s c I Lm Hb ltac:(lia) _ _ G) as (I1 & X1 & Z1 & R1).
  assert (X : exists k, (k < c \/ s1 = s)%nat /\ ext m k s s1).
  { destruct (k_bases (get_kls s c)) as [|b bs]; [rewrite (Z1 eq_refl); exists 0%nat; split; auto; apply ext_refl|].
    destruct X1 as (k & Hk & X1); [easy|]. eauto. }
  destruct X as (k0 & Hk0 & X0).
  assert (X : ext m c s s1) by (destruct Hk0 as [| ->]; [eapply ext_weaken; [exact X0|lia]|apply ext_refl]).
  clear X1 Z1.
  destruct r1 as [ts|e].
  - destruct R1 as [-> Q].
    pose proof (ext_get _ _ _ _ c X Hc) as Gc. rewrite <- Gc in Q.
    assert (F1 : find_cached s1 m c = None).
    { destruct Hk0 as [Hk0| ->]; auto. eapply ext_find_none; [exact X0| |]; auto. }
    assert (Hc1 : (c < tlen s1)%nat) by (pose proof (ext_tlen _ _ _ _ X); lia).
    destruct (existsb (fun e => Nat.eqb (fst (fst e)) m && Nat.eqb (snd e) c) (cached s1)) eqn:EX.
    + (* c is itself M(k) *)
      apply existsb_exists in EX as ([[m' k] c'] & In1 & EQ). cbn in EQ. apply andb_true_iff in EQ as [A B].
      apply Nat.eqb_eq in A, B. subst m' c'.
      destruct (v_shape s1 I1 _ _ _ In1) as [Eb _]. pose proof (find_of_In s1 m k c (v_keys _ I1) In1) as Fk.
      assert (ND : linearize s1 (c :: map (fc s1 m) (k_bases (get_kls s c))) = None).
      { destruct (linearize s1 _) eqn:E; auto. apply linearize_NoDup in E. rewrite <- Gc, Eb in E. cbn [map] in E.
        unfold fc at 1 in E. rewrite Fk in E. inversion E as [|? ? N _]; subst. exfalso. apply N. now left. }
      unfold make_class in H. rewrite ND in H. inv H. split; auto. split; auto. split; auto.
      exists c, k. split; [now apply (kmro_self s I)|]. eapply ext_In_back; eauto.
    + assert (Hn : forall k, ~ In (m, k, c) (cached s1)).
      { intros k K. apply Bool.not_true_iff_false in EX. apply EX. apply existsb_exists. exists (m, k, c). split; auto. cbn.
        now rewrite !Nat.eqb_refl. }
      destruct (linearize_modified s1 I1 c m Hc1 Q Hn) as (M & EM & EL).
      unfold make_class in H. rewrite <- Gc, EL in H. fold (tlen s1) in H. inversion H; subst s' r; clear H.
      set (bs := c :: map (fc s1 m) (k_bases (get_kls s1 c))) in *. set (k := Kls bs (tlen s1 :: c :: dup (fc s1 m) M)).
      assert (LB : forall b, In b bs -> live s1 b = true).
      { intros b [<-|Hb']; [eapply ext_live; eauto|]. apply in_map_iff in Hb' as (y & <- & Hy). destruct (Q y Hy) as (ty & Ey).
        apply fc_In in Ey. now apply (v_ok s1 I1) in Ey. }
      assert (I2 : inv (add_kls s1 k)) by (apply add_inv; auto).
      assert (Gc2 : get_kls (add_kls s1 k) c = get_kls s1 c) by (apply get_kls_old; auto).
      assert (I3 : inv (register (add_kls s1 k) m c (tlen s1))).
      { apply (register_inv _ _ _ _ M); auto.
        - apply tlen_add.
        - now apply live_add_new.
        - intros [[m' c'] t'] He E. cbn in E. subst t'. cbn in He. destruct (v_ok s1 I1 _ _ _ He) as (L & _). apply live_lt in L. lia.
        - cbn. rewrite <- (ext_mlive _ _ _ _ m X) in Lm. exact Lm.
        - now rewrite Gc2.
        - intros x Hx. assert (K : In x (k_mro (get_kls s1 c))) by (rewrite EM; now right).
          apply (kmro_In s1 I1) in K; auto. destruct K as [->|(b & Hb' & Hx')].
          + exfalso. destruct (v_mro s1 I1 c Hc1) as (M' & EM' & L'). rewrite EM in EM'. inv EM'.
            pose proof (merge_NoDup _ _ _ EL) as ND. inversion ND as [|? ? N _]; subst. apply N.
            unfold dup, dbl. apply in_flat_map. exists c. split; auto. right. now left.
          + destruct (Q b Hb') as (tb & Eb). apply find_cached_In in Eb. exact (proj1 (v_up s1 I1 _ _ _ x Eb Hx')).
        - rewrite Gc2. intros x k' Hx Hi. apply (kmro_In s1 I1) in Hx; auto. destruct Hx as [->|(b & Hb' & Hx')].
          + now apply Hn in Hi.
          + destruct (Q b Hb') as (tb & Eb). apply find_cached_In in Eb. exact (proj2 (v_up s1 I1 _ _ _ x Eb Hx') k' Hi).
        - rewrite get_kls_new, Gc2. reflexivity.
        - rewrite get_kls_new. reflexivity. }
      split; auto. split.
      * eapply ext_trans; [exact X| |apply le_n]. split; auto.
        -- exists [k]. reflexivity.
        -- exists [(m, c, tlen s1)]. split; [reflexivity|]. intros e [<-|[]]. cbn. auto.

      * rewrite register_find, !Nat.eqb_refl. reflexivity.
  - inv H. split; auto. split; auto. destruct R1 as (-> & b & x & k & A & B & C). split; auto.
    exists x, k. split; auto. apply (kmro_In s I); auto. right. eauto.
Qed.

Lemma call_ok s m c s' r : inv s -> mlive s m = true -> live s c = true -> call s m c = (s', r) -> m <> 0%nat -> good m c s s' r.
Proof.
  intros I Lm Lc H Hm. unfold call in H. destruct (Nat.eqb_spec m 0); [easy|]. eapply modify_ok; eauto.
Qed.
Lemma call_cached s m c t : m <> 0%nat -> find_cached s m c = Some t -> call s m c = (s, Ok t).
Proof. intros Hm H. unfold call. destruct (Nat.eqb_spec m 0); [easy|]. rewrite modify_unfold. now rewrite H. Qed.
