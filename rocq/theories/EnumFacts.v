(** Invariants of histories of Enum classes. *)
From Coq Require Import Lia ZifyBool.
From Verif Require Import PyBase BVFacts InternModel MetaModel MergeFacts EnumModel EnumSpec.

Definition clen (s : est) : nat := length (eclasses s).
Definition mlen (s : est) : nat := length (emembers s).
Definition to_attr (e : string * nat) : string * eattr := (fst e, EMem (snd e)).
Definition unb_of (c : nat) (bt : option (list nat)) (l : list nat) : option nat :=
  match bt, l with None, _ => Some c | Some _, [u] => Some u | Some _, _ => None end.
Definition values_of (s : est) (t : list (string * nat)) : efields := map (fun e => (fst e, em_val (mget s (snd e)))) t.

Lemma str_mem_In x l : str_mem x l = true <-> In x l.
Proof.
  unfold str_mem. rewrite existsb_exists. split.
  - intros (y & H & E). apply String.eqb_eq in E. now subst.
  - intros H. exists x. now rewrite String.eqb_refl.
Qed.
Lemma str_mem_false x l : str_mem x l = false <-> ~ In x l.
Proof. rewrite <- str_mem_In. destruct (str_mem x l); split; congruence. Qed.
Lemma distinct_spec l : distinct l = true <-> NoDup l.
Proof.
  induction l as [|x l IH]; cbn; [split; auto; constructor|]. rewrite andb_true_iff, negb_true_iff, IH, str_mem_false. split.
  - intros [A B]. now constructor.
  - intros H. now inversion H.
Qed.
Lemma val_eqb_spec v w : val_eqb v w = true <-> same_value v w.
Proof.
  unfold val_eqb, same_value, number. destruct v as [z|b|i], w as [z'|b'|j]; cbn;
    try (rewrite Z.eqb_eq); try (rewrite Nat.eqb_eq); try (split; intros; congruence || tauto);
    try destruct b; try destruct b'; split; intros; congruence || lia || tauto.
Qed.
Lemma same_value_refl v : same_value v v.
Proof. destruct v; cbn; auto. Qed.
Lemma same_value_sym v w : same_value v w -> same_value w v.
Proof. destruct v, w; cbn; auto. Qed.
Lemma same_value_trans u v w : same_value u v -> same_value v w -> same_value u w.
Proof. destruct u, v, w; cbn; try tauto; congruence. Qed.
Lemma val_eqb_refl v : val_eqb v v = true.
Proof. apply val_eqb_spec, same_value_refl. Qed.
Lemma val_eqb_sym v w : val_eqb v w = val_eqb w v.
Proof.
  destruct (val_eqb v w) eqn:A, (val_eqb w v) eqn:B; auto; exfalso.
  - apply val_eqb_spec, same_value_sym, val_eqb_spec in A. congruence.
  - apply val_eqb_spec, same_value_sym, val_eqb_spec in B. congruence.
Qed.

(** Later states. *)
Record eext (s s' : est) : Prop := { x_cls : exists l, eclasses s' = eclasses s ++ l; x_mem : exists l, emembers s' = emembers s ++ l }.
Lemma eext_refl s : eext s s.
Proof. split; exists []; now rewrite app_nil_r. Qed.
Lemma eext_trans a b c : eext a b -> eext b c -> eext a c.
Proof.
  intros [[l A] [l' B]] [[k C] [k' D]]. split; [exists (l ++ k)|exists (l' ++ k')]; rewrite ?C, ?D, ?A, ?B; now rewrite app_assoc.
Qed.
Lemma ext_cget s s' c : eext s s' -> (c < clen s)%nat -> cget s' c = cget s c.
Proof. intros [[l A] _] H. unfold cget. rewrite A. now apply app_nth1. Qed.
Lemma ext_mget s s' m : eext s s' -> (m < mlen s)%nat -> mget s' m = mget s m.
Proof. intros [_ [l A]] H. unfold mget. rewrite A. now apply app_nth1. Qed.
Lemma ext_clen s s' : eext s s' -> (clen s <= clen s')%nat.
Proof. intros [[l A] _]. unfold clen. rewrite A, app_length. lia. Qed.
Lemma ext_mlen s s' : eext s s' -> (mlen s <= mlen s')%nat.
Proof. intros [_ [l A]]. unfold mlen. rewrite A, app_length. lia. Qed.
Lemma ec3_ext s s' bs : eext s s' -> (forall b, In b bs -> (b < clen s)%nat) -> ec3 s' bs = ec3 s bs.
Proof.
  intros X H. unfold ec3. replace (map (fun b => ec_mro (cget s' b)) bs) with (map (fun b => ec_mro (cget s b)) bs); auto.
  apply map_ext_in. intros b Hb. now rewrite (ext_cget s s') by auto.
Qed.

Record einv (s : est) : Prop := {
  v_len : (0 < clen s)%nat;
  v_zero : cget s 0 = ecls0;
  v_bases : forall c b, (c < clen s)%nat -> In b (ec_bases (cget s c)) -> (b < c)%nat;
  v_nonempty : forall c, (0 < c < clen s)%nat -> ec_bases (cget s c) <> [];
  v_mro : forall c, (c < clen s)%nat -> exists l, ec_mro (cget s c) = c :: l /\ ec3 s (ec_bases (cget s c)) = Some l;
  v_table : forall c t, (c < clen s)%nat -> ec_table (cget s c) = Some t ->
    exists b o st, ec_bases (cget s c) = [b] /\ ec_unbound (cget s c) = Some b /\ ec_fields (cget s c) = Some (map snd t) /\
      NoDup (map fst t) /\ t <> [] /\ map snd t = seq st (length t) /\ ec_attrs (cget s c) = map to_attr t ++ other_attrs o /\
      ~ In "unbound_t"%string (map fst t) /\ (forall n, In n (map fst t) -> ~ In n (reserved_names ++ reserved_sunders)) /\
      forall n m, In (n, m) t -> (m < mlen s)%nat /\ em_cls (mget s m) = c /\ em_name (mget s m) = n;
  v_mem : forall m, (m < mlen s)%nat -> (em_cls (mget s m) < clen s)%nat /\ exists t, ec_table (cget s (em_cls (mget s m))) = Some t /\
      In (em_name (mget s m), m) t;
  v_plain : forall c n a, (0 < c < clen s)%nat -> ec_table (cget s c) = None -> In (n, a) (ec_attrs (cget s c)) -> exists x, a = EOther x;
  v_valid : forall c f m, (c < clen s)%nat -> ec_fields (cget s c) = Some f -> In m f -> (m < mlen s)%nat;
  v_join : forall c, (0 < c < clen s)%nat -> ec_table (cget s c) = None -> exists r, join_fields s None (ec_bases (cget s c)) = Ok r /\
      ec_fields (cget s c) = fst r /\ ec_unbound (cget s c) = unb_of c (fst r) (snd r);
  v_cache : forall k c, In (k, c) (ecache s) -> (c < clen s)%nat /\ exists t o, ec_table (cget s c) = Some t /\
      ec_bases (cget s c) = k_bases k /\ ec_name (cget s c) = k_name k /\ values_of s t = k_fields k /\
      ec_attrs (cget s c) = map to_attr t ++ other_attrs o /\ key_others o = k_others k
}.


Section Inv.
  Variable s : est.
  Hypothesis I : einv s.

  Lemma mro_In c x : (c < clen s)%nat ->
    (In x (ec_mro (cget s c)) <-> x = c \/ exists b, In b (ec_bases (cget s c)) /\ In x (ec_mro (cget s b))).
  Proof.
    intros Hc. destruct (v_mro s I c Hc) as (l & E & M). rewrite E. unfold ec3 in M. cbn [In].
    rewrite (merge_In _ _ _ M). split.
    - intros [H|(q & Hq & Hx)]; [left; congruence|]. right. rewrite in_app_iff, in_map_iff in Hq.
      destruct Hq as [(b & <- & Hb)|[<-|[]]]; eauto. exists x. split; auto.
      destruct (v_mro s I x) as (l' & E' & _); [|rewrite E'; now left]. pose proof (v_bases s I c x Hc Hx). lia.
    - intros [->|(b & Hb & Hx)]; [now left|]. right. exists (ec_mro (cget s b)). split; auto.
      apply in_app_iff. left. apply in_map_iff. eauto.
  Qed.
  Lemma mro_le c : forall x, (c < clen s)%nat -> In x (ec_mro (cget s c)) -> (x <= c)%nat.
  Proof.
    induction c as [c IH] using lt_wf_ind. intros x Hc Hx. apply mro_In in Hx; auto.
    destruct Hx as [->|(b & Hb & Hx)]; auto. pose proof (v_bases s I c b Hc Hb). specialize (IH b H x ltac:(lia) Hx). lia.
  Qed.
  Lemma mro_sub c : forall x, (c < clen s)%nat -> (In x (ec_mro (cget s c)) <-> esub s c x).
  Proof.
    induction c as [c IH] using lt_wf_ind. intros x Hc. rewrite mro_In by auto. split.
    - intros [->|(b & Hb & Hx)]; [constructor|]. pose proof (v_bases s I c b Hc Hb).
      econstructor; eauto. apply IH; auto. lia.
    - intros H. inversion H as [|a b c' Hb Hs]; subst; auto. right. pose proof (v_bases s I c b Hc Hb).
      exists b. split; auto. apply IH; auto. lia.
  Qed.
  Lemma issub_sub a b : (a < clen s)%nat -> (eissub s a b = true <-> esub s a b).
  Proof. intros H. unfold eissub. rewrite mem_In. now apply mro_sub. Qed.
  Lemma sub_le a b : (a < clen s)%nat -> esub s a b -> (b <= a)%nat.
  Proof. intros H Hs. apply mro_sub in Hs; auto. now apply mro_le. Qed.
  Lemma sub_trans a b c : esub s a b -> esub s b c -> esub s a c.
  Proof. intros H. induction H; auto. intros Hc. econstructor; eauto. Qed.
  Lemma sub_enum c : (c < clen s)%nat -> esub s c 0.
  Proof.
    induction c as [c IH] using lt_wf_ind. intros Hc. destruct (Nat.eq_dec c 0) as [->|N]; [constructor|].
    assert (Hn := v_nonempty s I c ltac:(lia)). destruct (ec_bases (cget s c)) as [|b bs] eqn:E; [congruence|].
    assert (Hb : In b (ec_bases (cget s c))) by (rewrite E; now left). pose proof (v_bases s I c b Hc Hb).
    econstructor; eauto. apply IH; lia.
  Qed.
  Lemma mro_NoDup c : (c < clen s)%nat -> NoDup (ec_mro (cget s c)).
  Proof.
    intros L. destruct (v_mro s I c L) as (l & E & M). rewrite E. constructor.
    - intros Hc. unfold ec3 in M. rewrite (merge_In _ _ _ M) in Hc. destruct Hc as (q & Hq & Hc). apply in_app_iff in Hq as [Hq|[<-|[]]].
      + apply in_map_iff in Hq as (b & <- & Hb). assert (Lb := v_bases s I c b L Hb). assert (X := mro_le b c ltac:(lia) Hc). lia.
      + assert (Lb := v_bases s I c c L Hc). lia.
    - unfold ec3 in M. eapply merge_NoDup; eauto.
  Qed.
  Lemma c3_single a : (a < clen s)%nat -> ec3 s [a] = Some (ec_mro (cget s a)).
  Proof.
    intros L. unfold ec3. assert (N := mro_NoDup a L). destruct (v_mro s I a L) as (l & E & _). cbn [map app]. rewrite E in *.
    inversion N as [|? ? N1 N2]; subst. destruct (merge_one l N2) as (f & M). eapply (merge_fuel (S f)). cbn [merge heads flat_map app].
    unfold pick. cbn [heads flat_map app find forallb in_tail]. assert (Ma : mem a l = false) by now apply mem_false. rewrite Ma.
    assert (Mn : mem a [] = false) by reflexivity. rewrite Mn. cbn [negb andb]. cbn [map strip1]. rewrite Nat.eqb_refl. now rewrite M.
  Qed.
End Inv.

(** Reading an old part of a later state. *)
Lemma einst_ext s s' m c : einv s -> eext s s' -> (m < mlen s)%nat -> einst s' m c = einst s m c.
Proof.
  intros I X H. unfold einst, eissub. rewrite (ext_mget s s') by auto. rewrite (ext_cget s s'); auto. now apply (v_mem s I).
Qed.
Lemma eqm_ext s s' x y : einv s -> eext s s' -> (x < mlen s)%nat -> (y < mlen s)%nat -> eq_method s' x y = eq_method s x y.
Proof. intros I X Hx Hy. unfold eq_method. rewrite (einst_ext s s'), !(ext_mget s s') by auto. reflexivity. Qed.
Lemma eqb_ext s s' x y : einv s -> eext s s' -> (x < mlen s)%nat -> (y < mlen s)%nat -> mem_eqb s' x y = mem_eqb s x y.
Proof.
  intros I X Hx Hy. unfold mem_eqb. rewrite !(eqm_ext s s'), !(ext_mget s s') by auto. unfold eissub. rewrite (ext_cget s s'); auto.
  now apply (v_mem s I).
Qed.
Lemma tuple_ext s s' a : einv s -> eext s s' -> forall b, (forall x, In x a -> (x < mlen s)%nat) -> (forall x, In x b -> (x < mlen s)%nat) ->
  tuple_eqb s' a b = tuple_eqb s a b.
Proof.
  intros I X. induction a as [|x a IH]; intros [|y b] Ha Hb; cbn [tuple_eqb]; auto. rewrite (eqb_ext s s'), IH; auto using in_eq, in_cons.
Qed.
Lemma join_ext s s' bs : einv s -> eext s s' -> (forall b, In b bs -> (b < clen s)%nat) -> forall bt,
  (forall f m, bt = Some f -> In m f -> (m < mlen s)%nat) -> join_fields s' bt bs = join_fields s bt bs.
Proof.
  intros I X. induction bs as [|b bs IH]; intros Hb bt Ht; cbn [join_fields]; auto.
  rewrite (ext_cget s s') by auto using in_eq. destruct (ec_fields (cget s b)) as [f|] eqn:E.
  - assert (V : forall m, In m f -> (m < mlen s)%nat) by (intros m; apply (v_valid s I b f); auto using in_eq).
    destruct bt as [f'|].
    + rewrite (tuple_ext s s'); eauto. destruct (tuple_eqb s f' f); auto. apply IH; auto using in_cons.
    + apply IH; auto using in_cons. intros f' m E'. inv E'. auto.
  - rewrite IH; auto using in_cons.
Qed.
Lemma join_valid s bs : einv s -> (forall b, In b bs -> (b < clen s)%nat) -> forall bt r,
  (forall f m, bt = Some f -> In m f -> (m < mlen s)%nat) -> join_fields s bt bs = Ok r -> forall f m, fst r = Some f -> In m f -> (m < mlen s)%nat.
Proof.
  intros I. induction bs as [|b bs IH]; intros Hb bt r Ht H; cbn [join_fields] in H; [inv H; eauto|].
  destruct (ec_fields (cget s b)) as [f|] eqn:E.
  - assert (V : forall m, In m f -> (m < mlen s)%nat) by (intros m; apply (v_valid s I b f); auto using in_eq).
    destruct bt as [f'|].
    + destruct (tuple_eqb s f' f); [|discriminate]. eapply IH; eauto using in_cons.
    + apply (IH (fun b Hb' => Hb b (in_cons _ _ _ Hb')) (Some f) r); auto. intros f' m E'. inv E'. auto.
  - destruct (join_fields s bt bs) as [q|] eqn:Q; [|discriminate]. cbn in H. inv H. cbn [fst]. eapply IH; eauto using in_cons.
Qed.
Lemma values_ext s s' t : eext s s' -> (forall n m, In (n, m) t -> (m < mlen s)%nat) -> values_of s' t = values_of s t.
Proof.
  intros X H. apply map_ext_in. intros [n m] Hm. cbn [fst snd]. rewrite (ext_mget s s'); eauto.
Qed.

(** Adding one class, with its members. *)
Definition add (s : est) (k : ecls) (ms : list emem) (ch : list (ekey * nat)) : est := ES (eclasses s ++ [k]) (emembers s ++ ms) ch.
Lemma add_ext s k ms ch : eext s (add s k ms ch).
Proof. split; eexists; reflexivity. Qed.
Lemma add_new s k ms ch : cget (add s k ms ch) (clen s) = k.
Proof. unfold cget, add, clen. cbn [eclasses]. now rewrite app_nth2, Nat.sub_diag by lia. Qed.
Lemma add_clen s k ms ch : clen (add s k ms ch) = S (clen s).
Proof. unfold clen, add. cbn [eclasses]. rewrite app_length. cbn. lia. Qed.
Lemma add_mlen s k ms ch : mlen (add s k ms ch) = (mlen s + length ms)%nat.
Proof. unfold mlen, add. cbn [emembers]. now rewrite app_length. Qed.

Definition new_ok (s : est) (k : ecls) (ms : list emem) : Prop :=
  match ec_table k with
  | None => ms = [] /\ (forall n a, In (n, a) (ec_attrs k) -> exists x, a = EOther x) /\
      exists r, join_fields s None (ec_bases k) = Ok r /\ ec_fields k = fst r /\ ec_unbound k = unb_of (clen s) (fst r) (snd r)
  | Some t => exists b o, ec_bases k = [b] /\ ec_unbound k = Some b /\ ec_fields k = Some (map snd t) /\ NoDup (map fst t) /\ t <> [] /\
      map snd t = seq (mlen s) (length ms) /\ length t = length ms /\ ec_attrs k = map to_attr t ++ other_attrs o /\
      ~ In "unbound_t"%string (map fst t) /\ (forall n, In n (map fst t) -> ~ In n (reserved_names ++ reserved_sunders)) /\
      forall i, (i < length ms)%nat -> exists v, nth i ms (EM 0 (VInt 0) "") = EM (clen s) v (nth i (map fst t) ""%string)
  end.
Lemma add_inv s k ms ch l : einv s -> ec_bases k <> [] -> (forall b, In b (ec_bases k) -> (b < clen s)%nat) ->
  ec_mro k = clen s :: l -> ec3 s (ec_bases k) = Some l -> new_ok s k ms ->
  (forall kc, In kc ch -> In kc (ecache s) \/
     exists t o, snd kc = clen s /\ ec_table k = Some t /\ ec_bases k = k_bases (fst kc) /\ ec_name k = k_name (fst kc) /\
       combine (map fst t) (map em_val ms) = k_fields (fst kc) /\ ec_attrs k = map to_attr t ++ other_attrs o /\ key_others o = k_others (fst kc)) ->
  einv (add s k ms ch).
Proof.
  intros I Hne Hb Em Ec N Hch. set (s' := add s k ms ch). assert (X : eext s s') by apply add_ext.
  assert (Gn : cget s' (clen s) = k) by apply add_new. assert (L : clen s' = S (clen s)) by apply add_clen.
  assert (LM : mlen s' = (mlen s + length ms)%nat) by apply add_mlen.
  assert (Go : forall c, (c < clen s)%nat -> cget s' c = cget s c) by (intros; now apply ext_cget).
  assert (Mo : forall m, (m < mlen s)%nat -> mget s' m = mget s m) by (intros; now apply ext_mget).
  assert (Mn : forall i, (i < length ms)%nat -> mget s' (mlen s + i) = nth i ms (EM 0 (VInt 0) "")).
  { intros i Hi. unfold mget, s', add. cbn [emembers]. rewrite app_nth2 by (unfold mlen; lia). f_equal. unfold mlen. lia. }
  assert (Cs : forall c, (c < clen s')%nat -> (c < clen s)%nat \/ c = clen s) by lia.
  (* the pairs of a new table *)
  assert (Tn : forall t, ec_table k = Some t -> forall i, (i < length ms)%nat ->
             nth_error t i = Some (nth i (map fst t) ""%string, (mlen s + i)%nat) /\ length t = length ms).
  { intros t E. unfold new_ok in N. rewrite E in N. destruct N as (b & o & _ & _ & _ & _ & _ & Es & El & _). intros i Hi. split; auto.
    destruct (nth_error t i) as [[n m]|] eqn:En; [|apply nth_error_None in En; lia]. f_equal.
    assert (A := nth_error_nth (map fst t) i ""%string (map_nth_error fst i t En)). cbn [fst] in A. rewrite A. f_equal.
    assert (B := map_nth_error snd i t En). rewrite Es in B. cbn [snd] in B. apply (nth_error_nth _ _ 0%nat) in B. rewrite seq_nth in B; auto. }
  constructor.
  - lia.
  - rewrite Go by apply (v_len s I). apply (v_zero s I).
  - intros c b Hc H. destruct (Cs c Hc) as [Hc'| ->]; [rewrite Go in H by auto; eapply v_bases; eauto|]. rewrite Gn in H. auto.
  - intros c Hc. destruct (Cs c ltac:(lia)) as [Hc'| ->]; [rewrite Go by auto; apply (v_nonempty s I); lia|]. now rewrite Gn.
  - intros c Hc. destruct (Cs c Hc) as [Hc'| ->].
    + rewrite Go by auto. destruct (v_mro s I c Hc') as (q & E & M). exists q. split; auto. rewrite (ec3_ext s s'); auto.
      intros b B. pose proof (v_bases s I c b Hc' B). lia.
    + rewrite Gn. exists l. split; auto. now rewrite (ec3_ext s s').
  - intros c t Hc E. destruct (Cs c Hc) as [Hc'| ->].
    + rewrite Go in * by auto. destruct (v_table s I c t Hc' E) as (b & o & st & A1 & A2 & A3 & A4 & A5 & A6 & A7 & A8 & A9 & A10).
      exists b, o, st. do 9 (split; [solve [auto]|]). intros n m H. destruct (A10 n m H) as (B1 & B2 & B3). rewrite Mo by auto. split; [lia|auto].
    + rewrite Gn in *. assert (T := Tn t E). unfold new_ok in N. rewrite E in N.
      destruct N as (b & o & A1 & A2 & A3 & A4 & A5 & A6 & A7 & A8 & A9 & A10 & A11).
      exists b, o, (mlen s). do 5 (split; [solve [auto]|]). split; [now rewrite A6, A7|]. do 3 (split; [solve [auto]|]).
      intros n m H. apply In_nth_error in H as (i & Hi). assert (Li : (i < length ms)%nat).
      { rewrite <- A7. apply nth_error_Some. congruence. }
      destruct (T i Li) as [T1 _]. rewrite Hi in T1. injection T1 as En Em'. destruct (A11 i Li) as (v & Hv).
      subst m. rewrite Mn by auto. rewrite Hv. cbn [em_cls em_name]. split; [lia|]. auto.
  - intros m Hm. destruct (Nat.lt_ge_cases m (mlen s)) as [Hm'|Hm'].
    + rewrite Mo by auto. destruct (v_mem s I m Hm') as (B1 & t & B2 & B3). split; [lia|]. rewrite Go by auto. eauto.
    + unfold new_ok in N. destruct (ec_table k) as [t|] eqn:E; [|destruct N as (Zm & _); assert (Zl : length ms = 0%nat) by (now rewrite Zm); lia].
      assert (Hi : (m - mlen s < length ms)%nat) by lia. destruct (Tn t eq_refl _ Hi) as [T1 T2].
      destruct N as (b & o & _ & _ & _ & _ & _ & _ & _ & _ & _ & _ & A11). destruct (A11 _ Hi) as (v & Hv).
      replace m with (mlen s + (m - mlen s))%nat by lia. rewrite Mn by auto. rewrite Hv. cbn [em_cls em_name]. split; [lia|].
      rewrite Gn, E. exists t. split; auto. apply nth_error_In in T1. exact T1.
  - intros c n a Hc E H. destruct (Cs c ltac:(lia)) as [Hc'| ->].
    + rewrite Go in * by auto. apply (v_plain s I c n a); auto; lia.
    + rewrite Gn in *. unfold new_ok in N. rewrite E in N. destruct N as (_ & A & _). eauto.
  - intros c f m Hc E H. destruct (Cs c Hc) as [Hc'| ->].
    + rewrite Go in * by auto. assert (m < mlen s)%nat by (eapply v_valid; eauto). lia.
    + rewrite Gn in *. unfold new_ok in N. destruct (ec_table k) as [t|] eqn:Et.
      * destruct N as (b & o & _ & _ & A3 & _ & _ & A6 & _). rewrite E in A3. injection A3 as A3. rewrite A3, A6 in H. apply in_seq in H. lia.
      * destruct N as (_ & _ & r & J & Ef & _). rewrite E in Ef. symmetry in Ef. assert (m < mlen s)%nat; [|lia].
        eapply (join_valid s (ec_bases k)) with (bt := None) (r := r) (f := f); eauto; discriminate.
  - intros c Hc E. destruct (Cs c ltac:(lia)) as [Hc'| ->].
    + rewrite Go in * by auto. destruct (v_join s I c) as (r & J & R); [lia|auto|]. exists r. split; auto.
      rewrite (join_ext s s'); auto; [|discriminate]. intros b B. pose proof (v_bases s I c b Hc' B). lia.
    + rewrite Gn in *. unfold new_ok in N. rewrite E in N. destruct N as (_ & _ & r & J & R). exists r. split; auto.
      rewrite (join_ext s s'); auto. discriminate.
  - intros kk c H. destruct (Hch _ H) as [H'|H'].
    + destruct (v_cache s I kk c H') as (B0 & t & o & B1 & B2 & B3 & B4 & B5 & B6). split; [lia|]. exists t, o. rewrite Go by auto.
      do 3 (split; [solve [auto]|]). split; [|auto]. rewrite (values_ext s s'); auto. intros n m Hm.
      destruct (v_table s I c t B0 B1) as (b & o' & st & _ & _ & _ & _ & _ & _ & _ & _ & _ & A10). apply (A10 n m Hm).
    + destruct H' as (t & o & B0 & B1 & B2 & B3 & B4 & B5). cbn [snd fst] in *. subst c. split; [lia|]. exists t, o. rewrite Gn.
      do 3 (split; [solve [auto]|]). split; [|auto]. rewrite <- B4. unfold values_of.
      assert (T := Tn t B1). unfold new_ok in N. rewrite B1 in N. destruct N as (_ & _ & _ & _ & _ & _ & _ & _ & A7 & _).
      apply nth_ext with (d := (""%string, VInt 0)) (d' := (""%string, VInt 0)).
      { rewrite map_length, combine_length, !map_length. lia. }
      intros i Hi. rewrite map_length in Hi. assert (Li : (i < length ms)%nat) by lia. destruct (T i Li) as [T1 _].
      rewrite (nth_error_nth _ i (""%string, VInt 0) (map_nth_error (fun e : string * nat => (fst e, em_val (mget s' (snd e)))) i t T1)).
      cbn [fst snd]. rewrite Mn by auto.
      rewrite combine_nth by (rewrite !map_length; lia). f_equal.
      rewrite (nth_indep _ (VInt 0) (em_val (EM 0 (VInt 0) ""))) by (rewrite map_length; lia). now rewrite map_nth.
Qed.

Lemma split_spec l : forall fs o, split_body l = Ok (fs, o) ->
  (forall n v, In (n, v) fs <-> declares l n v) /\ map fst fs = declared l /\
  (forall n, In n (map fst fs) -> ~ In n (reserved_names ++ reserved_sunders)) /\
  (forall n x, In (n, x) o -> In (n, x) l).
Proof.
  induction l as [|[n x] l IH]; intros fs o H; cbn [split_body] in H.
  - inv H. split; [|split; [reflexivity|split; [intros n []|auto]]]. intros n v. unfold declares. cbn. tauto.
  - destruct (str_mem n reserved_sunders) eqn:R1; [discriminate|].
    unfold declared. cbn [filter snd fst]. fold (declared l).
    destruct (is_dunder n || is_sunder n || match x with NMember _ => false | NOther _ d _ => d end) eqn:Sp.
    + destruct (String.eqb n "_name_" && _); [discriminate|]. destruct (split_body l) as [[fs' o']|] eqn:E; [|discriminate].
      cbn in H. inv H. destruct (IH _ _ eq_refl) as (A & B & C & D).
      assert (NM : forall v, x = NMember v -> is_dunder n = false -> is_sunder n = false -> False) by (intros v -> Q1 Q2; rewrite Q1, Q2 in Sp; discriminate).
      split; [|split; [|split]].
      * intros n' v. rewrite A. unfold declares. cbn [In]. split; [tauto|]. intros ([Q|Q] & Q1 & Q2); [|tauto]. inv Q. exfalso. eauto.
      * rewrite B. unfold declared. destruct x as [v|]; auto. destruct (is_dunder n) eqn:Q1; auto. destruct (is_sunder n) eqn:Q2; auto. exfalso. eauto.
      * exact C.
      * intros n' x' [Q|Q]; [inv Q; now left|right; auto].
    + apply orb_false_iff in Sp as [Sp Sp3]. apply orb_false_iff in Sp as [Sp1 Sp2].
      destruct (str_mem n reserved_names) eqn:R2; [discriminate|].
      destruct (split_body l) as [[fs' o']|] eqn:E; [|discriminate]. cbn in H. destruct (IH _ _ eq_refl) as (A & B & C & D).
      apply str_mem_false in R1, R2. rewrite Sp1, Sp2. cbn [negb andb]. destruct x as [v|i d h]; inv H.
      * split; [|split; [|split]].
        -- intros n' v'. cbn [In]. rewrite A. unfold declares. cbn [In]. split.
           ++ intros [Q|Q]; [inv Q; auto|tauto].
           ++ intros ([Q|Q] & Q1 & Q2); [inv Q; auto|tauto].
        -- cbn [map fst]. now rewrite B.
        -- cbn [map fst In]. intros m [<-|Q]; [|auto]. rewrite in_app_iff. tauto.
        -- intros m y Q. right. eauto.
      * split; [|split; [|split]].
        -- intros n' v'. rewrite A. unfold declares. cbn [In]. split; [tauto|]. intros ([Q|Q] & Q1 & Q2); [discriminate|tauto].
        -- exact B.
        -- exact C.
        -- intros m y [Q|Q]; [inv Q; now left|right; eauto].
Qed.
Lemma declared_In l n : In n (declared l) -> In n (map fst l).
Proof. unfold declared. rewrite !in_map_iff. intros (e & A & B). apply filter_In in B as [B _]. eauto. Qed.
Lemma declared_NoDup l : NoDup (map fst l) -> NoDup (declared l).
Proof.
  unfold declared. induction l as [|e l IH]; cbn [map filter]; [constructor|]. intros N. inversion N as [|? ? N1 N2]; subst.
  destruct (match snd e with NMember _ => _ | _ => _ end); auto. cbn [map]. constructor; auto.
  intros H. apply N1. apply in_map_iff in H as (e' & A & B). apply filter_In in B as [B _]. apply in_map_iff. eauto.
Qed.

(** What a new class looks like, and that the invariant holds. *)
Record made_enum (s s' : est) (c : nat) (fs : efields) (name : string) (b : nat) (o : body) : Prop := {
  me_id : c = clen s;
  me_cls : exists k, eclasses s' = eclasses s ++ [k] /\ ec_name k = name /\ ec_bases k = [b] /\ ec_mro k = c :: ec_mro (cget s b) /\
    ec_fields k = Some (seq (mlen s) (length fs)) /\ ec_table k = Some (from_table s fs) /\ ec_unbound k = Some b /\
    ec_attrs k = map to_attr (from_table s fs) ++ other_attrs o;
  me_mem : emembers s' = emembers s ++ map (fun f => EM c (snd f) (fst f)) fs }.
Lemma table_fst s fs : map fst (from_table s fs) = map fst fs.
Proof.
  unfold from_table. generalize (length (emembers s)). induction fs as [|f fs IH]; intros n; cbn; [reflexivity|]. now rewrite IH.
Qed.
Lemma table_snd s fs : map snd (from_table s fs) = seq (mlen s) (length fs).
Proof.
  unfold from_table, mlen. generalize (length (emembers s)). induction fs as [|f fs IH]; intros n; cbn; [reflexivity|]. now rewrite IH.
Qed.
Lemma new_cls_spec s name bases attrs k : new_cls s name bases attrs = Ok k ->
  exists r l, join_fields s None bases = Ok r /\ ec3 s bases = Some l /\ k = EC name bases (clen s :: l) (fst r) None (unb_of (clen s) (fst r) (snd r)) attrs.
Proof.
  unfold new_cls. destruct (join_fields s None bases) as [r|] eqn:J; [|discriminate]. cbn [bind].
  destruct (ec3 s bases) as [l|] eqn:C; [|discriminate]. intros H. inv H. exists r, l. split; auto.
Qed.
Lemma new_enum_spec s fs name bases o s' c ch :
  einv s -> (forall b, In b bases -> (b < clen s)%nat) -> fs <> [] -> NoDup (map fst fs) ->
  (forall n, In n (map fst fs) -> ~ In n (reserved_names ++ reserved_sunders)) ->
  new_enum s fs name bases (other_attrs o) = (s', Ok c) ->
  (forall kc, In kc ch -> In kc (ecache s) \/ kc = (EKey fs bases name (key_others o), clen s)) ->
  exists b, bases = [b] /\ made_enum s s' c fs name b o /\ ecache s' = ecache s /\ einv (ES (eclasses s') (emembers s') ch).
Proof.
  intros I Hb Hf Nd Rs H Hch. unfold new_enum in H. destruct bases as [|b [|b' bs]]; try discriminate.
  destruct (new_cls s name [b] (other_attrs o)) as [k0|] eqn:K; [|discriminate].
  destruct (str_mem "unbound_t" (map fst fs)) eqn:U; [discriminate|]. injection H as Hs Hc.
  apply new_cls_spec in K as (r & l & J & C & ->). rewrite (c3_single s I b) in C by auto using in_eq. injection C as C. subst l.
  cbn [ec_name ec_bases ec_mro ec_attrs] in Hs.
  match type of Hs with ES (_ ++ [?kk]) _ _ = _ => set (k := kk) in Hs end.
  exists b. split; auto. split; [|split].
  - constructor; [auto| |subst s' c; reflexivity]. exists k. subst s' c. cbn [eclasses]. unfold k. cbn.
    rewrite table_snd. do 4 (split; [reflexivity|]). split; [reflexivity|]. do 2 (split; [reflexivity|]). reflexivity.
  - subst s'. reflexivity.
  - subst s' c. cbn [eclasses emembers]. change (length (eclasses s)) with (clen s) in *.
    set (ms := map (fun f : string * eval => EM (clen s) (snd f) (fst f)) fs).
    change (einv (add s k ms ch)). assert (Ll : length ms = length fs) by apply map_length.
    assert (Lt : length (from_table s fs) = length fs).
    { rewrite <- (map_length fst), table_fst. apply map_length. }
    eapply (add_inv s k ms ch (ec_mro (cget s b)) I).
    + discriminate.
    + exact Hb.
    + reflexivity.
    + cbn. apply (c3_single s I). auto using in_eq.
    + unfold new_ok. cbn [ec_table k]. exists b, o. cbn [ec_bases ec_unbound ec_fields ec_attrs k]. rewrite table_fst, table_snd, Ll.
      do 4 (split; [solve [auto]|]). split; [intros Z; apply Hf; destruct fs; [auto|discriminate Lt || (rewrite Z in Lt; discriminate)]|].
      split; [reflexivity|]. split; [exact Lt|]. split; [reflexivity|]. split; [now apply str_mem_false|]. split; [exact Rs|].
      intros i Hi. destruct (nth_error fs i) as [f|] eqn:En; [|apply nth_error_None in En; lia]. exists (snd f).
      assert (E1 := nth_error_nth ms i (EM 0 (VInt 0) "") (map_nth_error _ i fs En)). rewrite E1.
      now rewrite (nth_error_nth _ i ""%string (map_nth_error fst i fs En)).
    + intros kc Q. destruct (Hch kc Q) as [Q'| ->]; auto. right. exists (from_table s fs), o. cbn [fst snd k_fields k_bases k_name k_others].
      cbn [ec_table ec_bases ec_name ec_attrs k]. split; [reflexivity|]. split; [reflexivity|]. split; [reflexivity|]. split; [reflexivity|]. split.
      * rewrite table_fst. unfold ms. rewrite map_map. cbn [em_val]. clear. induction fs as [|[n v] fs IH]; cbn; [reflexivity|]. now rewrite IH.
      * split; reflexivity.
Qed.
Lemma put_cls_inv s name bases o k : einv s -> bases <> [] -> (forall b, In b bases -> (b < clen s)%nat) ->
  new_cls s name bases (other_attrs o) = Ok k -> einv (put_cls s k).
Proof.
  intros I Hne Hb H. apply new_cls_spec in H as (r & l & J & C & ->).
  assert (E : forall k, put_cls s k = add s k [] (ecache s)) by (intros; unfold put_cls, add; now rewrite app_nil_r). rewrite E.
  eapply add_inv; cbn [ec_bases ec_mro ec_table]; eauto.
  unfold new_ok. cbn. split; auto. split; [|eauto]. intros n a Q. unfold other_attrs in Q. apply in_map_iff in Q as ([n' x] & Q & _). inv Q. eauto.
Qed.

Lemma cache_inv s ch : einv s -> (forall e, In e ch -> In e (ecache s)) -> einv (ES (eclasses s) (emembers s) ch).
Proof.
  intros I H. set (s' := ES (eclasses s) (emembers s) ch). assert (X : eext s s') by (split; exists []; now rewrite app_nil_r).
  constructor; try (apply I).
  - intros c Hc E. destruct (v_join s I c Hc E) as (r & J & R). exists r. split; auto. change (cget s' c) with (cget s c).
    rewrite (join_ext s s'); auto; [|discriminate]. intros b Hb. pose proof (v_bases s I c b (proj2 Hc) Hb). change (clen s') with (clen s) in Hc. lia.
  - intros k c Hk. apply (v_cache s I k c). auto.
Qed.
Lemma elookup_In s k c : elookup s k = Some c -> exists k', In (k', c) (ecache s) /\ ekey_eqb k k' = true.
Proof.
  unfold elookup. destruct (find _ _) as [[k' c']|] eqn:F; [|discriminate]. cbn. intros E. inv E. apply find_some in F as [A B]. eauto.
Qed.

(** What the class statement gives: an old class with an equal key, or a new one. *)
Inductive handled (s : est) (cache : bool) (fs : efields) (name : string) (bases : list nat) (o : body) : est -> nat -> Prop :=
| hd_plain : forall s' k, fs = [] -> new_cls s name bases (other_attrs o) = Ok k -> s' = put_cls s k -> handled s cache fs name bases o s' (clen s)
| hd_old : forall k c, fs <> [] -> cache = true -> In (k, c) (ecache s) -> ekey_eqb (EKey fs bases name (key_others o)) k = true ->
    handled s cache fs name bases o s c
| hd_new : forall s' c b, fs <> [] -> bases = [b] -> made_enum s s' c fs name b o ->
    (ecache s' = if cache then (EKey fs bases name (key_others o), c) :: ecache s else ecache s) ->
    handled s cache fs name bases o s' c.
Lemma handler_spec s cache fs name bases o s' c :
  einv s -> bases <> [] -> (forall b, In b bases -> (b < clen s)%nat) -> NoDup (map fst fs) ->
  (forall n, In n (map fst fs) -> ~ In n (reserved_names ++ reserved_sunders)) ->
  handler s cache fs name bases o = (s', Ok c) -> einv s' /\ eext s s' /\ handled s cache fs name bases o s' c.
Proof.
  intros I Hne Hb Nd Rs H. unfold handler in H. destruct fs as [|f fs].
  - destruct (new_cls s name bases (other_attrs o)) as [k|] eqn:K; [|discriminate]. inv H. split; [eapply put_cls_inv; eauto|]. split.
    + split; [eexists; reflexivity|exists []; now rewrite app_nil_r].
    + eapply hd_plain; eauto.
  - assert (Hf : f :: fs <> []) by discriminate. remember (f :: fs) as FS eqn:EF. clear EF f fs. destruct cache.
    + destruct (existsb _ o); [discriminate|]. destruct (elookup s _) as [c'|] eqn:L.
      * inv H. split; auto. split; [apply eext_refl|]. apply elookup_In in L as (k & A & B). eapply hd_old; eauto.
      * destruct (new_enum s FS name bases (other_attrs o)) as [s1 [c1|e]] eqn:E; [|discriminate]. inv H.
        destruct (new_enum_spec s FS name bases o s1 c ((EKey FS bases name (key_others o), c) :: ecache s) I Hb Hf Nd Rs E) as (b & Eb & M & Ch & I').
        { intros kc [<-|Q]; auto. right. unfold new_enum in E. destruct bases as [|b0 [|]]; try discriminate.
          destruct (new_cls s name [b0] (other_attrs o)); [|discriminate]. destruct (str_mem _ _); [discriminate|]. now inv E. }
        rewrite Ch. split; [exact I'|]. split.
        { destruct M as [M1 (k & M2 & _) M3]. split; [exists [k]; exact M2|eexists; exact M3]. }
        eapply hd_new; eauto. destruct M as [M1 M2 M3]. constructor; auto.
    + destruct (new_enum_spec s FS name bases o s' c (ecache s) I Hb Hf Nd Rs H) as (b & Eb & M & Ch & I'); auto.
      rewrite <- Ch in I'. replace (ES (eclasses s') (emembers s') (ecache s')) with s' in I' by now destruct s'. split; auto. split.
      { destruct M as [M1 (k & M2 & _) M3]. split; [exists [k]; exact M2|eexists; exact M3]. }
      eapply hd_new; eauto.
Qed.
Lemma handler_raise s cache fs name bases o s' e : handler s cache fs name bases o = (s', Raise e) -> s' = s.
Proof.
  intros H. unfold handler in H. destruct fs as [|f fs].
  - destruct (new_cls s name bases (other_attrs o)); now inv H.
  - assert (R : forall s2 e2, new_enum s (f :: fs) name bases (other_attrs o) = (s2, Raise e2) -> s2 = s).
    { intros s2 e2 E. unfold new_enum in E. destruct bases as [|b [|]]; try now inv E. destruct (new_cls s name [b] (other_attrs o)); [|now inv E].
      destruct (str_mem _ _); now inv E. }
    destruct cache.
    + destruct (existsb _ o); [now inv H|]. destruct (elookup s _); [discriminate|].
      destruct (new_enum s (f :: fs) name bases (other_attrs o)) as [s1 [c1|e1]] eqn:E; [discriminate|]. inv H. eauto.
    + eauto.
Qed.

Lemma inv0 : einv est0.
Proof.
  constructor; unfold clen, mlen; cbn [eclasses emembers ecache est0 length]; try lia.
  - reflexivity.
  - intros c b H. assert (c = 0%nat) as -> by lia. intros [].
  - intros c H. assert (c = 0%nat) as -> by lia. exists []. split; reflexivity.
  - intros c t H E. assert (c = 0%nat) as -> by lia. discriminate.
  - intros c f m H E. assert (c = 0%nat) as -> by lia. discriminate.
  - intros k c [].
Qed.
Lemma step_inv s o : einv s -> einv (estep s o) /\ eext s (estep s o).
Proof.
  intros I. unfold estep. destruct (eok s o) eqn:K; cbn [negb]; [|auto using eext_refl]. destruct o as [name bases l cache|u name fs cache|k]; cbn [eok] in K.
  - apply andb_true_iff in K as [K K3]. apply andb_true_iff in K as [K1 K2]. rewrite forallb_forall in K2. apply distinct_spec in K3.
    unfold enum_stmt. destruct (split_body l) as [[fs o]|e] eqn:Sp; [|auto using eext_refl].
    apply split_spec in Sp as (A & B & C & D).
    destruct (handler s cache fs name bases o) as [s' [c|e]] eqn:H; cbn [fst].
    + apply handler_spec in H; [tauto|auto| | | |auto].
      * intros ->. discriminate.
      * intros b Hb. specialize (K2 b Hb). apply Nat.ltb_lt in K2. exact K2.
      * rewrite B. now apply declared_NoDup.
    + apply handler_raise in H. subst. auto using eext_refl.
  - apply andb_true_iff in K as [K1 K2]. apply Nat.ltb_lt in K1. apply distinct_spec in K2. unfold enum_from_fields.
    destruct (ec_fields (cget s u)); [auto using eext_refl|]. destruct (existsb (fun f => str_mem (fst f) _) fs) eqn:R; [auto using eext_refl|].
    destruct (existsb (fun f => is_dunder (fst f)) fs); [auto using eext_refl|]. destruct (handler s cache fs name [u] []) as [s' [c|e]] eqn:H; cbn [fst].
    + apply handler_spec in H; [tauto|auto|discriminate| |auto|].
      * intros b [<-|[]]. exact K1.
      * intros n Hn Hr. apply in_map_iff in Hn as (f & <- & Hf). apply not_true_iff_false in R. apply R. apply existsb_exists. exists f. split; auto.
        now apply str_mem_In.
    + apply handler_raise in H. subst. auto using eext_refl.
  - split; [|split; exists []; now rewrite app_nil_r]. apply cache_inv; auto. intros e He. apply in_app_iff in He as [He|He].
    + rewrite <- (firstn_skipn k (ecache s)); apply in_app_iff; auto.
    + rewrite <- (firstn_skipn (S k) (ecache s)); apply in_app_iff; auto.
Qed.
Lemma run_inv h : forall s, einv s -> einv (erun s h) /\ eext s (erun s h).
Proof.
  induction h as [|o h IH]; intros s I; cbn [erun fold_left]; [auto using eext_refl|].
  destruct (step_inv s o I) as [I' X]. destruct (IH _ I') as [I2 X2]. split; auto. eapply eext_trans; eauto.
Qed.
Lemma reached_inv s : ereached s -> einv s.
Proof. intros [h ->]. apply run_inv, inv0. Qed.
