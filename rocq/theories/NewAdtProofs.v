(** Proofs of the theorems stated in NewAdtProps.v. *)
From Coq Require Import Lia.
From Verif Require Import PyBase BVFacts MetaModel HierModel HierSpec MergeFacts HierFacts NewModel NewSpec NewAdtFacts.

Lemma C94_adt_pf : forall h k, usable (hrun h) k ->
  exists s t, new_adt_type (hrun h) k None = Ok (s, t) /\ hunseen (hrun h) t /\ usable s t /\ hkind s t = hkind (hrun h) k /\
    fields_of s t = fields_of (hrun h) k /\ field_dict s t = field_dict (hrun h) k /\ (forall m, getattr s t m = getattr (hrun h) k m) /\
    forall x, hissub s t x = true <-> x = t \/ hissub (hrun h) k x = true.
Proof.
  intros h k A. assert (I := run_inv h). set (s := hrun h) in *. destruct (class_one s k I A) as (s' & t & E).
  exists s', t. unfold new_adt_type. rewrite E. cbn [bind]. split; auto. destruct (child_ok s k s' t I A E) as (I1 & X & A1).
  destruct (single_ok s k "T"%string [] s' t I A E) as (-> & _ & Em & Ef & Et & Ea).
  assert (L := proj1 (proj1 (alive_spec _ _) A)).
  assert (OLD : forall x, In x (h_mro (hget s k)) -> hget s' x = hget s x).
  { intros x Hx. apply mext_get; auto. apply (mro_le s I k) in Hx; auto. lia. }
  split; [unfold hunseen, len; lia|]. split; [exact A1|]. split; [now apply child_kind|]. split; [exact Ef|]. split; [|split].
  - unfold field_dict. rewrite Em. cbn [first_some]. rewrite Et. apply first_some_ext. intros x Hx. now rewrite OLD.
  - intros m. unfold getattr. rewrite Em. cbn [first_some]. rewrite Ea. cbn [others_of map own option_map find].
    apply first_some_ext. intros x Hx. now rewrite OLD.
  - intros x. unfold hissub. rewrite Em, !mem_In. cbn [In]. intuition.
Qed.

Lemma C94_adt_index_pf : forall h k i s t, usable (hrun h) k -> unbound (hrun h) k -> (forall x, In x (idx_refs i) -> usable (hrun h) x) ->
  new_adt_type (hrun h) k (Some i) = Ok (s, t) ->
  hunseen (hrun h) t /\ usable s t /\ hissub s t k = true /\
  (exists fs, fields_of s t = Some fs /\ fields_say (hkind (hrun h) k) i fs) /\
  exists u tk, unbound_t s t = Ok u /\ hunseen (hrun h) u /\ u <> t /\ getitem s k i = Ok (s, tk) /\
    (forall x, hissub s t x = true <-> x = t \/ x = u \/ hissub s tk x = true).
Proof.
  intros h k i s' t A U HR H. assert (I := run_inv h). set (s := hrun h) in *. unfold new_adt_type in H.
  destruct (class_one s k I A) as (s1 & T & E). rewrite E in H. cbn [bind fst snd] in H.
  destruct (child_indexed s k i s1 T s' t I A U HR E H) as (I2 & X & At & -> & Lt & fs & tk & EI & LK & Ft & Ut & SUB).
  assert (L := proj1 (proj1 (alive_spec _ _) A)).
  destruct (lookup_index s' I2 _ _ _ _ LK) as [Atk Ktk].
  split; [unfold hunseen, len in *; lia|]. split; auto. split.
  { apply SUB. right. right. apply (issub_sub s' I2); [now apply alive_spec in Atk|]. eapply by_key; eauto. }
  split; [exists (map snd fs); split; auto; now apply get_idx_say|].
  exists (len s), tk. split; [unfold unbound_t; now rewrite Ut|]. split; [unfold hunseen, len; lia|]. split; [lia|]. split; auto.
  unfold getitem, hkind. rewrite (mext_get s s') by auto. rewrite EI. cbn [bind]. rewrite index_unfold. now rewrite LK.
Qed.

Lemma C94_adt_total_pf : forall h k i, usable (hrun h) k -> unbound (hrun h) k -> (forall x, In x (idx_refs i) -> usable (hrun h) x) ->
  (forall tk, getitem (hrun h) k i = Ok (hrun h, tk) -> exists s t, new_adt_type (hrun h) k (Some i) = Ok (s, t)) /\
  (forall e, new_adt_type (hrun h) k (Some i) = Raise e -> e = ETypeError).
Proof.
  intros h k i A U HR. assert (I := run_inv h). set (s := hrun h) in *. unfold new_adt_type.
  destruct (class_one s k I A) as (s1 & T & E). rewrite E. cbn [bind fst snd]. destruct (child_ok s k s1 T I A E) as (I1 & X & A1).
  split.
  - intros tk H. assert (Q := getitem_ok s k i I A HR). rewrite H in Q. destruct Q as (fs & EI & MD). destruct MD as (_ & _ & _ & LK).
    unfold getitem, hkind. rewrite (child_kind s k s1 T I A E). rewrite EI. cbn [bind]. eapply child_index; [exact I|exact A|exact E|exact LK].
  - intros e H. assert (Q := getitem_ok s1 T i I1 A1 (fun x Hx => mext_alive _ _ _ X (HR x Hx))). now rewrite H in Q.
Qed.

Lemma C94_adt_raises_pf : forall h k i, usable (hrun h) k ->
  match hkind (hrun h) k, i with
  | KTuple, IdxTypes _ | KSum, IdxTypes _ | KAnon, IdxNames _ => False
  | _, _ => True
  end -> new_adt_type (hrun h) k (Some i) = Raise ETypeError.
Proof.
  intros h k i A H. assert (I := run_inv h). set (s := hrun h) in *. unfold new_adt_type.
  destruct (class_one s k I A) as (s1 & T & E). rewrite E. cbn [bind fst snd]. unfold getitem, hkind in *.
  rewrite (child_kind s k s1 T I A E). destruct (kd s k), i; cbn [get_idx bind]; auto; contradiction.
Qed.

Lemma C94_adt_distinct_pf : forall h k l i j s1 t1 s2 t2, usable (hrun h) k -> unbound (hrun h) k -> usable (hrun h) l -> unbound (hrun h) l ->
  (forall x a, (i = Some a \/ j = Some a) -> In x (idx_refs a) -> usable (hrun h) x) ->
  new_adt_type (hrun h) k i = Ok (s1, t1) -> new_adt_type s1 l j = Ok (s2, t2) -> t1 <> t2.
Proof.
  intros h k l i j s1 t1 s2 t2 Ak Uk Al Ul HR H1 H2. assert (I := run_inv h). set (s := hrun h) in *.
  assert (G : forall s k i s' t, hinv s -> halive s k = true -> h_fields (hget s k) = None -> (forall x a, i = Some a -> In x (idx_refs a) -> halive s x = true) ->
    new_adt_type s k i = Ok (s', t) -> hinv s' /\ mext s s' /\ halive s' t = true /\ (len s <= t)%nat).
  { clear. intros s k i s' t I A U HR H. unfold new_adt_type in H. destruct (class_one s k I A) as (s1 & T & E). rewrite E in H. cbn [bind fst snd] in H.
    destruct (child_ok s k s1 T I A E) as (I1 & X1 & A1). destruct i as [i|].
    - destruct (child_indexed s k i s1 T s' t I A U (fun x => HR x i eq_refl) E H) as (I2 & X & At & _ & Lt & _). repeat (split; auto). lia.
    - inv H. destruct (single_ok s k "T"%string [] s' t I A E) as (-> & _). auto. }
  destruct (G s k i s1 t1 I Ak Uk (fun x a e => HR x a (or_introl e)) H1) as (I1 & X1 & A1 & _).
  assert (Ll := proj1 (proj1 (alive_spec _ _) Al)).
  destruct (G s1 l j s2 t2 I1 (mext_alive _ _ _ X1 Al)) as (_ & _ & _ & L2); auto.
  { now rewrite (mext_get s s1). }
  { intros x a e Hx. apply (mext_alive _ _ _ X1). apply (HR x a); auto. }
  apply alive_spec in A1 as [A1 _]. lia.
Qed.

Lemma C94_bound_refuted_pf : forall h k i l, usable (hrun h) k -> fields_of (hrun h) k = Some l ->
  (exists s, new_bound (hrun h) k i = rmap (fun t => (s, t)) (bound_item (hrun h) k i)) /\
  forall s t, new_bound (hrun h) k i = Ok (s, t) ->
    (hkind (hrun h) k = KProd -> (forall n, i = BStr n -> exists d, field_dict (hrun h) k = Some d /\ In (n, t) d)) /\
    ((forall n, i <> BStr n) -> In t l).
Proof.
  intros h k i l A F. assert (I := run_inv h). set (s := hrun h) in *.
  destruct (class_one s k I A) as (s' & T & E). unfold new_bound. rewrite E. cbn [bind fst snd].
  destruct (single_ok s k "T"%string [] s' T I A E) as (-> & X & Em & Ef & Et & Ea).
  assert (OLD : forall x, In x (h_mro (hget s k)) -> hget s' x = hget s x).
  { intros x Hx. destruct (child_ok s k s' (len s) I A E) as (_ & X' & _). apply mext_get; auto.
    assert (L := proj1 (proj1 (alive_spec _ _) A)). apply (mro_le s I k) in Hx; auto. lia. }
  assert (FD : field_dict s' (len s) = field_dict s k).
  { unfold field_dict. rewrite Em. cbn [first_some]. rewrite Et. apply first_some_ext. intros x Hx. now rewrite OLD. }
  assert (BI : bound_item s' (len s) i = bound_item s k i).
  { unfold bound_item. unfold hkind. rewrite Ef, (child_kind s k s' (len s) I A E), FD. reflexivity. }
  rewrite BI. split.
  { exists s'. destruct (bound_item s k i); reflexivity. }
  intros s2 t H. destruct (bound_item s k i) as [t'|] eqn:B; cbn [bind] in H; [|discriminate]. injection H as <- <-.
  unfold bound_item in B. unfold fields_of in F. rewrite F in B. split.
  - intros K n ->. rewrite K in B. destruct (field_dict s k) as [d|]; [|discriminate]. exists d. split; auto.
    destruct (find (fun f => String.eqb (fst f) n) d) as [[m t]|] eqn:Fi; [|discriminate]. injection B as <-. apply find_some in Fi as [Fi En].
    cbn [fst snd] in *. apply String.eqb_eq in En. now subst m.
  - intros N. assert (TI : forall z, tuple_item l z = Ok t' -> In t' l).
    { intros z. unfold tuple_item. destruct (_ && _)%bool eqn:R; [|discriminate]. intros Q. injection Q as <-. apply andb_true_iff in R as [R1 R2].
      apply nth_In. apply Z.leb_le in R1. apply Z.ltb_lt in R2. lia. }
    destruct (hkind s k), i as [z|n|t]; try discriminate B; try (now apply (TI z)); try (now destruct (N n eq_refl));
    destruct (mem t l) eqn:M; try discriminate B; injection B as <-; now apply mem_In.
Qed.
