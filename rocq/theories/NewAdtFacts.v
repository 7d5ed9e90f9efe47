(** Lemmas for new(klass, bind) on algebraic data types. *)
From Coq Require Import Lia.
From Verif Require Import PyBase BVFacts MetaModel MergeFacts HierModel HierSpec HierFacts NewModel NewSpec.
From Verif Require NewVecFacts.
Import NewVecFacts (subl, subl_nil, subl_skip, subl_take, subl_refl, subl_one, merge_subl, merge_sup, merge_top).

Lemma class_one s a : hinv s -> halive s a = true -> exists s' t, class_stmt s [a] "T"%string [] [] = Ok (s', t).
Proof.
  intros I A. assert (L := proj1 (proj1 (alive_spec _ _) A)). unfold class_stmt. cbv iota.
  assert (W : winner s KType [a] = Ok (kd s a)) by (cbn [winner]; unfold hkind; destruct (kd s a); reflexivity).
  rewrite W. cbn [bind]. assert (C := c3_single s a I L).
  assert (P : forall k, exists s' t, new_adt s k [a] None None [] None = Ok (s', t)).
  { intros k. unfold new_adt. cbn [join_fields]. rewrite C. destruct (h_fields (hget s a)) as [m|] eqn:F; cbn [bind filter existsb].
    - unfold bound. rewrite F. cbn [negb]. rewrite andb_false_r. cbn [orb bind]. unfold add. eauto.
    - unfold add. eauto. }
  destruct (kd s a); cbn [app attr_class others_of map]; auto. rewrite C. unfold add. eauto.
Qed.
Lemma class_shape s a s' t : hinv s -> halive s a = true -> h_fields (hget s a) = None -> class_stmt s [a] "T"%string [] [] = Ok (s', t) ->
  t = len s /\ exists u, s' = put s (HC (kd s a) [a] (t :: h_mro (hget s a)) u None None [] None).
Proof.
  intros I A F. assert (L := proj1 (proj1 (alive_spec _ _) A)). unfold class_stmt. cbv iota.
  assert (W : winner s KType [a] = Ok (kd s a)) by (cbn [winner]; unfold hkind; destruct (kd s a); reflexivity).
  rewrite W. cbn [bind]. assert (C := c3_single s a I L).
  assert (P : forall k, new_adt s k [a] None None [] None = Ok (s', t) ->
    t = len s /\ exists u, s' = put s (HC k [a] (t :: h_mro (hget s a)) u None None [] None)).
  { intros k. unfold new_adt. cbn [join_fields]. rewrite C, F. cbn [bind]. unfold add. intros H. inv H. split; auto. unfold put. cbn [h_key].
    eexists. reflexivity. }
  destruct (kd s a) eqn:K; cbn [app attr_class others_of map]; auto. rewrite C. unfold add. intros H. inv H. split; auto. eexists. reflexivity.
Qed.
Lemma child_ok s a s' t : hinv s -> halive s a = true -> class_stmt s [a] "T"%string [] [] = Ok (s', t) ->
  hinv s' /\ mext s s' /\ halive s' t = true.
Proof.
  intros I A H. assert (Q := class_ok s [a] "T"%string [] [] I). rewrite H in Q. apply Q; [intros b [<-|[]]; auto|intros x []].
Qed.

(** T[i] when K[i] is there. *)
Lemma child_index s k fs tk s1 T : hinv s -> halive s k = true -> class_stmt s [k] "T"%string [] [] = Ok (s1, T) ->
  lookup s true (KIndex k fs) = Some tk -> exists s' t, index (S T) s1 T fs = Ok (s', t).
Proof.
  intros I A HK F. assert (L := proj1 (proj1 (alive_spec _ _) A)). destruct (child_ok s k s1 T I A HK) as (I1 & X1 & A1).
  destruct (lookup_index s I _ _ _ _ F) as [At Kt]. assert (Lt := proj1 (proj1 (alive_spec _ _) At)).
  destruct (index_of s I tk k fs At Kt) as ((Lkt & Ekd & BY & Fk & Ft & _ & (ts & ex & Eb & _ & EX1 & EX2) & _) & _).
  destruct (class_shape s k s1 T I A Fk HK) as (-> & u & ES). set (nc := HC _ _ _ _ _ _ _ _) in ES.
  assert (GN : hget s1 (len s) = nc) by (rewrite ES; apply get_put_new).
  assert (GO : forall x, (x < len s)%nat -> hget s1 x = hget s x) by (intros; now apply mext_get).
  assert (LK : forall c m, lookup s1 true (KIndex c m) = lookup s true (KIndex c m)) by (intros; rewrite ES, lookup_put; reflexivity).
  assert (COLD : lookup s1 true (KIndex (len s) fs) = None).
  { rewrite LK. destruct (lookup s true (KIndex (len s) fs)) as [x|] eqn:E; auto. apply (lookup_index s I) in E as [Ax Kx].
    destruct (index_of s I _ _ _ Ax Kx) as (_ & Q). apply alive_spec in Q as [Q _]. lia. }
  rewrite index_unfold, COLD. unfold bound. rewrite GN. cbn [nc h_fields]. unfold hkind. rewrite GN. cbn [nc h_kind h_bases].
  assert (G : go_index (len s) (kd s k) fs s1 [k] = Ok (s1, [tk])).
  { cbn [go_index]. unfold hkind. rewrite GO by auto. rewrite below_refl.
    destruct (len s) as [|f] eqn:El; [lia|]. rewrite index_unfold, LK, F. reflexivity. }
  rewrite G. cbn [bind].
  assert (TP : exists ex', tuple_part (len s) (len s) (kd s k) fs (s1, [tk]) = Ok (s1, tk :: ex') /\ (ex' = [] \/ exists x, ex' = [x]) /\
    forall x, In x ex' -> (x < len s)%nat /\ h_fields (hget s x) = Some (map snd fs) /\ In x (h_bases (hget s tk))).
  { unfold tuple_part. cbn [fst snd]. destruct (is_kind (kd s k) KAnon) eqn:EK.
    - apply is_kind_iff in EK. destruct (EX1 EK) as (b & x & -> & Kb & Kx & FB).
      assert (Hx : In x (h_bases (hget s tk))) by (rewrite Eb; right; apply in_app_iff; right; now left).
      assert (Lx : (x < len s)%nat) by (pose proof (v_bases s I tk x Lt Hx); lia).
      assert (Ax := bases_alive s I tk x At Hx).
      assert (FB' : find_base (S (length (hclasses s1))) s1 KTuple [len s; tk] = Some b).
      { apply find_base_first. rewrite find_base_unfold. cbn [go_base]. unfold hkind. rewrite GN. cbn [nc h_kind h_bases]. rewrite EK.
        change (is_kind KAnon KTuple) with false. cbv iota.
        replace (find_base (length (hclasses s1)) s1 KTuple [k]) with (Some b); auto. rewrite <- FB.
        apply find_base_ext; [apply (v_bases s I)|auto| |discriminate]. intros y [<-|[]]. pose proof (mext_len _ _ X1). unfold len in *. lia. }
      rewrite FB'. assert (LX : index (len s) s1 b (unname fs) = Ok (s1, x)).
      { destruct (len s) as [|f] eqn:El; [lia|]. rewrite index_unfold, LK. rewrite (v_find s I x b (unname fs)); auto. }
      rewrite LX. cbn [bind fst snd]. exists [x]. split; auto. split; [eauto|]. intros y [<-|[]]. split; auto. split; auto.
      destruct (index_of s I x b _ Ax Kx) as ((_ & _ & _ & _ & B4 & _) & _). rewrite B4. unfold unname. now rewrite map_map.
    - exists []. split; auto. split; [auto|]. intros x []. }
  destruct TP as (ex' & -> & EX0 & EX). cbn [bind fst snd]. unfold new_adt.
  rewrite join_same.
  2:{ intros x [<-|[<-|Hx]]; [right; now rewrite GN|left; now rewrite GO|]. destruct (EX x Hx) as (? & ? & _). left. now rewrite GO. }
  cbn [bind].
  assert (C : exists l, hc3 s1 (len s :: tk :: ex') = Some l).
  { unfold hc3. cbn [map app]. rewrite GN, GO by auto. cbn [nc h_mro].
    set (N := h_mro (hget s tk)). assert (ND : NoDup N) by now apply mro_NoDup.
    destruct (v_mro s I tk Lt) as (l & EN & M).
    assert (S1 : forall b, In b (h_bases (hget s tk)) -> subl (h_mro (hget s b)) N).
    { intros b Hb. unfold N. rewrite EN. apply subl_skip. eapply merge_subl; [exact M|]. apply in_app_iff. left. apply in_map_iff. eauto. }
    assert (S2 : subl (tk :: ex') N).
    { unfold N. rewrite EN. apply subl_take. destruct EX0 as [->|(x & ->)]; [constructor|]. destruct (EX x (or_introl eq_refl)) as (Lx & _ & Hx).
      apply subl_one. assert (Q : In x (h_mro (hget s tk))).
      { apply (mro_sub s I); auto. now apply sub_base. }
      rewrite EN in Q. destruct Q as [Q|Q]; auto. pose proof (v_bases s I tk x Lt Hx). lia. }
    match goal with |- context [merge _ ((_ :: ?l0) :: ?ls)] => destruct (merge_top (len s) N l0 ls) as (f & Ef); auto end.
    - intros K. apply (mro_le s I tk) in K; auto. lia.
    - now left.
    - intros q [<-|Hq]; [apply subl_skip, subl_refl|]. apply in_app_iff in Hq as [Hq|[<-|[]]].
      + apply in_map_iff in Hq as (x & <- & Hx). destruct (EX x Hx) as (Lx & _ & Hb). rewrite GO by auto. now apply subl_skip, S1.
      + now apply subl_take.
    - apply S1. rewrite Eb. now left.
    - eexists. eapply merge_fuel. exact Ef. }
  destruct C as (l & ->). destruct (filter _ _) as [|x [|y r]]; cbn [bind]; try (unfold add; cbn [bind]; eauto; fail).
  - assert (B : existsb (bound s1) (len s :: tk :: ex') = true).
    { apply existsb_exists. exists tk. split; [right; now left|]. unfold bound. now rewrite GO, Ft. }
    rewrite B. cbn [bind]. unfold add. cbn [bind]. eauto.
  - assert (B : existsb (bound s1) (len s :: tk :: ex') = true).
    { apply existsb_exists. exists tk. split; [right; now left|]. unfold bound. now rewrite GO, Ft. }
    rewrite B. cbn [bind]. unfold add. cbn [bind]. eauto.
Qed.

Lemma child_indexed s k i s1 T s' t : hinv s -> halive s k = true -> h_fields (hget s k) = None -> (forall x, In x (idx_refs i) -> halive s x = true) ->
  class_stmt s [k] "T"%string [] [] = Ok (s1, T) -> getitem s1 T i = Ok (s', t) ->
  hinv s' /\ mext s s' /\ halive s' t = true /\ T = len s /\ (len s < t)%nat /\
  exists fs tk, get_idx (kd s k) i = Ok fs /\ lookup s' true (KIndex k fs) = Some tk /\ h_fields (hget s' t) = Some (map snd fs) /\
    h_unbound (hget s' t) = Some T /\ forall x, hissub s' t x = true <-> x = t \/ x = T \/ hissub s' tk x = true.
Proof.
  intros I A Fk HR HK H. assert (L := proj1 (proj1 (alive_spec _ _) A)). destruct (child_ok s k s1 T I A HK) as (I1 & X1 & A1).
  destruct (class_shape s k s1 T I A Fk HK) as (-> & u & ES). set (nc := HC _ _ _ _ _ _ _ _) in ES.
  assert (GN : hget s1 (len s) = nc) by (rewrite ES; apply get_put_new).
  assert (Q := getitem_ok s1 (len s) i I1 A1 (fun x Hx => mext_alive _ _ _ X1 (HR x Hx))). rewrite H in Q.
  destruct Q as (fs & EI & MD). rewrite GN in EI. cbn [nc h_kind] in EI. destruct (made_alive _ _ _ _ _ MD) as [At Kt].
  destruct MD as (I2 & X2 & _ & LT). assert (X := mext_trans _ _ _ X1 X2).
  assert (LT1 := proj1 (proj1 (alive_spec _ _) A1)).
  assert (GT : hget s' (len s) = nc) by (rewrite (mext_get s1 s'); auto).
  assert (GK : hget s' k = hget s k) by now apply mext_get.
  destruct (index_of s' I2 t (len s) fs At Kt) as ((Lt & _ & BY & _ & Ft & Ut & (ts & ex & Eb & F2 & EX1 & EX2) & _) & _).
  rewrite GT in *. cbn [nc h_kind h_bases filter] in *. rewrite GK, below_refl in F2. inv F2. rename y into tk, H2 into Ktk. inv H4.
  assert (Atk : halive s' tk = true) by (apply (bases_alive s' I2 t); auto; rewrite Eb; right; now left).
  split; auto. split; auto. split; auto. split; auto. split; auto.
  exists fs, tk. split; auto. split; [now apply (v_find s' I2)|]. split; auto. split; auto.
  assert (Lt' := proj1 (proj1 (alive_spec _ _) At)). assert (Ltk := proj1 (proj1 (alive_spec _ _) Atk)).
  assert (Lk : (k < len s')%nat) by (pose proof (mext_len _ _ X); lia). assert (LT' : (len s < len s')%nat) by (pose proof (mext_len _ _ X2); lia).
  assert (Sk : hsub s' tk k) by (eapply by_key; eauto).
  intros x. rewrite !issub_sub by auto. split.
  - intros Hs. inversion Hs as [|a b c Hb Hs']; subst; auto. rewrite Eb in Hb. destruct Hb as [<-|[<-|Hb]]; auto.
    + inversion Hs' as [|a b c Hb Hs2]; subst; auto. rewrite GT in Hb. destruct Hb as [<-|[]]. right. right. eapply sub_trans; eauto.
    + cbn [app] in Hb. destruct (is_kind (kd s k) KAnon) eqn:EK.
      2:{ rewrite EX2 in Hb; [destruct Hb|]. intros Q. apply is_kind_iff in Q. congruence. }
      apply is_kind_iff in EK. destruct (EX1 EK) as (c & y & -> & Kc & Ky & FB). destruct Hb as [<-|[]].
      assert (Ay : halive s' y = true) by (apply (bases_alive s' I2 t); auto; rewrite Eb; right; right; now left).
      destruct (index_of s' I2 tk k fs Atk Ktk) as ((Lk2 & _ & _ & _ & _ & _ & (ts2 & ex2 & Eb2 & _ & EY & _) & _) & _).
      rewrite GK in EY. destruct (EY EK) as (c2 & y2 & -> & Kc2 & Ky2 & FB2).
      assert (Ec : c2 = c).
      { rewrite find_base_unfold in FB. cbn [go_base] in FB. unfold hkind in FB. rewrite GT in FB. cbn [nc h_kind h_bases] in FB. rewrite EK in FB.
        change (is_kind KAnon KTuple) with false in FB. cbv iota in FB.
        assert (E : find_base (S k) s' KTuple [k] = find_base (len s) s' KTuple [k]).
        { apply find_base_ext; [apply (v_bases s' I2)|auto| |discriminate]. intros z [<-|[]]. lia. }
        rewrite <- E, FB2 in FB. now inv FB. }
      subst c2. assert (Ay2 : halive s' y2 = true) by (apply (bases_alive s' I2 tk); auto; rewrite Eb2; right; apply in_app_iff; right; now left).
      assert (Ey : y2 = y) by (eapply unique_index; eauto). subst y2. right. right. econstructor; eauto. rewrite Eb2. right. apply in_app_iff. right. now left.
  - intros [->|[->|Hs]]; [constructor| |].
    + apply sub_base. rewrite Eb. now left.
    + econstructor; [|exact Hs]. rewrite Eb. right. now left.
Qed.
Lemma child_kind s k s1 T : hinv s -> halive s k = true -> class_stmt s [k] "T"%string [] [] = Ok (s1, T) -> kd s1 T = kd s k.
Proof.
  intros I A. assert (L := proj1 (proj1 (alive_spec _ _) A)). unfold class_stmt. cbv iota.
  assert (W : winner s KType [k] = Ok (kd s k)) by (cbn [winner]; unfold hkind; destruct (kd s k); reflexivity).
  rewrite W. cbn [bind].
  assert (P : forall q, new_adt s q [k] None None [] None = Ok (s1, T) -> kd s1 T = q).
  { intros q H. assert (N := new_adt_spec s q [k] None None [] None). rewrite H in N.
    destruct N as (ft & l & u & J & C3 & -> & -> & _). change (fst (add s ?c)) with (put s c). now rewrite get_put_new. }
  destruct (kd s k) eqn:K; cbn [app attr_class others_of map]; auto. rewrite (c3_single s k I L). intros H. inv H.
  change (fst (add s ?c)) with (put s c). match goal with |- kd (HS (hclasses s ++ [?c]) _ _ _) _ = _ => exact (f_equal h_kind (get_put_new s c)) end.
Qed.
