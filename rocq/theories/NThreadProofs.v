(** Proofs of the theorems stated in NThreadProps.v. *)
From Coq Require Import String Lia.
From Verif Require Import NameModel NameSpec NameFacts NThreadModel NThreadSpec NThreadFacts.
Open Scope string_scope.
Open Scope list_scope.

Lemma C101_generated_pf : forall h, NoDup (generated_from_strings (shared (trun tinit h))).
Proof. intros h. apply (G_nodup _ (ginv_reach h)). Qed.

Lemma C101_race_pf : forall h f i j n, let s := shared (trun tinit h) in
  (forall h1 h2, h = h1 ++ h2 -> forall a b, decided (trun tinit h1) a f n -> decided (trun tinit h1) b f n -> a = b) ->
  variable s f i n -> variable s f j n -> i = j.
Proof. intros h f i j n s H. apply kinv_unique. now apply kinv_reach. Qed.

Lemma C101_shared_name_pf : forall h f i j n, let s := shared (trun tinit h) in all_strings h ->
  variable s f i n -> variable s f j n -> i = j \/ exists a o, In (EStart a o) h /\ names o f n.
Proof.
  intros h f i j n s A V1 V2.
  assert (D : (exists a o, In (EStart a o) h /\ names o f n) \/ ~ exists a o, In (EStart a o) h /\ names o f n).
  { assert (X : forall l : list event, (exists a o, In (EStart a o) l /\ names o f n) \/ ~ exists a o, In (EStart a o) l /\ names o f n).
    { induction l as [|e l IH]; [right; intros (a & o & [] & _)|].
      destruct IH as [(a & o & H1 & H2)|IH]; [left; exists a, o; split; [right; exact H1|exact H2]|].
      assert (Y : forall o, names o f n \/ ~ names o f n).
      { intros o. destruct o as [[|m|] [q|] [] t|[|m|] t|? ?|?]; cbn; try tauto.
        - destruct f; [|right; intros [? _]; discriminate]. destruct (string_dec n m); [auto|tauto].
        - destruct f; [right; intros [? _]; discriminate|]. destruct (string_dec n m); [auto|tauto]. }
      destruct e as [a o|a|a].
      - destruct (Y o) as [H|H]; [left; exists a, o; split; [left; reflexivity|exact H]|].
        right. intros (b & o' & [E|E] & H'); [injection E as -> ->; tauto|eauto].
      - right. intros (b & o' & [E|E] & H'); [discriminate|eauto].
      - right. intros (b & o' & [E|E] & H'); [discriminate|eauto]. }
    apply X. }
  destruct D as [D|D]; [auto|]. left. revert V1 V2. apply C101_race_pf. intros h1 h2 -> a b Da Db.
  assert (P : forall c, decided (trun tinit h1) c f n -> exists q, in_flight (trun tinit h1) c q n).
  { intros c Dc. destruct (decided_from h1 c f n Dc) as [(o & H1 & H2)|(p & t & H1 & H2)].
    - exfalso. apply D. exists c, o. split; auto. apply in_app_iff. auto.
    - assert (U : uses (ph (trun tinit h1) c) p) by (rewrite H1; reflexivity). destruct (uses_from h1 c p U) as (o & O1 & O2).
      destruct (A c o p) as (q & ->); auto; [apply in_app_iff; auto|]. exists q, t. auto. }
  destruct (P a Da) as (q & Fa), (P b Db) as (q' & Fb). exact (G_diff _ (ginv_reach h1) a b q q' n Fa Fb).
Qed.

Lemma C101_own_names_pf : forall h f i j n a, let s := shared (trun tinit h) in
  (forall b o, In (EStart b o) h -> names o f n -> b = a) ->
  (forall b o p k, In (EStart b o) h -> generates o p -> n <> gen (ptext p) k) ->
  variable s f i n -> variable s f j n -> i = j.
Proof.
  intros h f i j n a s H1 H2. apply C101_race_pf. intros h1 h2 -> b c Db Dc.
  assert (P : forall d, decided (trun tinit h1) d f n -> d = a).
  { intros d D. destruct (decided_from h1 d f n D) as [(o & O1 & O2)|(p & t & P1 & P2)].
    - apply (H1 d o); auto. apply in_app_iff. auto.
    - exfalso. assert (U : uses (ph (trun tinit h1) d) p) by (rewrite P1; reflexivity). destruct (uses_from h1 d p U) as (o & O1 & O2).
      destruct (free_form h1 d p n t P1) as (k & E). apply (H2 d o p k); auto. apply in_app_iff. auto. }
  now rewrite (P b Db), (P c Dc).
Qed.

Lemma C101_locked_pf : forall h f i j n, let s := shared (trun tinit h) in locked h ->
  variable s f i n -> variable s f j n -> i = j.
Proof.
  intros h f i j n s L. apply C101_race_pf. intros h1 h2 E a b Da Db.
  assert (L1 : locked h1).
  { intros h3 c o h4 E3. apply (L h3 c o (h4 ++ h2)). rewrite E, E3, <- app_assoc. reflexivity. }
  clear E L s h. assert (G : forall a b, ph (trun tinit h1) a <> PIdle -> ph (trun tinit h1) b <> PIdle -> a = b).
  { clear Da Db a b. induction h1 as [|e h1 IH] using rev_ind; intros a b Ha Hb; [now destruct Ha|].
    assert (L2 : locked h1). { intros h3 c o h4 E3. apply (L1 h3 c o (h4 ++ [e])). rewrite E3, <- app_assoc. reflexivity. }
    specialize (IH L2). pose proof (L1 h1) as L3. rewrite trun_app in Ha, Hb. cbn [trun fold_left] in Ha, Hb.
    fold (trun tinit h1) in Ha, Hb. remember (trun tinit h1) as s.
    assert (X : forall c x d, set_ph (ph s) c x d <> PIdle -> (ph s c <> PIdle \/ x = PIdle \/ all_idle s) ->
      (d = c /\ x <> PIdle) \/ (ph s d <> PIdle)).
    { intros c x d Hd _. destruct (Nat.eq_dec d c) as [->|N]; [rewrite set_ph_same in Hd|rewrite set_ph_other in Hd by auto]; auto. }
    assert (O : forall c x, (ph s c <> PIdle \/ x = PIdle \/ all_idle s) -> set_ph (ph s) c x a <> PIdle -> set_ph (ph s) c x b <> PIdle -> a = b).
    { intros c x Hc A B. destruct (X c x a A Hc) as [[-> A']|A'], (X c x b B Hc) as [[-> B']|B']; auto.
      - destruct Hc as [Hc|[Hc|Hc]]; [auto|congruence|now rewrite Hc in B'].
      - destruct Hc as [Hc|[Hc|Hc]]; [auto|congruence|now rewrite Hc in A']. }
    destruct (tstep_case s e) as [e|c o p t' P Y|c o g m Y Z|c o g m t' P Y Z|c o Q|c g m t' P|c p t' P k|c p m t' P Z|c p m t' P Z|c p m t' P|c];
      cbn [ph finish register note] in Ha, Hb; auto.
    - apply (O c (PDraw p t')); auto. right; right. apply (L3 c o []); auto. destruct o as [[] ? []| | |]; cbn in Y; try tauto; exact I.
    - apply (O c (PNamed g m t')); auto. right; right. apply (L3 c o []); auto.
      destruct o as [[] [] []| | |]; cbn in Y; try tauto; exact I.
    - apply (O c PIdle); auto.
    - apply (O c (PLook p (gen (ptext p) k) t')); auto. left. rewrite P. discriminate.
    - apply (O c (PDraw p t')); auto. left. rewrite P. discriminate.
    - apply (O c (PFree p m t')); auto. left. rewrite P. discriminate.
    - apply (O c PIdle); auto. }
  apply G; intros H; [unfold decided in Da; now rewrite H in Da|unfold decided in Db; now rewrite H in Db].
Qed.

Lemma C101_finishes_pf : forall h i, exists k, ph (trun tinit (h ++ repeat (EStep i) k)) i = PIdle.
Proof.
  intros h i. destruct (alone_finishes (trun tinit h) i (winv_reach h)) as (k & K). exists k. now rewrite trun_app, <- steps_run.
Qed.

Lemma C101_alone_pf : forall h i o, ph (trun tinit h) i = PIdle ->
  exists k, let s := trun tinit h in let s' := trun tinit (h ++ EStart i o :: repeat (EStep i) k) in
  ph s' i = PIdle /\ (forall j, j <> i -> ph s' j = ph s j) /\ same_state (shared s') (fst (step (shared s) o)) /\
  log s' = (i, snd (step (shared s) o)) :: log s.
Proof.
  intros h i o P. destruct (alone_step (trun tinit h) i o (winv_reach h) P) as (k & s' & A & B).
  exists k. cbv zeta. replace (trun tinit (h ++ EStart i o :: repeat (EStep i) k)) with s'; [exact B|].
  rewrite trun_app. change (s' = trun (tstep (trun tinit h) (EStart i o)) (repeat (EStep i) k)). rewrite <- steps_run. rewrite <- A.
  cbn [tstep]. now rewrite P.
Qed.

Lemma C101_distinct_refuted_pf : exists h i j n, let s := shared (trun tinit h) in
  all_idle (trun tinit h) /\ log (trun tinit h) = [(2, Created j n); (1, Created i n)] /\
  variable s Core i n /\ variable s Core j n /\ i <> j /\ occurs_in s i n /\ occurs_in s j n.
Proof.
  exists [EStart 1 (OVar (NStr "x") None false SBool); EStart 2 (OVar (NStr "x") None false SBool); EStep 1; EStep 2], 0, 1, "x".
  cbv zeta. split; [intros i; destruct i as [|[|[|i]]]; reflexivity|]. split; [reflexivity|].
  split; [eexists; split; [left; reflexivity|repeat split]|]. split; [eexists; split; [right; left; reflexivity|repeat split]|].
  split; [discriminate|]. split; [eexists; split; [left; reflexivity|cbn; auto]|eexists; split; [right; left; reflexivity|cbn; auto]].
Qed.

Lemma C101_automatic_refuted_pf : exists h i j n, let s := shared (trun tinit h) in
  all_idle (trun tinit h) /\ generated s = [n] /\ variable s Core i n /\ variable s Core j n /\ i <> j.
Proof.
  exists [EStart 1 (OVar NAuto None false SBool); EStep 1; EStep 1; EStart 2 (OVar (NStr "V_0") None false SBool); EStep 2; EStep 1], 0, 1, "V_0".
  cbv zeta. split; [intros i; destruct i as [|[|[|i]]]; reflexivity|]. split; [reflexivity|].
  split; [eexists; split; [left; reflexivity|repeat split]|]. split; [eexists; split; [right; left; reflexivity|repeat split]|].
  discriminate.
Qed.
