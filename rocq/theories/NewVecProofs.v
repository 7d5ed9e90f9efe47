(** Proofs of the theorems stated in NewVecProps.v. *)
From Coq Require Import Lia.
From Verif Require Import PyBase BVFacts MetaModel MetaSpec MergeFacts MetaFacts NewModel NewSpec NewVecFacts.

Lemma C94_vector_pf : forall h k, is_bv (mrun h) k ->
  exists s t, new_vec (mrun h) k None = Ok (s, t) /\ unseen (mrun h) t /\ is_bv s t /\ c_size (get_cls s t) = c_size (get_cls (mrun h) k) /\
    forall x, issub s t x = true <-> x = t \/ issub (mrun h) k x = true.
Proof.
  intros h k [A B]. assert (I := mrun_minv h). set (s := mrun h) in *. exists (child s k), (len s). unfold new_vec.
  rewrite child_eq by auto. cbn [bind]. split; auto. destruct (child_ok s k I A) as (I1 & X1 & A1).
  split; [unfold unseen, len; lia|]. split; [split; auto; rewrite child_new; exact B|]. split; [now rewrite child_new|].
  intros x. now apply child_sub.
Qed.

Lemma C94_vector_index_pf : forall h k n s t, is_bv (mrun h) k -> new_vec (mrun h) k (Some (XInt n)) = Ok (s, t) ->
  0 <= n /\ unsized (mrun h) k /\ unseen (mrun h) t /\ is_bv s t /\ c_size (get_cls s t) = Some n /\ issub s t k = true /\
  exists u tk, c_unsized (get_cls s t) = Some u /\ unseen (mrun h) u /\ u <> t /\
    getitem_cls s k (XInt n) = Ok (s, tk) /\ (forall x, issub s t x = true <-> x = t \/ x = u \/ issub s tk x = true) /\
    getitem_cls s u (XInt n) = Ok (s, t).
Proof.
  intros h k n s' t [A B] H. assert (I := mrun_minv h). set (s := mrun h) in *. unfold new_vec in H. rewrite child_eq in H by auto.
  cbn [bind fst snd] in H.
  assert (FT : find_cache s' (len s) n = Some t).
  { destruct (child_ok s k I A) as (I1 & _ & A1). assert (Q := getitem_ok (child s k) (len s) (XInt n) I1 A1).
    rewrite H in Q. destruct Q as (_ & _ & _ & m & [E|E] & F); [unfold bvb; rewrite child_new; exact B| |discriminate]. now inv E. }
  destruct (child_indexed s k n s' t I A B H) as (I2 & X & At & Bt & Lt & Hn & Sk & St & Ut & Eb1 & tk & Fk & Eb2).
  assert (L := proj1 (proj1 (alive_spec _ _) A)). assert (L' := mext_len _ _ X).
  assert (LT := proj1 (proj1 (alive_spec _ _) At)).
  assert (Atk := find_cache_alive _ _ _ _ I2 Fk). assert (Ltk := proj1 (proj1 (alive_spec _ _) Atk)).
  assert (Stk : sub s' tk k).
  { destruct (i_cache s' I2 _ _ _ (find_cache_In _ _ _ _ Fk)) as (_ & _ & _ & _ & _ & _ & _ & E). econstructor; [rewrite E; now left|constructor]. }
  assert (SUB : forall x, issub s' t x = true <-> x = t \/ x = len s \/ issub s' tk x = true).
  { intros x. rewrite !issub_sub by auto. split.
    - intros Hs. inversion Hs as [|a b c Hb Hs']; subst; auto. rewrite Eb2 in Hb. destruct Hb as [<-|[<-|[]]]; auto.
      inversion Hs' as [|a b c Hb Hs2]; subst; auto. rewrite Eb1 in Hb. destruct Hb as [<-|[]]. right. right. eapply sub_trans; eauto.
    - intros [->|[->|Hs]]; [constructor|econstructor; [rewrite Eb2; now left|constructor]|]. econstructor; [|exact Hs]. rewrite Eb2. right. now left. }
  split; auto. split; auto. split; [unfold unseen, len in *; lia|]. split; [split; auto|]. split; auto.
  split; [apply SUB; right; right; now apply issub_sub|].
  exists (len s), tk. split; auto. split; [unfold unseen, len; lia|]. split; [lia|]. split; [now apply getitem_cached|]. split; auto.
  now apply getitem_cached.
Qed.

Lemma C94_vector_total_pf : forall h k n, is_bv (mrun h) k ->
  (exists tk, getitem_cls (mrun h) k (XInt n) = Ok (mrun h, tk)) \/ 0 <= n /\ unsized (mrun h) k /\ mixins_last (mrun h) k ->
  exists s t, new_vec (mrun h) k (Some (XInt n)) = Ok (s, t).
Proof.
  intros h k n [A B] H. assert (I := mrun_minv h). set (s := mrun h) in *. unfold new_vec. rewrite child_eq by auto. cbn [bind fst snd].
  destruct H as [(tk & H)|(Hn & U & ML)].
  - assert (Q := getitem_ok s k (XInt n) I A B). rewrite H in Q. destruct Q as (_ & _ & _ & m & [E|E] & F); [|discriminate]. inv E.
    eapply child_index; eauto.
  - destruct (child_ok s k I A) as (I1 & X1 & A1). assert (L := proj1 (proj1 (alive_spec _ _) A)).
    assert (B1 : bvb (child s k) (len s) = true) by (unfold bvb; rewrite child_new; exact B).
    assert (Q := index_ok (S (len s)) (child s k) (len s) n I1 A1 B1 (Nat.lt_succ_diag_r _)). cbn [getitem_cls].
    destruct (index_cls (S (len s)) (child s k) (len s) n) as [[s' t]|e]; eauto.
    destruct Q as (_ & _ & Q). exfalso. refine (Q Hn _ _); [rewrite child_new; exact U|].
    apply tame_iff in ML; auto. apply (mext_tame s (child s k)) in ML; auto.
    intros x Hx Bx. rewrite child_new in Hx. destruct Hx as [<-|Hx].
    + rewrite child_new. cbn [c_bases]. exists [k], []. split; auto. split; [|constructor]. constructor; [|constructor].
      unfold bvb. rewrite child_old by auto. exact B.
    + apply ML; auto. rewrite child_old by auto. exact Hx.
Qed.

Lemma C94_vector_raises_pf : forall h k, is_bv (mrun h) k ->
  (forall n, n < 0 -> new_vec (mrun h) k (Some (XInt n)) = Raise EValueError) /\
  (forall n m, 0 <= n -> c_size (get_cls (mrun h) k) = Some m -> new_vec (mrun h) k (Some (XInt n)) = Raise ETypeError) /\
  (forall n, new_vec (mrun h) k (Some (XFloat n)) = Raise ETypeError) /\
  new_vec (mrun h) k (Some XOther) = Raise ETypeError.
Proof.
  intros h k [A B]. assert (I := mrun_minv h). set (s := mrun h) in *. unfold new_vec. rewrite child_eq by auto. cbn [bind fst snd].
  repeat split.
  - intros n Hn. cbn [getitem_cls]. rewrite index_unfold, child_cold by auto. destruct (Z.ltb_spec n 0); [auto|lia].
  - intros n m Hn Hm. cbn [getitem_cls]. rewrite index_unfold, child_cold by auto. destruct (Z.ltb_spec n 0); [lia|].
    rewrite child_new. cbn [c_size]. now rewrite Hm.
  - intros n. cbn [getitem_cls]. now rewrite child_cold.
Qed.

Lemma C94_vector_distinct_pf : forall h k l i j s1 t1 s2 t2, is_bv (mrun h) k -> is_bv (mrun h) l ->
  new_vec (mrun h) k i = Ok (s1, t1) -> new_vec s1 l j = Ok (s2, t2) -> t1 <> t2.
Proof.
  intros h k l i j s1 t1 s2 t2 Hk Hl H1 H2. assert (I := mrun_minv h). set (s := mrun h) in *.
  assert (G : forall s k i s' t, minv s -> alive s k = true -> bvb s k = true -> new_vec s k i = Ok (s', t) ->
    minv s' /\ mext s s' /\ alive s' t = true /\ (len s <= t)%nat).
  { clear. intros s k i s' t I A B H. unfold new_vec in H. rewrite child_eq in H by auto. cbn [bind fst snd] in H.
    destruct (child_ok s k I A) as (I1 & X1 & A1). destruct i as [[n|n|]|].
    - destruct (child_indexed s k n s' t I A B H) as (I2 & X & At & Bt & Lt & _). repeat (split; auto). lia.
    - cbn [getitem_cls] in H. rewrite child_cold in H by auto. discriminate.
    - discriminate.
    - inv H. auto. }
  destruct Hk as [Ak Bk], Hl as [Al Bl]. destruct (G s k i s1 t1 I Ak Bk H1) as (I1 & X1 & A1 & _).
  destruct (G s1 l j s2 t2 I1 (mext_alive _ _ _ X1 Al)) as (_ & _ & _ & L2); auto.
  { rewrite (mext_bvb s s1); auto. now apply alive_spec in Al. }
  apply alive_spec in A1 as [A1 _]. lia.
Qed.
