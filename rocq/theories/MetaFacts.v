(** Lemmas about MetaModel.v: the invariant of every history, and indexing. *)
From Coq Require Import Lia.
From Verif Require Import PyBase BVFacts MetaModel MetaSpec MergeFacts.

Definition len (s : meta) : nat := length (classes s).
Definition fcn (s : meta) (n : Z) (x : nat) : nat := match find_cache s x n with Some t => t | None => 0%nat end.
Definition bvb (s : meta) (x : nat) : bool := c_bv (get_cls s x).

Lemma alive_spec s c : alive s c = true <-> (c < len s)%nat /\ ~ In c (dead s).
Proof.
  unfold alive, len. rewrite andb_true_iff, Nat.ltb_lt, negb_true_iff, mem_false. tauto.
Qed.

(** Extending the class list *)
Lemma get_old s x c : (c < len s)%nat -> get_cls (Meta (classes s ++ x) (dead s) (cache s) (vars s)) c = get_cls s c.
Proof. intros H. unfold get_cls. cbn [classes]. now apply app_nth1. Qed.
Lemma get_app s s' x c : classes s' = classes s ++ x -> (c < len s)%nat -> get_cls s' c = get_cls s c.
Proof. intros E H. unfold get_cls. rewrite E. now apply app_nth1. Qed.

Lemma c3_ext s s' bs : (forall b, In b bs -> get_cls s' b = get_cls s b) -> c3 s' bs = c3 s bs.
Proof.
  intros H. unfold c3. replace (map (fun b => c_mro (get_cls s' b)) bs) with (map (fun b => c_mro (get_cls s b)) bs); auto.
  apply map_ext_in. intros b Hb. now rewrite H.
Qed.

Definition tame (s : meta) (k : nat) : Prop :=
  forall x, In x (c_mro (get_cls s k)) -> bvb s x = true ->
    exists bvs mixins, c_bases (get_cls s x) = bvs ++ mixins
      /\ Forall (fun b => bvb s b = true) bvs /\ Forall (fun b => bvb s b = false) mixins.

Record minv (s : meta) : Prop := {
  i_len : (2 <= len s)%nat;
  i_dead : forall c, In c (dead s) -> (c < len s)%nat;
  i_bases : forall c b, (c < len s)%nat -> In b (c_bases (get_cls s c)) -> (b < c)%nat;
  i_mro : forall c, (c < len s)%nat -> exists l, c_mro (get_cls s c) = c :: l /\ c3 s (c_bases (get_cls s c)) = Some l;
  i_bv : forall c b, (c < len s)%nat -> In b (c_bases (get_cls s c)) -> bvb s b = true -> bvb s c = true;
  i_size : forall c b m, (c < len s)%nat -> In b (c_bases (get_cls s c)) -> c_size (get_cls s b) = Some m -> c_size (get_cls s c) = Some m;
  i_sizebv : forall c m, (c < len s)%nat -> c_size (get_cls s c) = Some m -> bvb s c = true;
  i_uns : forall c, (c < len s)%nat -> c_size (get_cls s c) = None -> c_unsized (get_cls s c) = Some c;
  i_alive : forall c b, alive s c = true -> In b (c_bases (get_cls s c)) -> alive s b = true;
  i_vars : forall c, In c (vars s) -> alive s c = true;
  i_find : forall k n t, In (k, n, t) (cache s) -> find_cache s k n = Some t;
  i_cache : forall k n t, In (k, n, t) (cache s) ->
    alive s t = true /\ bvb s t = true /\ bvb s k = true /\ c_size (get_cls s k) = None /\ 0 <= n
    /\ c_size (get_cls s t) = Some n /\ c_unsized (get_cls s t) = Some k
    /\ c_bases (get_cls s t) = k :: map (fcn s n) (filter (bvb s) (c_bases (get_cls s k)));
  i_closed : forall k n t b, In (k, n, t) (cache s) -> In b (c_bases (get_cls s k)) -> bvb s b = true ->
    exists tb, find_cache s b n = Some tb;
  i_dbl : forall k n t, In (k, n, t) (cache s) -> tame s k ->
    c_mro (get_cls s t) = dbl (bvb s) (fcn s n) (c_mro (get_cls s k))
}.

Lemma find_cache_In s k n t : find_cache s k n = Some t -> In (k, n, t) (cache s).
Proof.
  unfold find_cache. intros H. destruct (find _ (cache s)) as [[[k' n'] t']|] eqn:E; [|discriminate].
  cbn in H. inv H. apply find_some in E as [E1 E2]. cbn in E2. apply andb_true_iff in E2 as [A B].
  apply Nat.eqb_eq in A. apply Z.eqb_eq in B. now subst.
Qed.

Section Inv.
  Variable s : meta.
  Hypothesis I : minv s.

  Lemma mro_In c x : (c < len s)%nat ->
    (In x (c_mro (get_cls s c)) <-> x = c \/ exists b, In b (c_bases (get_cls s c)) /\ In x (c_mro (get_cls s b))).
  Proof.
    intros Hc. destruct (i_mro s I c Hc) as (l & E & M). rewrite E. unfold c3 in M. cbn [In].
    rewrite (merge_In _ _ _ M). split.
    - intros [H|(q & Hq & Hx)]; [left; congruence|]. right. rewrite in_app_iff, in_map_iff in Hq.
      destruct Hq as [(b & <- & Hb)|[<-|[]]]; eauto. exists x. split; auto.
      destruct (i_mro s I x) as (l' & E' & _); [|rewrite E'; now left]. pose proof (i_bases s I c x Hc Hx). lia.
    - intros [->|(b & Hb & Hx)]; [now left|]. right. exists (c_mro (get_cls s b)). split; auto.
      apply in_app_iff. left. apply in_map_iff. eauto.
  Qed.
  Lemma mro_self c : (c < len s)%nat -> In c (c_mro (get_cls s c)).
  Proof. intros H. apply mro_In; auto. Qed.
  Lemma mro_le c : forall x, (c < len s)%nat -> In x (c_mro (get_cls s c)) -> (x <= c)%nat.
  Proof.
    induction c as [c IH] using lt_wf_ind. intros x Hc Hx. apply mro_In in Hx; auto.
    destruct Hx as [->|(b & Hb & Hx)]; auto. pose proof (i_bases s I c b Hc Hb). specialize (IH b H x ltac:(lia) Hx). lia.
  Qed.
  Lemma mro_sub c : forall x, (c < len s)%nat -> (In x (c_mro (get_cls s c)) <-> sub s c x).
  Proof.
    induction c as [c IH] using lt_wf_ind. intros x Hc. rewrite mro_In by auto. split.
    - intros [->|(b & Hb & Hx)]; [constructor|]. pose proof (i_bases s I c b Hc Hb).
      econstructor; eauto. apply IH; auto. lia.
    - intros H. inversion H as [|a b c' Hb Hs]; subst; auto. right. pose proof (i_bases s I c b Hc Hb).
      exists b. split; auto. apply IH; auto. lia.
  Qed.
  Lemma issub_sub a b : (a < len s)%nat -> (issub s a b = true <-> sub s a b).
  Proof. intros H. unfold issub. rewrite mem_In. now apply mro_sub. Qed.
  Lemma sub_le a b : (a < len s)%nat -> sub s a b -> (b <= a)%nat.
  Proof. intros H Hs. apply mro_sub in Hs; auto. now apply mro_le. Qed.
  Lemma sub_trans a b c : sub s a b -> sub s b c -> sub s a c.
  Proof. intros H. induction H; auto. intros Hc. econstructor; eauto. Qed.
  Lemma sub_anti a b : (a < len s)%nat -> sub s a b -> sub s b a -> a = b.
  Proof. intros H A B. pose proof (sub_le _ _ H A). assert (b < len s)%nat by lia. pose proof (sub_le _ _ H1 B). lia. Qed.
  Lemma sub_size a b m : (a < len s)%nat -> sub s a b -> c_size (get_cls s b) = Some m -> c_size (get_cls s a) = Some m.
  Proof.
    intros Ha H. induction H as [|a b c Hb H IH]; auto. intros E. pose proof (i_bases s I a b Ha Hb).
    eapply i_size; eauto. apply IH; auto. lia.
  Qed.
  Lemma sub_bv a b : (a < len s)%nat -> sub s a b -> bvb s b = true -> bvb s a = true.
  Proof.
    intros Ha H. induction H as [|a b c Hb H IH]; auto. intros E. pose proof (i_bases s I a b Ha Hb).
    eapply i_bv; eauto. apply IH; auto. lia.
  Qed.
  Lemma sub_alive a b : alive s a = true -> sub s a b -> alive s b = true.
  Proof. intros Ha H. induction H as [|a b c Hb H IH]; auto. apply IH. eapply i_alive; eauto. Qed.

  Lemma tame_sub a b : (a < len s)%nat -> sub s a b -> tame s a -> tame s b.
  Proof.
    intros Ha Hs T x Hx. assert (b < len s)%nat by (pose proof (sub_le _ _ Ha Hs); lia).
    apply T. apply mro_sub; auto. apply mro_sub in Hx; auto. eapply sub_trans; eauto.
  Qed.

  Lemma cached_up k n t x : In (k, n, t) (cache s) -> sub s k x -> bvb s x = true -> exists tx, find_cache s x n = Some tx.
  Proof.
    intros Hc H. revert t Hc. induction H as [|a b c Hb H IH]; intros t Hc Hx.
    - exists t. now apply i_find.
    - assert (Hbv : bvb s b = true).
      { destruct (i_cache s I _ _ _ Hc) as (Al & _ & Bk & _ & _ & _ & _ & Eb). apply alive_spec in Al as [Al _].
        assert (a < t)%nat by (apply (i_bases s I t a Al); rewrite Eb; now left).
        apply (sub_bv b c); auto. pose proof (i_bases s I a b ltac:(lia) Hb). lia. }
      destruct (i_closed s I _ _ _ b Hc Hb Hbv) as (tb & Etb). eapply IH; eauto using find_cache_In.
  Qed.

  Lemma cache_key k n t : In (k, n, t) (cache s) -> (k < t)%nat /\ alive s k = true.
  Proof.
    intros Hc. destruct (i_cache s I _ _ _ Hc) as (Al & _ & Bk & _ & _ & _ & _ & Eb).
    assert (In k (c_bases (get_cls s t))) by (rewrite Eb; now left).
    split; [|eapply i_alive; eauto]. apply alive_spec in Al as [Al _]. now apply (i_bases s I t k Al).
  Qed.
End Inv.

(** ** The order of states *)
Record mext (s s' : meta) : Prop := {
  e_classes : exists l, classes s' = classes s ++ l;
  e_dead : dead s' = dead s;
  e_vars : vars s' = vars s;
  e_cache : forall k n t, find_cache s k n = Some t -> find_cache s' k n = Some t
}.
Lemma mext_refl s : mext s s.
Proof. split; auto. exists []. now rewrite app_nil_r. Qed.
Lemma mext_trans a b c : mext a b -> mext b c -> mext a c.
Proof.
  intros [[l1 E1] D1 V1 C1] [[l2 E2] D2 V2 C2]. split; try congruence; auto.
  exists (l1 ++ l2). rewrite E2, E1. now rewrite app_assoc.
Qed.
Lemma mext_get s s' c : mext s s' -> (c < len s)%nat -> get_cls s' c = get_cls s c.
Proof. intros [[l E] _ _ _]. eapply get_app; eauto. Qed.
Lemma mext_len s s' : mext s s' -> (len s <= len s')%nat.
Proof. intros [[l E] _ _ _]. unfold len. rewrite E, app_length. lia. Qed.
Lemma mext_alive s s' c : mext s s' -> alive s c = true -> alive s' c = true.
Proof. intros H. rewrite !alive_spec. intros [A B]. pose proof (mext_len _ _ H). rewrite (e_dead _ _ H). split; auto; lia. Qed.
Lemma mext_bvb s s' c : mext s s' -> (c < len s)%nat -> bvb s' c = bvb s c.
Proof. intros H Hc. unfold bvb. now rewrite (mext_get s s'). Qed.

Lemma mext_sub s s' a b : minv s -> mext s s' -> (a < len s)%nat -> (sub s a b <-> sub s' a b).
Proof.
  intros I E. revert b. induction a as [a IH] using lt_wf_ind. intros b Ha. split; intros H.
  - inversion H as [|a' x c Hx Hs]; subst; [constructor|]. pose proof (i_bases s I a x Ha Hx).
    econstructor; [rewrite (mext_get s s') by auto; eauto|]. apply (IH x); auto. lia.
  - inversion H as [|a' x c Hx Hs]; subst; [constructor|]. rewrite (mext_get s s') in Hx by auto.
    pose proof (i_bases s I a x Ha Hx). econstructor; eauto. apply (IH x); auto. lia.
Qed.
Lemma mext_tame s s' a : minv s -> mext s s' -> (a < len s)%nat -> (tame s a <-> tame s' a).
Proof.
  intros I E Ha. unfold tame. rewrite (mext_get s s') by auto.
  assert (Q : forall x, In x (c_mro (get_cls s a)) -> (x < len s)%nat) by (intros x Hx; pose proof (mro_le s I a x Ha Hx); lia).
  split; intros T x Hx Hb.
  - rewrite (mext_bvb s s') in Hb by auto. destruct (T x Hx Hb) as (A & B & Eb & FA & FB).
    exists A, B. rewrite (mext_get s s') by auto. rewrite Forall_forall in FA, FB. repeat split; auto.
    + apply Forall_forall. intros y Hy. rewrite (mext_bvb s s'); auto.
      pose proof (i_bases s I x y (Q _ Hx)). rewrite Eb, in_app_iff in H. specialize (Q _ Hx). specialize (H (or_introl Hy)). lia.
    + apply Forall_forall. intros y Hy. rewrite (mext_bvb s s'); auto.
      pose proof (i_bases s I x y (Q _ Hx)). rewrite Eb, in_app_iff in H. specialize (Q _ Hx). specialize (H (or_intror Hy)). lia.
  - destruct (T x Hx) as (A & B & Eb & FA & FB). { rewrite (mext_bvb s s'); auto. }
    rewrite (mext_get s s') in Eb by auto. exists A, B. rewrite Forall_forall in FA, FB. repeat split; auto.
    + apply Forall_forall. intros y Hy. rewrite <- (mext_bvb s s'); auto.
      pose proof (i_bases s I x y (Q _ Hx)). rewrite Eb, in_app_iff in H. specialize (Q _ Hx). specialize (H (or_introl Hy)). lia.
    + apply Forall_forall. intros y Hy. rewrite <- (mext_bvb s s'); auto.
      pose proof (i_bases s I x y (Q _ Hx)). rewrite Eb, in_app_iff in H. specialize (Q _ Hx). specialize (H (or_intror Hy)). lia.
Qed.

(** ** Adding a class *)
Definition addc (s : meta) (k : cls) : meta := Meta (classes s ++ [k]) (dead s) (cache s) (vars s).
Lemma len_addc s k : len (addc s k) = S (len s).
Proof. unfold len. cbn. rewrite app_length. cbn. lia. Qed.
Lemma get_addc_old s k c : (c < len s)%nat -> get_cls (addc s k) c = get_cls s c.
Proof. apply get_old. Qed.
Lemma get_addc_new s k : get_cls (addc s k) (len s) = k.
Proof. unfold get_cls, len. cbn. rewrite app_nth2 by lia. now rewrite Nat.sub_diag. Qed.
Lemma mext_addc s k : mext s (addc s k).
Proof. split; auto. exists [k]. reflexivity. Qed.

Lemma dbl_ext p p' f f' l : (forall x, In x l -> p x = p' x /\ (p x = true -> f x = f' x)) -> dbl p f l = dbl p' f' l.
Proof.
  induction l as [|a l IH]; intros H; auto. rewrite !dbl_cons. destruct (H a) as [A B]; [now left|].
  rewrite <- A. rewrite IH by (intros; apply H; now right). destruct (p a); auto. now rewrite B.
Qed.
Lemma filter_ext_in' {A} (p q : A -> bool) l : (forall x, In x l -> p x = q x) -> filter p l = filter q l.
Proof. induction l as [|a l IH]; cbn; intros H; auto. rewrite H by auto. rewrite IH by auto. reflexivity. Qed.

Lemma addc_minv s bv bs l u sz : minv s ->
  c3 s bs = Some l ->
  (forall b, In b bs -> alive s b = true) ->
  (forall b, In b bs -> bvb s b = true -> bv = true) ->
  (forall b m, In b bs -> c_size (get_cls s b) = Some m -> sz = Some m) ->
  (forall m, sz = Some m -> bv = true) ->
  (sz = None -> u = Some (len s)) ->
  minv (addc s (Cls bv bs (len s :: l) u sz)).
Proof.
  intros I M Hal Hbv Hsz Hsb Hu. set (k := Cls bv bs (len s :: l) u sz).
  assert (G : forall c, (c < len (addc s k))%nat -> (c < len s)%nat \/ c = len s) by (intros c; rewrite len_addc; lia).
  assert (L : forall b, In b bs -> (b < len s)%nat) by (intros b Hb; now apply Hal, alive_spec in Hb).
  assert (X := mext_addc s k).
  assert (B1 : forall c b, (c < len s)%nat -> In b (c_bases (get_cls s c)) -> (b < len s)%nat).
  { intros c b Hc Hb. pose proof (i_bases s I c b Hc Hb). lia. }
  assert (CL : forall c n t, In (c, n, t) (cache s) -> (c < len s)%nat /\ (t < len s)%nat).
  { intros c n t Hc. pose proof (cache_key s I _ _ _ Hc) as [A B]. apply alive_spec in B as [B _].
    destruct (i_cache s I _ _ _ Hc) as (C & _). apply alive_spec in C as [C _]. auto. }
  assert (F : forall n x, fcn (addc s k) n x = fcn s n x) by reflexivity.
  split.
  - rewrite len_addc. pose proof (i_len s I). lia.
  - intros c Hc. rewrite len_addc. pose proof (i_dead s I c Hc). lia.
  - intros c b Hc Hb. destruct (G _ Hc) as [Hc'| ->].
    + rewrite get_addc_old in Hb by auto. now apply (i_bases s I).
    + rewrite get_addc_new in Hb. now apply L.
  - intros c Hc. destruct (G _ Hc) as [Hc'| ->].
    + rewrite get_addc_old by auto. destruct (i_mro s I c Hc') as (l' & E & M'). exists l'. split; auto.
      rewrite (c3_ext s); auto. intros b Hb. apply get_addc_old. eauto.
    + rewrite get_addc_new. exists l. split; auto. cbn [c_bases]. rewrite (c3_ext s); auto.
      intros b Hb. apply get_addc_old. auto.
  - intros c b Hc Hb Hbb. destruct (G _ Hc) as [Hc'| ->].
    + rewrite get_addc_old in Hb by auto. unfold bvb in *. rewrite get_addc_old in * by eauto. eapply (i_bv s I c b); eauto.
    + rewrite get_addc_new in Hb. unfold bvb in *. rewrite get_addc_new. rewrite get_addc_old in Hbb by auto. eapply Hbv; eauto.
  - intros c b m Hc Hb Hs. destruct (G _ Hc) as [Hc'| ->].
    + rewrite get_addc_old in * by eauto. rewrite get_addc_old in Hs by eauto. eapply (i_size s I); eauto.
    + rewrite get_addc_new in *. rewrite get_addc_old in Hs by auto. eapply Hsz; eauto.
  - intros c m Hc Hs. unfold bvb. destruct (G _ Hc) as [Hc'| ->].
    + rewrite get_addc_old in * by auto. eapply (i_sizebv s I); eauto.
    + rewrite get_addc_new in *. eapply Hsb; eauto.
  - intros c Hc Hs. destruct (G _ Hc) as [Hc'| ->].
    + rewrite get_addc_old in * by auto. now apply (i_uns s I).
    + rewrite get_addc_new in *. now apply Hu.
  - intros c b Hc Hb. rewrite alive_spec in Hc. destruct Hc as [Hc Hd]. eapply mext_alive; [exact X|].
    destruct (G _ Hc) as [Hc'| ->].
    + rewrite get_addc_old in Hb by auto. apply (i_alive s I c b); auto. apply alive_spec. auto.
    + rewrite get_addc_new in Hb. auto.
  - intros c Hc. eapply mext_alive; [exact X|]. now apply (i_vars s I).
  - intros a n t Hc. now apply (i_find s I).
  - intros a n t Hc. change (cache (addc s k)) with (cache s) in Hc. destruct (CL _ _ _ Hc) as [La Lt].
    destruct (i_cache s I _ _ _ Hc) as (A1 & A2 & A3 & A4 & A5 & A6 & A7 & A8).
    unfold bvb in A2, A3 |- *. rewrite !get_addc_old by auto. repeat (split; [now eauto using mext_alive|]).
    rewrite A8. f_equal. change (fcn (addc s k) n) with (fcn s n). f_equal. apply filter_ext_in'. intros x Hx. unfold bvb.
    rewrite get_addc_old; eauto.
  - intros a n t b Hc Hb Hbb. change (cache (addc s k)) with (cache s) in Hc. destruct (CL _ _ _ Hc) as [La Lt].
    rewrite get_addc_old in Hb by auto. unfold bvb in Hbb. rewrite get_addc_old in Hbb by eauto.
    now apply (i_closed s I a n t b).
  - intros a n t Hc HT. change (cache (addc s k)) with (cache s) in Hc. destruct (CL _ _ _ Hc) as [La Lt].
    rewrite !get_addc_old by auto. rewrite (i_dbl s I _ _ _ Hc).
    + apply dbl_ext. intros x Hx. split; auto. unfold bvb. rewrite get_addc_old; auto.
      pose proof (mro_le s I a x La Hx). lia.
    + apply (mext_tame s (addc s k)); auto.
Qed.

(** ** Adding a cache entry *)
Definition addk (s : meta) (k : nat) (n : Z) (t : nat) : meta := Meta (classes s) (dead s) ((k, n, t) :: cache s) (vars s).
Lemma find_addk s k n t k' n' : find_cache (addk s k n t) k' n' = if (Nat.eqb k k' && (n =? n'))%bool then Some t else find_cache s k' n'.
Proof. unfold find_cache, addk. cbn. destruct (Nat.eqb k k' && (n =? n'))%bool; reflexivity. Qed.
Lemma find_addk_old s k n t k' n' t' : find_cache s k n = None -> find_cache s k' n' = Some t' ->
  find_cache (addk s k n t) k' n' = Some t'.
Proof.
  intros A B. rewrite find_addk. destruct (Nat.eqb k k' && (n =? n'))%bool eqn:E; auto.
  apply andb_true_iff in E as [E1 E2]. apply Nat.eqb_eq in E1. apply Z.eqb_eq in E2. subst. congruence.
Qed.

Lemma addk_minv s k n t : minv s -> find_cache s k n = None ->
  alive s t = true -> bvb s t = true -> bvb s k = true -> c_size (get_cls s k) = None -> 0 <= n ->
  c_size (get_cls s t) = Some n -> c_unsized (get_cls s t) = Some k ->
  c_bases (get_cls s t) = k :: map (fcn s n) (filter (bvb s) (c_bases (get_cls s k))) ->
  (forall b, In b (c_bases (get_cls s k)) -> bvb s b = true -> exists tb, find_cache s b n = Some tb) ->
  (tame s k -> c_mro (get_cls s t) = dbl (bvb s) (fcn (addk s k n t) n) (c_mro (get_cls s k))) ->
  minv (addk s k n t).
Proof.
  intros I Hn Hal Hb1 Hb2 Hs1 H0 Hs2 Hu Hbs Hcl Hdb. set (s' := addk s k n t).
  assert (FO : forall k' n' t', find_cache s k' n' = Some t' -> find_cache s' k' n' = Some t') by (intros; now apply find_addk_old).
  assert (FN : find_cache s' k n = Some t) by (unfold s'; rewrite find_addk, Nat.eqb_refl, Z.eqb_refl; reflexivity).
  assert (FF : forall k' n' t', In (k', n', t') (cache s) -> forall x, sub s k' x -> bvb s x = true -> fcn s' n' x = fcn s n' x).
  { intros k' n' t' Hc x Hx Hbx. destruct (cached_up s I _ _ _ _ Hc Hx Hbx) as (tx & Ex). unfold fcn. rewrite Ex. now rewrite (FO _ _ _ Ex). }
  split; try (exact (i_len s I) || exact (i_dead s I) || exact (i_bases s I) || exact (i_mro s I) || exact (i_bv s I)
    || exact (i_size s I) || exact (i_sizebv s I) || exact (i_uns s I) || exact (i_alive s I) || exact (i_vars s I)).
  - intros a m x [E|Hc]; [inv E; auto|]. apply FO. now apply (i_find s I).
  - intros a m x [E|Hc].
    + inv E. repeat (split; [assumption|]). change (get_cls s' x) with (get_cls s x). rewrite Hbs. f_equal.
      apply map_ext_in. intros y Hy. apply filter_In in Hy as [Hy Hby]. destruct (Hcl y Hy Hby) as (ty & Ey).
      unfold fcn. rewrite Ey. now rewrite (FO _ _ _ Ey).
    + destruct (i_cache s I _ _ _ Hc) as (A1 & A2 & A3 & A4 & A5 & A6 & A7 & A8). repeat (split; [assumption|]).
      change (get_cls s' x) with (get_cls s x). rewrite A8. f_equal. apply map_ext_in. intros y Hy.
      apply filter_In in Hy as [Hy Hby]. symmetry. eapply FF; eauto. econstructor; [exact Hy|constructor].
  - intros a m x b [E|Hc] Hb Hbb.
    + inv E. destruct (Hcl b Hb Hbb) as (tb & Eb). eauto.
    + destruct (i_closed s I _ _ _ b Hc Hb Hbb) as (tb & Eb). eauto.
  - intros a m x [E|Hc] HT.
    + inv E. apply Hdb. exact HT.
    + change (get_cls s' x) with (get_cls s x). rewrite (i_dbl s I _ _ _ Hc HT). change (get_cls s' a) with (get_cls s a).
      apply dbl_ext. intros y Hy. split; auto. intros Hby. symmetry. eapply FF; eauto.
      apply mro_sub in Hy; auto. pose proof (cache_key s I _ _ _ Hc) as [_ Q]. now apply alive_spec in Q.
Qed.
Lemma mext_addk s k n t : find_cache s k n = None -> mext s (addk s k n t).
Proof. intros H. split; auto. { exists []. now rewrite app_nil_r. } intros. now apply find_addk_old. Qed.

(** ** Indexing *)
Definition go_idx (f : nat) (n : Z) := fix go (s : meta) (bs : list nat) : res (meta * list nat) :=
  match bs with
  | [] => Ok (s, [])
  | b :: bs =>
      if c_bv (get_cls s b)
      then r <- index_cls f s b n ;; rs <- go (fst r) bs ;; Ok (fst rs, snd r :: snd rs)
      else go s bs
  end.
Lemma index_unfold f s c n : index_cls (S f) s c n =
  match find_cache s c n with
  | Some t => Ok (s, t)
  | None =>
      if n <? 0 then Raise EValueError else
      match c_size (get_cls s c) with
      | Some _ => Raise ETypeError
      | None =>
          r <- go_idx f n s (c_bases (get_cls s c)) ;;
          q <- new_class (fst r) true (c :: snd r) (Some c) (Some n) ;;
          Ok (addk (fst q) c n (snd q), snd q)
      end
  end.
Proof. reflexivity. Qed.

(** The MRO of a sized class under [tame]. *)
Lemma c3_sized s c n : minv s -> (c < len s)%nat -> c_size (get_cls s c) = None -> bvb s c = true -> tame s c ->
  (forall b, In b (c_bases (get_cls s c)) -> bvb s b = true -> exists tb, find_cache s b n = Some tb) ->
  exists M, c_mro (get_cls s c) = c :: M /\
    c3 s (c :: map (fcn s n) (filter (bvb s) (c_bases (get_cls s c)))) = Some (c :: dbl (bvb s) (fcn s n) M).
Proof.
  intros I Hc Hs Hb HT Hcl. destruct (i_mro s I c Hc) as (M & EM & M3). exists M. split; auto.
  destruct (HT c (mro_self s I c Hc) Hb) as (A & B & EB & FA & FB).
  assert (LB : forall b, In b (c_bases (get_cls s c)) -> (b < c)%nat) by (intros; now apply (i_bases s I c b)).
  assert (FL : filter (bvb s) (c_bases (get_cls s c)) = A).
  { rewrite EB, filter_app. replace (filter (bvb s) A) with A
      by (clear -FA; induction FA as [|a A Ha FA IH]; auto; cbn; rewrite Ha; congruence).
    replace (filter (bvb s) B) with (@nil nat); [apply app_nil_r|]. clear -FB. induction FB as [|b B Hb FB IH]; auto. cbn. now rewrite Hb. }
  rewrite FL.
  set (U := fun x => (x < len s)%nat /\ c_size (get_cls s x) = None /\ (bvb s x = true -> exists tx, find_cache s x n = Some tx)).
  assert (finj : forall x y, U x -> U y -> bvb s x = true -> bvb s y = true -> fcn s n x = fcn s n y -> x = y).
  { intros x y (_ & _ & Ux) (_ & _ & Uy) Bx By E. destruct (Ux Bx) as (tx & Ex). destruct (Uy By) as (ty & Ey).
    unfold fcn in E. rewrite Ex, Ey in E. subst ty.
    destruct (i_cache s I _ _ _ (find_cache_In _ _ _ _ Ex)) as (_ & _ & _ & _ & _ & _ & Q & _).
    destruct (i_cache s I _ _ _ (find_cache_In _ _ _ _ Ey)) as (_ & _ & _ & _ & _ & _ & Q' & _). congruence. }
  assert (fout : forall x y, U x -> U y -> bvb s x = true -> fcn s n x <> y).
  { intros x y (_ & _ & Ux) (_ & Sy & _) Bx E. destruct (Ux Bx) as (tx & Ex). unfold fcn in E. rewrite Ex in E. subst y.
    destruct (i_cache s I _ _ _ (find_cache_In _ _ _ _ Ex)) as (_ & _ & _ & _ & _ & Q & _). congruence. }
  assert (UB : forall b x, In b (c_bases (get_cls s c)) -> In x (c_mro (get_cls s b)) -> U x).
  { intros b x Hbb Hx. pose proof (LB _ Hbb). assert (Hsub : sub s b x) by (apply mro_sub; auto; lia).
    split; [|split].
    - pose proof (sub_le s I b x ltac:(lia) Hsub). lia.
    - destruct (c_size (get_cls s x)) as [m|] eqn:E; auto. apply (sub_size s I c x m) in E; auto; [congruence|].
      econstructor; eauto.
    - intros Hbx. assert (bvb s b = true) by (eapply sub_bv; eauto; lia).
      destruct (Hcl b Hbb H0) as (tb & Eb). eapply cached_up; eauto using find_cache_In. }
  assert (UA : forall b, In b (c_bases (get_cls s c)) -> U b).
  { intros b Hbb. apply (UB b b Hbb). apply mro_self; auto. pose proof (LB _ Hbb). lia. }
  unfold c3 in M3. rewrite EB, map_app in M3. rewrite <- app_assoc in M3.
  assert (InB : forall x, In x A -> In x (c_bases (get_cls s c))) by (intros; rewrite EB; apply in_app_iff; auto).
  assert (InB' : forall x, In x B -> In x (c_bases (get_cls s c))) by (intros; rewrite EB; apply in_app_iff; auto).
  assert (HNB : Forall (Forall (fun x => bvb s x = false)) (map (fun b => c_mro (get_cls s b)) B)).
  { apply Forall_forall. intros l Hl. apply in_map_iff in Hl as (b & <- & Hl). apply Forall_forall. intros x Hx.
    destruct (bvb s x) eqn:E; auto. rewrite Forall_forall in FB. rewrite <- (FB b Hl). symmetry.
    pose proof (LB _ (InB' _ Hl)). eapply (sub_bv s I b x); auto; [lia|]. apply mro_sub; auto. lia. }
  edestruct (merge_double (bvb s) (fcn s n) U finj fout _ _ _ _ _ _ M3) as (fu & Efu).
  - apply Forall_forall. intros l Hl. apply in_map_iff in Hl as (b & <- & Hl). apply Forall_forall. intros x Hx. eauto.
  - apply Forall_forall. intros l Hl. apply in_map_iff in Hl as (b & <- & Hl). apply Forall_forall. intros x Hx. eauto.
  - apply Forall_forall. eauto.
  - apply Forall_forall. eauto.
  - exact HNB.
  - exact FA.
  - exact FB.
  - intros x Hx. exists (c_mro (get_cls s x)). split; [apply in_map_iff; eauto|]. apply mro_self; auto.
    pose proof (LB _ (InB _ Hx)). lia.
  - intros x Hx Hbx. rewrite (merge_In _ _ _ M3) in Hx. destruct Hx as (l & Hl & Hx).
    rewrite !in_app_iff in Hl. destruct Hl as [Hl|[Hl|[<-|[]]]]; eauto.
    + exfalso. rewrite Forall_forall in HNB. specialize (HNB _ Hl). rewrite Forall_forall in HNB. rewrite HNB in Hbx; auto. discriminate.
    + apply in_app_iff in Hx as [Hx|Hx].
      * exists (c_mro (get_cls s x)). split; [apply in_map_iff; eauto|]. apply mro_self; auto. pose proof (LB _ (InB _ Hx)). lia.
      * exfalso. rewrite Forall_forall in FB. rewrite FB in Hbx; auto. discriminate.
  - (* the first pick is c *)
    unfold c3. cbn [map]. rewrite EM. cbn [app].
    set (D := map (fun b => c_mro (get_cls s b)) (map (fcn s n) A)).
    assert (ED : D = map (dbl (bvb s) (fcn s n)) (map (fun b => c_mro (get_cls s b)) A)).
    { unfold D. rewrite !map_map. apply map_ext_in. intros b Hbb. rewrite Forall_forall in FA.
      destruct (Hcl b (InB _ Hbb) (FA _ Hbb)) as (tb & Etb). unfold fcn at 1. rewrite Etb.
      apply (i_dbl s I b n tb); [now apply find_cache_In|]. eapply tame_sub; eauto.
      econstructor; [apply InB; eauto|constructor]. }
    apply (merge_fuel (S fu)). cbn [merge].
    change (heads ((c :: M) :: D ++ [c :: map (fcn s n) A])) with (c :: heads (D ++ [c :: map (fcn s n) A])).
    assert (UM : forall x, In x M -> (x < c)%nat /\ U x).
    { intros x Hx. assert (In x (c_mro (get_cls s c))) by (rewrite EM; now right).
      assert (x <> c). { intros ->. pose proof (merge_In _ _ _ M3 c) as [Q _]. destruct (Q Hx) as (l & Hl & Hcl').
        rewrite !in_app_iff, !in_map_iff in Hl. destruct Hl as [(b & <- & Hl)|[(b & <- & Hl)|[<-|[]]]].
        - pose proof (LB _ (InB _ Hl)). pose proof (mro_le s I b c ltac:(lia) Hcl'). lia.
        - pose proof (LB _ (InB' _ Hl)). pose proof (mro_le s I b c ltac:(lia) Hcl'). lia.
        - rewrite <- EB in Hcl'. pose proof (LB _ Hcl'). lia. }
      pose proof (mro_le s I c x Hc H). split; [lia|].
      apply mro_In in H; auto. destruct H as [->|(b & Hbb & Hx')]; [congruence|]. eauto. }
    assert (Pk : pick ((c :: M) :: D ++ [c :: map (fcn s n) A]) = Some c).
    { unfold pick. change (heads ((c :: M) :: D ++ [c :: map (fcn s n) A])) with (c :: heads (D ++ [c :: map (fcn s n) A])).
      cbn [find]. replace (forallb _ ((c :: M) :: D ++ [c :: map (fcn s n) A])) with true; auto. symmetry.
      apply good_all. intros l [<-|Hl].
      - cbn [in_tail]. apply mem_false. intros K. apply UM in K. lia.
      - apply in_app_iff in Hl as [Hl|[<-|[]]].
        + rewrite ED in Hl. apply in_map_iff in Hl as (l' & <- & Hl). apply in_map_iff in Hl as (b & <- & Hl).
          destruct (in_tail c _) eqn:K; auto. apply in_tail_In in K. exfalso.
          unfold dbl in K. apply in_flat_map in K as (y & Hy & K). pose proof (LB _ (InB _ Hl)).
          assert (Uy : U y) by (eapply UB; eauto). assert (y <= b)%nat by (apply (mro_le s I); auto; lia).
          destruct (bvb s y) eqn:Eby; cbn in K.
          * destruct K as [K|[K|[]]]; [|lia]. destruct Uy as (_ & _ & Uy). destruct (Uy Eby) as (ty & Ey). unfold fcn in K. rewrite Ey in K. subst ty.
            destruct (i_cache s I _ _ _ (find_cache_In _ _ _ _ Ey)) as (_ & _ & _ & _ & _ & Q & _). congruence.
          * destruct K as [K|[]]. lia.
        + cbn [in_tail]. apply mem_false. intros K. apply in_map_iff in K as (y & Ey & Hy). rewrite Forall_forall in FA.
          destruct (Hcl y (InB _ Hy) (FA _ Hy)) as (ty & Ety). unfold fcn in Ey. rewrite Ety in Ey. subst ty.
          destruct (i_cache s I _ _ _ (find_cache_In _ _ _ _ Ety)) as (_ & _ & _ & _ & _ & Q & _). congruence. }
    rewrite Pk. cbn [option_map map]. cbn [strip1]. rewrite Nat.eqb_refl.
    replace (map (strip1 c) (D ++ [c :: map (fcn s n) A])) with (map (dbl (bvb s) (fcn s n)) (map (fun b => c_mro (get_cls s b)) A) ++ [map (fcn s n) A]).
    + rewrite Efu. reflexivity.
    + rewrite map_app. cbn [map]. cbn [strip1]. rewrite Nat.eqb_refl. f_equal. rewrite ED, !map_map. apply map_ext_in. intros b Hl.
      pose proof (LB _ (InB _ Hl)). destruct (dbl _ _ (c_mro (get_cls s b))) as [|h t] eqn:Ed; auto. cbn [strip1].
      destruct (Nat.eqb_spec h c) as [->|]; auto. exfalso.
      assert (K : In c (dbl (bvb s) (fcn s n) (c_mro (get_cls s b)))) by (rewrite Ed; now left).
      unfold dbl in K. apply in_flat_map in K as (y & Hy & K).
      assert (Uy : U y) by (eapply UB; eauto). assert (y <= b)%nat by (apply (mro_le s I); auto; lia).
      destruct (bvb s y) eqn:Eby; cbn in K.
      * destruct K as [K|[K|[]]]; [|lia]. destruct Uy as (_ & _ & Uy). destruct (Uy Eby) as (ty & Ey). unfold fcn in K. rewrite Ey in K. subst ty.
        destruct (i_cache s I _ _ _ (find_cache_In _ _ _ _ Ey)) as (_ & _ & _ & _ & _ & Q & _). congruence.
      * destruct K as [K|[]]. lia.
Qed.

Lemma join_sized s n ts : (forall t, In t ts -> c_size (get_cls s t) = Some n) -> join_size s (Some n) ts = Ok (Some n).
Proof.
  induction ts as [|t ts IH]; cbn; auto. intros H. rewrite H by auto. rewrite Z.eqb_refl. auto.
Qed.

Lemma index_ok fuel : forall s c n, minv s -> alive s c = true -> bvb s c = true -> (c < fuel)%nat ->
  match index_cls fuel s c n with
  | Ok (s', t) => minv s' /\ mext s s' /\ find_cache s' c n = Some t /\ (find_cache s c n = Some t -> s' = s)
      /\ forall k m, (c < k)%nat -> find_cache s' k m = find_cache s k m
  | Raise e =>
      (n < 0 -> e = EValueError) /\ (0 <= n -> e = ETypeError)
      /\ (0 <= n -> c_size (get_cls s c) = None -> ~ tame s c)
  end.
Proof.
  induction fuel as [|f IH]; intros s c n I Hal Hbv Hf; [lia|]. rewrite index_unfold.
  destruct (find_cache s c n) as [t|] eqn:EF.
  { split; [exact I|]. split; [apply mext_refl|]. auto. }
  destruct (Z.ltb_spec n 0) as [Hn|Hn]; [repeat split; auto; lia|].
  destruct (c_size (get_cls s c)) as [m|] eqn:Es; [repeat split; auto; try lia; discriminate|].
  assert (Lc : (c < len s)%nat) by now apply alive_spec in Hal.
  (* the bases *)
  assert (GO : forall bs s0, minv s0 -> (forall b, In b bs -> alive s0 b = true /\ (b < f /\ b < c)%nat /\ c_size (get_cls s0 b) = None) ->
    match go_idx f n s0 bs with
    | Ok (s', ts) => minv s' /\ mext s0 s' /\ ts = map (fcn s' n) (filter (bvb s0) bs)
        /\ (forall b, In b bs -> bvb s0 b = true -> exists tb, find_cache s' b n = Some tb)
        /\ forall k m, (c <= k)%nat -> find_cache s' k m = find_cache s0 k m
    | Raise e => e = ETypeError /\ exists b, In b bs /\ ~ tame s0 b
    end).
  { induction bs as [|b bs IHb]; intros s0 I0 H0; cbn [go_idx].
    { split; [exact I0|]. split; [apply mext_refl|]. split; auto. split; [intros ? []|auto]. }
    fold (go_idx f n). change (c_bv (get_cls s0 b)) with (bvb s0 b). cbn [filter].
    destruct (H0 b) as (Ab & Lb & Sb); [now left|].
    destruct (bvb s0 b) eqn:Ebv.
    - specialize (IH s0 b n I0 Ab Ebv (proj1 Lb)). destruct (index_cls f s0 b n) as [[s1 t]|e].
      + destruct IH as (I1 & X1 & F1 & _ & K1). cbn [bind fst snd].
        assert (H1 : forall b0, In b0 bs -> alive s1 b0 = true /\ (b0 < f /\ b0 < c)%nat /\ c_size (get_cls s1 b0) = None).
        { intros b0 Hb0. destruct (H0 b0) as (A & B & C); [now right|]. split; [eapply mext_alive; eauto|]. split; auto.
          rewrite (mext_get s0 s1); auto. now apply alive_spec in A. }
        specialize (IHb s1 I1 H1). destruct (go_idx f n s1 bs) as [[s2 ts]|e].
        * destruct IHb as (I2 & X2 & Et & Hcl & K2). cbn [bind fst snd]. split; auto. split; [eapply mext_trans; eauto|]. split; [|split].
          -- cbn [map]. f_equal.
             ++ unfold fcn. now rewrite (e_cache _ _ X2 _ _ _ F1).
             ++ rewrite Et. f_equal. apply filter_ext_in'. intros x Hx. apply mext_bvb; auto.
                destruct (H0 x) as (A & _); [now right|]. now apply alive_spec in A.
          -- intros b0 [<-|Hb0] Hbb; [exists t; now apply (e_cache _ _ X2)|]. apply Hcl; auto.
             rewrite (mext_bvb s0 s1); auto. destruct (H0 b0) as (A & _); [now right|]. now apply alive_spec in A.
          -- intros k m Hk. rewrite K2 by auto. apply K1. lia.
        * cbn [bind]. destruct IHb as (-> & b0 & Hb0 & Ht). split; auto. exists b0. split; [now right|].
          rewrite (mext_tame s0 s1); auto. destruct (H0 b0) as (A & _); [now right|]. now apply alive_spec in A.
      + cbn [bind]. destruct IH as (_ & E & T). split; auto. exists b. split; [now left|]. auto.
    - specialize (IHb s0 I0 (fun x Hx => H0 x (or_intror Hx))). destruct (go_idx f n s0 bs) as [[s2 ts]|e].
      + destruct IHb as (I2 & X2 & Et & Hcl & K2). split; auto. split; auto. split; auto. split; auto.
        intros b0 [<-|Hb0] Hbb; [congruence|]. auto.
      + destruct IHb as (-> & b0 & Hb0 & Ht). split; auto. exists b0. split; auto. now right. }
  specialize (GO (c_bases (get_cls s c)) s I).
  assert (HB : forall b, In b (c_bases (get_cls s c)) -> alive s b = true /\ (b < f /\ b < c)%nat /\ c_size (get_cls s b) = None).
  { intros b Hb. split; [eapply i_alive; eauto|]. split; [pose proof (i_bases s I c b Lc Hb); lia|].
    destruct (c_size (get_cls s b)) as [m|] eqn:E; auto. eapply (i_size s I c b m) in E; auto. congruence. }
  specialize (GO HB). destruct (go_idx f n s (c_bases (get_cls s c))) as [[s1 ts]|e]; cbn [bind fst snd].
  2:{ destruct GO as (-> & b & Hb & Ht). repeat split; auto; [lia|]. intros _ _ HT. apply Ht.
      eapply tame_sub; eauto. econstructor; [eauto|constructor]. }
  destruct GO as (I1 & X1 & Et & Hcl & K1).
  assert (Gc : get_cls s1 c = get_cls s c) by (apply mext_get; auto).
  assert (Lc1 : (c < len s1)%nat) by (pose proof (mext_len _ _ X1); lia).
  assert (Gb : forall b, In b (c_bases (get_cls s c)) -> bvb s1 b = bvb s b).
  { intros b Hb. apply mext_bvb; auto. now apply HB, proj1, alive_spec in Hb. }
  assert (Et' : ts = map (fcn s1 n) (filter (bvb s1) (c_bases (get_cls s1 c)))).
  { rewrite Et, Gc. f_equal. apply filter_ext_in'. intros. symmetry. auto. }
  assert (Ts : forall t, In t ts -> exists b, In b (c_bases (get_cls s1 c)) /\ In (b, n, t) (cache s1)).
  { intros t Ht. rewrite Et' in Ht. apply in_map_iff in Ht as (b & <- & Hb). apply filter_In in Hb as [Hb Hbb]. rewrite Gc in Hb.
    exists b. rewrite Gc. split; auto. destruct (Hcl b Hb) as (tb & Eb). { now rewrite <- Gb. } unfold fcn. rewrite Eb.
    now apply find_cache_In. }
  assert (Ec1 : find_cache s1 c n = None).
  { rewrite K1; auto. }
  unfold new_class. cbn [join_size]. rewrite Gc, Es. rewrite join_sized.
  2:{ intros t Ht. destruct (Ts t Ht) as (b & _ & Hb). now apply (i_cache s1 I1) in Hb as (_ & _ & _ & _ & _ & ? & _). }
  cbn [bind]. destruct (c3 s1 (c :: ts)) as [l|] eqn:E3.
  2:{ cbn [bind]. repeat split; auto; [lia|]. intros _ _ HT.
      destruct (c3_sized s1 c n I1 Lc1) as (M & EM & E); try (rewrite Gc; assumption).
      - unfold bvb. now rewrite Gc.
      - now apply (mext_tame s s1).
      - rewrite Gc. intros b Hb Hbb. apply Hcl; auto. now rewrite <- Gb.
      - rewrite <- Et' in E. congruence. }
  cbn [bind fst snd]. change (length (classes s1)) with (len s1).
  set (k := Cls true (c :: ts) (len s1 :: l) (Some c) (Some n)).
  change (Meta (classes s1 ++ [k]) (dead s1) (cache s1) (vars s1)) with (addc s1 k).
  assert (I2 : minv (addc s1 k)).
  { apply addc_minv; auto; try discriminate.
    - intros b [<-|Hb]; [eapply mext_alive; eauto|]. destruct (Ts b Hb) as (x & _ & Hx). now apply (i_cache s1 I1) in Hx.
    - intros b m [<-|Hb] E; [rewrite Gc in E; congruence|]. destruct (Ts b Hb) as (x & _ & Hx).
      apply (i_cache s1 I1) in Hx as (_ & _ & _ & _ & _ & ? & _). congruence. }
  assert (Go : forall x, (x < len s1)%nat -> get_cls (addc s1 k) x = get_cls s1 x) by (intros; now apply get_addc_old).
  split; [|split; [|split; [|split]]].
  - apply addk_minv; auto; try (rewrite get_addc_new; reflexivity).
    + apply alive_spec. rewrite len_addc. split; [lia|]. intros K. apply (i_dead s1 I1) in K. lia.
    + unfold bvb. rewrite get_addc_new. reflexivity.
    + unfold bvb. rewrite Go, Gc by auto. exact Hbv.
    + rewrite Go, Gc by auto. exact Es.
    + rewrite get_addc_new, Go by auto. cbn [c_bases k]. f_equal. rewrite Et'. change (fcn (addc s1 k) n) with (fcn s1 n).
      f_equal. apply filter_ext_in'. intros x Hx. unfold bvb. rewrite Go; auto. rewrite Gc in Hx.
      pose proof (i_bases s I c x Lc Hx). lia.
    + rewrite Go, Gc by auto. intros b Hb Hbb. change (find_cache (addc s1 k)) with (find_cache s1). apply Hcl; auto.
      unfold bvb in *. rewrite Go in Hbb; [now rewrite <- Gb|]. pose proof (i_bases s I c b Lc Hb). lia.
    + intros HT. rewrite get_addc_new, Go by auto. cbn [c_mro k].
      destruct (c3_sized s1 c n I1 Lc1) as (M & EM & E); try (rewrite Gc; assumption).
      * unfold bvb. now rewrite Gc.
      * apply (mext_tame s1 (addc s1 k)); auto. apply mext_addc.
      * rewrite Gc. intros b Hb Hbb. apply Hcl; auto. now rewrite <- Gb.
      * rewrite <- Et' in E. rewrite E in E3. inv E3. rewrite EM, dbl_cons.
        assert (Q : bvb (addc s1 k) c = true) by (unfold bvb; rewrite Go, Gc by auto; exact Hbv). rewrite Q.
        assert (Q2 : fcn (addk (addc s1 k) c n (len s1)) n c = len s1) by (unfold fcn; rewrite find_addk, Nat.eqb_refl, Z.eqb_refl; reflexivity).
        rewrite Q2. cbn [app]. do 2 f_equal. apply dbl_ext. intros x Hx.
        assert (Hx' : In x (c_mro (get_cls s1 c))) by (rewrite EM; now right).
        pose proof (mro_le s1 I1 c x Lc1 Hx').
        split; [unfold bvb; rewrite Go by lia; reflexivity|]. intros Hbx.
        destruct (Nat.eq_dec x c) as [->|Nx].
        { (* c is not in M *) exfalso. destruct (i_mro s1 I1 c Lc1) as (M' & EM' & M3). rewrite EM in EM'. inv EM'.
          unfold c3 in M3. rewrite (merge_In _ _ _ M3) in Hx. destruct Hx as (l & Hl & Hx).
          rewrite in_app_iff, in_map_iff in Hl. destruct Hl as [(b & <- & Hb)|[<-|[]]].
          - pose proof (i_bases s1 I1 c b Lc1 Hb). pose proof (mro_le s1 I1 b c ltac:(lia) Hx). lia.
          - pose proof (i_bases s1 I1 c c Lc1 Hx). lia. }
        unfold fcn. rewrite find_addk. destruct (Nat.eqb_spec c x); [congruence|]. reflexivity.
  - eapply mext_trans; [exact X1|]. eapply mext_trans; [apply mext_addc|]. now apply mext_addk.
  - rewrite find_addk, Nat.eqb_refl, Z.eqb_refl. reflexivity.
  - congruence.
  - intros k' m Hk. rewrite find_addk. destruct (Nat.eqb_spec c k'); [lia|]. cbn [andb].
    change (find_cache s1 k' m = find_cache s k' m). apply K1. lia.
Qed.

(** ** Histories *)
Lemma find_filter {A} (p q : A -> bool) l e : find p l = Some e -> q e = true -> find p (filter q l) = Some e.
Proof.
  induction l as [|a l IH]; cbn; [discriminate|]. destruct (p a) eqn:E; intros H Hq.
  - inv H. rewrite Hq. cbn. now rewrite E.
  - destruct (q a); cbn; [rewrite E|]; auto.
Qed.

Record later (s s' : meta) : Prop := {
  l_classes : exists l, classes s' = classes s ++ l;
  l_dead : forall c, In c (dead s) -> In c (dead s');
  l_cache : forall k n t, find_cache s k n = Some t -> alive s' t = true -> find_cache s' k n = Some t
}.
Lemma later_alive s s' c : later s s' -> (c < len s)%nat -> alive s' c = true -> alive s c = true.
Proof. intros L Hc. rewrite !alive_spec. intros [A B]. split; auto. intros K. apply B. now apply (l_dead _ _ L). Qed.
Lemma later_trans a b c : minv a -> later a b -> later b c -> later a c.
Proof.
  intros I [[l1 E1] D1 C1] [[l2 E2] D2 C2]. split; auto.
  - exists (l1 ++ l2). rewrite E2, E1. now rewrite app_assoc.
  - intros k n t F Ht. apply C2; auto. apply C1; auto.
    apply (later_alive b c); [constructor; eauto| |auto]. unfold len. rewrite E1, app_length.
    apply find_cache_In, (i_cache a I), proj1, alive_spec, proj1 in F. unfold len in F. lia.
Qed.
Lemma later_refl s : later s s.
Proof. split; auto. exists []. now rewrite app_nil_r. Qed.
Lemma mext_later s s' : mext s s' -> later s s'.
Proof. intros [E D V C]. split; auto. now rewrite D. Qed.

Lemma hold_minv s c : minv s -> alive s c = true -> minv (hold s c).
Proof. intros I H. destruct I. split; try assumption. intros x [<-|Hx]; [exact H|]. now apply i_vars0. Qed.
Lemma hold_later s c : later s (hold s c).
Proof. split; auto. exists []. cbn. now rewrite app_nil_r. Qed.

Lemma join_none s : forall bs sz r, join_size s sz bs = Ok r ->
  (forall k, sz = Some k -> r = Some k) /\ forall b m, In b bs -> c_size (get_cls s b) = Some m -> r = Some m.
Proof.
  induction bs as [|b bs IH]; cbn; intros sz r H.
  - inv H. split; [auto|intros ? ? []].
  - destruct (c_size (get_cls s b)) as [m|] eqn:E.
    + destruct sz as [k|].
      * destruct (Z.eqb_spec k m) as [->|]; [|discriminate]. apply IH in H as [A B]. split; auto.
        intros b' m' [<-|Hb] E'; [rewrite E in E'; inv E'; auto|eauto].
      * apply IH in H as [A B]. split; [discriminate|]. intros b' m' [<-|Hb] E'; [rewrite E in E'; inv E'; auto|eauto].
    + apply IH in H as [A B]. split; auto. intros b' m' [<-|Hb] E'; [congruence|eauto].
Qed.
Lemma join_some s : forall bs sz m, join_size s sz bs = Ok (Some m) -> sz = Some m \/ exists b, In b bs /\ c_size (get_cls s b) = Some m.
Proof.
  induction bs as [|b bs IH]; cbn; intros sz m H; [inv H; auto|].
  destruct (c_size (get_cls s b)) as [k|] eqn:E.
  - destruct sz as [j|].
    + destruct (Z.eqb_spec j k) as [->|]; [|discriminate]. apply IH in H as [A|(b' & A & B)]; eauto.
    + apply IH in H as [A|(b' & A & B)]; [inv A|]; eauto.
  - apply IH in H as [A|(b' & A & B)]; eauto.
Qed.

Lemma new_class_ok s bs s' t : minv s -> forallb (alive s) bs = true ->
  new_class s (existsb (fun b => c_bv (get_cls s b)) bs) bs None None = Ok (s', t) ->
  minv s' /\ mext s s' /\ alive s' t = true.
Proof.
  intros I Ha H. rewrite forallb_forall in Ha. unfold new_class in H.
  destruct (join_size s None bs) as [sz|] eqn:J; [|discriminate]. cbn [bind] in H.
  destruct (c3 s bs) as [l|] eqn:E3; [|discriminate]. inv H. change (length (classes s)) with (len s).
  set (k := Cls _ _ _ _ _). change (Meta (classes s ++ [k]) (dead s) (cache s) (vars s)) with (addc s k).
  destruct (join_none _ _ _ _ J) as [_ J2]. split; [|split].
  - apply addc_minv; auto.
    + intros b Hb Hbb. apply existsb_exists. eauto.
    + intros m ->. destruct (join_some _ _ _ _ J) as [?|(b & Hb & Eb)]; [discriminate|]. apply existsb_exists.
      exists b. split; auto. eapply (i_sizebv s I); eauto. now apply Ha, alive_spec in Hb.
    + intros ->. reflexivity.
  - apply mext_addc.
  - apply alive_spec. rewrite len_addc. split; [lia|]. intros K. apply (i_dead s I) in K. lia.
Qed.

Lemma find_cache_alive s c n t : minv s -> find_cache s c n = Some t -> alive s t = true.
Proof. intros I H. now apply find_cache_In, (i_cache s I) in H. Qed.

Lemma getitem_ok s c i : minv s -> alive s c = true -> bvb s c = true ->
  match getitem_cls s c i with
  | Ok (s', t) => minv s' /\ mext s s' /\ alive s' t = true /\ exists n, (i = XInt n \/ i = XFloat n) /\ find_cache s' c n = Some t
  | Raise _ => True
  end.
Proof.
  intros I Ha Hb. destruct i as [n|n|]; cbn [getitem_cls]; auto.
  - pose proof (index_ok (S c) s c n I Ha Hb ltac:(lia)) as Q. destruct (index_cls (S c) s c n) as [[s' t]|]; auto.
    destruct Q as (A & B & C & _). split; auto. split; auto. split; eauto using find_cache_alive.
  - destruct (find_cache s c n) as [t|] eqn:E; auto. split; auto. split; auto using mext_refl.
    split; eauto using find_cache_alive.
Qed.

Lemma mstep_ok s op : minv s -> minv (mstep s op) /\ later s (mstep s op).
Proof.
  intros I. destruct op as [bs|c i|c|c]; cbn [mstep].
  - set (bs' := match bs with [] => _ | _ => _ end).
    destruct (forallb (alive s) bs') eqn:Ha; [|auto using later_refl].
    destruct (new_class s _ bs' None None) as [[s' t]|] eqn:E; [|auto using later_refl].
    destruct (new_class_ok _ _ _ _ I Ha E) as (A & B & C). split; [now apply hold_minv|].
    apply (later_trans s s' (hold s' t)); auto using mext_later, hold_later.
  - destruct (alive s c && c_bv (get_cls s c)) eqn:Ea; [|auto using later_refl]. apply andb_true_iff in Ea as [Ha Hb].
    pose proof (getitem_ok s c i I Ha Hb) as Q. destruct (getitem_cls s c i) as [[s' t]|]; [|auto using later_refl].
    destruct Q as (A & B & C & _). split; [now apply hold_minv|].
    apply (later_trans s s' (hold s' t)); auto using mext_later, hold_later.
  - split.
    + destruct I. split; try assumption. cbn [vars]. intros x Hx. apply in_remove in Hx as [Hx _]. now apply i_vars0.
    + split; auto. exists []. cbn. now rewrite app_nil_r.
  - destruct (alive s c && negb (referenced s c) && Nat.leb 2 c) eqn:Ea; [|auto using later_refl].
    apply andb_true_iff in Ea as [Ea _]. apply andb_true_iff in Ea as [Ha Hr]. apply negb_true_iff in Hr.
    unfold referenced in Hr. apply orb_false_iff in Hr as [Hv Hr]. apply mem_false in Hv.
    set (s' := Meta _ _ _ _).
    assert (AL : forall x, alive s' x = true <-> alive s x = true /\ x <> c).
    { intros x. rewrite !alive_spec. unfold s', len. cbn [classes dead In]. split.
      - intros [A B]. split; [split; auto|intros ->; auto].
      - intros [[A B] C]. split; auto. intros [->|K]; auto. }
    assert (NB : forall d, alive s d = true -> ~ In c (c_bases (get_cls s d))).
    { intros d Hd K. assert (existsb (fun d => alive s d && mem c (c_bases (get_cls s d))) (seq 0 (length (classes s))) = true); [|congruence].
      apply existsb_exists. exists d. split; [apply in_seq; apply alive_spec in Hd; unfold len in Hd; lia|].
      rewrite Hd. cbn. now apply mem_In. }
    assert (IC : forall k n t, In (k, n, t) (cache s') <-> In (k, n, t) (cache s) /\ t <> c).
    { intros. unfold s'. cbn [cache]. rewrite filter_In. cbn [snd]. rewrite negb_true_iff, Nat.eqb_neq. tauto. }
    assert (FC : forall k n t, find_cache s k n = Some t -> t <> c -> find_cache s' k n = Some t).
    { intros k n t F Hn. unfold find_cache in F |- *. destruct (find _ (cache s)) as [e|] eqn:E; [|discriminate]. cbn in F. inv F.
      unfold s'. cbn [cache]. erewrite find_filter; [reflexivity|exact E|]. apply negb_true_iff. now apply Nat.eqb_neq. }
    (* the sized bases of an entry that stays, stay *)
    assert (FB : forall k n t b, In (k, n, t) (cache s') -> In b (c_bases (get_cls s k)) -> bvb s b = true ->
      exists tb, find_cache s b n = Some tb /\ find_cache s' b n = Some tb).
    { intros k n t b Hc Hb Hbb. apply IC in Hc as [Hc Hn]. destruct (i_closed s I _ _ _ b Hc Hb Hbb) as (tb & Eb).
      exists tb. split; auto. apply FC; auto. intros ->.
      destruct (i_cache s I _ _ _ Hc) as (A1 & _ & _ & _ & _ & _ & _ & A8). apply (NB t A1). rewrite A8. right.
      apply in_map_iff. exists b. split; [unfold fcn; now rewrite Eb|]. apply filter_In. auto. }
    assert (UP : forall k n t x, In (k, n, t) (cache s') -> sub s k x -> bvb s x = true -> fcn s' n x = fcn s n x).
    { intros k n t x Hc Hs. revert t Hc. induction Hs as [a|a b x Hb Hs IH]; intros t Hc Hx.
      - unfold fcn. apply IC in Hc as [Hc Hn]. pose proof (i_find s I _ _ _ Hc) as F. rewrite F. now rewrite (FC _ _ _ F Hn).
      - assert (Hk := Hc). apply IC in Hk as [Hk Hn]. pose proof (cache_key s I _ _ _ Hk) as [_ La]. apply alive_spec in La as [La _].
        assert (bvb s b = true). { eapply (sub_bv s I b x); eauto. pose proof (i_bases s I a b La Hb). lia. }
        destruct (FB _ _ _ b Hc Hb H) as (tb & F1 & F2). eapply IH; eauto using find_cache_In. }
    split.
    + split; try (exact (i_len s I) || exact (i_bases s I) || exact (i_mro s I) || exact (i_bv s I)
        || exact (i_size s I) || exact (i_sizebv s I) || exact (i_uns s I)).
      * intros x [<-|Hx]; [now apply alive_spec in Ha|now apply (i_dead s I)].
      * intros d b Hd Hb. apply AL in Hd as [Hd Hn]. change (get_cls s' d) with (get_cls s d) in Hb.
        apply AL. split; [eapply i_alive; eauto|]. intros ->. now apply (NB d Hd).
      * intros x Hx. apply AL. split; [now apply (i_vars s I)|]. intros ->. auto.
      * intros k n t Hc. apply IC in Hc as [Hc Hn]. apply FC; auto. now apply (i_find s I).
      * intros k n t Hc. assert (Hc' := Hc). apply IC in Hc as [Hc Hn].
        destruct (i_cache s I _ _ _ Hc) as (A1 & A2 & A3 & A4 & A5 & A6 & A7 & A8).
        split; [now apply AL|]. repeat (split; [assumption|]). change (get_cls s' t) with (get_cls s t). rewrite A8.
        f_equal. change (get_cls s' k) with (get_cls s k). change (bvb s') with (bvb s). apply map_ext_in. intros b Hb.
        apply filter_In in Hb as [Hb Hbb]. symmetry. eapply UP; eauto. econstructor; [exact Hb|constructor].
      * intros k n t b Hc Hb Hbb. destruct (FB _ _ _ b Hc Hb Hbb) as (tb & _ & F). eauto.
      * intros k n t Hc HT. assert (Hc' := Hc). apply IC in Hc as [Hc Hn]. change (get_cls s' t) with (get_cls s t).
        rewrite (i_dbl s I _ _ _ Hc HT). change (get_cls s' k) with (get_cls s k). change (bvb s') with (bvb s).
        apply dbl_ext. intros x Hx. split; auto. intros Hbx. symmetry. eapply UP; eauto. apply mro_sub in Hx; auto.
        pose proof (cache_key s I _ _ _ Hc) as [_ La]. now apply alive_spec in La.
    + split.
      * exists []. cbn. now rewrite app_nil_r.
      * intros x Hx. now right.
      * intros k n t F Ht. apply FC; auto. now apply AL in Ht.
Qed.

Lemma meta0_minv : minv meta0.
Proof.
  assert (Q : forall c, (c < len meta0)%nat -> c = 0%nat \/ c = 1%nat) by (unfold len; cbn; lia).
  split; try (intros ? []; fail); try (intros ? ? ? []; fail); try (intros ? ? ? ? []; fail).
  - unfold len. cbn. lia.
  - intros c b Hc Hb. destruct (Q _ Hc) as [-> | ->]; cbn in Hb; intuition lia.
  - intros c Hc. destruct (Q _ Hc) as [-> | ->]; [exists []|exists [0%nat]]; split; reflexivity.
  - intros c b Hc Hb. destruct (Q _ Hc) as [-> | ->]; cbn in Hb; intuition subst; auto.
  - intros c b m Hc Hb. destruct (Q _ Hc) as [-> | ->]; cbn in Hb; intuition subst; discriminate.
  - intros c m Hc. destruct (Q _ Hc) as [-> | ->]; discriminate.
  - intros c Hc. destruct (Q _ Hc) as [-> | ->]; reflexivity.
  - intros c b Hc Hb. apply alive_spec, proj1, Q in Hc as [-> | ->]; cbn in Hb; intuition subst; reflexivity.
  - intros c [<-|[<-|[]]]; reflexivity.
Qed.

Lemma mrun_app h1 h2 : mrun (h1 ++ h2) = fold_left mstep h2 (mrun h1).
Proof. apply fold_left_app. Qed.
Lemma fold_minv h : forall s, minv s -> minv (fold_left mstep h s) /\ later s (fold_left mstep h s).
Proof.
  induction h as [|op h IH]; intros s I; cbn [fold_left]; auto using later_refl.
  destruct (mstep_ok s op I) as [A B]. destruct (IH _ A) as [C D]. split; auto. eapply later_trans; eauto.
Qed.
Lemma mrun_minv h : minv (mrun h).
Proof. apply fold_minv, meta0_minv. Qed.
Lemma mrun_later h1 h2 : later (mrun h1) (mrun (h1 ++ h2)).
Proof. rewrite mrun_app. apply fold_minv, mrun_minv. Qed.

Lemma tame_iff s k : minv s -> (k < len s)%nat -> (tame s k <-> mixins_last s k).
Proof.
  intros I Hk. unfold tame, mixins_last, bvb. split; intros T x Hx; apply T.
  - now apply mro_sub.
  - now apply mro_sub in Hx.
Qed.

Lemma getitem_cached s k n t : find_cache s k n = Some t -> getitem_cls s k (XInt n) = Ok (s, t).
Proof. intros H. cbn [getitem_cls index_cls]. now rewrite H. Qed.

Lemma later_get s s' c : later s s' -> (c < len s)%nat -> get_cls s' c = get_cls s c.
Proof. intros [[l E] _ _]. eapply get_app; eauto. Qed.

(** K1[n] is a subclass of K2[m] exactly when K1 is one of K2 and the sizes agree. *)
Lemma sized_sub s k1 n t1 k2 m t2 : minv s -> find_cache s k1 n = Some t1 -> find_cache s k2 m = Some t2 ->
  (sub s t1 t2 <-> sub s k1 k2 /\ n = m).
Proof.
  intros I F1 F2. pose proof (find_cache_In _ _ _ _ F2) as C2.
  destruct (i_cache s I _ _ _ C2) as (B1 & B2 & B3 & B4 & B5 & B6 & B7 & B8).
  split.
  - intros Hs. pose proof (find_cache_In _ _ _ _ F1) as C1.
    destruct (i_cache s I _ _ _ C1) as (A1 & _ & _ & _ & _ & A6 & _ & _).
    assert (n = m). { apply (sub_size s I t1 t2 m) in Hs; auto; [congruence|]. now apply alive_spec in A1. }
    subst m. split; auto. clear A1 A6 C1. revert t1 F1 Hs.
    induction k1 as [k1 IH] using lt_wf_ind. intros t1 F1 Hs.
    pose proof (find_cache_In _ _ _ _ F1) as C1. pose proof (cache_key s I _ _ _ C1) as [Lk Ak].
    destruct (i_cache s I _ _ _ C1) as (A1 & A2 & A3 & A4 & A5 & A6 & A7 & A8).
    inversion Hs as [|a b c Hb Hs']; subst.
    + assert (k1 = k2) by congruence. subst. constructor.
    + rewrite A8 in Hb. destruct Hb as [<-|Hb].
      * exfalso. apply (sub_size s I k1 t2 n) in Hs'; auto; [congruence|]. now apply alive_spec in Ak.
      * apply in_map_iff in Hb as (x & <- & Hx). apply filter_In in Hx as [Hx Hbx].
        destruct (i_closed s I _ _ _ x C1 Hx Hbx) as (tx & Ex). unfold fcn in Hs'. rewrite Ex in Hs'.
        apply alive_spec in Ak as [Ak _]. econstructor; [exact Hx|]. eapply IH; eauto. now apply (i_bases s I k1 x Ak).
  - intros [Hs <-]. revert t1 F1. induction Hs as [|a b c Hb Hs IH]; intros t1 F1.
    + assert (t1 = t2) by congruence. subst. constructor.
    + pose proof (find_cache_In _ _ _ _ F1) as C1. pose proof (cache_key s I _ _ _ C1) as [_ Ak]. apply alive_spec in Ak as [Ak _].
      destruct (i_cache s I _ _ _ C1) as (A1 & A2 & A3 & A4 & A5 & A6 & A7 & A8).
      assert (bvb s b = true). { eapply (sub_bv s I b c); eauto. pose proof (i_bases s I a b Ak Hb). lia. }
      destruct (i_closed s I _ _ _ b C1 Hb H) as (tb & Eb). econstructor; [|apply IH; eauto].
      rewrite A8. right. apply in_map_iff. exists b. split; [unfold fcn; now rewrite Eb|]. apply filter_In. auto.
Qed.

(** ** Common bases *)
Lemma add_all_In l : forall m x, In x (add_all l m) <-> In x l \/ In x m.
Proof.
  unfold add_all. induction l as [|a l IH]; intros m x; cbn [fold_left In]; [tauto|]. rewrite IH.
  destruct (mem a m) eqn:E.
  - apply mem_In in E. intuition (subst; auto).
  - rewrite in_app_iff. cbn. intuition.
Qed.

Lemma add_all_NoDup l : forall m, NoDup m -> NoDup (add_all l m).
Proof.
  unfold add_all. induction l as [|a l IH]; intros m H; cbn [fold_left]; auto. apply IH.
  destruct (mem a m) eqn:E; auto. apply mem_false in E.
  clear -H E. induction m as [|b m IHm]; cbn.
  - constructor; auto.
  - inv H. constructor; [|apply IHm; auto; intros K; apply E; now right].
    rewrite in_app_iff. cbn. intros [K|[->|[]]]; auto. apply E. now left.
Qed.

Section Common.
  Variable s : meta.
  Hypothesis I : minv s.

  Lemma most_specific_In l x : (forall y, In y l -> (y < len s)%nat) ->
    (In x (most_specific s l) <-> In x l /\ forall y, In y l -> sub s y x -> y = x).
  Proof.
    intros L. unfold most_specific. rewrite filter_In, negb_true_iff. split.
    - intros [A B]. split; auto. intros y Hy Hs. destruct (Nat.eq_dec y x); auto. exfalso.
      rewrite <- not_true_iff_false in B. apply B. apply existsb_exists. exists y. split; auto.
      apply andb_true_iff. split; [now apply issub_sub; auto|]. apply negb_true_iff. apply Nat.eqb_neq. congruence.
    - intros [A B]. split; auto. apply not_true_iff_false. intros K. apply existsb_exists in K as (y & Hy & K).
      apply andb_true_iff in K as [K1 K2]. apply issub_sub in K1; auto. apply B in K1; auto. subst.
      rewrite Nat.eqb_refl in K2. discriminate.
  Qed.
  (* every element has a most specific one below it *)
  Lemma most_specific_below l : (forall y, In y l -> (y < len s)%nat) -> forall x, In x l ->
    exists y, In y (most_specific s l) /\ sub s y x.
  Proof.
    intros L. assert (Q : forall d x, (len s - x <= d)%nat -> In x l -> exists y, In y (most_specific s l) /\ sub s y x).
    { induction d as [|d IH]; intros x Hd Hx; pose proof (L _ Hx); [lia|].
      destruct (in_dec Nat.eq_dec x (most_specific s l)) as [K|K]; [exists x; split; auto; constructor|].
      assert (exists y, In y l /\ sub s y x /\ y <> x) as (y & Hy & Hs & Hn).
      { unfold most_specific in K. rewrite filter_In in K.
        destruct (existsb (fun bj => issub s bj x && negb (Nat.eqb x bj)) l) eqn:E.
        - apply existsb_exists in E as (y & Hy & E). apply andb_true_iff in E as [E1 E2]. exists y. split; auto.
          split; [now apply issub_sub; auto|]. intros ->. rewrite Nat.eqb_refl in E2. discriminate.
        - exfalso. apply K. auto. }
      pose proof (sub_le s I y x (L _ Hy) Hs). destruct (IH y) as (z & Hz & Hzs); auto; [lia|].
      exists z. split; auto. eapply sub_trans; eauto. }
    intros x Hx. eapply Q; eauto.
  Qed.

  Lemma common_spec f : forall a b, (a < len s)%nat -> (b < len s)%nat -> (a + b < f)%nat ->
    (forall x, In x (common_bases f s a b) -> sub s a x /\ sub s b x)
    /\ (forall y, sub s a y -> sub s b y -> exists x, In x (common_bases f s a b) /\ sub s x y)
    /\ (forall x y, In x (common_bases f s a b) -> In y (common_bases f s a b) -> sub s x y -> x = y)
    /\ NoDup (common_bases f s a b).
  Proof.
    induction f as [|f IH]; intros a b La Lb Hf; [lia|]. cbn [common_bases].
    destruct (issub s a b) eqn:E1.
    { apply issub_sub in E1; auto. repeat split; cbn.
      - intros. destruct H as [<-|[]]; auto.
      - intros. destruct H as [<-|[]]; constructor.
      - intros y _ Hy. exists b. auto.
      - intros x y [<-|[]] [<-|[]]; auto.
      - constructor; auto. constructor. }
    destruct (issub s b a) eqn:E2.
    { apply issub_sub in E2; auto. repeat split; cbn.
      - intros. destruct H as [<-|[]]; constructor.
      - intros. destruct H as [<-|[]]; auto.
      - intros y Hy _. exists a. auto.
      - intros x y [<-|[]] [<-|[]]; auto.
      - constructor; auto. constructor. }
    set (L := add_all _ _).
    assert (InL : forall x, In x L <-> (exists t, In t (c_bases (get_cls s b)) /\ In x (common_bases f s t a))
      \/ (exists t, In t (c_bases (get_cls s a)) /\ In x (common_bases f s t b))).
    { intros x. unfold L. rewrite !add_all_In, !in_flat_map. cbn [In]. tauto. }
    assert (Ba : forall t, In t (c_bases (get_cls s a)) -> (t < a)%nat) by (intros; now apply (i_bases s I a t)).
    assert (Bb : forall t, In t (c_bases (get_cls s b)) -> (t < b)%nat) by (intros; now apply (i_bases s I b t)).
    assert (SL : forall x, In x L -> sub s a x /\ sub s b x).
    { intros x Hx. apply InL in Hx as [(t & Ht & Hx)|(t & Ht & Hx)].
      - pose proof (Bb _ Ht). destruct (IH t a ltac:(lia) La ltac:(lia)) as (A & _). destruct (A x Hx) as [A1 A2].
        split; auto. econstructor; eauto.
      - pose proof (Ba _ Ht). destruct (IH t b ltac:(lia) Lb ltac:(lia)) as (A & _). destruct (A x Hx) as [A1 A2].
        split; auto. econstructor; eauto. }
    assert (LL : forall x, In x L -> (x < len s)%nat).
    { intros x Hx. destruct (SL x Hx) as [A _]. pose proof (sub_le s I a x La A). lia. }
    split; [|split; [|split]].
    - intros x Hx. apply most_specific_In in Hx as [Hx _]; auto.
    - intros y Ha Hb. inversion Ha as [|a' t c Ht Hs]; subst.
      + exfalso. apply issub_sub in Hb; auto. congruence.
      + pose proof (Ba _ Ht). destruct (IH t b ltac:(lia) Lb ltac:(lia)) as (_ & A & _). destruct (A y Hs Hb) as (x & Hx & Hxy).
        destruct (most_specific_below L LL x) as (z & Hz & Hzx). { apply InL. right. eauto. }
        exists z. split; auto. eapply sub_trans; eauto.
    - intros x y Hx Hy Hs. apply most_specific_In in Hx as [Hx _]; auto. apply most_specific_In in Hy as [Hy Q]; auto.
    - apply NoDup_filter. unfold L. apply add_all_NoDup, add_all_NoDup. constructor.
  Qed.
End Common.
