(** Lemmas for new(klass, bind) on bit-vector classes, and the merge of lists that are parts of one of them. *)
From Coq Require Import Lia.
From Verif Require Import PyBase BVFacts MetaModel MetaSpec MergeFacts MetaFacts NewModel NewSpec.

(** ** Subsequences *)
Inductive subl : list nat -> list nat -> Prop :=
| subl_nil : forall r, subl [] r
| subl_skip : forall l x r, subl l r -> subl l (x :: r)
| subl_take : forall l x r, subl l r -> subl (x :: l) (x :: r).
Lemma subl_refl l : subl l l.
Proof. induction l; [apply subl_nil|apply subl_take; auto]. Qed.
Lemma subl_In l r x : subl l r -> In x l -> In x r.
Proof. induction 1; cbn; intuition. Qed.
Lemma subl_one x r : In x r -> subl [x] r.
Proof. induction r as [|y r IH]; [intros []|]. intros [->|H]; [apply subl_take; constructor|apply subl_skip; auto]. Qed.

Lemma merge_subl f : forall ls r l, merge f ls = Some r -> In l ls -> subl l r.
Proof.
  induction f as [|f IH]; intros ls r l H Hl; pose proof (merge_cons _ _ _ H) as Q; destruct r as [|c r].
  - apply heads_nil in Q. rewrite Forall_forall in Q. rewrite (Q _ Hl). constructor.
  - destruct Q as (_ & _ & f' & ? & _). discriminate.
  - apply heads_nil in Q. rewrite Forall_forall in Q. rewrite (Q _ Hl). constructor.
  - destruct Q as (_ & _ & f' & Ef & M). inv Ef. assert (S := IH _ _ (strip1 c l) M (in_map _ _ _ Hl)).
    destruct l as [|h t]; [constructor|]. cbn [strip1] in S. destruct (Nat.eqb_spec h c) as [->|N]; [now apply subl_take|now apply subl_skip].
Qed.

Lemma merge_sup N : forall ls, NoDup N -> In N ls -> (forall l, In l ls -> subl l N) -> exists f, merge f ls = Some N.
Proof.
  induction N as [|x N IH]; intros ls ND HN HS.
  { exists 0%nat. cbn [merge]. assert (E : heads ls = []).
    { apply heads_nil. apply Forall_forall. intros l Hl. specialize (HS l Hl). now inv HS. }
    now rewrite E. }
  inv ND. rename H1 into Nx, H2 into ND.
  assert (T : forall l, In l ls -> in_tail x l = false /\ subl (strip1 x l) N).
  { intros l Hl. specialize (HS l Hl). inv HS.
    - split; auto. constructor.
    - assert (NI : ~ In x l) by (intros K; apply Nx; eapply subl_In; eauto). split.
      + destruct (in_tail x l) eqn:E; auto. apply in_tail_In in E. contradiction.
      + destruct l as [|h t]; [constructor|]. cbn [strip1]. destruct (Nat.eqb_spec h x) as [->|]; auto. exfalso. apply NI. now left.
    - cbn [in_tail strip1]. rewrite Nat.eqb_refl. split; auto. apply mem_false. intros K. apply Nx. eapply subl_In; eauto. }
  assert (HX : In x (heads ls)) by (apply heads_In; eauto).
  assert (G : forallb (fun l => negb (in_tail x l)) ls = true).
  { apply forallb_forall. intros l Hl. destruct (T l Hl) as [-> _]. reflexivity. }
  assert (P : pick ls = Some x).
  { destruct (pick ls) as [y|] eqn:E.
    - apply pick_spec in E as [E1 E2]. f_equal. apply heads_In in E1 as (t & Ht). specialize (HS _ Ht). specialize (E2 _ HN). cbn [in_tail] in E2.
      apply mem_false in E2. inv HS; auto. exfalso. apply E2. eapply subl_In; eauto. now left.
    - exfalso. unfold pick in E. assert (Q := find_none _ _ E _ HX). cbn beta in Q. congruence. }
  destruct (IH (map (strip1 x) ls) ND) as (f & E).
  - apply in_map_iff. exists (x :: N). split; auto. cbn [strip1]. now rewrite Nat.eqb_refl.
  - intros l Hl. apply in_map_iff in Hl as (l' & <- & Hl'). now apply T.
  - exists (S f). cbn [merge]. destruct (heads ls) as [|a b] eqn:EH; [destruct HX|]. rewrite P, E. reflexivity.
Qed.
(** A class whose MRO comes first, and that goes on inside the MRO of another one. *)
Lemma merge_top T N l0 ls : ~ In T N -> NoDup N -> In N ls -> (forall l, In l ls -> subl l (T :: N)) -> subl l0 N ->
  exists f, merge f ((T :: l0) :: ls) = Some (T :: N).
Proof.
  intros Nx ND HN HS H0.
  assert (TT : forall l, In l ls -> in_tail T l = false /\ subl (strip1 T l) N).
  { intros l Hl. specialize (HS l Hl). inv HS.
    - split; auto. constructor.
    - assert (NI : ~ In T l) by (intros K; apply Nx; eapply subl_In; eauto). split.
      + destruct (in_tail T l) eqn:E; auto. apply in_tail_In in E. contradiction.
      + destruct l as [|h t]; [constructor|]. cbn [strip1]. destruct (Nat.eqb_spec h T) as [->|]; auto. exfalso. apply NI. now left.
    - cbn [in_tail strip1]. rewrite Nat.eqb_refl. split; auto. apply mem_false. intros K. apply Nx. eapply subl_In; eauto. }
  destruct (merge_sup N (l0 :: map (strip1 T) ls) ND) as (f & E).
  - right. apply in_map_iff. exists N. split; auto. destruct N as [|h t]; auto. cbn [strip1]. destruct (Nat.eqb_spec h T) as [->|]; auto.
    exfalso. apply Nx. now left.
  - intros l [<-|Hl]; auto. apply in_map_iff in Hl as (l' & <- & Hl'). now apply TT.
  - exists (S f). cbn [merge heads flat_map app]. unfold pick. cbn [heads flat_map app find forallb in_tail].
    assert (M : mem T l0 = false) by (apply mem_false; intros K; apply Nx; eapply subl_In; eauto). rewrite M. cbn [negb andb].
    assert (G : forallb (fun l => negb (in_tail T l)) ls = true).
    { apply forallb_forall. intros l Hl. destruct (TT l Hl) as [-> _]. reflexivity. }
    rewrite G. cbn [map strip1]. rewrite Nat.eqb_refl, E. reflexivity.
Qed.

(** ** Bit-vector classes *)
Lemma mro_NoDup s c : minv s -> (c < len s)%nat -> NoDup (c_mro (get_cls s c)).
Proof.
  intros I L. destruct (i_mro s I c L) as (l & E & M). rewrite E. constructor; [|eapply merge_NoDup; eauto].
  intros K. unfold c3 in M. apply (merge_In _ _ _ M) in K as (q & Hq & Hx). rewrite in_app_iff, in_map_iff in Hq.
  destruct Hq as [(b & <- & Hb)|[<-|[]]].
  - pose proof (i_bases s I c b L Hb). assert (c <= b)%nat by (eapply (mro_le s I b c); auto; lia). lia.
  - pose proof (i_bases s I c c L Hx). lia.
Qed.
Lemma c3_single s a : minv s -> (a < len s)%nat -> c3 s [a] = Some (c_mro (get_cls s a)).
Proof.
  intros I L. unfold c3. cbn [map app]. assert (N := mro_NoDup s a I L). destruct (i_mro s I a L) as (l & E & _).
  destruct (merge_sup (c_mro (get_cls s a)) [c_mro (get_cls s a); [a]] N) as (f & Ef).
  - now left.
  - intros q [<-|[<-|[]]]; [apply subl_refl|]. apply subl_one. rewrite E. now left.
  - eapply merge_fuel; eauto.
Qed.
(** class T(K): pass *)
Definition child (s : meta) (k : nat) : meta :=
  addc s (Cls (c_bv (get_cls s k)) [k] (len s :: c_mro (get_cls s k))
            (match c_size (get_cls s k) with None => Some (len s) | Some _ => None end) (c_size (get_cls s k))).
Lemma child_new s k : get_cls (child s k) (len s) = Cls (c_bv (get_cls s k)) [k] (len s :: c_mro (get_cls s k))
  (match c_size (get_cls s k) with None => Some (len s) | Some _ => None end) (c_size (get_cls s k)).
Proof. apply get_addc_new. Qed.
Lemma child_old s k x : (x < len s)%nat -> get_cls (child s k) x = get_cls s x.
Proof. apply get_addc_old. Qed.
Lemma child_eq s k : minv s -> alive s k = true -> new_class s (c_bv (get_cls s k)) [k] None None = Ok (child s k, len s).
Proof.
  intros I A. assert (L := proj1 (proj1 (alive_spec _ _) A)). unfold new_class. cbn [join_size].
  rewrite c3_single by auto. unfold child, addc. destruct (c_size (get_cls s k)); reflexivity.
Qed.
Lemma child_ok s k : minv s -> alive s k = true -> minv (child s k) /\ mext s (child s k) /\ alive (child s k) (len s) = true.
Proof.
  intros I A. apply (new_class_ok s [k]); auto; [cbn; now rewrite A|]. cbn [existsb]. rewrite orb_false_r. now apply child_eq.
Qed.
Lemma child_sub s k x : minv s -> alive s k = true -> issub (child s k) (len s) x = true <-> x = len s \/ issub s k x = true.
Proof.
  intros I A. unfold issub, child. rewrite get_addc_new. cbn [c_mro]. rewrite !mem_In. cbn [In]. intuition.
Qed.
Lemma child_cold s k n : minv s -> alive s k = true -> find_cache (child s k) (len s) n = None.
Proof.
  intros I A. change (find_cache (child s k) (len s) n) with (find_cache s (len s) n).
  destruct (find_cache s (len s) n) as [t|] eqn:E; auto. apply find_cache_In, (cache_key s I) in E as [_ E].
  apply alive_spec in E as [E _]. lia.
Qed.
(** T[n] when K[n] is there. *)
Lemma child_index s k n tk : minv s -> alive s k = true -> bvb s k = true -> find_cache s k n = Some tk ->
  exists s' t, getitem_cls (child s k) (len s) (XInt n) = Ok (s', t).
Proof.
  intros I A B F. assert (L := proj1 (proj1 (alive_spec _ _) A)). destruct (child_ok s k I A) as (I1 & X1 & A1).
  destruct (i_cache s I _ _ _ (find_cache_In _ _ _ _ F)) as (At & Bt & _ & Sk & Hn & St & _ & Eb).
  assert (Lt := proj1 (proj1 (alive_spec _ _) At)).
  cbn [getitem_cls]. rewrite index_unfold. rewrite child_cold by auto. destruct (Z.ltb_spec n 0) as [?|_]; [lia|].
  rewrite child_new. cbn [c_size c_bases]. rewrite Sk.
  assert (G : go_idx (len s) n (child s k) [k] = Ok (child s k, [tk])).
  { cbn [go_idx]. rewrite child_old by auto. unfold bvb in B. rewrite B.
    destruct (len s) as [|f] eqn:El; [lia|]. rewrite <- El. rewrite El at 1. rewrite index_unfold.
    change (find_cache (child s k) k n) with (find_cache s k n). rewrite F. reflexivity. }
  rewrite G. cbn [bind fst snd]. unfold new_class. cbn [join_size]. rewrite child_new. cbn [c_size]. rewrite Sk.
  rewrite child_old by auto. rewrite St, Z.eqb_refl. cbn [bind].
  assert (C : exists l, c3 (child s k) [len s; tk] = Some l).
  { unfold c3. cbn [map app]. rewrite child_new, child_old by auto. cbn [c_mro].
    set (N := c_mro (get_cls s tk)). assert (ND : NoDup N) by now apply mro_NoDup.
    assert (S1 : subl (c_mro (get_cls s k)) N).
    { unfold N. destruct (i_mro s I tk Lt) as (l & E & M). rewrite E. apply subl_skip. eapply merge_subl; [exact M|].
      apply in_app_iff. left. rewrite Eb. now left. }
    destruct (merge_top (len s) N (c_mro (get_cls s k)) [N; [len s; tk]]) as (f & Ef); auto.
    - intros K. apply (mro_le s I tk) in K; auto. lia.
    - now left.
    - intros l [<-|[<-|[]]]; [apply subl_skip, subl_refl|]. apply subl_take, subl_one. now apply mro_self.
    - exists (len s :: N). eapply merge_fuel. exact Ef. }
  destruct C as (l & ->). cbn [bind]. eauto.
Qed.
Lemma child_indexed s k n s' t : minv s -> alive s k = true -> bvb s k = true -> getitem_cls (child s k) (len s) (XInt n) = Ok (s', t) ->
  minv s' /\ mext s s' /\ alive s' t = true /\ bvb s' t = true /\ (len s < t)%nat /\ 0 <= n /\ c_size (get_cls s k) = None /\
  c_size (get_cls s' t) = Some n /\ c_unsized (get_cls s' t) = Some (len s) /\ c_bases (get_cls s' (len s)) = [k] /\
  exists tk, find_cache s' k n = Some tk /\ c_bases (get_cls s' t) = [len s; tk].
Proof.
  intros I A B H. assert (L := proj1 (proj1 (alive_spec _ _) A)). destruct (child_ok s k I A) as (I1 & X1 & A1).
  assert (B1 : bvb (child s k) (len s) = true) by (unfold bvb; rewrite child_new; exact B).
  assert (Q := index_ok (S (len s)) (child s k) (len s) n I1 A1 B1 (Nat.lt_succ_diag_r _)). cbn [getitem_cls] in H. rewrite H in Q.
  destruct Q as (I2 & X2 & F & _ & _). assert (F' := find_cache_In _ _ _ _ F).
  destruct (i_cache s' I2 _ _ _ F') as (At & Bt & _ & Sk & Hn & St & Ut & Eb).
  destruct (cache_key s' I2 _ _ _ F') as (Lt & _). assert (L1 := proj1 (proj1 (alive_spec _ _) A1)).
  assert (EL : get_cls s' (len s) = get_cls (child s k) (len s)) by now apply mext_get.
  rewrite EL, child_new in Sk. cbn [c_size] in Sk. rewrite EL, child_new in Eb. cbn [c_bases filter] in Eb.
  assert (Bk : bvb s' k = true) by (rewrite (mext_bvb s s'); auto; eapply mext_trans; eauto).
  rewrite Bk in Eb. cbn [map] in Eb.
  destruct (i_closed s' I2 _ _ _ k F') as (tk & Fk); auto.
  { rewrite EL, child_new. now left. }
  unfold fcn in Eb. rewrite Fk in Eb. rewrite EL, child_new. cbn [c_bases].
  split; auto. split; [eapply mext_trans; eauto|]. repeat (split; auto). exists tk. auto.
Qed.
