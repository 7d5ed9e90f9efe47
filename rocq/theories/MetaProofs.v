(** Proofs of the theorems stated in MetaProps.v. *)
From Coq Require Import Lia.
From Verif Require Import PyBase BVFacts MetaModel MetaSpec MergeFacts MetaFacts.

Lemma C29_issubclass_pf : forall h a b, alive (mrun h) a = true -> (issub (mrun h) a b = true <-> sub (mrun h) a b).
Proof. intros h a b H. apply issub_sub; [apply mrun_minv|]. now apply alive_spec in H. Qed.

Lemma C29_cached_pf : forall h1 h2 k n s1 t, is_bv (mrun h1) k ->
  getitem_cls (mrun h1) k (XInt n) = Ok (s1, t) ->
  let s := mrun (h1 ++ MIndex k (XInt n) :: h2) in
  alive s t = true -> getitem_cls s k (XInt n) = Ok (s, t).
Proof.
  intros h1 h2 k n s1 t [Ha Hb] E s Ht. apply getitem_cached.
  pose proof (getitem_ok (mrun h1) k (XInt n) (mrun_minv h1) Ha Hb) as Q. rewrite E in Q.
  destruct Q as (A & B & C & n' & [En|En] & F); inv En.
  assert (Es : s = fold_left mstep h2 (hold s1 t)).
  { unfold s. rewrite mrun_app. cbn [fold_left mstep]. rewrite Ha, Hb, E. reflexivity. }
  destruct (fold_minv h2 (hold s1 t) (hold_minv _ _ A C)) as [_ L]. rewrite <- Es in L.
  apply (l_cache _ _ L); auto.
Qed.

Lemma C29_held_pf : forall h t b, In t (vars (mrun h)) -> sub (mrun h) t b -> alive (mrun h) b = true.
Proof. intros h t b H S. eapply sub_alive; eauto using mrun_minv. apply (i_vars _ (mrun_minv h)). exact H. Qed.

Lemma C29_attributes_pf : forall h k n s t, is_bv (mrun h) k -> getitem_cls (mrun h) k (XInt n) = Ok (s, t) ->
  c_size (get_cls s t) = Some n /\ c_unsized (get_cls s t) = Some k /\ issub s t k = true /\ c_bv (get_cls s t) = true.
Proof.
  intros h k n s t [Ha Hb] E. pose proof (getitem_ok (mrun h) k (XInt n) (mrun_minv h) Ha Hb) as Q. rewrite E in Q.
  destruct Q as (A & B & C & n' & [En|En] & F); inv En. apply find_cache_In in F.
  destruct (i_cache _ A _ _ _ F) as (Al & A2 & A3 & A4 & A5 & A6 & A7 & A8). repeat split; auto.
  apply issub_sub; auto; [now apply alive_spec in Al|]. econstructor; [rewrite A8; now left|constructor].
Qed.

Lemma C29_distinct_pf : forall h1 h2 k1 k2 n m s1 s2 t, is_bv (mrun h1) k1 ->
  getitem_cls (mrun h1) k1 (XInt n) = Ok (s1, t) ->
  let s := mrun (h1 ++ MIndex k1 (XInt n) :: h2) in
  is_bv s k2 -> getitem_cls s k2 (XInt m) = Ok (s2, t) -> k1 = k2 /\ n = m.
Proof.
  intros h1 h2 k1 k2 n m s1 s2 t [Ha Hb] E s [Ha2 Hb2] E2.
  pose proof (getitem_ok (mrun h1) k1 (XInt n) (mrun_minv h1) Ha Hb) as Q. rewrite E in Q.
  destruct Q as (A & B & C & n' & [En|En] & F); inv En.
  assert (Es : s = fold_left mstep h2 (hold s1 t)).
  { unfold s. rewrite mrun_app. cbn [fold_left mstep]. rewrite Ha, Hb, E. reflexivity. }
  destruct (fold_minv h2 (hold s1 t) (hold_minv _ _ A C)) as [I2 L]. rewrite <- Es in L, I2.
  pose proof (getitem_ok s k2 (XInt m) I2 Ha2 Hb2) as Q. rewrite E2 in Q.
  destruct Q as (A' & B' & C' & m' & [Em|Em] & F'); inv Em.
  apply find_cache_In in F, F'.
  destruct (i_cache _ A _ _ _ F) as (_ & _ & _ & _ & _ & P1 & P2 & _).
  destruct (i_cache _ A' _ _ _ F') as (_ & _ & _ & _ & _ & Q1 & Q2 & _).
  apply alive_spec in C as [C _].
  assert (Lt : (t < len s)%nat). { destruct L as [[l El] _ _]. unfold len in *. rewrite El, app_length. cbn [classes hold]. lia. }
  rewrite (mext_get s s2) in Q1, Q2 by auto. rewrite (later_get _ _ _ L) in Q1, Q2 by exact C.
  change (get_cls (hold s1 t) t) with (get_cls s1 t) in Q1, Q2. split; congruence.
Qed.

Lemma C29_subclass_pf : forall h k1 k2 n m s1 s2 t1 t2, is_bv (mrun h) k1 -> is_bv (mrun h) k2 ->
  getitem_cls (mrun h) k1 (XInt n) = Ok (s1, t1) -> getitem_cls s1 k2 (XInt m) = Ok (s2, t2) ->
  (issub s2 t1 t2 = true <-> issub (mrun h) k1 k2 = true /\ n = m).
Proof.
  intros h k1 k2 n m s1 s2 t1 t2 [A1 B1] [A2 B2] E1 E2.
  pose proof (getitem_ok (mrun h) k1 (XInt n) (mrun_minv h) A1 B1) as Q. rewrite E1 in Q.
  destruct Q as (I1 & X1 & L1 & n' & [En|En] & F1); inv En.
  assert (Q := getitem_ok s1 k2 (XInt m) I1 (mext_alive _ _ _ X1 A2)).
  rewrite (mext_bvb (mrun h) s1) in Q by (auto; now apply alive_spec in A2). specialize (Q B2). rewrite E2 in Q.
  destruct Q as (I2 & X2 & L2 & m' & [Em|Em] & F2); inv Em.
  assert (F1' : find_cache s2 k1 n' = Some t1) by (apply (e_cache _ _ X2); auto).
  rewrite issub_sub; auto; [|apply (mext_alive _ _ _ X2), alive_spec in L1; tauto].
  assert (X := mext_trans _ _ _ X1 X2). assert (I := mrun_minv h).
  apply alive_spec in A1 as [A1 _]. rewrite (issub_sub (mrun h)) by auto.
  rewrite (sized_sub s2 k1 n' t1 k2 m' t2); auto. rewrite (mext_sub (mrun h) s2); auto. tauto.
Qed.

Lemma C29_bases_sized_pf : forall h k1 k2 n s1 t1, is_bv (mrun h) k1 -> is_bv (mrun h) k2 -> issub (mrun h) k1 k2 = true ->
  getitem_cls (mrun h) k1 (XInt n) = Ok (s1, t1) ->
  exists t2, getitem_cls s1 k2 (XInt n) = Ok (s1, t2) /\ issub s1 t1 t2 = true /\ issub s1 t1 k2 = true.
Proof.
  intros h k1 k2 n s1 t1 [A1 B1] [A2 B2] Hs E1.
  pose proof (getitem_ok (mrun h) k1 (XInt n) (mrun_minv h) A1 B1) as Q. rewrite E1 in Q.
  destruct Q as (I1 & X1 & L1 & n' & [En|En] & F1); inv En.
  apply alive_spec in A1 as [A1 _]. apply alive_spec in A2 as [A2 _].
  apply issub_sub in Hs; auto using mrun_minv. rewrite (mext_sub (mrun h) s1) in Hs; auto using mrun_minv.
  destruct (cached_up s1 I1 k1 n' t1 k2) as (t2 & F2); auto using find_cache_In.
  { rewrite (mext_bvb (mrun h) s1); auto. }
  exists t2. split; [now apply getitem_cached|]. apply alive_spec in L1 as [L1 _].
  assert (S : sub s1 t1 t2) by (eapply sized_sub; eauto). split; apply issub_sub; auto.
  eapply sub_trans; [exact S|]. apply find_cache_In in F2. destruct (i_cache _ I1 _ _ _ F2) as (_ & _ & _ & _ & _ & _ & _ & A8).
  econstructor; [rewrite A8; now left|constructor].
Qed.

Lemma C29_errors_pf : forall h k, is_bv (mrun h) k ->
  (forall n, n < 0 -> getitem_cls (mrun h) k (XInt n) = Raise EValueError) /\
  (forall n, 0 <= n -> ~ unsized (mrun h) k -> getitem_cls (mrun h) k (XInt n) = Raise ETypeError) /\
  getitem_cls (mrun h) k XOther = Raise ETypeError.
Proof.
  intros h k [A B]. assert (I := mrun_minv h). split; [|split; [|reflexivity]].
  - intros n Hn. pose proof (getitem_ok (mrun h) k (XInt n) I A B) as Q2. cbn [getitem_cls] in *.
    pose proof (index_ok (S k) (mrun h) k n I A B ltac:(lia)) as Q.
    destruct (index_cls (S k) (mrun h) k n) as [[s t]|e]; [|f_equal; now apply Q].
    destruct Q as (I' & _ & F & _). apply find_cache_In, (i_cache _ I') in F. exfalso. intuition lia.
  - intros n Hn Hs. cbn [getitem_cls]. pose proof (index_ok (S k) (mrun h) k n I A B ltac:(lia)) as Q.
    destruct (index_cls (S k) (mrun h) k n) as [[s t]|e]; [|f_equal; now apply Q].
    exfalso. destruct Q as (I' & X & F & _). apply find_cache_In, (i_cache _ I') in F. destruct F as (_ & _ & _ & F & _).
    rewrite (mext_get (mrun h) s) in F; auto. now apply alive_spec in A.
Qed.

Lemma C67_total_partial_pf : forall h k n, is_bv (mrun h) k -> unsized (mrun h) k -> mixins_last (mrun h) k -> 0 <= n ->
  exists s t, getitem_cls (mrun h) k (XInt n) = Ok (s, t) /\
    c_mro (get_cls s t) =
      flat_map (fun x => if c_bv (get_cls s x) then [sized_version s n x; x] else [x]) (c_mro (get_cls s k)).
Proof.
  intros h k n [A B] Hu Hm Hn. assert (I := mrun_minv h). cbn [getitem_cls].
  assert (Lk : (k < len (mrun h))%nat) by now apply alive_spec in A.
  apply (tame_iff _ _ I Lk) in Hm.
  pose proof (index_ok (S k) (mrun h) k n I A B ltac:(lia)) as Q.
  destruct (index_cls (S k) (mrun h) k n) as [[s t]|e].
  2:{ exfalso. destruct Q as (_ & _ & Q). now apply (Q Hn Hu). }
  destruct Q as (I' & X & F & _). exists s, t. split; auto. apply find_cache_In in F.
  rewrite (i_dbl s I' _ _ _ F); [|now apply (mext_tame (mrun h) s)].
  change (fun x : nat => if c_bv (get_cls s x) then [sized_version s n x; x] else [x])
    with (fun x : nat => if bvb s x then [sized_version s n x; x] else [x]).
  change (dbl (bvb s) (fcn s n) (c_mro (get_cls s k)) = dbl (bvb s) (sized_version s n) (c_mro (get_cls s k))).
  apply dbl_ext. intros x Hx. split; auto. intros Hbx. pose proof (mext_len _ _ X).
  apply mro_sub in Hx; auto; [|lia]. destruct (cached_up s I' _ _ _ _ F Hx Hbx) as (tx & Ex).
  unfold sized_version, fcn. rewrite (getitem_cached _ _ _ _ Ex). now rewrite Ex.
Qed.

Lemma C67_total_refuted_pf : exists h k n, is_bv (mrun h) k /\ unsized (mrun h) k /\ 0 <= n /\
  getitem_cls (mrun h) k (XInt n) = Raise ETypeError.
Proof.
  exists [MClass []; MClass [2;1]; MClass [1]; MClass [3]; MClass [4]; MClass [6;5;2;4]; MClass [3;4]; MClass [7;8]]%nat, 9%nat, 8.
  split; [split; vm_compute; reflexivity|]. split; [vm_compute; reflexivity|]. split; [lia|]. vm_compute. reflexivity.
Qed.

Lemma C67_float_refuted_pf : exists h1 h2 k n t, is_bv (mrun h1) k /\
  getitem_cls (mrun h1) k (XFloat n) = Raise ETypeError /\
  getitem_cls (mrun (h1 ++ h2)) k (XFloat n) = Ok (mrun (h1 ++ h2), t).
Proof.
  exists builtin, [MIndex 2 (XInt 4)]%nat, 2%nat, 4, 7%nat.
  split; [split; vm_compute; reflexivity|]. split; vm_compute; reflexivity.
Qed.

Lemma C68_common_bases_pf : forall h a b x, alive (mrun h) a = true -> alive (mrun h) b = true ->
  (In x (get_common_bases (mrun h) a b) <-> most_specific_common (mrun h) a b x).
Proof.
  intros h a b x A B. apply alive_spec in A as [A _]. apply alive_spec in B as [B _]. assert (I := mrun_minv h).
  destruct (common_spec (mrun h) I (S (a + b)) a b A B ltac:(lia)) as (C1 & C2 & C3 & _).
  fold (get_common_bases (mrun h) a b) in *. unfold most_specific_common, common_superclass. split.
  - intros Hx. split; auto. intros y [Ya Yb] Hy. destruct (C2 y Ya Yb) as (z & Hz & Hzy).
    assert (z = x) by (apply C3; auto; eapply sub_trans; eauto). subst z.
    apply (sub_anti _ I); auto. pose proof (sub_le _ I a y A Ya). lia.
  - intros [[Xa Xb] M]. destruct (C2 x Xa Xb) as (z & Hz & Hzx). assert (z = x) by auto. now subst.
Qed.

Lemma C68_no_duplicates_pf : forall h a b, alive (mrun h) a = true -> alive (mrun h) b = true ->
  NoDup (get_common_bases (mrun h) a b).
Proof.
  intros h a b A B. apply alive_spec in A as [A _]. apply alive_spec in B as [B _].
  now destruct (common_spec (mrun h) (mrun_minv h) (S (a + b)) a b A B ltac:(lia)) as (_ & _ & _ & ?).
Qed.

Lemma C68_covers_pf : forall h a b y, alive (mrun h) a = true -> alive (mrun h) b = true -> common_superclass (mrun h) a b y ->
  exists x, In x (get_common_bases (mrun h) a b) /\ sub (mrun h) x y.
Proof.
  intros h a b y A B [Ya Yb]. apply alive_spec in A as [A _]. apply alive_spec in B as [B _].
  destruct (common_spec (mrun h) (mrun_minv h) (S (a + b)) a b A B ltac:(lia)) as (_ & C & _). auto.
Qed.
