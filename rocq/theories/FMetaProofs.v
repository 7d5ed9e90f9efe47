(** Proofs of the theorems stated in FMetaProps.v. *)
From Coq Require Import Lia.
From Verif Require Import PyBase BVFacts MetaModel FPModel FMetaModel FMetaSpec MergeFacts FMetaFacts.

Lemma C76_issubclass_pf : forall h a b, falive (fmrun h) a = true -> (fissub (fmrun h) a b = true <-> fsub (fmrun h) a b).
Proof. intros h a b H. apply issub_sub; [apply mrun_minv|]. now apply alive_spec in H. Qed.

Lemma C76_cached_pf : forall h1 h2 k n s1 t, is_fp (fmrun h1) k ->
  getitem_fcls (fmrun h1) k (FIdx n) = Ok (s1, t) ->
  let s := fmrun (h1 ++ FMIndex k (FIdx n) :: h2) in
  falive s t = true -> getitem_fcls s k (FIdx n) = Ok (s, t).
Proof.
  intros h1 h2 k n s1 t [Ha Hb] E s Ht. apply getitem_cached.
  pose proof (getitem_ok (fmrun h1) k (FIdx n) (mrun_minv h1) Ha Hb) as Q. rewrite E in Q.
  destruct Q as (A & B & C & n' & [En|En] & F); inv En.
  assert (Es : s = fold_left fmstep h2 (fhold s1 t)).
  { unfold s. rewrite mrun_app. cbn [fold_left fmstep]. rewrite Ha, Hb, E. reflexivity. }
  destruct (fold_minv h2 (fhold s1 t) (hold_minv _ _ A C)) as [_ L]. rewrite <- Es in L.
  apply (l_cache _ _ L); auto.
Qed.

Lemma C76_held_pf : forall h t b, In t (fvars (fmrun h)) -> fsub (fmrun h) t b -> falive (fmrun h) b = true.
Proof. intros h t b H S. eapply sub_alive; eauto using mrun_minv. apply (i_vars _ (mrun_minv h)). exact H. Qed.

Lemma C76_attributes_pf : forall h k n s t, is_fp (fmrun h) k -> getitem_fcls (fmrun h) k (FIdx n) = Ok (s, t) ->
  fexponent_size s t = Ok (f_eb n) /\ fmantissa_size s t = Ok (f_mb n) /\ fmode s t = Ok (f_mode n) /\
  fcompliance s t = Ok (f_ieee n) /\ ftsize s t = Ok (1 + f_eb n + f_mb n) /\ funbound_t s t = Ok k /\
  ~ unbound s t /\ fissub s t k = true /\ fc_fp (get_fcls s t) = true.
Proof.
  intros h k n s t [Ha Hb] E. pose proof (getitem_ok (fmrun h) k (FIdx n) (mrun_minv h) Ha Hb) as Q. rewrite E in Q.
  destruct Q as (A & B & C & n' & [En|En] & F); inv En. apply find_cache_In in F.
  destruct (i_cache _ A _ _ _ F) as (Al & A2 & A3 & A4 & A5 & A6 & A7 & A8).
  unfold fexponent_size, fmantissa_size, fmode, fcompliance, ftsize, fattr, funbound_t, unbound. rewrite A6, A7.
  do 6 (split; [reflexivity|]). split; [discriminate|]. split; auto.
  apply issub_sub; auto; [now apply alive_spec in Al|]. econstructor; [rewrite A8; now left|constructor].
Qed.

Lemma C76_unbound_pf : forall h k, is_fp (fmrun h) k -> unbound (fmrun h) k ->
  fexponent_size (fmrun h) k = Raise EAttributeError /\ fmantissa_size (fmrun h) k = Raise EAttributeError /\
  fmode (fmrun h) k = Raise EAttributeError /\ fcompliance (fmrun h) k = Raise EAttributeError /\
  ftsize (fmrun h) k = Raise EAttributeError /\ funbound_t (fmrun h) k = Ok k.
Proof.
  intros h k [A _] U. apply alive_spec in A as [A _]. pose proof (i_uns _ (mrun_minv h) k A U) as W. unfold unbound in U.
  unfold fexponent_size, fmantissa_size, fmode, fcompliance, ftsize, fattr, funbound_t. rewrite U, W. auto 10.
Qed.

Lemma C76_class_statement_pf : forall h bases, bases <> [] -> (forall b, In b bases -> is_fp (fmrun h) b) ->
  match new_fclass (fmrun h) true bases None None with
  | Ok (s, t) =>
      (forall b n, In b bases -> fc_binding (get_fcls (fmrun h) b) = Some n ->
        fexponent_size s t = Ok (f_eb n) /\ fmantissa_size s t = Ok (f_mb n) /\ fmode s t = Ok (f_mode n) /\
        fcompliance s t = Ok (f_ieee n) /\ funbound_t s t = Raise EAttributeError) /\
      ((forall b, In b bases -> unbound (fmrun h) b) -> unbound s t /\ funbound_t s t = Ok t) /\
      (forall b, In b bases -> fissub s t b = true)
  | Raise e => e = ETypeError
  end /\
  (forall a b n m, In a bases -> In b bases -> fc_binding (get_fcls (fmrun h) a) = Some n ->
    fc_binding (get_fcls (fmrun h) b) = Some m -> n <> m -> new_fclass (fmrun h) true bases None None = Raise ETypeError).
Proof.
  intros h bs _ Hb. assert (I := mrun_minv h). set (s0 := fmrun h) in *. unfold new_fclass.
  destruct (join_binding s0 None bs) as [sz|e] eqn:J.
  2:{ apply join_raise in J. subst e. split; reflexivity. }
  destruct (join_none _ _ _ _ J) as [_ J2]. cbn [bind].
  destruct (fc3 s0 bs) as [l|] eqn:E3.
  2:{ split; reflexivity. }
  split.
  - set (k := FCls _ _ _ _ _). change (FMeta (fclasses s0 ++ [k]) (fdead s0) (fcache s0) (fvars s0)) with (addc s0 k).
    change (length (fclasses s0)) with (len s0).
    unfold fexponent_size, fmantissa_size, fmode, fcompliance, fattr, funbound_t, unbound. rewrite get_addc_new. cbn [k fc_binding fc_unbound].
    split; [|split].
    + intros b n Hi E. specialize (J2 b n Hi E). subst sz. auto 10.
    + intros U. destruct sz as [n|]; auto. exfalso. apply join_some in J as [J|(b & B1 & B2)]; [discriminate|]. rewrite U in B2; auto. discriminate.
    + intros b Hi. unfold fissub. rewrite get_addc_new. cbn [k fc_mro]. apply mem_In. right.
      unfold fc3 in E3. rewrite (merge_In _ _ _ E3). exists bs. split; auto. apply in_or_app. right. now left.
  - intros a b n m Ha Hb' Ea Eb Hn. exfalso. apply Hn. apply J2 in Ea; auto. apply J2 in Eb; auto. congruence.
Qed.

Lemma C76_distinct_pf : forall h1 h2 k1 k2 n m s1 s2 t, is_fp (fmrun h1) k1 ->
  getitem_fcls (fmrun h1) k1 (FIdx n) = Ok (s1, t) ->
  let s := fmrun (h1 ++ FMIndex k1 (FIdx n) :: h2) in
  is_fp s k2 -> getitem_fcls s k2 (FIdx m) = Ok (s2, t) -> k1 = k2 /\ n = m.
Proof.
  intros h1 h2 k1 k2 n m s1 s2 t [Ha Hb] E s [Ha2 Hb2] E2.
  pose proof (getitem_ok (fmrun h1) k1 (FIdx n) (mrun_minv h1) Ha Hb) as Q. rewrite E in Q.
  destruct Q as (A & B & C & n' & [En|En] & F); inv En.
  assert (Es : s = fold_left fmstep h2 (fhold s1 t)).
  { unfold s. rewrite mrun_app. cbn [fold_left fmstep]. rewrite Ha, Hb, E. reflexivity. }
  destruct (fold_minv h2 (fhold s1 t) (hold_minv _ _ A C)) as [I2 L]. rewrite <- Es in L, I2.
  pose proof (getitem_ok s k2 (FIdx m) I2 Ha2 Hb2) as Q. rewrite E2 in Q.
  destruct Q as (A' & B' & C' & m' & [Em|Em] & F'); inv Em.
  apply find_cache_In in F, F'.
  destruct (i_cache _ A _ _ _ F) as (_ & _ & _ & _ & _ & P1 & P2 & _).
  destruct (i_cache _ A' _ _ _ F') as (_ & _ & _ & _ & _ & Q1 & Q2 & _).
  apply alive_spec in C as [C _].
  assert (Lt : (t < len s)%nat). { destruct L as [[l El] _ _]. unfold len in *. rewrite El, app_length. cbn [fclasses fhold]. lia. }
  rewrite (mext_get s s2) in Q1, Q2 by auto. rewrite (later_get _ _ _ L) in Q1, Q2 by exact C.
  change (get_fcls (fhold s1 t) t) with (get_fcls s1 t) in Q1, Q2. split; congruence.
Qed.

Lemma C76_subclass_pf : forall h k1 k2 n m s1 s2 t1 t2, is_fp (fmrun h) k1 -> is_fp (fmrun h) k2 ->
  getitem_fcls (fmrun h) k1 (FIdx n) = Ok (s1, t1) -> getitem_fcls s1 k2 (FIdx m) = Ok (s2, t2) ->
  (fissub s2 t1 t2 = true <-> fissub (fmrun h) k1 k2 = true /\ n = m).
Proof.
  intros h k1 k2 n m s1 s2 t1 t2 [A1 B1] [A2 B2] E1 E2.
  pose proof (getitem_ok (fmrun h) k1 (FIdx n) (mrun_minv h) A1 B1) as Q. rewrite E1 in Q.
  destruct Q as (I1 & X1 & L1 & n' & [En|En] & F1); inv En.
  assert (Q := getitem_ok s1 k2 (FIdx m) I1 (mext_alive _ _ _ X1 A2)).
  rewrite (mext_bvb (fmrun h) s1) in Q by (auto; now apply alive_spec in A2). specialize (Q B2). rewrite E2 in Q.
  destruct Q as (I2 & X2 & L2 & m' & [Em|Em] & F2); inv Em.
  assert (F1' : find_fcache s2 k1 n' = Some t1) by (apply (e_cache _ _ X2); auto).
  rewrite issub_sub; auto; [|apply (mext_alive _ _ _ X2), alive_spec in L1; tauto].
  assert (X := mext_trans _ _ _ X1 X2). assert (I := mrun_minv h).
  apply alive_spec in A1 as [A1 _]. rewrite (issub_sub (fmrun h)) by auto.
  rewrite (sized_sub s2 k1 n' t1 k2 m' t2); auto. rewrite (mext_sub (fmrun h) s2); auto. tauto.
Qed.

Lemma C76_bases_bound_pf : forall h k1 k2 n s1 t1, is_fp (fmrun h) k1 -> is_fp (fmrun h) k2 -> fissub (fmrun h) k1 k2 = true ->
  getitem_fcls (fmrun h) k1 (FIdx n) = Ok (s1, t1) ->
  exists t2, getitem_fcls s1 k2 (FIdx n) = Ok (s1, t2) /\ fissub s1 t1 t2 = true /\ fissub s1 t1 k2 = true.
Proof.
  intros h k1 k2 n s1 t1 [A1 B1] [A2 B2] Hs E1.
  pose proof (getitem_ok (fmrun h) k1 (FIdx n) (mrun_minv h) A1 B1) as Q. rewrite E1 in Q.
  destruct Q as (I1 & X1 & L1 & n' & [En|En] & F1); inv En.
  apply alive_spec in A1 as [A1 _]. apply alive_spec in A2 as [A2 _].
  apply issub_sub in Hs; auto using mrun_minv. rewrite (mext_sub (fmrun h) s1) in Hs; auto using mrun_minv.
  destruct (cached_up s1 I1 k1 n' t1 k2) as (t2 & F2); auto using find_cache_In.
  { rewrite (mext_bvb (fmrun h) s1); auto. }
  exists t2. split; [now apply getitem_cached|]. apply alive_spec in L1 as [L1 _].
  assert (S : fsub s1 t1 t2) by (eapply sized_sub; eauto). split; apply issub_sub; auto.
  eapply sub_trans; [exact S|]. apply find_cache_In in F2. destruct (i_cache _ I1 _ _ _ F2) as (_ & _ & _ & _ & _ & _ & _ & A8).
  econstructor; [rewrite A8; now left|constructor].
Qed.

Lemma C76_errors_pf : forall h k, is_fp (fmrun h) k ->
  (~ unbound (fmrun h) k -> forall i, getitem_fcls (fmrun h) k i = Raise ETypeError) /\
  (unbound (fmrun h) k -> forall n, f_eb n <= 0 \/ f_mb n <= 0 -> getitem_fcls (fmrun h) k (FIdx n) = Raise EValueError) /\
  (unbound (fmrun h) k -> getitem_fcls (fmrun h) k FOther = Raise EIndexError).
Proof.
  intros h k [A B]. assert (I := mrun_minv h).
  assert (NC : ~ unbound (fmrun h) k -> forall n, find_fcache (fmrun h) k n = None).
  { intros U n. destruct (find_fcache (fmrun h) k n) as [t|] eqn:F; auto. exfalso. apply U.
    apply find_cache_In in F. now apply (i_cache _ I) in F. }
  split; [|split].
  - intros U i. specialize (NC U). unfold unbound in U. destruct i as [n|n|]; cbn [getitem_fcls index_fcls].
    + rewrite NC. destruct (fc_binding (get_fcls (fmrun h) k)); [reflexivity|congruence].
    + rewrite NC. destruct (fc_binding (get_fcls (fmrun h) k)); [reflexivity|congruence].
    + destruct (fc_binding (get_fcls (fmrun h) k)); [reflexivity|congruence].
  - intros U n Hn. cbn [getitem_fcls]. assert (K : fmt_ok n = false) by (unfold fmt_ok; lia).
    pose proof (index_ok (S k) (fmrun h) k n I A B ltac:(lia)) as Q.
    destruct (index_fcls (S k) (fmrun h) k n) as [[s t]|e]; [|f_equal; now apply Q].
    exfalso. destruct Q as (I' & X & F & _). apply find_cache_In, (i_cache _ I') in F. destruct F as (_ & _ & _ & _ & F & _). congruence.
  - intros U. cbn [getitem_fcls]. rewrite U. reflexivity.
Qed.

Lemma C77_total_partial_pf : forall h k n, is_fp (fmrun h) k -> unbound (fmrun h) k -> fmixins_last (fmrun h) k -> 0 < f_eb n -> 0 < f_mb n ->
  exists s t, getitem_fcls (fmrun h) k (FIdx n) = Ok (s, t) /\
    fc_mro (get_fcls s t) =
      flat_map (fun x => if fc_fp (get_fcls s x) then [bound_version s n x; x] else [x]) (fc_mro (get_fcls s k)).
Proof.
  intros h k n [A B] Hu Hm Hn1 Hn2. assert (Hn : fmt_ok n = true) by (unfold fmt_ok; lia). assert (I := mrun_minv h). cbn [getitem_fcls].
  assert (Lk : (k < len (fmrun h))%nat) by now apply alive_spec in A.
  apply (tame_iff _ _ I Lk) in Hm.
  pose proof (index_ok (S k) (fmrun h) k n I A B ltac:(lia)) as Q.
  destruct (index_fcls (S k) (fmrun h) k n) as [[s t]|e].
  2:{ exfalso. destruct Q as (_ & _ & Q). now apply (Q Hu Hn). }
  destruct Q as (I' & X & F & _). exists s, t. split; auto. apply find_cache_In in F.
  rewrite (i_dbl s I' _ _ _ F); [|now apply (mext_tame (fmrun h) s)].
  change (fun x : nat => if fc_fp (get_fcls s x) then [bound_version s n x; x] else [x])
    with (fun x : nat => if bvb s x then [bound_version s n x; x] else [x]).
  change (dbl (bvb s) (fcn s n) (fc_mro (get_fcls s k)) = dbl (bvb s) (bound_version s n) (fc_mro (get_fcls s k))).
  apply dbl_ext. intros x Hx. split; auto. intros Hbx. pose proof (mext_len _ _ X).
  apply mro_sub in Hx; auto; [|lia]. destruct (cached_up s I' _ _ _ _ F Hx Hbx) as (tx & Ex).
  unfold bound_version, fcn. rewrite (getitem_cached _ _ _ _ Ex). now rewrite Ex.
Qed.

Lemma C77_total_refuted_pf : exists h k n, is_fp (fmrun h) k /\ unbound (fmrun h) k /\ 0 < f_eb n /\ 0 < f_mb n /\
  getitem_fcls (fmrun h) k (FIdx n) = Raise ETypeError.
Proof.
  exists [FMClass []; FMClass [2;1]; FMClass [1]; FMClass [3]; FMClass [4]; FMClass [6;5;2;4]; FMClass [3;4]; FMClass [7;8]]%nat, 9%nat, (Fmt 5 10 RNE true).
  split; [split; vm_compute; reflexivity|]. split; [vm_compute; reflexivity|]. split; [reflexivity|]. split; [reflexivity|]. vm_compute. reflexivity.
Qed.

Lemma C77_like_refuted_pf : exists h1 h2 k n t, is_fp (fmrun h1) k /\
  getitem_fcls (fmrun h1) k (FLike n) = Raise EIndexError /\
  getitem_fcls (fmrun (h1 ++ h2)) k (FLike n) = Ok (fmrun (h1 ++ h2), t).
Proof.
  exists fbuiltin, [FMIndex 2 (FIdx (Fmt 5 10 RNE true))]%nat, 2%nat, (Fmt 5 10 RNE true), 4%nat.
  split; [split; vm_compute; reflexivity|]. split; vm_compute; reflexivity.
Qed.
