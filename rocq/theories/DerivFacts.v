(** Lemmas about the classes of DerivModel.v: method resolution of derived classes, sized classes and their cache entries. *)
From Coq Require Import Lia.
From Verif Require Import PyBase BVModel BVFacts BVSpec OpModel SMTSpec ProgModel MetaModel MetaSpec MergeFacts MetaFacts DerivModel DerivSpec.

(** ** SIntVector comes before BitVector *)
Definition before (a b : nat) (l : list nat) : Prop := exists l1 l2, l = l1 ++ a :: l2 /\ ~ In b l1 /\ In b l2.
Lemma merge_before a b f : a <> b -> forall ls r l, merge f ls = Some r -> In l ls -> before a b l -> before a b r.
Proof.
  intros N. induction f as [|f IH]; intros ls r l H Hl (l1 & l2 & E & Hb1 & Hb2); pose proof (merge_cons _ _ _ H) as Q; destruct r as [|c r].
  - apply heads_nil in Q. rewrite Forall_forall in Q. apply Q in Hl. subst l. destruct l1; discriminate.
  - destruct Q as (_ & _ & f' & ? & _). discriminate.
  - apply heads_nil in Q. rewrite Forall_forall in Q. apply Q in Hl. subst l. destruct l1; discriminate.
  - destruct Q as (P & Nc & f' & Ef & M). inv Ef. apply pick_spec in P as [_ P].
    destruct (Nat.eq_dec c b) as [->|Nb].
    { exfalso. specialize (P _ Hl). destruct l1 as [|x l1]; cbn in P; apply mem_false in P; apply P; [exact Hb2|].
      apply in_app_iff. right. now right. }
    assert (Hbr : In b (c :: r)).
    { apply (merge_In _ _ _ H). exists (l1 ++ a :: l2). split; auto. apply in_app_iff. right. now right. }
    destruct Hbr as [?|Hbr]; [congruence|].
    destruct (Nat.eq_dec c a) as [->|Na]; [exists [], r; repeat split; auto|].
    destruct (IH _ _ (strip1 c (l1 ++ a :: l2)) M) as (r1 & r2 & Er & A & B).
    + apply in_map_iff. eauto.
    + destruct l1 as [|x l1]; cbn [app strip1].
      * destruct (Nat.eqb_spec a c); [congruence|]. exists [], l2. auto.
      * destruct (Nat.eqb_spec x c); [exists l1, l2|exists (x :: l1), l2]; repeat split; auto. intros K. apply Hb1. now right.
    + exists (c :: r1), r2. rewrite Er. repeat split; auto. intros [K|K]; auto.
Qed.

(** ** The built-in classes *)
Record base (s : meta) : Prop := {
  b_len : (6 <= len s)%nat; b_2 : c_size (get_cls s 2) = None; b_5 : c_size (get_cls s 5) = None;
  b_sub : sub s 5 2; b_bv : bvb s 2 = true }.
Lemma base_mext s s' : minv s -> base s -> mext s s' -> base s'.
Proof.
  intros I B X. destruct B. pose proof (mext_len _ _ X). split; try lia.
  - rewrite (mext_get s s'); auto; try lia.
  - rewrite (mext_get s s'); auto; try lia.
  - apply (mext_sub s s'); auto; lia.
  - rewrite (mext_bvb s s'); auto; lia.
Qed.
Lemma base_builtin h : base (mrun (builtin ++ h)).
Proof.
  pose proof (mrun_later builtin h) as L. set (s := mrun (builtin ++ h)) in *.
  assert (G : forall c, (c < 6)%nat -> get_cls s c = get_cls (mrun builtin) c) by (intros c Hc; apply later_get; auto).
  split.
  - destruct L as [[l E] _ _]. unfold len. rewrite E, app_length. cbn. lia.
  - rewrite G by lia. reflexivity.
  - rewrite G by lia. reflexivity.
  - apply sub_step with 3%nat; [rewrite G by lia; now left|]. apply sub_step with 2%nat; [rewrite G by lia; now left|]. constructor.
  - unfold bvb. rewrite G by lia. reflexivity.
Qed.

Lemma mro_before s c : minv s -> base s -> (c < len s)%nat -> sub s c 5 -> before 5 2 (c_mro (get_cls s c)).
Proof.
  intros I B. induction c as [c IH] using lt_wf_ind. intros Hc Hs.
  destruct (i_mro s I c Hc) as (l & E & M). rewrite E.
  destruct (Nat.eq_dec c 5) as [->|N5].
  { exists [], l. split; auto. split; auto. pose proof (b_sub s B) as K. apply mro_sub in K; auto. rewrite E in K.
    destruct K as [?|K]; [discriminate|exact K]. }
  assert (N2 : c <> 2%nat) by (pose proof (sub_le s I c 5 Hc Hs); lia).
  assert (Q : exists b, In b (c_bases (get_cls s c)) /\ sub s b 5).
  { inversion Hs; subst; [congruence|]. eauto. }
  destruct Q as (b & Hb & Hsb). pose proof (i_bases s I c b Hc Hb).
  specialize (IH b H ltac:(lia) Hsb).
  destruct (merge_before 5 2 _ ltac:(lia) _ _ (c_mro (get_cls s b)) M) as (r1 & r2 & -> & A & D); auto.
  { apply in_app_iff. left. apply in_map_iff. eauto. }
  exists (c :: r1), r2. split; auto. split; auto. intros [K|K]; auto.
Qed.

Lemma signed_cls_spec s c : minv s -> base s -> (c < len s)%nat -> sub s c 2 -> signed_cls s c = below_SIntVector s c.
Proof.
  intros I B Hc H2. unfold signed_cls, below_SIntVector.
  set (p := fun k : nat => (k =? 2)%nat || (k =? 5)%nat). destruct (issub s c 5) eqn:E.
  - apply issub_sub in E; auto. destruct (mro_before s c I B Hc E) as (l1 & l2 & -> & A & _).
    assert (Q : forall l, ~ In 2%nat l -> find p (l ++ 5%nat :: l2) = Some 5%nat).
    { induction l as [|x l IH]; intros K; [reflexivity|]. cbn [app find]. unfold p at 1.
      destruct (Nat.eqb_spec x 2) as [->|]; [exfalso; apply K; now left|]. cbn [orb].
      destruct (Nat.eqb_spec x 5) as [->|]; [reflexivity|]. apply IH. intros K2. apply K. now right. }
    rewrite Q; auto.
  - destruct (find p _) as [k|] eqn:F; auto. apply find_some in F as [F1 F2]. apply Nat.eqb_neq. intros ->.
    apply mro_sub in F1; auto. apply issub_sub in F1; auto. congruence.
Qed.

(** ** Every sized class made by indexing that is still there is in the cache *)
Definition rinv (s : meta) : Prop :=
  forall c u m, alive s c = true -> c_size (get_cls s c) = Some m -> c_unsized (get_cls s c) = Some u -> find_cache s u m = Some c.
Lemma rinv_addc s k : minv s -> rinv s -> (c_size k = None \/ c_unsized k = None) -> rinv (addc s k).
Proof.
  intros I R Hk c u m Ha Hs Hu. change (find_cache (addc s k) u m) with (find_cache s u m).
  apply alive_spec in Ha as [La Da]. rewrite len_addc in La.
  destruct (Nat.eq_dec c (len s)) as [->|N]; [rewrite get_addc_new in *; destruct Hk; congruence|].
  rewrite get_addc_old in * by lia. apply R; auto. apply alive_spec. split; auto. lia.
Qed.
Lemma rinv_index fuel : forall s c n s' t, minv s -> rinv s -> alive s c = true -> bvb s c = true -> (c < fuel)%nat ->
  index_cls fuel s c n = Ok (s', t) -> rinv s'.
Proof.
  induction fuel as [|f IH]; intros s c n s' t I R Hal Hbv Hf H; [lia|]. rewrite index_unfold in H.
  destruct (find_cache s c n) as [t0|] eqn:EF; [now inv H|].
  destruct (n <? 0) eqn:En; [discriminate|]. apply Z.ltb_ge in En.
  destruct (c_size (get_cls s c)) as [m|] eqn:Es; [discriminate|].
  assert (Lc : (c < len s)%nat) by now apply alive_spec in Hal.
  assert (GO : forall bs s0 s1 ts, minv s0 -> rinv s0 -> (forall b, In b bs -> alive s0 b = true /\ (b < c)%nat) ->
    go_idx f n s0 bs = Ok (s1, ts) -> minv s1 /\ rinv s1 /\ mext s0 s1 /\ forall m, find_cache s1 c m = find_cache s0 c m).
  { induction bs as [|b bs IHb]; intros s0 s1 ts I0 R0 H0 G; cbn [go_idx] in G.
    { inv G. split; [auto|]. split; [auto|]. split; [apply mext_refl|auto]. }
    fold (go_idx f n) in G. change (c_bv (get_cls s0 b)) with (bvb s0 b) in G.
    destruct (H0 b) as (Ab & Lb); [now left|]. destruct (bvb s0 b) eqn:Ebv.
    - pose proof (index_ok f s0 b n I0 Ab Ebv ltac:(lia)) as Q. destruct (index_cls f s0 b n) as [[s2 t2]|e] eqn:Ei; [|discriminate].
      destruct Q as (I2 & X2 & _ & _ & K2). pose proof (IH _ _ _ _ _ I0 R0 Ab Ebv ltac:(lia) Ei) as R2. cbn [bind fst snd] in G.
      destruct (go_idx f n s2 bs) as [[s3 ts3]|e] eqn:Eg; [|discriminate]. cbn in G. inv G.
      destruct (IHb s2 s1 ts3 I2 R2) as (A & B & C & D); auto.
      { intros b0 Hb0. destruct (H0 b0) as [E1 E2]; [now right|]. split; auto. eapply mext_alive; eauto. }
      split; [auto|]. split; [auto|]. split; [exact (mext_trans _ _ _ X2 C)|]. intros k. rewrite D. apply K2. lia.
    - apply (IHb s0 s1 ts); auto. intros b0 Hb0. apply H0. now right. }
  destruct (go_idx f n s (c_bases (get_cls s c))) as [[s1 ts]|e] eqn:Eg; [|discriminate]. cbn [bind fst snd] in H.
  destruct (fun Q => GO _ _ _ _ I R Q Eg) as (I1 & R1 & X1 & K1).
  { intros b Hb. split; [eapply i_alive; eauto|]. eapply i_bases; eauto. }
  unfold new_class in H. destruct (join_size s1 (Some n) (c :: ts)) as [sz|] eqn:J; [|discriminate]. cbn [bind] in H.
  destruct (c3 s1 (c :: ts)) as [l|]; [|discriminate]. cbn [bind fst snd] in H. inv H.
  destruct (join_none _ _ _ _ J) as [J1 _]. rewrite (J1 n eq_refl). change (length (classes s1)) with (len s1).
  set (k := Cls _ _ _ _ _). change (Meta (classes s1 ++ [k]) (dead s1) (cache s1) (vars s1)) with (addc s1 k).
  intros d u m Ha Hs Hu. change (get_cls (addk (addc s1 k) c n (len s1)) d) with (get_cls (addc s1 k) d) in *.
  change (alive (addc s1 k) d = true) in Ha. apply alive_spec in Ha as [La Da]. rewrite len_addc in La.
  destruct (Nat.eq_dec d (len s1)) as [->|N].
  - rewrite get_addc_new in *. cbn [c_size c_unsized k] in *. inv Hs. inv Hu. now rewrite find_addk, Nat.eqb_refl, Z.eqb_refl.
  - rewrite get_addc_old in * by lia. apply find_addk_old; [change (find_cache s1 c n = None); now rewrite K1|].
    change (find_cache s1 u m = Some d). apply R1; auto. apply alive_spec. split; auto. lia.
Qed.
Lemma rinv_step s op : minv s -> rinv s -> rinv (mstep s op).
Proof.
  intros I R. destruct op as [bs|c i|c|c]; cbn [mstep].
  - set (bs' := match bs with [] => _ | _ => _ end).
    destruct (forallb (alive s) bs') eqn:Ha; auto.
    destruct (new_class s _ bs' None None) as [[s' t]|] eqn:E; auto. unfold new_class in E.
    destruct (join_size s None bs') as [sz|] eqn:J; [|discriminate]. cbn [bind] in E. destruct (c3 s bs'); inv E.
    change (rinv (addc s (Cls (existsb (fun b => c_bv (get_cls s b)) bs') bs' (length (classes s) :: l)
      match sz with Some _ => None | None => Some (length (classes s)) end sz))).
    apply rinv_addc; auto. cbn. destruct sz; auto.
  - destruct (alive s c && c_bv (get_cls s c)) eqn:Ea; auto. apply andb_true_iff in Ea as [Ha Hb].
    destruct (getitem_cls s c i) as [[s' t]|] eqn:E; auto. change (rinv s'). destruct i as [n|n|]; cbn [getitem_cls] in E; [| |discriminate].
    + eapply rinv_index; eauto.
    + destruct (find_cache s c n); inv E. auto.
  - exact R.
  - destruct (alive s c && negb (referenced s c) && Nat.leb 2 c) eqn:Ea; auto.
    intros d u m Hd Hs Hu. change (get_cls s d) with (get_cls s d) in *.
    apply alive_spec in Hd as [Ld Dd]. cbn [dead] in Dd. unfold len in Ld. cbn [classes] in Ld.
    assert (Fd : find_cache s u m = Some d).
    { apply R; auto. apply alive_spec. split; auto. intros K. apply Dd. now right. }
    unfold find_cache in Fd |- *. destruct (find _ (cache s)) as [e|] eqn:E; [|discriminate]. cbn in Fd. inv Fd.
    cbn [cache]. erewrite find_filter; [reflexivity|exact E|]. apply negb_true_iff, Nat.eqb_neq. intros K. apply Dd. now left.
Qed.
Lemma rinv_run h : rinv (mrun h).
Proof.
  assert (Q : forall h s, minv s -> rinv s -> rinv (fold_left mstep h s)).
  { induction h0 as [|op h0 IH]; intros s I R; cbn [fold_left]; auto. apply IH; [now apply mstep_ok|now apply rinv_step]. }
  apply Q; [apply meta0_minv|]. intros c u m Ha Hs _. apply alive_spec in Ha as [La _]. unfold len in La. cbn in La.
  destruct c as [|[|c]]; [discriminate|discriminate|lia].
Qed.

(** ** Sized classes *)
Lemma cached_sub s u n t x : minv s -> find_cache s u n = Some t -> c_size (get_cls s x) = None -> (sub s t x <-> sub s u x).
Proof.
  intros I. revert t x. induction u as [u IH] using lt_wf_ind. intros t x F Hx.
  pose proof (find_cache_In _ _ _ _ F) as C. destruct (i_cache s I _ _ _ C) as (Al & _ & _ & _ & _ & Es & _ & Eb).
  pose proof (cache_key s I _ _ _ C) as [Hlt Al2]. apply alive_spec in Al as [Lt _]. apply alive_spec in Al2 as [Lu _].
  split.
  - intros H. inversion H as [|? b ? Hb Hs]; subst; [congruence|]. rewrite Eb in Hb. destruct Hb as [<-|Hb]; auto.
    apply in_map_iff in Hb as (k & <- & Hk). apply filter_In in Hk as [Hk Hkb].
    destruct (i_closed s I _ _ _ k C Hk Hkb) as (tb & Fb). unfold fcn in Hs. rewrite Fb in Hs.
    apply (IH k (i_bases s I u k Lu Hk) tb x Fb Hx) in Hs. econstructor; eauto.
  - intros H. apply sub_step with u; auto. rewrite Eb. now left.
Qed.
Record J (s : meta) : Prop := { j_minv : minv s; j_rinv : rinv s; j_base : base s }.
Lemma J_run h : J (mrun (builtin ++ h)).
Proof. split; [apply mrun_minv|apply rinv_run|apply base_builtin]. Qed.
Lemma J_getitem s u n s' t : J s -> alive s u = true -> bvb s u = true -> getitem_cls s u (XInt n) = Ok (s', t) ->
  J s' /\ mext s s' /\ find_cache s' u n = Some t.
Proof.
  intros [I R B] Ha Hb E. cbn [getitem_cls] in E. pose proof (index_ok (S u) s u n I Ha Hb ltac:(lia)) as Q. rewrite E in Q.
  destruct Q as (I' & X & F & _). split; [|auto]. split; [exact I'| |exact (base_mext s s' I B X)].
  exact (rinv_index (S u) s u n s' t I R Ha Hb (Nat.lt_succ_diag_r u) E).
Qed.

(** ** Objects of a program *)
Definition kd (b : bool) : kind := if b then KSInt else KBV.
Definition px (s : meta) (x : vobj) : bv := BV (plain_cls s (vcls x)) (vval x).
Definition famok (s : meta) (F : option nat) : Prop :=
  match F with Some u => alive s u = true /\ bvb s u = true /\ c_size (get_cls s u) = None /\ tame s u | None => True end.
Record okc (s : meta) (F : option nat) (b : bool) (c : nat) : Prop := {
  o_alive : alive s c = true; o_bv : bvb s c = true; o_sub : sub s c 2; o_sign : issub s c 5 = b;
  o_size : exists n, c_size (get_cls s c) = Some n /\ 0 <= n;
  o_fam : forall u, F = Some u -> c_unsized (get_cls s c) = Some u }.
Definition oko (s : meta) (F : option nat) (b : bool) (x : vobj) : Prop := okc s F b (vcls x) /\ 0 <= vval x < 2 ^ csz s (vcls x).
Definition okv (s : meta) (F : option nat) (b : bool) (v : uval) : Prop := match v with UVec x => oko s F b x | _ => True end.

Lemma csz_nonneg s F b c : okc s F b c -> 0 <= csz s c.
Proof. intros O. unfold csz. destruct (o_size _ _ _ _ O) as (n & -> & ?). auto. Qed.
Lemma okc_len s F b c : okc s F b c -> (c < len s)%nat.
Proof. intros O. apply o_alive in O. now apply alive_spec in O. Qed.
Lemma famok_mext s s' F : minv s -> mext s s' -> famok s F -> famok s' F.
Proof.
  destruct F as [u|]; cbn; auto. intros I X (A & B & C & D). assert (L : (u < len s)%nat) by now apply alive_spec in A.
  split; [eapply mext_alive; eauto|]. split; [rewrite (mext_bvb s s'); auto|]. split; [rewrite (mext_get s s'); auto|].
  now apply (mext_tame s s' u I X L).
Qed.
Lemma issub_mext s s' a b : minv s -> minv s' -> mext s s' -> (a < len s)%nat -> issub s' a b = issub s a b.
Proof.
  intros I I' X L. apply Bool.eq_iff_eq_true. pose proof (mext_len _ _ X).
  rewrite !issub_sub by (auto; lia). symmetry. apply mext_sub; auto.
Qed.
Lemma okc_mext s s' F b c : minv s -> minv s' -> mext s s' -> okc s F b c -> okc s' F b c.
Proof.
  intros I I' X O. pose proof (okc_len _ _ _ _ O) as L. destruct O. split.
  - eapply mext_alive; eauto.
  - now rewrite (mext_bvb s s').
  - now apply (mext_sub s s').
  - now rewrite (issub_mext s s').
  - now rewrite (mext_get s s').
  - now rewrite (mext_get s s').
Qed.
Lemma plain_cls_mext s s' F b c : minv s -> minv s' -> mext s s' -> okc s F b c -> plain_cls s' c = plain_cls s c.
Proof.
  intros I I' X O. pose proof (okc_len _ _ _ _ O). unfold plain_cls, below_SIntVector. now rewrite (mext_get s s'), (issub_mext s s').
Qed.
Lemma csz_mext s s' c : mext s s' -> (c < len s)%nat -> csz s' c = csz s c.
Proof. intros X L. unfold csz. now rewrite (mext_get s s'). Qed.
Lemma oko_mext s s' F b x : minv s -> minv s' -> mext s s' -> oko s F b x -> oko s' F b x.
Proof.
  intros I I' X [O V]. split; [exact (okc_mext s s' F b _ I I' X O)|]. now rewrite (csz_mext s s' (vcls x) X (okc_len s F b _ O)).
Qed.
Lemma px_mext s s' F b x : minv s -> minv s' -> mext s s' -> oko s F b x -> px s' x = px s x.
Proof. intros I I' X [O V]. unfold px. now rewrite (plain_cls_mext s s' F b). Qed.
Lemma plain_cls_ok s F b c : okc s F b c -> plain_cls s c = BVC (kd b) (csz s c).
Proof. intros O. unfold plain_cls, below_SIntVector. now rewrite (o_sign _ _ _ _ O). Qed.
Lemma signed_ok s F b c : J s -> okc s F b c -> signed_cls s c = b.
Proof.
  intros [I R B] O. rewrite signed_cls_spec; auto; [apply (o_sign _ _ _ _ O)|eapply okc_len; eauto|apply (o_sub _ _ _ _ O)].
Qed.
Lemma umk_ok s F b c z : okc s F b c -> oko s F b (umk s c z).
Proof.
  intros O. split; auto. cbn [vval vcls umk]. pose proof (csz_nonneg _ _ _ _ O). rewrite Z.shiftl_1_l.
  replace (2 ^ csz s c - 1) with (Z.ones (csz s c)) by (rewrite Z.ones_equiv; lia).
  rewrite Z.land_ones by auto. apply Z.mod_pos_bound. now apply Z.pow_pos_nonneg.
Qed.
Lemma px_umk s c z : px s (umk s c z) = mk (plain_cls s c) z.
Proof. reflexivity. Qed.
Lemma uinit_px s c v : bv_init (plain_cls s c) (plain s v) = Ok (px s (uinit s c v)).
Proof. destruct v; reflexivity. Qed.
Lemma uinit_ok s F b c v : okc s F b c -> oko s F b (uinit s c v).
Proof. intros O. destruct v; now apply umk_ok. Qed.

(** u[n] for the unsized_t u of the class of an object. *)
Lemma cached_ok s F b c u n t : J s -> okc s F b c -> c_unsized (get_cls s c) = Some u -> find_cache s u n = Some t ->
  okc s F b t /\ c_size (get_cls s t) = Some n.
Proof.
  intros [I R B] O Eu Ft. destruct (o_size _ _ _ _ O) as (m & Em & Hm).
  pose proof (R c u m (o_alive _ _ _ _ O) Em Eu) as Fc. pose proof (find_cache_In _ _ _ _ Ft) as C.
  destruct (i_cache s I _ _ _ C) as (Al & Bt & _ & _ & Hn & Es & Eut & _). split; auto.
  assert (Q : forall x, c_size (get_cls s x) = None -> (sub s t x <-> sub s c x)).
  { intros x Hx. rewrite (cached_sub s u n t x I Ft Hx). symmetry. now apply (cached_sub s u m c x). }
  split; auto.
  - apply Q; [apply b_2; auto|]. apply (o_sub _ _ _ _ O).
  - rewrite <- (o_sign _ _ _ _ O). apply Bool.eq_iff_eq_true. rewrite !issub_sub; auto; [|eapply okc_len; eauto|now apply alive_spec in Al].
    apply Q. apply b_5; auto.
  - exists n. split; auto.
  - intros w E. rewrite Eut. rewrite <- Eu. apply (o_fam _ _ _ _ O). auto.
Qed.

(** ** Agreement *)
Definition agree {A B} (s : meta) (F : option nat) (P : meta -> A -> Prop) (f : meta -> A -> B) (r : res (meta * A)) (q : res B) : Prop :=
  match r with
  | Ok (s', a) => J s' /\ mext s s' /\ P s' a /\ q = Ok (f s' a)
  | Raise e => F <> None -> q = Raise e
  end.
Lemma agree_bind {A B A' B'} s F (P : meta -> A -> Prop) (f : meta -> A -> B) (P' : meta -> A' -> Prop) (f' : meta -> A' -> B') r q k k' :
  agree s F P f r q -> (forall s' a, J s' -> mext s s' -> P s' a -> agree s' F P' f' (k (s', a)) (k' (f s' a))) ->
  agree s F P' f' (bind r k) (bind q k').
Proof.
  intros H K. destruct r as [[s1 a]|e]; cbn [bind agree] in *.
  - destruct H as (J1 & X & Pa & ->). cbn [bind]. specialize (K s1 a J1 X Pa). destruct (k (s1, a)) as [[s2 a2]|e]; auto.
    destruct K as (A1 & A2 & A3 & A4). split; auto. split; auto. eapply mext_trans; eauto.
  - intros N. now rewrite H.
Qed.
Lemma agree_ret {A B} s F (P : meta -> A -> Prop) (f : meta -> A -> B) a : J s -> P s a -> agree s F P f (Ok (s, a)) (Ok (f s a)).
Proof. intros. cbn. auto using mext_refl. Qed.
(** A step that makes no class. *)
Lemma agree_pure {A A' B'} s F (r : res A) (P' : meta -> A' -> Prop) (f' : meta -> A' -> B') k k' :
  (forall a, r = Ok a -> agree s F P' f' (k a) (k' a)) -> agree s F P' f' (bind r k) (bind r k').
Proof. intros K. destruct r as [a|e]; cbn [bind]; auto. cbn. auto. Qed.

Lemma mapM_truth l : mapM truth (map VInt l) = Ok (map (fun z => negb (z =? 0)) l).
Proof. induction l as [|a l IH]; cbn [map mapM truth bind]; auto. now rewrite IH. Qed.
Lemma construct_bits k n l : construct k n (bits_arg l) = construct k n (VInt (useq l)).
Proof. unfold construct, bits_arg. destruct (sized k n); cbn [bind bv_init]; auto. now rewrite mapM_truth. Qed.

Lemma unsized_ag s F b c {A B} (P : meta -> A -> Prop) (f : meta -> A -> B) k q : okc s F b c ->
  (forall u, c_unsized (get_cls s c) = Some u -> (forall w, F = Some w -> w = u) -> agree s F P f (k u) q) ->
  agree s F P f (bind (unsized_t s c) k) q.
Proof.
  intros O K. unfold unsized_t. destruct (c_unsized (get_cls s c)) as [u|] eqn:E; cbn [bind].
  - apply K; auto. intros w Hw. pose proof (o_fam _ _ _ _ O w Hw). congruence.
  - cbn. intros N. exfalso. destruct F as [w|]; [|congruence]. pose proof (o_fam _ _ _ _ O w eq_refl). congruence.
Qed.
Lemma unsized_alive s F b c u : J s -> okc s F b c -> c_unsized (get_cls s c) = Some u -> alive s u = true /\ bvb s u = true.
Proof.
  intros [I R B] O Eu. destruct (o_size _ _ _ _ O) as (m & Em & Hm). pose proof (R c u m (o_alive _ _ _ _ O) Em Eu) as Fc.
  pose proof (find_cache_In _ _ _ _ Fc) as C. split; [now apply (cache_key s I) in C|]. now destruct (i_cache s I _ _ _ C) as (_ & _ & ? & _).
Qed.
(** T = type(self).unsized_t[n]. *)
Lemma getitem_ag s F b c u n : J s -> famok s F -> okc s F b c -> c_unsized (get_cls s c) = Some u -> (forall w, F = Some w -> w = u) ->
  0 <= n -> agree s F (fun s' t => okc s' F b t /\ csz s' t = n /\ (forall d, okc s F b d -> plain_cls s' d = plain_cls s d))
    (fun s' t => plain_cls s' t) (getitem_cls s u (XInt n)) (Ok (BVC (kd b) n)).
Proof.
  intros Js Fo O Eu Hw Hn. destruct (unsized_alive s F b c u Js O Eu) as [Al Bu].
  destruct (getitem_cls s u (XInt n)) as [[s' t]|e] eqn:E; cbn [agree].
  - destruct (J_getitem s u n s' t Js Al Bu E) as (J' & X & Ft). destruct Js as [I R Bs]. pose proof (j_minv _ J') as I'.
    assert (O' : okc s' F b c) by exact (okc_mext s s' F b c I I' X O).
    destruct (cached_ok s' F b c u n t J' O') as [Ot Et]; auto.
    { rewrite (mext_get s s' c X (okc_len s F b c O)). exact Eu. }
    assert (Ez : csz s' t = n) by (unfold csz; now rewrite Et).
    split; auto. split; auto. split.
    + split; auto. split; auto. intros d Od. exact (plain_cls_mext s s' F b d I I' X Od).
    + rewrite (plain_cls_ok s' F b t Ot). now rewrite Ez.
  - intros N. exfalso. destruct F as [w|]; [|congruence]. specialize (Hw w eq_refl). subst w. destruct Fo as (_ & _ & Eu0 & T).
    pose proof (index_ok (S u) s u n (j_minv _ Js) Al Bu ltac:(lia)) as Q. cbn [getitem_cls] in E. rewrite E in Q.
    destruct Q as (_ & _ & Q). now apply Q.
Qed.
Lemma usized_ag s F b c n z : J s -> famok s F -> okc s F b c -> 0 <= n ->
  agree s F (fun s' x => oko s' F b x /\ vsize s' x = n) px (usized s c n z) (construct (kd b) n (VInt z)).
Proof.
  intros Js Fo O Hn. unfold usized. apply unsized_ag with (b := b); auto. intros u Eu Hw.
  unfold construct, sized. destruct (Z.ltb_spec n 0); [lia|].
  apply agree_bind with (1 := getitem_ag s F b c u n Js Fo O Eu Hw Hn).
  intros s' t J' X (Ot & Ez & _). cbn [fst snd]. cbn [agree bv_init]. split; auto. split; [apply mext_refl|]. split; auto.
  split; [now apply umk_ok|exact Ez].
Qed.

(** ** Methods *)
Definition okp (F : option nat) (b : bool) (s : meta) (x : vobj) : Prop := oko s F b x.
Lemma agree_weaken {A B} s F (P P' : meta -> A -> Prop) (f : meta -> A -> B) r q : (forall s a, P s a -> P' s a) ->
  agree s F P f r q -> agree s F P' f r q.
Proof. intros H. destruct r as [[s' a]|e]; cbn; auto. intros (A1 & A2 & A3 & A4). auto. Qed.
Lemma usized_ag' s F b c n z : J s -> famok s F -> okc s F b c -> 0 <= n ->
  agree s F (okp F b) px (usized s c n z) (construct (kd b) n (VInt z)).
Proof. intros Js Fo O Hn. eapply agree_weaken; [|now apply usized_ag]. now intros s1 a [? _]. Qed.
Lemma bkind_px s F b x : oko s F b x -> bkind (px s x) = kd b.
Proof. intros [O _]. unfold px, bkind. cbn [bcls]. now rewrite (plain_cls_ok s F b). Qed.
Lemma famok_J s s' F : J s -> J s' -> mext s s' -> famok s F -> famok s' F.
Proof. intros [I _ _] _ X. now apply famok_mext. Qed.
Lemma oko_J s s' F b x : J s -> J s' -> mext s s' -> oko s F b x -> oko s' F b x.
Proof. intros [I _ _] [I' _ _] X. now apply oko_mext. Qed.
Lemma px_J s s' F b x : J s -> J s' -> mext s s' -> oko s F b x -> px s' x = px s x.
Proof. intros [I _ _] [I' _ _] X. now apply px_mext. Qed.
Lemma okv_J s s' F b v : J s -> J s' -> mext s s' -> okv s F b v -> okv s' F b v.
Proof. destruct v; cbn; auto. apply oko_J. Qed.
Lemma plain_J s s' F b v : J s -> J s' -> mext s s' -> okv s F b v -> plain s' v = plain s v.
Proof. intros J1 J2 X. destruct v; cbn; auto. intros O. change (VBV (px s' x) = VBV (px s x)). now rewrite (px_J s s' F b). Qed.

Lemma uslice_ag s F b x i j k : J s -> famok s F -> oko s F b x -> agree s F (okp F b) px (uslice s x i j k) (getitem_slice (px s x) i j k).
Proof.
  intros Js Fo O. unfold uslice, getitem_slice. change (bits (px s x)) with (ubits s x). apply agree_pure. intros l _.
  rewrite construct_bits, (bkind_px s F b x O). apply usized_ag'; auto; [apply O|lia].
Qed.
Lemma fam_issub s u b y : J s -> okc s (Some u) b y -> issub s y u = true.
Proof.
  intros [I R B] O. destruct (o_size _ _ _ _ O) as (m & Em & Hm). pose proof (o_fam _ _ _ _ O u eq_refl) as Eu.
  pose proof (R y u m (o_alive _ _ _ _ O) Em Eu) as Fy. apply issub_sub; auto; [eapply okc_len; eauto|].
  destruct (i_cache s I _ _ _ (find_cache_In _ _ _ _ Fy)) as (_ & _ & _ & _ & _ & _ & _ & Eb).
  apply sub_step with u; [rewrite Eb; now left|constructor].
Qed.
Lemma uconcat_ag s F b x v : J s -> famok s F -> oko s F b x -> okv s F b v ->
  agree s F (okp F b) px (uconcat s x v) (concat (px s x) (plain s v)).
Proof.
  intros Js Fo O Ov. unfold uconcat. apply unsized_ag with (b := b); [apply O|]. intros u Eu Hw.
  destruct v as [z|c|y]; cbn [plain concat]; [cbn; auto|cbn; auto|].
  change (BV (plain_cls s (vcls y)) (vval y)) with (px s y). rewrite (bkind_px s F b x O), (bkind_px s F b y Ov).
  replace (kind_le (kd b) (kd b)) with true by now destruct b.
  destruct (issub s (vcls y) u) eqn:E.
  - apply usized_ag'; auto; [apply O|]. destruct O as [O _], Ov as [Ov _].
    pose proof (csz_nonneg _ _ _ _ O). pose proof (csz_nonneg _ _ _ _ Ov). change (0 <= csz s (vcls x) + csz s (vcls y)). lia.
  - cbn. intros N. exfalso. destruct F as [w|]; [|congruence]. specialize (Hw w eq_refl). subst w.
    destruct Ov as [Ov _]. rewrite (fam_issub s u b (vcls y) Js Ov) in E. discriminate.
Qed.
Lemma urot_ag s F b x k : J s -> famok s F -> oko s F b x -> agree s F (okp F b) px (urot s x k)
  (a <- getitem_slice (px s x) (Some k) None None ;; c <- getitem_slice (px s x) None (Some k) None ;; concat a (VBV c)).
Proof.
  intros Js Fo O. unfold urot. eapply agree_bind; [apply (uslice_ag _ F b); auto|]. intros s1 a J1 X1 Oa. cbn [fst snd].
  pose proof (famok_J _ _ _ Js J1 X1 Fo) as Fo1. pose proof (oko_J _ _ _ _ _ Js J1 X1 O) as O1.
  rewrite <- (px_J s s1 F b x Js J1 X1 O).
  eapply agree_bind; [apply (uslice_ag _ F b); auto|]. intros s2 c J2 X2 Oc. cbn [fst snd].
  rewrite <- (px_J s1 s2 F b a J1 J2 X2 Oa). change (VBV (px s2 c)) with (plain s2 (UVec c)).
  apply uconcat_ag; auto; [now apply (famok_J s1)|now apply (oko_J s1)].
Qed.
Lemma urepeat_ag s F b x r : J s -> famok s F -> oko s F b x -> agree s F (okp F b) px (urepeat s x r) (bv_repeat (px s x) r).
Proof.
  intros Js Fo O. unfold urepeat, bv_repeat. destruct (Z.leb_spec r 0); [cbn; auto|].
  change (bits (px s x)) with (ubits s x). change (bsize (px s x)) with (vsize s x).
  rewrite construct_bits, (bkind_px s F b x O). apply usized_ag'; auto; [apply O|].
  destruct O as [O _]. pose proof (csz_nonneg _ _ _ _ O). unfold vsize. nia.
Qed.
Lemma uzext_ag s F b x e : J s -> famok s F -> oko s F b x -> agree s F (okp F b) px (uzext s x e) (zext (px s x) e).
Proof.
  intros Js Fo O. unfold uzext, zext. destruct (Z.ltb_spec e 0); [cbn; auto|]. rewrite (bkind_px s F b x O).
  eapply agree_bind; [apply (usized_ag' _ F b); auto; apply O|]. intros s1 z J1 X1 Oz. cbn [fst snd].
  rewrite <- (px_J s s1 F b x Js J1 X1 O). change (VBV (px s1 z)) with (plain s1 (UVec z)).
  apply uconcat_ag; auto; [now apply (famok_J s)|now apply (oko_J s)].
Qed.
Lemma usext_ag s F b x e : J s -> famok s F -> oko s F b x -> agree s F (okp F b) px (usext s x e) (sext (px s x) e).
Proof.
  intros Js Fo O. unfold usext, sext. destruct (Z.ltb_spec e 0); [cbn; auto|]. rewrite (bkind_px s F b x O).
  apply unsized_ag with (b := b); [apply O|]. intros u Eu Hw.
  match goal with |- agree _ _ _ _ _ ?q => change q with (bind (Ok (BVC (kd b) 1)) (fun c =>
    m <- getitem_int (px s x) (-1) ;; t <- (fun m => bv_init c (VBit m)) m ;; r <- bv_repeat t e ;; concat (px s x) (VBV r))) end.
  eapply agree_bind; [apply (getitem_ag s F b (vcls x)); auto; [apply O|lia]|]. intros s1 t J1 X1 (Ot & _ & _). cbn [fst snd].
  pose proof (famok_J _ _ _ Js J1 X1 Fo) as Fo1. pose proof (oko_J _ _ _ _ _ Js J1 X1 O) as O1.
  rewrite <- (px_J s s1 F b x Js J1 X1 O). change (uitem s1 x (-1)) with (getitem_int (px s1 x) (-1)).
  apply agree_pure. intros m _. cbn [bv_init bind]. rewrite <- px_umk.
  eapply agree_bind; [apply (urepeat_ag _ F b); auto; now apply umk_ok|]. intros s2 r J2 X2 Or. cbn [fst snd].
  rewrite <- (px_J s1 s2 F b x J1 J2 X2 O1). change (VBV (px s2 r)) with (plain s2 (UVec r)).
  apply uconcat_ag; auto; [now apply (famok_J s1)|now apply (oko_J s1)].
Qed.
Lemma uext_ag s F b x e : J s -> famok s F -> oko s F b x -> agree s F (okp F b) px (uext s x e) (ext (px s x) e).
Proof.
  intros Js Fo O. unfold uext, ext. rewrite (bkind_px s F b x O), (signed_ok s F b (vcls x) Js ltac:(apply O)).
  destruct b; cbn [kd]; [now apply usext_ag|now apply uzext_ag].
Qed.

(** Steps that make no class *)
Lemma ucoerce_px s c v : coerce (plain_cls s c) (plain s v) = rmap (px s) (ucoerce s c v).
Proof.
  destruct v as [z|q|y]; try reflexivity. cbn [plain coerce ucoerce].
  change (bsize (BV (plain_cls s (vcls y)) (vval y))) with (vsize s y). change (csize (plain_cls s c)) with (csz s c).
  now destruct (vsize s y =? csz s c).
Qed.
Lemma ucoerce_ok s F b c v y : okc s F b c -> okv s F b v -> ucoerce s c v = Ok y -> oko s F b y.
Proof.
  intros O Ov H. destruct v as [z|q|w]; cbn [ucoerce] in H; [inv H; now apply umk_ok|inv H; now apply umk_ok|].
  destruct (negb _); inv H. exact Ov.
Qed.
(** bv_cast, on two functions that agree. *)
Lemma ucast_ag {A B} s F b (P : meta -> A -> Prop) (f : meta -> A -> B) fn fn' x v : oko s F b x -> okv s F b v ->
  (forall y, oko s F b y -> agree s F P f (fn x y) (fn' (px s x) (px s y))) -> agree s F P f (ucast s fn x v) (bv_cast fn' (px s x) (plain s v)).
Proof.
  intros O Ov H. unfold ucast, bv_cast. change (bcls (px s x)) with (plain_cls s (vcls x)). rewrite ucoerce_px.
  destruct (ucoerce s (vcls x) v) as [y|e] eqn:E; cbn [rmap bind]; [|cbn; auto]. apply H. eapply ucoerce_ok; eauto. apply O.
Qed.
Lemma ucast_px {A B} s F b (f : A -> B) fn fn' x v : oko s F b x -> okv s F b v ->
  (forall y, oko s F b y -> fn' (px s x) (px s y) = rmap f (fn x y)) -> bv_cast fn' (px s x) (plain s v) = rmap f (ucast s fn x v).
Proof.
  intros O Ov H. unfold ucast, bv_cast. change (bcls (px s x)) with (plain_cls s (vcls x)). rewrite ucoerce_px.
  destruct (ucoerce s (vcls x) v) as [y|e] eqn:E; cbn [rmap bind]; auto. apply H. eapply ucoerce_ok; eauto. apply O.
Qed.
Ltac cast s x v := unfold ucast, bv_cast;
  change (bcls (px s x)) with (plain_cls s (vcls x)); rewrite ucoerce_px; destruct (ucoerce s (vcls x) v) as [y|e]; cbn [rmap bind]; [|reflexivity].
Lemma uop_px s g op x v : rmap (rv_val (px s x)) (op_method op (kd g) (px s x) (plain s v)) = rmap (px s) (uop s g op x v).
Proof.
  destruct op, g; cbn [op_method kd uop];
    unfold bvand, bvor, bvxor, bvshl, bvlshr, bvashr, bvadd, bvsub, bvmul, bvudiv, bvurem, bvsdiv, bvsrem,
      uand, uor, uxor, ushl, ulshr, uadd, usub, umul, umake, uashr, uudiv, uurem, usdiv, usrem; cast s x v; try reflexivity;
    cbv zeta; unfold as_uint; cbn [px bval bcls];
    repeat change (as_sint (BV (plain_cls s (vcls ?w)) (vval ?w))) with (usint s w);
    try change (as_sint (px s x)) with (usint s x); try change (as_sint (px s y)) with (usint s y);
    repeat match goal with
    | |- context [usint s ?w] => destruct (usint s w); cbn [bind rmap]; try reflexivity
    | |- context [?a =? 0] => destruct (a =? 0); cbn [bind rmap]; try reflexivity
    end.
Qed.
Lemma uop_keep s F b g op x v r : oko s F b x -> uop s g op x v = Ok r -> vcls r = vcls x /\ oko s F b r.
Proof.
  intros O H. assert (Q : forall z, vcls (umk s (vcls x) z) = vcls x /\ oko s F b (umk s (vcls x) z)).
  { intros z. split; auto. apply umk_ok, O. }
  destruct op, g; cbn [uop] in H; unfold uand, uor, uxor, ushl, ulshr, uadd, usub, umul, umake, uashr, uudiv, uurem, usdiv, usrem, ucast in H;
    destruct (ucoerce s (vcls x) v) as [y|e]; cbn [bind] in H; try discriminate;
    repeat match type of H with
    | context [usint s ?w] => destruct (usint s w); cbn [bind] in H; try discriminate
    | context [if ?c then _ else _] => destruct c; cbn [bind] in H; try discriminate
    end; inv H; auto.
Qed.
Lemma usint_err s x e : usint s x = Raise e -> e = EIndexError.
Proof. unfold usint, uitem. destruct (_ && _); cbn [bind]; congruence. Qed.
Lemma ucoerce_err s c v e : ucoerce s c v = Raise e -> e = EInconsistentSize.
Proof. destruct v; cbn [ucoerce]; try discriminate. destruct (negb _); congruence. Qed.
Lemma uop_err s g op x v : uop s g op x v <> Raise ETypeError.
Proof.
  intros H.
  destruct op, g; cbn [uop] in H; unfold uand, uor, uxor, ushl, ulshr, uadd, usub, umul, umake, uashr, uudiv, uurem, usdiv, usrem, ucast in H;
    destruct (ucoerce s (vcls x) v) as [y|e] eqn:E; cbn [bind] in H; try discriminate; try (apply ucoerce_err in E; congruence);
    repeat match type of H with
    | context [usint s ?w] => destruct (usint s w) eqn:?; cbn [bind] in H; try discriminate
    | context [if ?c then _ else _] => destruct c; cbn [bind] in H; try discriminate
    end; match goal with Q : usint _ _ = Raise _ |- _ => apply usint_err in Q; congruence end.
Qed.

Lemma ufn_px s (f : Z -> Z -> Z) fn x v : (forall a c, fn a c = Ok (renew a (f (as_uint a) (as_uint c)))) ->
  rmap (rv_val (px s x)) (bv_cast fn (px s x) (plain s v)) = rmap (px s) (umake s f x v).
Proof. intros H. unfold umake. cast s x v. rewrite H. reflexivity. Qed.
Lemma umeth_ag s F b m x v : J s -> famok s F -> oko s F b x -> okv s F b v ->
  agree s F (okp F b) px (umeth s m x v) (rmap (rv_val (px s x)) (conc_meth m (px s x) (plain s v))).
Proof.
  intros Js Fo O Ov.
  assert (here : forall r q, (forall a, r = Ok a -> oko s F b a) -> q = rmap (px s) r -> agree s F (okp F b) px (rmap (pair s) r) q).
  { intros r q Hr ->. destruct r as [a|e]; cbn; auto. split; auto. split; [apply mext_refl|]. split; auto. now apply Hr. }
  assert (G : forall g op, agree s F (okp F b) px (rmap (pair s) (uop s g op x v)) (rmap (rv_val (px s x)) (op_method op (kd g) (px s x) (plain s v)))).
  { intros g op. apply here; [|apply uop_px]. intros a H. now apply (uop_keep s F b g op x v). }
  assert (Nt : forall op q, q = (r <- op_method op KBV (px s x) (plain s v) ;; Ok (New (bvnot (rv_val (px s x) r)))) ->
    agree s F (okp F b) px (rmap (pair s) (rmap (unot s) (uop s false op x v))) (rmap (rv_val (px s x)) q)).
  { intros op q ->. apply here.
    - intros a H. destruct (uop s false op x v) as [r|] eqn:E; inv H. apply umk_ok. now apply (uop_keep s F b false op x v).
    - pose proof (uop_px s false op x v) as Q. cbn [kd] in Q.
      destruct (op_method op KBV (px s x) (plain s v)) as [r|], (uop s false op x v) as [r'|]; cbn [rmap bind] in *; inv Q; auto.
      cbn [rv_val]. rewrite H0. reflexivity. }
  destruct m; cbn [umeth conc_meth].
  - apply (G false OAnd).
  - apply (Nt OAnd). reflexivity.
  - apply (G false OOr).
  - apply (Nt OOr). reflexivity.
  - apply (G false OXor).
  - apply (Nt OXor). reflexivity.
  - apply (G false OShl).
  - apply (G false OShr).
  - apply (G true OShr).
  - apply (G false OAdd).
  - apply (G false OSub).
  - apply (G false OMul).
  - apply (G false OFloorDiv).
  - apply (G false OMod).
  - assert (Q : rmap (rv_val (px s x)) (bvcomp (px s x) (plain s v)) =
      bv_cast (fun x y => construct (bkind x) 1 (VBool (as_uint x =? as_uint y))) (px s x) (plain s v)).
    { unfold bvcomp, bv_cast. destruct (coerce _ _); cbn [bind rmap]; auto. }
    rewrite Q. unfold ucomp. apply ucast_ag with (b := b); auto. intros y Oy. rewrite (bkind_px s F b x O).
    change (construct (kd b) 1 (VBool (as_uint (px s x) =? as_uint (px s y)))) with (construct (kd b) 1 (VInt (b2z (vval x =? vval y)))).
    apply usized_ag'; auto; [apply O|lia].
Qed.
Lemma urel_px s m x v : conc_rel m (px s x) (plain s v) = urel s m x v.
Proof.
  assert (Q : forall f fn, (forall y, fn (px s x) (px s y) = Ok (f (vval x) (vval y))) ->
    bv_cast fn (px s x) (plain s v) = urelf s f x v).
  { intros f fn H. unfold urelf. cast s x v. apply H. }
  assert (L : bvslt (px s x) (plain s v) = uslt s x v).
  { unfold bvslt, uslt. cast s x v. reflexivity. }
  assert (E : bveq (px s x) (plain s v) = ueq s x v) by (apply Q; reflexivity).
  destruct m; cbn [conc_rel urel]; try exact E; try exact L; try (apply Q; reflexivity).
  - unfold bvsle, usle. now rewrite L, E.
  - unfold bvsgt, bvsle, usle. now rewrite L, E.
  - unfold bvsge. now rewrite L.
Qed.
Lemma urel_err s m x v : urel s m x v <> Raise ETypeError.
Proof.
  assert (Q : forall f, urelf s f x v <> Raise ETypeError).
  { intros f H. unfold urelf, ucast in H. destruct (ucoerce s (vcls x) v) eqn:E; cbn [bind] in H; [discriminate|].
    apply ucoerce_err in E. congruence. }
  assert (L : uslt s x v <> Raise ETypeError).
  { intros H. unfold uslt, ucast in H. destruct (ucoerce s (vcls x) v) as [y|] eqn:E; cbn [bind] in H; [|apply ucoerce_err in E; congruence].
    destruct (usint s x) eqn:E1; cbn [bind] in H; [|apply usint_err in E1; congruence].
    destruct (usint s y) eqn:E2; cbn [bind] in H; [discriminate|apply usint_err in E2; congruence]. }
  assert (LE : usle s x v <> Raise ETypeError).
  { intros H. unfold usle in H. destruct (uslt s x v) eqn:E; cbn [bind] in H; [|congruence].
    destruct (ueq s x v) eqn:E2; cbn [bind] in H; [discriminate|]. apply (Q Z.eqb). unfold ueq in E2. congruence. }
  destruct m; cbn [urel]; try apply Q; auto; intros H.
  - destruct (usle s x v); cbn [rmap] in H; [discriminate|congruence].
  - destruct (uslt s x v); cbn [rmap] in H; [discriminate|congruence].
Qed.
Lemma cmp_method_rel c b : cmp_method c (kd b) = conc_rel (ucmp_rel b c).
Proof. destruct c, b; reflexivity. Qed.

Lemma urel_swap s F b c x y : oko s F b x -> oko s F b y ->
  urel s (ucmp_rel b (cmp_swap c)) y (UVec x) = urel s (ucmp_rel b c) x (UVec y).
Proof.
  intros Ox Oy.
  assert (U : forall f g, (forall a d, f a d = g d a) -> urelf s f y (UVec x) = urelf s g x (UVec y)).
  { intros f g H. unfold urelf, ucast, ucoerce, vsize. rewrite (Z.eqb_sym (csz s (vcls x))). destruct (negb _); cbn [bind]; auto. now rewrite H. }
  assert (SL : negb (csz s (vcls y) =? csz s (vcls x)) = false -> (usint s x = Raise EIndexError /\ usint s y = Raise EIndexError) \/
    exists a d, usint s x = Ok a /\ usint s y = Ok d /\ (a = d <-> vval x = vval y)).
  { intros E. apply negb_false_iff, Z.eqb_eq in E. destruct Ox as [Ox Vx], Oy as [Oy Vy]. pose proof (csz_nonneg _ _ _ _ Ox) as N.
    destruct (Z.eq_dec (csz s (vcls x)) 0) as [Z0|Z0].
    - left. split; [apply (as_sint_zero (px s x))|apply (as_sint_zero (px s y))]; [exact Z0|change (csz s (vcls y) = 0); lia].
    - right. assert (Wx : wf (px s x)) by (split; [exact N|exact Vx]).
      assert (Wy : wf (px s y)) by (split; [change (0 <= csz s (vcls y)); lia|exact Vy]).
      pose proof (as_sint_spec (px s x) Wx ltac:(change (1 <= csz s (vcls x)); lia)) as Sx.
      pose proof (as_sint_spec (px s y) Wy ltac:(change (1 <= csz s (vcls y)); lia)) as Sy.
      do 2 eexists. split; [exact Sx|]. split; [exact Sy|]. cbn [px bval].
      change (bsize (px s x)) with (csz s (vcls x)). change (bsize (px s y)) with (csz s (vcls y)). rewrite E in *.
      unfold signed. repeat match goal with |- context [if ?c then _ else _] => destruct c eqn:? end; lia. }
  assert (E : ueq s y (UVec x) = ueq s x (UVec y)) by (apply U; intros; apply Z.eqb_sym).
  assert (N : urelf s (fun a b => negb (a =? b)) y (UVec x) = urelf s (fun a b => negb (a =? b)) x (UVec y)) by (apply U; intros; now rewrite Z.eqb_sym).
  assert (LL : rmap negb (usle s y (UVec x)) = uslt s x (UVec y) /\ usle s y (UVec x) = rmap negb (uslt s x (UVec y))).
  { unfold usle. rewrite E. unfold uslt, ueq, urelf, ucast, ucoerce, vsize. rewrite (Z.eqb_sym (csz s (vcls x))).
    destruct (negb (csz s (vcls y) =? csz s (vcls x))) eqn:Es; cbn [bind rmap]; auto.
    destruct (SL eq_refl) as [[-> ->]|(a & d & -> & -> & H)]; cbn [bind rmap]; auto.
    split; f_equal; destruct (Z.ltb_spec a d), (Z.ltb_spec d a), (Z.eqb_spec (vval x) (vval y)); cbn; auto; lia. }
  assert (LL2 : uslt s y (UVec x) = rmap negb (usle s x (UVec y)) /\ rmap negb (uslt s y (UVec x)) = usle s x (UVec y)).
  { unfold usle. rewrite <- E. unfold uslt, ueq, urelf, ucast, ucoerce, vsize. rewrite (Z.eqb_sym (csz s (vcls x))).
    destruct (negb (csz s (vcls y) =? csz s (vcls x))) eqn:Es; cbn [bind rmap]; auto.
    destruct (SL eq_refl) as [[-> ->]|(a & d & -> & -> & H)]; cbn [bind rmap]; auto.
    split; f_equal; destruct (Z.ltb_spec a d), (Z.ltb_spec d a), (Z.eqb_spec (vval y) (vval x)); cbn; auto; lia. }
  destruct LL, LL2. destruct c, b; cbn [cmp_swap ucmp_rel urel]; auto; apply U; intros; auto.
Qed.

(** ** Operators *)
Definition omap (s : meta) : res (option uval) -> res (option pyval) := rmap (option_map (plain s)).
Definition oval (a b : pyval) (r : res oret) : res (option pyval) :=
  match r with
  | Ok NotImpl => Ok None | Ok OLeft => Ok (Some a) | Ok ORight => Ok (Some b) | Ok (ONew v) => Ok (Some v)
  | Raise e => Raise e
  end.
Lemma fo1 s a b m u : oval a b (m tt) = omap s (u tt) -> (r <- first_of [m] ;; oret_val a b r) = rmap (plain s) (ufirst [u]).
Proof.
  intros H. cbn [first_of ufirst]. destruct (m tt) as [[]|], (u tt) as [[]|]; cbn in *; try discriminate; try reflexivity; congruence.
Qed.
Lemma fo2 s a b m m2 u u2 : oval a b (m tt) = omap s (u tt) -> oval a b (m2 tt) = omap s (u2 tt) ->
  (r <- first_of [m; m2] ;; oret_val a b r) = rmap (plain s) (ufirst [u; u2]).
Proof.
  intros H H2. cbn [first_of ufirst]. destruct (m tt) as [[]|], (u tt) as [[]|]; cbn in H; try discriminate; try (cbn; congruence).
  destruct (m2 tt) as [[]|], (u2 tt) as [[]|]; cbn in *; try discriminate; try reflexivity; congruence.
Qed.
Lemma ufirst_some u u2 : u tt <> Ok None -> ufirst [u; u2] = ufirst [u].
Proof. intros H. cbn [ufirst]. destruct (u tt) as [[]|]; auto. congruence. Qed.
Lemma bit_init_px s F b v : J s -> okv s F b v -> bit_init (plain s v) = ubit_init s v.
Proof.
  intros Js O. destruct v as [z|q|x]; try reflexivity. cbn [plain bit_init ubit_init]. unfold ubool, uint, bv_bool, bv_int.
  change (BV (plain_cls s (vcls x)) (vval x)) with (px s x). rewrite (bkind_px s F b x O), (signed_ok s F b (vcls x) Js ltac:(apply O)).
  destruct b; reflexivity.
Qed.
Lemma dispatch_px s F b g op x v A B : oko s F b x -> A = VBV (px s x) ->
  oval A B (dispatch_oper (op_method op (kd g)) (px s x) (plain s v)) = omap s (udispatch (rmap UVec (uop s g op x v))).
Proof.
  intros O ->. pose proof (uop_px s g op x v) as Q. pose proof (uop_err s g op x v) as N. unfold dispatch_oper, udispatch.
  destruct (op_method op (kd g) (px s x) (plain s v)) as [r|e], (uop s g op x v) as [r'|e']; cbn [rmap] in *; inv Q.
  - destruct r; cbn [rv_val] in *; cbn; change (BV (plain_cls s (vcls r')) (vval r')) with (px s r'); now rewrite <- H0.
  - destruct e'; try reflexivity; congruence.
Qed.
Lemma uforward_px s F b op x v B : J s -> oko s F b x -> oval (VBV (px s x)) B (forward op (px s x) (plain s v)) = omap s (uforward s op x v).
Proof.
  intros Js O. unfold forward, uforward. rewrite (bkind_px s F b x O), (signed_ok s F b (vcls x) Js ltac:(apply O)).
  now apply dispatch_px with (F := F) (b := b).
Qed.
Lemma uforward_some s op x v : uforward s op x v <> Ok None.
Proof.
  unfold uforward, udispatch. pose proof (uop_err s (signed_cls s (vcls x)) op x v). destruct (uop _ _ _ _ _) as [|[]]; cbn; congruence.
Qed.
Lemma ureflected_px s F b op x v : J s -> oko s F b x -> okv s F b v ->
  oval (plain s v) (VBV (px s x)) (reflected op (px s x) (plain s v)) = omap s (ureflected s op x v).
Proof.
  intros Js O Ov. unfold reflected, ureflected. rewrite (bkind_px s F b x O), (signed_ok s F b (vcls x) Js ltac:(apply O)).
  assert (R : forall g, oval (plain s v) (VBV (px s x)) (dispatch_roper op (kd g) (px s x) (plain s v)) =
    omap s (match ucoerce s (vcls x) v with Raise _ => Raise ENameError | Ok o => udispatch (rmap UVec (uop s g op o (UVec x))) end)).
  { intros g. unfold dispatch_roper. change (bcls (px s x)) with (plain_cls s (vcls x)). rewrite ucoerce_px.
    destruct (ucoerce s (vcls x) v) as [o|e] eqn:Ec; cbn [rmap]; [|reflexivity].
    assert (Oo : oko s F b o) by (eapply ucoerce_ok; eauto; apply O).
    pose proof (dispatch_px s F b g op o (UVec x) (VBV (px s o)) (VBV (px s x)) Oo eq_refl) as Q. cbn [plain] in Q.
    change (VBV (BV (plain_cls s (vcls x)) (vval x))) with (VBV (px s x)) in Q. rewrite <- Q.
    destruct (dispatch_oper (op_method op (kd g)) (px s o) (VBV (px s x))) as [[]|] eqn:E; cbn [oval]; destruct v as [z|q|w]; cbn [plain]; try reflexivity.
    + cbn [ucoerce] in Ec. destruct (negb _); inv Ec. reflexivity.
    }
  assert (S : b = false -> op = OShr -> oval (plain s v) (VBV (px s x)) (match dispatch_oper bvlshr (px s x) (plain s v) with Ok OLeft => Ok ORight | r => r end) =
    omap s (udispatch (rmap UVec (ulshr s x v)))).
  { intros -> ->. change (ulshr s x v) with (uop s false OShr x v). rewrite <- (dispatch_px s F false false OShr x v (VBV (px s x)) (VBV (px s x)) O eq_refl). cbn [op_method kd].
    unfold dispatch_oper. destruct (bvlshr (px s x) (plain s v)) as [[]|[]]; reflexivity. }
  destruct op, b; cbn [kd]; try (apply (R false)); try (apply (R true)). now apply S.
Qed.
Lemma ubit_px s F b op q v A B : J s -> okv s F b v ->
  oval A B (bit_method op q (plain s v)) = omap s (ubit_method s op q v) /\ oval A B (bit_rmethod op q (plain s v)) = omap s (ubit_rmethod s op q v).
Proof.
  intros Js O. unfold bit_method, bit_rmethod, ubit_method, ubit_rmethod. rewrite (bit_init_px s F b v Js O).
  destruct (bit_fn op); [|split; reflexivity]. destruct (ubit_init s v) as [|e]; [split; reflexivity|]. destruct (is_type_error e); split; reflexivity.
Qed.
Lemma ubinop_px s F b op a c : J s -> okv s F b a -> okv s F b c -> py_binop_val op (plain s a) (plain s c) = rmap (plain s) (ubinop s op a c).
Proof.
  intros Js Oa Oc. unfold py_binop_val.
  destruct a as [z|q|x], c as [z'|q'|y]; cbn [plain py_binop ubinop];
    try change (BV (plain_cls s (vcls x)) (vval x)) with (px s x); try change (BV (plain_cls s (vcls y)) (vval y)) with (px s y).
  - reflexivity.
  - apply fo1. now apply (ubit_px s F b op q' (UInt z)).
  - apply fo1. now apply (ureflected_px s F b op y (UInt z)).
  - apply fo1. now apply (ubit_px s F b op q (UInt z')).
  - apply fo1. now apply (ubit_px s F b op q (UBit q')).
  - apply fo2; [now apply (ubit_px s F b op q (UVec y))|now apply (ureflected_px s F b op y (UBit q))].
  - apply fo1. now apply (uforward_px s F b op x (UInt z')).
  - apply fo2; [now apply (uforward_px s F b op x (UBit q'))|now apply (ubit_px s F b op q' (UVec x))].
  - assert (U : ubinop s op (UVec x) (UVec y) = ufirst [fun _ => uforward s op x (UVec y)]).
    { cbn [ubinop]. destruct (_ =? _)%nat; auto.
      replace (uoverridden s op x y) with false by
        (unfold uoverridden; rewrite (signed_ok s F b (vcls x) Js ltac:(apply Oa)), (signed_ok s F b (vcls y) Js ltac:(apply Oc)); now destruct op, b).
      rewrite andb_false_r. apply ufirst_some, uforward_some. }
    cbn [ubinop] in U. rewrite U. rewrite (bkind_px s F b x Oa), (bkind_px s F b y Oc).
    replace (reflected_overridden op (kd b) (kd b)) with false by (now destruct op, b). rewrite andb_false_r.
    destruct (cls_eqb (bcls (px s x)) (bcls (px s y))).
    + apply fo1. now apply (uforward_px s F b op x (UVec y)).
    + rewrite <- (ufirst_some _ (fun _ => ureflected s op y (UVec x)) (uforward_some s op x (UVec y))).
      apply fo2; [now apply (uforward_px s F b op x (UVec y))|now apply (ureflected_px s F b op y (UVec x))].
Qed.

(** ** Comparisons *)
Definition cval (r : res oret) : res (option pyval) :=
  match r with Ok NotImpl => Ok None | Ok (ONew v) => Ok (Some v) | Ok _ => Raise EOutOfModel | Raise e => Raise e end.
Definition ordering (c : cmpop) : Prop := match c with CEq | CNe => False | _ => True end.
Lemma co1 s c m u : cval (m tt) = omap s (u tt) -> (ordering c \/ u tt <> Ok None) ->
  (r <- cmp_first_of c [m] ;; of_cmp r) = rmap (plain s) (ufirst [u]).
Proof.
  intros H N. cbn [cmp_first_of ufirst]. destruct (m tt) as [[]|], (u tt) as [[]|]; cbn in *; try discriminate; try reflexivity; try congruence.
  destruct N as [N|N]; [destruct c; cbn in *; tauto|congruence].
Qed.
Lemma co2 s c m m2 u u2 : cval (m tt) = omap s (u tt) -> cval (m2 tt) = omap s (u2 tt) -> (ordering c \/ u tt <> Ok None \/ u2 tt <> Ok None) ->
  (r <- cmp_first_of c [m; m2] ;; of_cmp r) = rmap (plain s) (ufirst [u; u2]).
Proof.
  intros H H2 N. cbn [cmp_first_of ufirst]. destruct (m tt) as [[]|], (u tt) as [[]|]; cbn in H; try discriminate; try (cbn; congruence).
  destruct (m2 tt) as [[]|], (u2 tt) as [[]|]; cbn in *; try discriminate; try reflexivity; try congruence.
  destruct N as [N|[N|N]]; [destruct c; cbn in *; tauto|congruence|congruence].
Qed.
Lemma ucmp_forward_px s F b c x v : J s -> oko s F b x -> cval (cmp_forward c (px s x) (plain s v)) = omap s (ucmp_forward s c x v).
Proof.
  intros Js O. unfold cmp_forward, ucmp_forward. rewrite (bkind_px s F b x O), (signed_ok s F b (vcls x) Js ltac:(apply O)).
  rewrite cmp_method_rel, urel_px. pose proof (urel_err s (ucmp_rel b c) x v). destruct (urel s (ucmp_rel b c) x v) as [|[]]; try reflexivity; congruence.
Qed.
Lemma ucmp_forward_some s c x v : ucmp_forward s c x v <> Ok None.
Proof.
  unfold ucmp_forward, udispatch. pose proof (urel_err s (ucmp_rel (signed_cls s (vcls x)) c) x v). destruct (urel _ _ _ _) as [|[]]; cbn; congruence.
Qed.
Lemma ubit_init_err s v e : ubit_init s v = Raise e -> is_type_error e = false.
Proof.
  destruct v; cbn [ubit_init]; [destruct (_ || _); [discriminate|now intros [= <-]]|discriminate|].
  unfold ubool, uint. destruct (signed_cls _ _); [|discriminate]. destruct (usint s x) eqn:E; [discriminate|]. cbn. intros [= <-].
  apply usint_err in E. now subst.
Qed.
Lemma ubit_cmp_px s F b c q v : J s -> okv s F b v -> cval (bit_cmp c q (plain s v)) = omap s (ubit_cmp s c q v).
Proof.
  intros Js O. unfold bit_cmp, ubit_cmp. rewrite (bit_init_px s F b v Js O).
  destruct c; try reflexivity; destruct (ubit_init s v) as [|e]; try reflexivity; destruct (is_type_error e); reflexivity.
Qed.
Lemma ubit_cmp_some s c q v : ordering c \/ ubit_cmp s c q v <> Ok None.
Proof.
  destruct c; cbn [ordering]; auto; right; cbn [ubit_cmp]; destruct (ubit_init s v) as [|e] eqn:E; try discriminate;
    rewrite (ubit_init_err s v e E); discriminate.
Qed.
Lemma ordering_swap c : ordering (cmp_swap c) -> ordering c.
Proof. now destruct c. Qed.
Lemma ucmp_px s F b c a d : J s -> okv s F b a -> okv s F b d ->
  (r <- py_cmp c (plain s a) (plain s d) ;; of_cmp r) = rmap (plain s) (ucmp s c a d).
Proof.
  intros Js Oa Oc.
  destruct a as [z|q|x], d as [z'|q'|y]; cbn [plain py_cmp ucmp];
    try change (BV (plain_cls s (vcls x)) (vval x)) with (px s x); try change (BV (plain_cls s (vcls y)) (vval y)) with (px s y).
  - reflexivity.
  - apply co1; [now apply (ubit_cmp_px s F b (cmp_swap c) q' (UInt z))|].
    destruct (ubit_cmp_some s (cmp_swap c) q' (UInt z)); auto. left. now apply ordering_swap.
  - apply co1; [now apply (ucmp_forward_px s F b (cmp_swap c) y (UInt z))|right; apply ucmp_forward_some].
  - apply co1; [now apply (ubit_cmp_px s F b c q (UInt z'))|apply ubit_cmp_some].
  - apply co2; [now apply (ubit_cmp_px s F b c q (UBit q'))|now apply (ubit_cmp_px s F b (cmp_swap c) q' (UBit q))|].
    destruct (ubit_cmp_some s c q (UBit q')); auto.
  - apply co2; [now apply (ubit_cmp_px s F b c q (UVec y))|now apply (ucmp_forward_px s F b (cmp_swap c) y (UBit q))|].
    right. right. apply ucmp_forward_some.
  - apply co1; [now apply (ucmp_forward_px s F b c x (UInt z'))|right; apply ucmp_forward_some].
  - apply co2; [now apply (ucmp_forward_px s F b c x (UBit q'))|now apply (ubit_cmp_px s F b (cmp_swap c) q' (UVec x))|].
    right. left. apply ucmp_forward_some.
  - assert (SW : ucmp_forward s (cmp_swap c) y (UVec x) = ucmp_forward s c x (UVec y)).
    { unfold ucmp_forward. rewrite (signed_ok s F b (vcls x) Js ltac:(apply Oa)), (signed_ok s F b (vcls y) Js ltac:(apply Oc)).
      now rewrite (urel_swap s F b c x y). }
    assert (U : ucmp s c (UVec x) (UVec y) = ufirst [fun _ => ucmp_forward s c x (UVec y); fun _ => ucmp_forward s (cmp_swap c) y (UVec x)]).
    { cbn [ucmp]. destruct (_ && _); auto. cbn [ufirst]. now rewrite SW. }
    cbn [ucmp] in U. rewrite U.
    replace (negb (cls_eqb (bcls (px s x)) (bcls (px s y))) && cls_le (bcls (px s y)) (bcls (px s x))) with false.
    2:{ unfold cls_eqb, cls_le. cbn [px bcls]. rewrite (plain_cls_ok s F b (vcls x)), (plain_cls_ok s F b (vcls y)) by (apply Oa || apply Oc).
        cbn [ck csize]. rewrite (Z.eqb_sym (csz s (vcls y))). now destruct b, (csz s (vcls x) =? csz s (vcls y)). }
    apply co2; [now apply (ucmp_forward_px s F b c x (UVec y))|now apply (ucmp_forward_px s F b (cmp_swap c) y (UVec x))|].
    right. left. apply ucmp_forward_some.
Qed.

(** ** Item assignment and adc *)
Lemma usetitem_px s F b x i v : J s -> oko s F b x -> okv s F b v -> setitem_int (px s x) i (plain s v) = rmap (px s) (usetitem s x i v).
Proof.
  intros Js O Ov. unfold setitem_int, usetitem. replace (bit_like (plain s v)) with (ubit_like v) by (destruct v; reflexivity).
  destruct (negb (ubit_like v)); auto. change (bsize (px s x)) with (vsize s x). cbv zeta.
  destruct (negb _); auto. set (mask := umk s (vcls x) _). change (mk (bcls (px s x)) (Z.shiftl 1 (if i <? 0 then vsize s x + i else i))) with (px s mask).
  pose proof (uop_px s false OOr x (UVec mask)) as Q1. pose proof (uop_px s false OAnd x (UVec (unot s mask))) as Q2. cbn [op_method kd uop] in Q1, Q2.
  change (plain s (UVec mask)) with (VBV (px s mask)) in Q1. change (plain s (UVec (unot s mask))) with (VBV (bvnot (px s mask))) in Q2.
  destruct (bvor (px s x) (VBV (px s mask))) as [t|], (uor s x (UVec mask)) as [t'|]; cbn [rmap bind] in *; inv Q1; auto.
  destruct (bvand (px s x) (VBV (bvnot (px s mask)))) as [f|], (uand s x (UVec (unot s mask))) as [f'|]; cbn [rmap bind] in *; inv Q2; auto.
  rewrite (bit_init_px s F b v Js Ov). destruct (ubit_init s v) as [[]|]; cbn [bind rmap]; auto; [rewrite H0|rewrite H1]; reflexivity.
Qed.
Lemma usetitem_ok s F b x i v r : oko s F b x -> usetitem s x i v = Ok r -> vcls r = vcls x /\ oko s F b r.
Proof.
  intros O H. unfold usetitem in H. destruct (negb _); [discriminate|]. cbv zeta in H. destruct (negb _); [discriminate|].
  destruct (uor _ _ _) as [t|]; [|discriminate]. cbn [bind] in H. destruct (uand _ _ _) as [f|]; [|discriminate]. cbn [bind] in H.
  destruct (ubit_init s v); [|discriminate]. cbn [bind] in H. inv H. split; auto. apply umk_ok, O.
Qed.
Lemma uadd_ag s F b x y : J s -> oko s F b x -> agree s F (okp F b) px (rmap (pair s) (uadd s x (UVec y)))
  (rmap (rv_val (px s x)) (bvadd (px s x) (VBV (px s y)))).
Proof.
  intros Js O. pose proof (uop_px s false OAdd x (UVec y)) as Q. cbn [op_method kd uop plain] in Q.
  change (BV (plain_cls s (vcls y)) (vval y)) with (px s y) in Q. rewrite Q.
  destruct (uadd s x (UVec y)) as [r|] eqn:E; cbn; auto. split; auto. split; [apply mext_refl|]. split; auto.
  now apply (uop_keep s F b false OAdd x (UVec y)).
Qed.
Lemma uadc_ag s F b x v w : J s -> famok s F -> oko s F b x -> okv s F b v -> okv s F b w ->
  agree s F (fun s' r => oko s' F b (fst r)) (fun s' r => (px s' (fst r), snd r)) (uadc s x v w) (adc (px s x) (plain s v) (plain s w)).
Proof.
  intros Js Fo O Ov Ow. unfold uadc, adc. change (bcls (px s x)) with (plain_cls s (vcls x)). rewrite ucoerce_px.
  destruct (ucoerce s (vcls x) v) as [o|e] eqn:Ec; cbn [rmap bind]; [|cbn; auto].
  assert (Oo : oko s F b o) by (exact (ucoerce_ok s F b (vcls x) v o (proj1 O) Ov Ec)). clear Ec.
  apply unsized_ag with (b := b); [apply O|]. intros u Eu Hw. rewrite (bkind_px s F b x O).
  change (sized (kd b) 1) with (Ok (BVC (kd b) 1)).
  eapply agree_bind; [apply (getitem_ag s F b (vcls x)); auto; [apply O|lia]|]. intros s1 t J1 X1 (Ot & _ & _). cbn [fst snd].
  pose proof (famok_J _ _ _ Js J1 X1 Fo) as Fo1. pose proof (oko_J _ _ _ _ _ Js J1 X1 O) as O1.
  pose proof (oko_J _ _ _ _ _ Js J1 X1 Oo) as Oo1. pose proof (okv_J _ _ _ _ _ Js J1 X1 Ow) as Ow1.
  rewrite <- (px_J s s1 F b x Js J1 X1 O), <- (px_J s s1 F b o Js J1 X1 Oo), <- (plain_J s s1 F b w Js J1 X1 Ow).
  rewrite ucoerce_px. destruct (ucoerce s1 t w) as [c|e] eqn:Ec; cbn [rmap bind]; [|cbn; auto].
  assert (Oc1 : oko s1 F b c) by exact (ucoerce_ok s1 F b t w c Ot Ow1 Ec). clear Ec.
  eapply agree_bind; [apply (uzext_ag _ F b); auto|]. intros s2 a J2 X2 Oa. cbn [fst snd].
  pose proof (famok_J _ _ _ J1 J2 X2 Fo1) as Fo2. pose proof (oko_J _ _ _ _ _ J1 J2 X2 O1) as O2.
  pose proof (oko_J _ _ _ _ _ J1 J2 X2 Oo1) as Oo2. pose proof (oko_J _ _ _ _ _ J1 J2 X2 Oc1) as Oc2.
  rewrite <- (px_J s1 s2 F b x J1 J2 X2 O1), <- (px_J s1 s2 F b o J1 J2 X2 Oo1), <- (px_J s1 s2 F b c J1 J2 X2 Oc1).
  eapply agree_bind; [apply (uzext_ag _ F b); auto|]. intros s3 d J3 X3 Od. cbn [fst snd].
  pose proof (famok_J _ _ _ J2 J3 X3 Fo2) as Fo3. pose proof (oko_J _ _ _ _ _ J2 J3 X3 O2) as O3.
  pose proof (oko_J _ _ _ _ _ J2 J3 X3 Oa) as Oa3. pose proof (oko_J _ _ _ _ _ J2 J3 X3 Oc2) as Oc3.
  rewrite <- (px_J s2 s3 F b x J2 J3 X3 O2), <- (px_J s2 s3 F b c J2 J3 X3 Oc2), <- (px_J s2 s3 F b a J2 J3 X3 Oa).
  change (bsize (px s3 x)) with (vsize s3 x).
  eapply agree_bind; [apply (uzext_ag _ F b); auto|]. intros s4 g J4 X4 Og. cbn [fst snd].
  pose proof (famok_J _ _ _ J3 J4 X4 Fo3) as Fo4. pose proof (oko_J _ _ _ _ _ J3 J4 X4 Oa3) as Oa4.
  pose proof (oko_J _ _ _ _ _ J3 J4 X4 Od) as Od4.
  rewrite <- (px_J s3 s4 F b a J3 J4 X4 Oa3), <- (px_J s3 s4 F b d J3 J4 X4 Od).
  pose proof (uadd_ag s4 F b a d J4 Oa4) as A1.
  destruct (uadd s4 a (UVec d)) as [r1|e1], (bvadd (px s4 a) (VBV (px s4 d))) as [q1|e2]; cbn [rmap agree bind] in *.
  2:{ destruct A1 as (_ & _ & _ & A1). discriminate. }
  2:{ intros N. specialize (A1 N). discriminate. }
  2:{ intros N. specialize (A1 N). congruence. }
  destruct A1 as (_ & _ & Or1 & Eq1). injection Eq1 as ->.
  pose proof (uadd_ag s4 F b r1 g J4 Or1) as A2.
  destruct (uadd s4 r1 (UVec g)) as [r2|e1], (bvadd (px s4 r1) (VBV (px s4 g))) as [q2|e2]; cbn [rmap agree bind] in *.
  2:{ destruct A2 as (_ & _ & _ & A2). discriminate. }
  2:{ intros N. specialize (A2 N). discriminate. }
  2:{ intros N. specialize (A2 N). congruence. }
  destruct A2 as (_ & _ & Or2 & Eq2). injection Eq2 as ->.
  eapply agree_bind; [apply (uslice_ag _ F b); auto|]. intros s5 lo J5 X5 Olo. cbn [fst snd].
  rewrite <- (px_J s4 s5 F b r2 J4 J5 X5 Or2). change (uitem s5 r2 (-1)) with (getitem_int (px s5 r2) (-1)).
  apply agree_pure. intros hi _. apply (agree_ret s5 F (fun s' r => oko s' F b (fst r)) (fun s' r => (px s' (fst r), snd r)) (lo, hi) J5). exact Olo.
Qed.

(** ** Programs *)
Lemma reg_map {A B} (f : A -> B) rs i : reg (map f rs) i = rmap f (reg rs i).
Proof. unfold reg. rewrite nth_error_map. now destruct (nth_error rs i). Qed.
Lemma opnd_map s rs o : opnd VInt (map (plain s) rs) o = rmap (plain s) (opnd UInt rs o).
Proof. destruct o; cbn [opnd]; [apply reg_map|reflexivity]. Qed.
Definition okl (s : meta) (F : option nat) (b : bool) (l : list uval) : Prop := Forall (okv s F b) l.
Lemma reg_ok s F b rs i v : okl s F b rs -> reg rs i = Ok v -> okv s F b v.
Proof. unfold reg, okl. intros H E. destruct (nth_error rs i) eqn:N; inv E. apply nth_error_In in N. rewrite Forall_forall in H. auto. Qed.
Lemma opnd_ok s F b rs o v : okl s F b rs -> opnd UInt rs o = Ok v -> okv s F b v.
Proof. destruct o; cbn [opnd]; [apply reg_ok|]. now intros _ [= <-]. Qed.
Lemma okl_J s s' F b l : J s -> J s' -> mext s s' -> okl s F b l -> okl s' F b l.
Proof. intros J1 J2 X H. eapply Forall_impl; [|exact H]. intros v Hv. eapply okv_J; [exact J1| | |]; eauto. Qed.
Lemma plainl_J s s' F b l : J s -> J s' -> mext s s' -> okl s F b l -> map (plain s') l = map (plain s) l.
Proof. intros J1 J2 X H. apply map_ext_in. intros v Hv. unfold okl in H. rewrite Forall_forall in H. apply (plain_J s s' F b v J1 J2 X). auto. Qed.

Definition pl (s : meta) (l : list uval) : list pyval := map (plain s) l.
(** Reading arguments. *)
Lemma areg s F b rs i {A B} (P : meta -> A -> Prop) (f : meta -> A -> B) k k' : okl s F b rs ->
  (forall v, okv s F b v -> agree s F P f (k v) (k' (plain s v))) -> agree s F P f (bind (reg rs i) k) (bind (reg (map (plain s) rs) i) k').
Proof. intros O H. rewrite reg_map. destruct (reg rs i) as [v|e] eqn:E; cbn [bind rmap]; [|cbn; auto]. apply H. eapply reg_ok; eauto. Qed.
Lemma aopnd s F b rs o {A B} (P : meta -> A -> Prop) (f : meta -> A -> B) k k' : okl s F b rs ->
  (forall v, okv s F b v -> agree s F P f (k v) (k' (plain s v))) -> agree s F P f (bind (opnd UInt rs o) k) (bind (opnd VInt (map (plain s) rs) o) k').
Proof. intros O H. rewrite opnd_map. destruct (opnd UInt rs o) as [v|e] eqn:E; cbn [bind rmap]; [|cbn; auto]. apply H. eapply opnd_ok; eauto. Qed.
Lemma avec s F b rs i {A B} (P : meta -> A -> Prop) (f : meta -> A -> B) k k' : okl s F b rs ->
  (forall x, oko s F b x -> agree s F P f (k x) (k' (px s x))) ->
  agree s F P f (bind (bind (reg rs i) uvec) k) (bind (reg (map (plain s) rs) i) (fun v => bind (as_vec v) k')).
Proof.
  intros O H. rewrite reg_map. destruct (reg rs i) as [v|e] eqn:E; cbn [bind rmap]; [|cbn; auto].
  pose proof (reg_ok _ _ _ _ _ _ O E) as Ov. destruct v as [z|q|x]; cbn [uvec as_vec plain bind]; [cbn; auto|cbn; auto|]. now apply H.
Qed.
Lemma avec1 s F b r q : agree s F (okp F b) px r q -> agree s F (fun s l => okl s F b l) pl (vec1 r) (one (rmap VBV q)).
Proof.
  unfold vec1, one. destruct r as [[s' x]|e]; cbn.
  - intros (A & B & C & ->). split; auto. split; auto. split; [constructor; auto|]. reflexivity.
  - intros H N. now rewrite (H N).
Qed.
Lemma avec1' s F b r q (f : rv -> bv) : agree s F (okp F b) px r (rmap f q) -> agree s F (fun s l => okl s F b l) pl (vec1 r) (one (rmap (fun o => VBV (f o)) q)).
Proof.
  intros H. apply avec1 in H. destruct q; exact H.
Qed.
Lemma aat1 s F b r q : J s -> (forall v, r = Ok v -> okv s F b v) -> q = rmap (plain s) r -> agree s F (fun s l => okl s F b l) pl (at1 s r) (one q).
Proof.
  intros Js H ->. unfold at1, one. destruct r as [v|e]; cbn; auto. split; auto. split; [apply mext_refl|]. split; auto. constructor; auto. 
Qed.
Lemma ufirst_ok s F b l : (forall u v, In u l -> u tt = Ok (Some v) -> okv s F b v) -> forall v, ufirst l = Ok v -> okv s F b v.
Proof.
  induction l as [|u l IH]; intros H v; cbn [ufirst]; [discriminate|]. destruct (u tt) as [[w|]|] eqn:E; [|apply IH; firstorder|discriminate].
  intros [= <-]. apply (H u); auto. now left.
Qed.
Lemma uforward_ok s F b op x v r : oko s F b x -> uforward s op x v = Ok (Some r) -> okv s F b r.
Proof.
  intros O. unfold uforward, udispatch. destruct (uop _ _ _ _ _) as [w|[]] eqn:E; cbn; try discriminate. intros H. injection H as <-.
  now apply (uop_keep s F b _ _ _ _ _ O) in E.
Qed.
Lemma ureflected_ok s F b op x v r : oko s F b x -> okv s F b v -> ureflected s op x v = Ok (Some r) -> okv s F b r.
Proof.
  intros O Ov H. unfold ureflected in H.
  assert (Q : forall g op, match ucoerce s (vcls x) v with Raise _ => Raise ENameError | Ok o => udispatch (rmap UVec (uop s g op o (UVec x))) end
    = Ok (Some r) -> okv s F b r).
  { clear H. intros g o. destruct (ucoerce s (vcls x) v) as [w|] eqn:Ec; [|discriminate]. unfold udispatch.
    destruct (uop _ _ _ _ _) as [t|[]] eqn:E; cbn; try discriminate. intros H. injection H as <-.
    assert (Ow : oko s F b w) by exact (ucoerce_ok s F b (vcls x) v w (proj1 O) Ov Ec).
    now apply (uop_keep s F b _ _ _ _ _ Ow) in E. }
  destruct op, (signed_cls s (vcls x)); try (apply (Q _ _ H)).
  unfold udispatch in H. destruct (ulshr s x v) as [t|[]] eqn:E; cbn in H; try discriminate. injection H as <-.
  now apply (uop_keep s F b false OShr _ _ _ O) in E.
Qed.
Lemma ubit_ok s F b op q v r : ubit_method s op q v = Ok (Some r) \/ ubit_rmethod s op q v = Ok (Some r) -> okv s F b r.
Proof.
  unfold ubit_method, ubit_rmethod. destruct (bit_fn op); [|intros [|]; discriminate].
  destruct (ubit_init s v) as [|e]; [intros [H|H]; inv H; exact I|]. destruct (is_type_error e); intros [|]; discriminate.
Qed.
Lemma ubinop_ok s F b op a c r : okv s F b a -> okv s F b c -> ubinop s op a c = Ok r -> okv s F b r.
Proof.
  intros Oa Oc. destruct a as [z|q|x], c as [z'|q'|y]; cbn [ubinop]; try discriminate;
    try (destruct (_ =? _)%nat); try (destruct (_ && _)); apply ufirst_ok; intros u v Hu; cbn [In] in Hu;
    repeat (destruct Hu as [<-|Hu]; [intros Hv; first [exact (ubit_ok s F b _ _ _ _ (or_introl Hv))|exact (ubit_ok s F b _ _ _ _ (or_intror Hv))|exact (uforward_ok s F b _ _ _ _ Oa Hv)|exact (ureflected_ok s F b _ _ _ _ Oc Oa Hv)]|]); destruct Hu.
Qed.
Lemma ucmp_ok s F b c a d r : ucmp s c a d = Ok r -> okv s F b r.
Proof.
  assert (Q1 : forall c x v w, ucmp_forward s c x v = Ok (Some w) -> okv s F b w).
  { intros c0 x v w. unfold ucmp_forward, udispatch. destruct (urel _ _ _ _) as [|[]]; cbn; try discriminate. now intros [= <-]. }
  assert (Q2 : forall c q v w, ubit_cmp s c q v = Ok (Some w) -> okv s F b w).
  { intros c0 q v w. destruct c0; cbn [ubit_cmp]; try discriminate;
      (destruct (ubit_init s v) as [|e]; [intros [= <-]; exact I|destruct (is_type_error e); discriminate]). }
  destruct a as [z|q|x], d as [z'|q'|y]; cbn [ucmp]; try discriminate;
    try (destruct (_ && _)); apply ufirst_ok; intros u v Hu; cbn [In] in Hu;
    repeat (destruct Hu as [<-|Hu]; [intros Hv; first [exact (Q1 _ _ _ _ Hv)|exact (Q2 _ _ _ _ Hv)]|]); destruct Hu.
Qed.

Lemma dcall_ag s F b rs i : J s -> famok s F -> okl s F b rs -> Forall (okc s F b) (named i) ->
  agree s F (fun s l => okl s F b l) pl (dcall s rs i) (conc_call (reg (map (plain s) rs)) (opnd VInt (map (plain s) rs)) (plain_call s i)).
Proof.
  intros Js Fo O Hn.
  assert (ret : forall v, okv s F b v -> agree s F (fun s l => okl s F b l) pl (Ok (s, [v])) (Ok [plain s v])).
  { intros v Hv. cbn. split; auto. split; [apply mext_refl|]. split; auto. constructor; auto. }
  destruct i; cbn [dcall plain_call conc_call named] in *.
  - inv Hn. apply (ret (UVec (umk s c z))). now apply umk_ok.
  - apply (ret (UBit b0)). exact I.
  - inv Hn. apply areg with (b := b); auto. intros v Ov. rewrite uinit_px. apply (ret (UVec (uinit s c v))). now apply uinit_ok.
  - apply avec with (b := b); auto. intros a Oa. apply aopnd with (b := b); auto. intros w Ow. apply avec1'. now apply umeth_ag.
  - apply avec with (b := b); auto. intros a Oa. apply aopnd with (b := b); auto. intros w Ow. rewrite urel_px.
    apply aat1; auto; destruct (urel s m a w); try discriminate; auto. now intros v [= <-].
  - apply areg with (b := b); auto. intros v Ov. destruct v as [z|q|a]; cbn [plain].
    + cbn. auto.
    + apply (ret (UBit (negb q))). exact I.
    + apply (ret (UVec (unot s a))). apply umk_ok, Ov.
  - apply avec with (b := b); auto. intros a Oa. apply (ret (UVec (uneg s a))). apply umk_ok, Oa.
  - apply avec with (b := b); auto. intros a Oa. apply avec1'. unfold urol, bvrol.
    replace (rmap (rv_val (px s a)) (bv_cast _ (px s a) (VInt k))) with
      (bv_cast (fun x y => if bsize x =? 0 then Raise EZeroDivision else
        (a <- getitem_slice x (Some ((bsize x - as_uint y) mod bsize x)) None None ;;
         c <- getitem_slice x None (Some ((bsize x - as_uint y) mod bsize x)) None ;; concat a (VBV c))) (px s a) (plain s (UInt k))).
    2:{ unfold bv_cast, rot_split. cbn [plain]. destruct (coerce _ _) as [y|]; cbn [bind rmap]; auto. destruct (_ =? 0); auto.
        destruct (getitem_slice _ (Some _) None None); cbn [bind rmap]; auto. destruct (getitem_slice _ None _ None); cbn [bind rmap]; auto.
        destruct (concat _ _); reflexivity. }
    apply ucast_ag with (b := b); auto; [exact I|]. intros y Oy. change (bsize (px s a)) with (vsize s a).
    destruct (vsize s a =? 0); [cbn; auto|]. now apply urot_ag.
  - apply avec with (b := b); auto. intros a Oa. apply avec1'. unfold uror, bvror.
    replace (rmap (rv_val (px s a)) (bv_cast _ (px s a) (VInt k))) with
      (bv_cast (fun x y => if bsize x =? 0 then Raise EZeroDivision else
        (a <- getitem_slice x (Some (as_uint y mod bsize x)) None None ;;
         c <- getitem_slice x None (Some (as_uint y mod bsize x)) None ;; concat a (VBV c))) (px s a) (plain s (UInt k))).
    2:{ unfold bv_cast, rot_split. cbn [plain]. destruct (coerce _ _) as [y|]; cbn [bind rmap]; auto. destruct (_ =? 0); auto.
        destruct (getitem_slice _ (Some _) None None); cbn [bind rmap]; auto. destruct (getitem_slice _ None _ None); cbn [bind rmap]; auto.
        destruct (concat _ _); reflexivity. }
    apply ucast_ag with (b := b); auto; [exact I|]. intros y Oy. change (bsize (px s a)) with (vsize s a).
    destruct (vsize s a =? 0); [cbn; auto|]. now apply urot_ag.
  - apply areg with (b := b); auto. intros v Ov. apply aopnd with (b := b); auto. intros w Ow.
    apply aat1; auto; [intros r; now apply ubinop_ok|now apply (ubinop_px s F b)].
  - apply areg with (b := b); auto. intros v Ov. apply aopnd with (b := b); auto. intros w Ow.
    apply aat1; auto; [intros r; now apply ucmp_ok|now apply (ucmp_px s F b)].
  - apply areg with (b := b); auto. intros w Ow. apply aat1; auto; [intros r; now apply ucmp_ok|now apply (ucmp_px s F b c (UInt z) w)].
  - apply avec with (b := b); auto. intros a Oa. change (getitem_int (px s a) i) with (uitem s a i).
    apply aat1; auto; destruct (uitem s a i); try discriminate; auto. now intros v [= <-].
  - apply avec with (b := b); auto. intros w Ow. apply avec1. now apply uslice_ag.
  - apply avec with (b := b); auto. intros a Oa. apply areg with (b := b); auto. intros w Ow. apply avec1. now apply uconcat_ag.
  - apply avec with (b := b); auto. intros a Oa. apply avec1. now apply uzext_ag.
  - apply avec with (b := b); auto. intros a Oa. apply avec1. now apply usext_ag.
  - apply avec with (b := b); auto. intros a Oa. apply avec1. now apply uext_ag.
  - apply avec with (b := b); auto. intros a Oa. apply aopnd with (b := b); auto. intros w Ow.
    change (bv_init (bcls (px s a)) (VBV (px s a))) with (bv_init (plain_cls s (vcls a)) (plain s (UVec a))). rewrite uinit_px. cbn [bind].
    pose proof (uinit_ok s F b (vcls a) (UVec a) (proj1 Oa)) as Oi. rewrite (usetitem_px s F b _ i w Js Oi Ow).
    apply aat1; auto; destruct (usetitem s (uinit s (vcls a) (UVec a)) i w) as [r|] eqn:E; try discriminate; auto.
    intros v [= <-]. now apply (usetitem_ok s F b _ _ _ _ Oi) in E.
  - apply avec with (b := b); auto. intros a Oa. apply aopnd with (b := b); auto. intros w Ow. apply aopnd with (b := b); auto. intros u Ou.
    pose proof (uadc_ag s F b a w u Js Fo Oa Ow Ou) as H. destruct (uadc s a w u) as [[s' [lo hi]]|e]; cbn [agree rmap fst snd] in *.
    + destruct H as (J' & X & Ol & ->). split; auto. split; auto. split; [constructor; [exact Ol|constructor; [exact I|constructor]]|]. reflexivity.
    + intros N. now rewrite (H N).
Qed.

Lemma plain_call_J s s' F b i : J s -> J s' -> mext s s' -> Forall (okc s F b) (named i) -> plain_call s' i = plain_call s i.
Proof.
  intros [I1 _ _] [I2 _ _] X H. destruct i; cbn [plain_call named] in *; auto; inv H; now rewrite (plain_cls_mext s s' F b c).
Qed.
Lemma drun_ag F b p : forall s rs, J s -> famok s F -> okl s F b rs -> Forall (okc s F b) (flat_map named p) ->
  agree s F (fun s l => okl s F b l) pl (drun s rs p) (conc_run (map (plain s) rs) (map (plain_call s) p)).
Proof.
  unfold conc_run. induction p as [|i p IH]; intros s rs Js Fo O Hn; cbn [drun run map].
  - apply (agree_ret s F (fun s l => okl s F b l) pl rs Js O).
  - cbn [flat_map] in Hn. apply Forall_app in Hn as [Hi Hp].
    eapply agree_bind; [now apply (dcall_ag s F b)|]. intros s' vs J' X Ov. cbn [fst snd]. unfold pl.
    assert (Hp' : Forall (okc s' F b) (flat_map named p)).
    { eapply Forall_impl; [|exact Hp]. intros c Hc. exact (okc_mext s s' F b c (j_minv _ Js) (j_minv _ J') X Hc). }
    assert (Ep : map (plain_call s) p = map (plain_call s') p).
    { apply map_ext_in. intros j Hj. symmetry. apply (plain_call_J s s' F b j Js J' X). rewrite Forall_forall in *.
      intros c Hc. apply Hp. apply in_flat_map. eauto. }
    rewrite Ep, <- (plainl_J s s' F b rs Js J' X O), <- map_app. apply IH; auto; [now apply (famok_J s s')|].
    apply Forall_app. split; auto. now apply (okl_J s s').
Qed.

(** ** Results for the properties *)
Lemma vclass_okc s c b : J s -> vclass s c -> below_SIntVector s c = b -> okc s None b c.
Proof.
  intros Js ((A & B) & H2 & n & Hn) Hb. split; auto; [|eauto|discriminate].
  apply issub_sub; auto; [apply (j_minv _ Js)|now apply alive_spec in A].
Qed.
Lemma okc_vclass s F b c : J s -> okc s F b c -> vclass s c.
Proof.
  intros Js O. pose proof (okc_len _ _ _ _ O). destruct O. split; [split; auto|]. split; auto. apply issub_sub; auto. apply (j_minv _ Js).
Qed.
Lemma csz_some s c n : c_size (get_cls s c) = Some n -> csz s c = n.
Proof. intros H. unfold csz. now rewrite H. Qed.
Lemma sized_of_okc s u c : J s -> is_bv s u -> below_BitVector s u -> sized_of s u c -> okc s (Some u) (below_SIntVector s u) c.
Proof.
  intros Js (A & B) H2 (n & E). destruct (J_getitem s u n s c Js A B E) as (_ & _ & Ft). pose proof (j_minv _ Js) as Is.
  assert (Lu : (u < len s)%nat) by now apply alive_spec in A.
  destruct (i_cache s Is _ _ _ (find_cache_In _ _ _ _ Ft)) as (Al & Bt & _ & _ & Hn & Es & Eut & _).
  assert (Lc : (c < len s)%nat) by now apply alive_spec in Al.
  split; auto; [| |eauto|].
  - apply (cached_sub s u n c 2 Is Ft); [apply b_2, (j_base _ Js)|]. now apply issub_sub.
  - unfold below_SIntVector. apply Bool.eq_iff_eq_true. rewrite !issub_sub by auto. apply (cached_sub s u n c 5 Is Ft), b_5, (j_base _ Js).
  - intros w [= <-]. exact Eut.
Qed.
Lemma okc_sized_of s u b c : J s -> okc s (Some u) b c -> sized_of s u c.
Proof.
  intros Js O. destruct (o_size _ _ _ _ O) as (n & En & _). exists n. apply getitem_cached.
  apply (j_rinv _ Js); auto; [apply (o_alive _ _ _ _ O)|now apply (o_fam _ _ _ _ O)].
Qed.
Lemma object_okv s F b v : object s v -> (forall c, In c (object_classes [v]) -> okc s F b c) -> okv s F b v.
Proof.
  destruct v as [z|q|x]; cbn [object okv]; auto. intros (_ & n & En & Hv) H. split; [apply H; now left|]. now rewrite (csz_some s _ n En).
Qed.
Lemma objects_okl s F b rs : Forall (object s) rs -> (forall c, In c (object_classes rs) -> okc s F b c) -> okl s F b rs.
Proof.
  intros H K. unfold okl. rewrite Forall_forall in *. intros v Hv. apply object_okv; auto. intros c Hc. apply K.
  apply in_flat_map. exists v. split; auto. cbn in Hc. rewrite app_nil_r in Hc. exact Hc.
Qed.
Lemma okv_object s F b v : J s -> (forall z, v <> UInt z) -> okv s F b v -> object s v.
Proof.
  intros Js N. destruct v as [z|q|x]; cbn [object okv]; auto; [now destruct (N z)|]. intros [O V]. split; [eapply okc_vclass; eauto|].
  destruct (o_size _ _ _ _ O) as (n & En & _). exists n. split; auto. now rewrite <- (csz_some s _ n En).
Qed.
Lemma okl_classes s F b l c : okl s F b l -> In c (object_classes l) -> okc s F b c.
Proof.
  intros H Hc. unfold okl in H. rewrite Forall_forall in H. apply in_flat_map in Hc as (v & Hv & Hc). specialize (H v Hv).
  destruct v as [z|q|x]; try destruct Hc. - subst. apply H. - destruct H0.
Qed.

(** ** Kept classes *)
Lemma uop_cls s g op x v r : uop s g op x v = Ok r -> vcls r = vcls x.
Proof.
  intros H. destruct op, g; cbn [uop] in H; unfold uand, uor, uxor, ushl, ulshr, uadd, usub, umul, umake, uashr, uudiv, uurem, usdiv, usrem, ucast in H;
    destruct (ucoerce s (vcls x) v) as [y|e]; cbn [bind] in H; try discriminate;
    repeat match type of H with
    | context [usint s ?w] => destruct (usint s w); cbn [bind] in H; try discriminate
    | context [if ?c then _ else _] => destruct c; cbn [bind] in H; try discriminate
    end; inv H; auto.
Qed.
Lemma uforward_cls s op x v r : uforward s op x v = Ok (Some r) -> exists w, r = UVec w /\ vcls w = vcls x.
Proof.
  unfold uforward, udispatch. destruct (uop _ _ _ _ _) as [w|[]] eqn:E; cbn; try discriminate. intros [= <-]. exists w. split; auto. eapply uop_cls; eauto.
Qed.
Lemma ubinop_cls s op x v r : ubinop s op (UVec x) v = Ok r -> exists w, r = UVec w /\ vcls w = vcls x.
Proof.
  pose proof (uforward_some s op x v) as N.
  assert (F1 : forall l, ufirst ((fun _ => uforward s op x v) :: l) = Ok r -> exists w, r = UVec w /\ vcls w = vcls x).
  { intros l. cbn [ufirst]. destruct (uforward s op x v) as [[w|]|] eqn:E; [|congruence|discriminate]. intros [= <-]. eapply uforward_cls; eauto. }
  destruct v as [z|q|y]; cbn [ubinop]; [apply F1|apply F1|]. destruct (_ =? _)%nat; [apply F1|]. destruct (_ && uoverridden s op x y) eqn:E; [|apply F1].
  apply andb_true_iff in E as [_ E]. cbn [ufirst]. destruct (ureflected s op y (UVec x)) as [[w|]|] eqn:R.
  - intros [= <-]. unfold ureflected in R.
    assert (Q : forall g, match ucoerce s (vcls y) (UVec x) with Raise _ => Raise ENameError | Ok o => udispatch (rmap UVec (uop s g op o (UVec y))) end
      = Ok (Some w) -> exists w', w = UVec w' /\ vcls w' = vcls x).
    { intros g. cbn [ucoerce]. destruct (negb _); [discriminate|]. unfold udispatch. destruct (uop _ _ _ _ _) as [t|[]] eqn:U; cbn; try discriminate.
      intros H. injection H as <-. exists t. split; auto. eapply uop_cls; eauto. }
    destruct op; cbn [uoverridden] in E; try discriminate; apply andb_true_iff in E as [_ E]; rewrite E in R; apply (Q _ R).
  - apply F1 with (l := []).
  - discriminate.
Qed.
Lemma usetitem_cls s x i v r : usetitem s x i v = Ok r -> vcls r = vcls x.
Proof.
  intros H. unfold usetitem in H. destruct (negb _); [discriminate|]. cbv zeta in H. destruct (negb _); [discriminate|].
  destruct (uor _ _ _) as [t|]; [|discriminate]. cbn [bind] in H. destruct (uand _ _ _) as [f|]; [|discriminate]. cbn [bind] in H.
  destruct (ubit_init s v); [|discriminate]. cbn [bind] in H. inv H. auto.
Qed.
Lemma dcall_keeps s rs i x a s' vs : keeps i = Some x -> reg rs x = Ok (UVec a) -> dcall s rs i = Ok (s', vs) ->
  s' = s /\ exists v, vs = [UVec v] /\ vcls v = vcls a.
Proof.
  intros K Hx H. destruct i; cbn [keeps] in K; try discriminate; cbn [dcall] in H.
  - assert (x0 = x) as -> by (destruct m; congruence). rewrite Hx in H. cbn [bind uvec] in H. destruct (opnd UInt rs y) as [w|]; [|discriminate]. cbn [bind] in H.
    assert (Q : forall g op, vec1 (rmap (pair s) (uop s g op a w)) = Ok (s', vs) -> s' = s /\ exists v, vs = [UVec v] /\ vcls v = vcls a).
    { intros g op. destruct (uop s g op a w) as [r|] eqn:E; cbn; [|discriminate]. intros [= <- <-]. split; auto. exists r. split; auto. eapply uop_cls; eauto. }
    assert (Q2 : forall op, vec1 (rmap (pair s) (rmap (unot s) (uop s false op a w))) = Ok (s', vs) -> s' = s /\ exists v, vs = [UVec v] /\ vcls v = vcls a).
    { intros op. destruct (uop s false op a w) as [r|] eqn:E; cbn; [|discriminate]. intros [= <- <-]. split; auto. exists (unot s r). split; auto. cbn. eapply uop_cls; eauto. }
    destruct m; cbn [umeth] in H; try discriminate;
      [apply (Q false OAnd H)|apply (Q2 OAnd H)|apply (Q false OOr H)|apply (Q2 OOr H)|apply (Q false OXor H)|apply (Q2 OXor H)|
       apply (Q false OShl H)|apply (Q false OShr H)|apply (Q true OShr H)|apply (Q false OAdd H)|apply (Q false OSub H)|apply (Q false OMul H)|
       apply (Q false OFloorDiv H)|apply (Q false OMod H)].
  - inv K. rewrite Hx in H. cbn in H. inv H. eauto.
  - inv K. rewrite Hx in H. cbn in H. inv H. eauto.
  - inv K. rewrite Hx in H. cbn [bind] in H. destruct (opnd UInt rs y) as [w|]; [|discriminate]. cbn [bind] in H. unfold at1 in H.
    destruct (ubinop s op (UVec a) w) as [r|] eqn:E; cbn in H; [|discriminate]. inv H. split; auto.
    apply ubinop_cls in E as (t & -> & E). eauto.
  - inv K. rewrite Hx in H. cbn [bind uvec] in H. destruct (opnd UInt rs b) as [w|]; [|discriminate]. cbn [bind] in H. unfold at1 in H.
    destruct (usetitem _ _ _ _) as [r|] eqn:E; cbn in H; [|discriminate]. inv H. split; auto. apply usetitem_cls in E. eauto.
Qed.

(** ** Classes without unsized_t *)
Lemma reg_some {V : Type} (rs : list V) k : (k < length rs)%nat -> exists v, reg rs k = Ok v.
Proof. intros H. unfold reg. destruct (nth_error rs k) eqn:E; eauto. apply nth_error_None in E. lia. Qed.
Lemma usized_none s c n z : c_unsized (get_cls s c) = None -> usized s c n z = Raise EAttributeError.
Proof. intros H. unfold usized, unsized_t. now rewrite H. Qed.
Lemma slice_none s x a b : c_unsized (get_cls s (vcls x)) = None -> uslice s x a b None = Raise EAttributeError.
Proof. intros H. unfold uslice, list_slice. cbn. now rewrite usized_none. Qed.
Lemma dcall_none s rs i x a : rebuilds i = Some x -> Forall (fun k => (k < length rs)%nat) (reads i) -> reg rs x = Ok (UVec a) ->
  c_unsized (get_cls s (vcls a)) = None -> 0 < vsize s a -> dcall s rs i = Raise EAttributeError.
Proof.
  intros R F Hx Hu Hs. destruct i; cbn [rebuilds] in R; try discriminate; cbn [dcall reads] in *.
  - destruct m; try discriminate. destruct y; inv R. rewrite Hx. cbn. unfold ucomp, ucast. cbn. now rewrite usized_none.
  - inv R. rewrite Hx. cbn [bind uvec]. unfold urol, ucast. cbn [ucoerce bind]. destruct (Z.eqb_spec (vsize s a) 0); [lia|]. unfold urot. now rewrite slice_none.
  - inv R. rewrite Hx. cbn [bind uvec]. unfold uror, ucast. cbn [ucoerce bind]. destruct (Z.eqb_spec (vsize s a) 0); [lia|]. unfold urot. now rewrite slice_none.
  - inv R. rewrite Hx. cbn [bind uvec]. now rewrite slice_none.
  - inv R. rewrite Hx. cbn [bind uvec]. inv F. inv H2. destruct (reg_some rs y H3) as (v & ->). cbn [bind]. unfold uconcat, unsized_t. now rewrite Hu.
  - destruct (Z.leb_spec 0 k); inv R. rewrite Hx. cbn [bind uvec]. unfold uzext. destruct (Z.ltb_spec k 0); [lia|]. now rewrite usized_none.
  - destruct (Z.leb_spec 0 k); inv R. rewrite Hx. cbn [bind uvec]. unfold usext, unsized_t. destruct (Z.ltb_spec k 0); [lia|]. now rewrite Hu.
  - destruct (Z.leb_spec 0 k); inv R. rewrite Hx. cbn [bind uvec]. unfold uext, usext, uzext, unsized_t. destruct (Z.ltb_spec k 0); [lia|].
    rewrite usized_none, Hu by auto. now destruct (signed_cls _ _).
  - destruct y; inv R. rewrite Hx. cbn [bind uvec opnd]. inv F. cbn [app] in H2.
    assert (Q : exists w, opnd UInt rs c = Ok w) by (destruct c; cbn [opnd]; [inv H2; now apply reg_some|eauto]). destruct Q as (w & ->).
    cbn [bind]. unfold uadc, unsized_t. cbn [ucoerce bind]. now rewrite Hu.
Qed.

(** ** Modified classes *)
Definition modok (s : meta) (e : nat * nat) : Prop :=
  alive s (fst e) = true /\ alive s (snd e) = true /\ sub s (snd e) (fst e) /\ c_size (get_cls s (snd e)) = c_size (get_cls s (fst e)) /\
  c_unsized (get_cls s (snd e)) = match c_size (get_cls s (snd e)) with Some _ => None | None => Some (snd e) end.
Lemma modok_mext s s' e : minv s -> mext s s' -> modok s e -> modok s' e.
Proof.
  intros Is X (A & B & C & D & E). assert (L1 : (fst e < len s)%nat) by now apply alive_spec in A. assert (L2 : (snd e < len s)%nat) by now apply alive_spec in B.
  split; [eapply mext_alive; eauto|]. split; [eapply mext_alive; eauto|]. split; [now apply (mext_sub s s')|].
  rewrite (mext_get s s' (snd e)), (mext_get s s' (fst e)) by auto. auto.
Qed.
Definition vgo (f : nat) := fix go (s : meta) (done : list (nat * nat)) (bs : list nat) : res (meta * list (nat * nat) * list nat) :=
  match bs with
  | [] => Ok (s, done, [])
  | b :: bs => r <- vmodify f s done b ;; q <- go (fst (fst r)) (snd (fst r)) bs ;; Ok (fst (fst q), snd (fst q), snd r :: snd q)
  end.
Lemma vmodify_unfold f s done c : vmodify (S f) s done c =
  match find (fun e => Nat.eqb (fst e) c) done with
  | Some e => Ok (s, done, snd e)
  | None =>
      r <- vgo f s done (c_bases (get_cls s c)) ;;
      q <- new_class (fst (fst r)) (existsb (fun b => c_bv (get_cls (fst (fst r)) b)) (c :: snd r)) (c :: snd r) None None ;;
      Ok (fst q, (c, snd q) :: snd (fst r), snd q)
  end.
Proof.
  reflexivity.
Qed.
Lemma vmodify_ok f : forall s done c s' d t, minv s -> alive s c = true -> Forall (modok s) done -> vmodify f s done c = Ok (s', d, t) ->
  minv s' /\ mext s s' /\ Forall (modok s') d /\ modok s' (c, t).
Proof.
  assert (found : forall s done c e, Forall (modok s) done -> find (fun e => Nat.eqb (fst e) c) done = Some e -> modok s (c, snd e)).
  { intros s done c e F E. apply find_some in E as [E1 E2]. apply Nat.eqb_eq in E2. subst c. rewrite Forall_forall in F. destruct e. now apply F. }
  induction f as [|f IH]; intros s done c s' d t Is Al F H.
  { cbn [vmodify] in H. destruct (find _ done) as [e|] eqn:E; [|discriminate]. inv H. split; auto. split; [apply mext_refl|]. split; auto. eapply found; eauto. }
  rewrite vmodify_unfold in H. destruct (find _ done) as [e|] eqn:E.
  { inv H. split; auto. split; [apply mext_refl|]. split; auto. eapply found; eauto. }
  assert (GO : forall bs s0 d0 s1 d1 ts, minv s0 -> Forall (fun b => alive s0 b = true) bs -> Forall (modok s0) d0 -> vgo f s0 d0 bs = Ok (s1, d1, ts) ->
    minv s1 /\ mext s0 s1 /\ Forall (modok s1) d1 /\ Forall (fun t => exists b, In b bs /\ modok s1 (b, t)) ts).
  { induction bs as [|b bs IHb]; intros s0 d0 s1 d1 ts I0 A0 F0 G; cbn [vgo] in G; fold (vgo f) in G.
    { inv G. split; auto. split; [apply mext_refl|]. auto. }
    inv A0. destruct (vmodify f s0 d0 b) as [[[s2 d2] t2]|] eqn:E2; [|discriminate]. cbn [bind fst snd] in G.
    destruct (IH _ _ _ _ _ _ I0 H2 F0 E2) as (I2 & X2 & F2 & M2).
    destruct (vgo f s2 d2 bs) as [[[s3 d3] ts3]|] eqn:E3; [|discriminate]. cbn in G. inv G.
    assert (A2 : Forall (fun b => alive s2 b = true) bs).
    { eapply Forall_impl; [|exact H3]. intros x Hx. exact (mext_alive s0 s2 x X2 Hx). }
    destruct (IHb _ _ _ _ _ I2 A2 F2 E3) as (I3 & X3 & F3 & M3).
    split; auto. split; [exact (mext_trans _ _ _ X2 X3)|]. split; auto. constructor.
    - exists b. split; [now left|]. now apply (modok_mext s2 s1).
    - eapply Forall_impl; [|exact M3]. intros x (y & Hy & My). exists y. split; auto. now right. }
  assert (Lc : (c < len s)%nat) by now apply alive_spec in Al.
  destruct (vgo f s done (c_bases (get_cls s c))) as [[[s1 d1] ts]|] eqn:Eg; [|discriminate]. cbn [bind fst snd] in H.
  assert (Ab : Forall (fun b => alive s b = true) (c_bases (get_cls s c))).
  { apply Forall_forall. intros b Hb. exact (i_alive s Is c b Al Hb). }
  destruct (GO _ _ _ _ _ _ Is Ab F Eg) as (I1 & X1 & F1 & M1).
  assert (Al1 : alive s1 c = true) by (eapply mext_alive; eauto). assert (L1 : (c < len s1)%nat) by now apply alive_spec in Al1.
  destruct (new_class s1 _ (c :: ts) None None) as [[s2 t2]|] eqn:En; [|discriminate]. cbn in H. inv H.
  assert (Ha : forallb (alive s1) (c :: ts) = true).
  { apply forallb_forall. intros x [<-|Hx]; auto. rewrite Forall_forall in M1. destruct (M1 x Hx) as (b & _ & _ & B & _). exact B. }
  destruct (new_class_ok s1 (c :: ts) s' t I1 Ha En) as (I2 & X2 & At).
  assert (M : modok s' (c, t)).
  { unfold new_class in En. destruct (join_size s1 None (c :: ts)) as [sz|] eqn:Jz; [|discriminate]. cbn [bind] in En.
    destruct (c3 s1 (c :: ts)) as [l|]; [|discriminate]. injection En as Es Et. change (length (classes s1)) with (len s1) in *.
    set (k := Cls _ _ _ _ _) in Es. change (Meta (classes s1 ++ [k]) (dead s1) (cache s1) (vars s1)) with (addc s1 k) in Es. subst s' t.
    split; [eapply mext_alive; eauto|]. split; auto. cbn [fst snd].
    assert (Hk : get_cls (addc s1 k) (len s1) = k) by apply get_addc_new. rewrite Hk.
    split; [apply sub_step with c; [rewrite Hk; now left|constructor]|].
    rewrite get_addc_old by auto. cbn [k c_size c_unsized]. split; [|destruct sz; reflexivity].
    destruct (join_none _ _ _ _ Jz) as [_ Jn]. destruct (c_size (get_cls s1 c)) as [m|] eqn:Ec; [apply (Jn c m); auto; now left|].
    destruct sz as [m|]; auto. exfalso. destruct (join_some _ _ _ _ Jz) as [Q|(b & [<-|Hb] & Eb)]; [discriminate|congruence|].
    rewrite Forall_forall in M1. destruct (M1 b Hb) as (b0 & Hb0 & A1 & _ & _ & Es & _). cbn [fst snd] in *. rewrite Eb in Es.
    assert (Hb1 : In b0 (c_bases (get_cls s1 c))) by now rewrite (mext_get s s1).
    rewrite (i_size s1 I1 c b0 m L1 Hb1 (eq_sym Es)) in Ec. discriminate. }
  split; auto. split; [exact (mext_trans _ _ _ X1 X2)|]. split; auto. constructor; auto.
  eapply Forall_impl; [|exact F1]. intros e He. now apply (modok_mext s1 s').
Qed.
