(** Proofs of the theorems stated in HierProps.v. *)
From Coq Require Import Lia.
From Verif Require Import PyBase BVFacts MetaModel HierModel HierSpec MergeFacts HierFacts.



Lemma alive_lt s c : halive s c = true -> (c < len s)%nat.
Proof. intros H. now apply alive_spec in H. Qed.

Lemma same_state s k fs t r : hinv s -> lookup s true (KIndex k fs) = Some t -> index (S k) s k fs = r -> r = Ok (s, t).
Proof. intros I L <-. rewrite index_unfold. now rewrite L. Qed.

Lemma stmt_made s bs n fs o s1 t k : hinv s -> plain_bases s k bs -> k = KProd \/ k = KTag -> fs <> [] ->
  (forall x, In x (map snd fs) -> usable s x) -> class_stmt s bs n fs o = Ok (s1, t) ->
  hinv s1 /\ mext s s1 /\ halive s1 t = true /\ kd s1 t = k /\ stmt_key s1 t k fs bs n o.
Proof.
  intros I [PB1 PB2] K NF HR H.
  assert (A : forall b, In b bs -> halive s b = true) by (intros b Hb; apply (PB2 b Hb)).
  assert (B : forall b, In b bs -> below k (kd s b) = true) by (intros b Hb; apply (PB2 b Hb)).
  unfold class_stmt in H. replace (match bs with [] => [0%nat] | _ => bs end) with bs in H by (destruct bs; auto; destruct PB1 as (? & [] & _)).
  rewrite (winner_is s k bs PB1 B) in H. cbn [bind] in H.
  assert (H' : attr_class s k bs n fs o = Ok (s1, t)) by (destruct K as [-> | ->]; exact H).
  assert (Q := attr_ok s k bs n fs o I A HR B PB1 K). rewrite H' in Q. destruct Q as (Q1 & Q2 & Q3 & Q4). destruct (Q4 NF). auto 6.
Qed.

Lemma stmt_bases s t fs bs n o : hinv s -> halive s t = true -> h_key (hget s t) = Some (KStmt fs bs n o) ->
  stmt_shape s t fs bs o.
Proof. intros I A K. eapply v_stmt; eauto. now apply alive_lt. Qed.

Lemma C80_issubclass_pf : forall h a b, usable (hrun h) a -> (hissub (hrun h) a b = true <-> hsub (hrun h) a b).
Proof. intros h a b H. apply issub_sub; [apply run_inv|]. now apply alive_lt. Qed.

Lemma C80_fields_pf : forall h a b m, usable (hrun h) a -> hissub (hrun h) a b = true ->
  fields_of (hrun h) b = Some m -> fields_of (hrun h) a = Some m.
Proof.
  intros h a b m H S F. apply alive_lt in H. apply (issub_sub _ (run_inv h)) in S; auto. eapply sub_fields; eauto. apply run_inv.
Qed.

Lemma C80_index_pf : forall h k i, usable (hrun h) k -> (forall x, In x (idx_refs i) -> usable (hrun h) x) ->
  match getitem (hrun h) k i with
  | Ok (s, t) => usable s t /\ (exists fs, fields_of s t = Some fs /\ fields_say (hkind s k) i fs) /\ unbound_t s t = Ok k /\
      hissub s t k = true /\ unbound s k
  | Raise e => e = ETypeError
  end.
Proof.
  intros h k i A R. assert (Q := getitem_ok (hrun h) k i (run_inv h) A R). destruct (getitem (hrun h) k i) as [[s t]|e]; auto.
  destruct Q as (fs & G & M). assert (M' := M). destruct M' as (I & X & _). destruct (made_alive _ _ _ _ _ M) as [At Kt].
  destruct (by_key s I t k fs At Kt) as (B1 & B2 & B3 & B4 & B5).
  split; auto. split; [|split; [|split]].
  - exists (map snd fs). split; auto. unfold hkind. rewrite (mext_get (hrun h) s k X (alive_lt _ _ A)). now apply get_idx_say.
  - unfold unbound_t. now rewrite B2.
  - apply issub_sub; auto. now apply alive_lt.
  - exact B5.
Qed.

Lemma C80_cached_pf : forall h1 h2 k i j s1 t, usable (hrun h1) k -> unbound (hrun h1) k -> is_adt (hrun h1) k = true ->
  (forall x, In x (idx_refs i) -> usable (hrun h1) x) -> keys_ok (HIndex k i) = true ->
  getitem (hrun h1) k i = Ok (s1, t) ->
  let s := hrun (h1 ++ HIndex k i :: h2) in
  usable s t -> get_idx (hkind s k) j <> Raise ETypeError -> same_index (hkind s k) i j -> getitem s k j = Ok (s, t).
Proof.
  intros h1 h2 k i j s1 t A U AD R KO E s At G SI.
  assert (Q := getitem_ok (hrun h1) k i (run_inv h1) A R). rewrite E in Q. destruct Q as (fs & GI & M).
  assert (M' := M). destruct M' as (I1 & X1 & _). destruct (made_alive _ _ _ _ _ M) as [At1 Kt1].
  assert (Es : s = fold_left hstep h2 (hold (hrun h1) (Ok (s1, t)))).
  { unfold s. rewrite run_app. cbn [fold_left]. f_equal. unfold hstep.
    replace (forallb (halive (hrun h1)) (op_refs (HIndex k i))) with true.
    - rewrite KO. cbn [andb]. unfold bound. unfold unbound, fields_of in U. rewrite U, AD. cbn [orb negb]. now rewrite E.
    - symmetry. apply forallb_forall. intros x [<-|Hx]; auto. now apply R. }
  assert (I : hinv s) by apply run_inv.
  assert (I1' : hinv (hold (hrun h1) (Ok (s1, t)))) by (apply hold_inv; [apply run_inv|auto]).
  destruct (fold_classes h2 _ I1') as [SC _]. rewrite <- Es in SC.
  assert (Gt : hget s t = hget s1 t) by (apply (same_get _ s t SC); now apply alive_lt in At1).
  assert (Gk : hget s k = hget (hrun h1) k).
  { rewrite (same_get _ s k SC) by (assert (Z := mext_len _ _ X1); assert (Y := alive_lt _ _ A); unfold len in *; cbn; lia).
    change (hget s1 k = hget (hrun h1) k). apply (mext_get _ _ _ X1). now apply alive_lt. }
  assert (EK : hkind s k = kd (hrun h1) k) by (unfold hkind; now rewrite Gk). rewrite EK in *.
  unfold getitem. rewrite EK. destruct (get_idx (kd (hrun h1) k) j) as [gs|e] eqn:EJ.
  - cbn [bind]. assert (fs = gs) as <- by (eapply get_idx_same; eauto). rewrite index_unfold.
    rewrite (v_find s I t k fs At); auto. now rewrite Gt.
  - exfalso. apply G. destruct (kd (hrun h1) k), j; cbn in EJ; congruence.
Qed.

Lemma C80_subclass_pf : forall h k l i j s1 t1 s2 t2, usable (hrun h) k -> usable (hrun h) l -> hkind (hrun h) k = hkind (hrun h) l ->
  (forall x, In x (idx_refs i ++ idx_refs j) -> usable (hrun h) x) ->
  getitem (hrun h) k i = Ok (s1, t1) -> getitem s1 l j = Ok (s2, t2) ->
  (hissub s2 t1 t2 = true <-> hissub (hrun h) k l = true /\ same_index (hkind (hrun h) k) i j).
Proof.
  intros h k l i j s1 t1 s2 t2 Ak Al EK R E1 E2. unfold hkind in *.
  assert (Q := getitem_ok (hrun h) k i (run_inv h) Ak (fun x Hx => R x (proj2 (in_app_iff _ _ _) (or_introl Hx)))). rewrite E1 in Q. destruct Q as (fs & G1 & M1).
  assert (M1' := M1). destruct M1' as (I1 & X1 & _). destruct (made_alive _ _ _ _ _ M1) as [At1 Kt1].
  assert (Q := getitem_ok s1 l j I1 (mext_alive _ _ _ X1 Al) (fun x Hx => mext_alive _ _ _ X1 (R x (proj2 (in_app_iff _ _ _) (or_intror Hx))))). rewrite E2 in Q. destruct Q as (gs & G2 & M2).
  assert (M2' := M2). destruct M2' as (I2 & X2 & _). destruct (made_alive _ _ _ _ _ M2) as [At2 Kt2].
  assert (Lk := alive_lt _ _ Ak). assert (Ll := alive_lt _ _ Al). assert (X := mext_trans _ _ _ X1 X2).
  assert (At12 := mext_alive _ _ _ X2 At1).
  assert (Kt12 : h_key (hget s2 t1) = Some (KIndex k fs)) by (rewrite (mext_get s1 s2); auto; now apply alive_lt in At1).
  rewrite (mext_get _ _ l X1 Ll) in G2. rewrite <- EK in G2.
  rewrite (issub_sub s2 I2) by (now apply alive_lt). rewrite (issub_sub _ (run_inv h)) by auto.
  rewrite (sub_index s2 I2 t1 t2 k l fs gs At12 At2 Kt12 Kt2) by (rewrite !(mext_get _ _ _ X) by auto; exact EK).
  rewrite <- (get_idx_same _ i j fs gs G1 G2). rewrite <- (mext_sub _ _ k l (run_inv h) X Lk). tauto.
Qed.

Lemma C80_anonymous_partial_pf : forall h k m s1 t1 s2 t2, usable (hrun h) k -> hkind (hrun h) k = KAnon ->
  (forall x, In x (map snd m) -> usable (hrun h) x) ->
  getitem (hrun h) k (IdxNames m) = Ok (s1, t1) -> getitem s1 c_Tuple (IdxTypes (map snd m)) = Ok (s2, t2) ->
  s2 = s1 /\ hissub s1 t1 t2 = true.
Proof.
  intros h k m s1 t1 s2 t2 Ak EK R E1 E2. unfold hkind in *.
  assert (Q := getitem_ok (hrun h) k (IdxNames m) (run_inv h) Ak R). rewrite E1 in Q. destruct Q as (fs & G1 & M1).
  rewrite EK in G1. injection G1 as <-. assert (M1' := M1). destruct M1' as (I1 & X1 & _). destruct (made_alive _ _ _ _ _ M1) as [At1 Kt1].
  assert (Lk := alive_lt _ _ Ak).
  destruct (anon_tuple s1 I1 t1 k m At1 Kt1) as (t' & At' & Kt' & S'); [now rewrite (mext_get _ _ k X1 Lk)|].
  unfold getitem, hkind in E2. rewrite (builtin_get s1 I1) in E2 by (unfold c_Tuple; lia). cbn [get_idx hst0 bind] in E2.
  change (h_kind (hget hst0 c_Tuple)) with KTuple in E2. cbn [get_idx bind] in E2.
  assert (EU : types (map snd m) = unname m) by (unfold types, unname; now rewrite map_map).
  rewrite EU in E2. assert (Z := same_state s1 c_Tuple (unname m) t' _ I1 (v_find s1 I1 _ _ _ At' Kt') E2). inv Z.
  split; auto. apply issub_sub; auto. now apply alive_lt.
Qed.

Lemma C80_mixed_refuted_pf : exists h a t i s1 x s2 y, hissub (hrun h) a t = true /\ hkind (hrun h) a = KAnon /\ hkind (hrun h) t = KTuple /\
  getitem (hrun h) a (IdxNames [("x"%string, i)]) = Ok (s1, x) /\ getitem s1 t (IdxTypes [i]) = Ok (s2, y) /\ hissub s2 x y = false.
Proof.
  exists [HClass [] "T" [] []; HClass [1] "MyT" [] []; HClass [2; 7] "MyA" [] []]%nat, 8%nat, 7%nat, 6%nat.
  eexists _, _, _, _. split; [vm_compute; reflexivity|]. split; [vm_compute; reflexivity|]. split; [vm_compute; reflexivity|].
  split; [vm_compute; reflexivity|]. split; vm_compute; reflexivity.
Qed.

Lemma C80_product_partial_pf : forall h bs n fs o s t, plain_bases (hrun h) KProd bs -> fs <> [] ->
  (forall x, In x (map snd fs) -> usable (hrun h) x) -> class_stmt (hrun h) bs n fs o = Ok (s, t) ->
  usable s t /\ fields_of s t = Some (map snd fs) /\ field_dict s t = Some fs /\ (forall b, In b bs -> hissub s t b = true) /\
  (forall s' a, getitem s c_AnonymousProduct (IdxNames fs) = Ok (s', a) -> s' = s /\ hissub s t a = true).
Proof.
  intros h bs n fs o s t PB NF R E.
  destruct (stmt_made _ _ _ _ _ _ _ KProd (run_inv h) PB (or_introl eq_refl) NF R E) as (I & X & At & Kt & fs' & o' & K & SF & SO).
  cbn in SF. subst fs'. destruct (stmt_bases s t fs bs n o' I At K) as (_ & b & t' & EB & UB & _ & [(_ & Kb & Kt' & T1 & _)|(Z & _)]); [|congruence].
  assert (Lt := alive_lt _ _ At).
  assert (HB : In t' (h_bases (hget s t))) by (rewrite EB; apply in_app_iff; right; now left).
  assert (At' := bases_alive s I t t' At HB). destruct (by_key s I t' b fs At' Kt') as (F & _ & K' & Sb & _).
  assert (Lt' := alive_lt _ _ At'). destruct (index_of s I t' b fs At' Kt') as (SH & Ab).
  split; auto. split; [eapply (v_fields s I); eauto|]. split; [|split].
  - unfold field_dict. apply (first_some_all _ _ t').
    + apply mro_sub; auto. now apply sub_base.
    + destruct SH as (_ & _ & _ & _ & _ & _ & _ & T & _). rewrite T, Kb. discriminate.
    + intros x m Hx Tx. apply mro_sub in Hx; auto. inversion Hx as [|p q r Hq Hs]; subst; [congruence|].
      rewrite EB in Hq. apply in_app_iff in Hq as [Hq|[<-|[]]].
      * exfalso. assert (UQ : h_fields (hget s q) = None).
        { destruct PB as [_ PB]. destruct (PB q Hq) as (Aq & Uq & _). rewrite (mext_get _ _ q X (alive_lt _ _ Aq)). exact Uq. }
        assert (Lq : (q < len s)%nat) by (assert (Z := v_bases s I t q Lt); rewrite EB, in_app_iff in Z; specialize (Z (or_introl Hq)); lia).
        assert (Lx : (x < len s)%nat) by (assert (Z := sub_le s I q x Lq Hs); lia).
        destruct (table_bound s I x m Lx Tx) as (f & Fx). assert (Z := sub_fields s I q x f Lq Hs Fx). congruence.
      * apply (tables_above s I t' b fs x m); auto.
  - intros q Hq. apply issub_sub; auto. apply sub_base. rewrite EB. apply in_app_iff. now left.
  - intros s' a E'. assert (RB : hsub s b c_AnonymousProduct).
    { replace c_AnonymousProduct with (root (kd s b)) by (now rewrite Kb). apply (v_root s I); [now apply alive_lt|congruence]. }
    assert (KA : kd s c_AnonymousProduct = KAnon) by (rewrite (builtin_get s I) by (unfold c_AnonymousProduct; lia); reflexivity).
    destruct (up s I b c_AnonymousProduct RB ltac:(congruence) t' fs At' Kt') as (a' & Aa & Ka & Sa).
    unfold getitem, hkind in E'. rewrite KA in E'. cbn [get_idx bind] in E'.
    assert (Z := same_state s _ fs a' _ I (v_find s I _ _ _ Aa Ka) E'). inv Z. split; auto. apply issub_sub; auto.
    eapply sub_trans; [eapply sub_base; exact HB|exact Sa].
Qed.

Lemma C80_tagged_partial_pf : forall h bs n fs o s t, plain_bases (hrun h) KTag bs -> fs <> [] ->
  (forall x, In x (map snd fs) -> usable (hrun h) x) -> class_stmt (hrun h) bs n fs o = Ok (s, t) ->
  usable s t /\ (exists l, fields_of s t = Some l /\ NoDup l /\ forall x, In x l <-> In x (map snd fs)) /\
  (exists d, field_dict s t = Some d /\ same_fields KTag fs d) /\ (forall b, In b bs -> hissub s t b = true) /\
  (forall s' a, getitem s c_Sum (IdxTypes (map snd fs)) = Ok (s', a) -> s' = s /\ hissub s t a = true).
Proof.
  intros h bs n fs o s t PB NF R E.
  destruct (stmt_made _ _ _ _ _ _ _ KTag (run_inv h) PB (or_intror eq_refl) NF R E) as (I & X & At & Kt & fs' & o' & K & SF & SO).
  destruct (stmt_bases s t fs' bs n o' I At K) as (_ & b & t' & EB & UB & _ & [(Z & _)|(_ & Kb & Kt' & T1 & _)]); [congruence|].
  assert (Lt := alive_lt _ _ At).
  assert (HB : In t' (h_bases (hget s t))) by (rewrite EB; apply in_app_iff; right; now left).
  assert (At' := bases_alive s I t t' At HB). destruct (by_key s I t' b _ At' Kt') as (F & _ & K' & Sb & _). rewrite types_snd in F.
  assert (SM : forall x, In x (map snd fs') <-> In x (map snd fs)).
  { intros x. rewrite !in_map_iff. split; intros (p & <- & Hp); exists p; split; auto; now apply SF. }
  split; auto. split; [|split; [|split]].
  - exists (sorted (map snd fs')). split; [eapply (v_fields s I); eauto|]. split; [apply incr_NoDup, sorted_incr|].
    intros x. rewrite sorted_In. apply SM.
  - exists fs'. split; auto. unfold field_dict. destruct (v_mro s I t Lt) as (l & El & _). rewrite El. cbn [first_some]. now rewrite T1.
  - intros q Hq. apply issub_sub; auto. apply sub_base. rewrite EB. apply in_app_iff. now left.
  - intros s' a E'. assert (RB : hsub s b c_Sum).
    { replace c_Sum with (root (kd s b)) by (now rewrite Kb). apply (v_root s I); [|congruence].
      destruct (index_of s I t' b _ At' Kt') as (_ & Ab). now apply alive_lt. }
    assert (KA : kd s c_Sum = KSum) by (rewrite (builtin_get s I) by (unfold c_Sum; lia); reflexivity).
    destruct (up s I b c_Sum RB ltac:(congruence) t' _ At' Kt') as (a' & Aa & Ka & Sa).
    unfold getitem, hkind in E'. rewrite KA in E'. cbn [get_idx bind] in E'.
    assert (ES : sorted (map snd fs) = sorted (map snd fs')) by (apply sorted_eq; intros x; symmetry; apply SM).
    rewrite ES in E'. assert (Z := same_state s _ _ a' _ I (v_find s I _ _ _ Aa Ka) E'). inv Z. split; auto. apply issub_sub; auto.
    eapply sub_trans; [eapply sub_base; exact HB|exact Sa].
Qed.

Lemma C80_unbound_t_partial_pf : forall h l1 b l2 n fs o k s t, k = KProd \/ k = KTag -> plain_bases (hrun h) k (l1 ++ b :: l2) -> fs <> [] ->
  (forall x, In x (map snd fs) -> usable (hrun h) x) -> hkind (hrun h) b <> KType -> (forall x, In x (l1 ++ l2) -> hkind (hrun h) x = KType) ->
  class_stmt (hrun h) (l1 ++ b :: l2) n fs o = Ok (s, t) -> unbound_t s t = Ok b.
Proof.
  intros h l1 b l2 n fs o k s t K PB NF R Nb HM E.
  destruct (stmt_made _ _ _ _ _ _ _ k (run_inv h) PB K NF R E) as (I & X & At & Kt & fs' & o' & KT & SF & SO).
  destruct (stmt_bases s t fs' _ n o' I At KT) as (_ & x & t' & EB & UB & U & _).
  unfold unbound_t. rewrite U. destruct PB as [_ PB].
  rewrite (filter_adt_ext (hrun h) s) by (intros y Hy; apply (mext_get _ _ y X); apply alive_lt; now apply PB).
  assert (NM : forall l, (forall y, In y l -> hkind (hrun h) y = KType) -> filter (fun c => is_adt (hrun h) c && negb (bound (hrun h) c)) l = []).
  { induction l as [|y l IH]; cbn [filter]; auto. intros Q. unfold is_adt. rewrite Q by now left. cbn [andb]. apply IH. intros; apply Q; now right. }
  rewrite filter_app. cbn [filter]. rewrite !NM by (intros; apply HM; apply in_app_iff; auto). cbn [app].
  destruct (PB b) as (_ & Ub & _); [apply in_app_iff; right; now left|].
  assert (E1 : is_adt (hrun h) b = true) by (unfold is_adt; destruct (hkind (hrun h) b); auto; now elim Nb).
  assert (E2 : bound (hrun h) b = false) by (unfold bound; unfold unbound, fields_of in Ub; now rewrite Ub).
  now rewrite E1, E2.
Qed.

Lemma C80_unbound_t_refuted_pf : exists h bs n fs s t, plain_bases (hrun h) KProd bs /\ (forall x, In x (map snd fs) -> usable (hrun h) x) /\
  class_stmt (hrun h) bs n fs [] = Ok (s, t) /\ fields_of s t <> None /\ unbound_t s t = Raise EAttributeError.
Proof.
  exists [HClass [] "T" [] []; HClass [3] "P1" [] []; HClass [3] "P2" [] []]%nat, [7; 8]%nat, "P"%string, [("x"%string, 6%nat)].
  eexists _, _. split; [|split; [|split; [vm_compute; reflexivity|split; [discriminate|vm_compute; reflexivity]]]].
  - split; [exists 7%nat; split; [now left|vm_compute; reflexivity]|]. intros b [<-|[<-|[]]]; (split; [|split]); vm_compute; reflexivity.
  - intros x [<-|[]]. vm_compute. reflexivity.
Qed.

Lemma C80_total_refuted_pf : exists h k i, usable (hrun h) k /\ unbound (hrun h) k /\ hkind (hrun h) k = KTuple /\
  (forall x, In x (idx_refs i) -> usable (hrun h) x) /\ getitem (hrun h) k i = Raise ETypeError.
Proof.
  exists [HClass [] "M" [] []; HClass [6;1] "A" [] []; HClass [1] "B" [] []; HClass [7] "C" [] []; HClass [8] "D" [] [];
          HClass [10;9;6;8] "E" [] []; HClass [7;8] "F" [] []; HClass [11;12] "G" [] []]%nat, 13%nat, (IdxTypes [6%nat]).
  split; [vm_compute; reflexivity|]. split; [vm_compute; reflexivity|]. split; [vm_compute; reflexivity|].
  split; [|vm_compute; reflexivity]. intros x [<-|[]]. vm_compute. reflexivity.
Qed.

Lemma C81_anonymous_pf : forall h k m s t i n ty, usable (hrun h) k -> hkind (hrun h) k = KAnon -> NoDup (map fst m) ->
  (forall x, In x (map snd m) -> usable (hrun h) x) -> getitem (hrun h) k (IdxNames m) = Ok (s, t) -> nth_error m i = Some (n, ty) ->
  getattr s t n = Some (AField ty i) /\ field_dict s t = Some m.
Proof.
  intros h k m s t i n ty Ak EK ND R E N. unfold hkind in *.
  assert (Q := getitem_ok (hrun h) k (IdxNames m) (run_inv h) Ak R). rewrite E in Q. destruct Q as (fs & G & M).
  rewrite EK in G. injection G as <-. assert (M' := M). destruct M' as (I & X & _). destruct (made_alive _ _ _ _ _ M) as [At Kt].
  destruct (index_of s I t k m At Kt) as ((_ & _ & _ & _ & _ & _ & _ & T & P) & _).
  rewrite (mext_get _ _ k X (alive_lt _ _ Ak)) in T, P. rewrite EK in T, P. cbn in T, P.
  destruct (v_mro s I t (alive_lt _ _ At)) as (l & El & _).
  unfold getattr, field_dict. rewrite El. cbn [first_some]. rewrite T, P. rewrite (own_props m i n ty ND N). auto.
Qed.

Lemma C81_product_partial_pf : forall h bs n fs o s t i f ty, plain_bases (hrun h) KProd bs -> NoDup (map fst fs ++ map fst o) ->
  (forall x, In x (map snd fs) -> usable (hrun h) x) -> class_stmt (hrun h) bs n fs o = Ok (s, t) -> nth_error fs i = Some (f, ty) ->
  (forall b x, In b bs -> hsub (hrun h) b x -> defines (hrun h) x f -> hsub (hrun h) c_AnonymousProduct x) ->
  getattr s t f = Some (AField ty i).
Proof.
  intros h bs n fs o s t i f ty PB ND R E N HD.
  assert (NF : fs <> []) by (intros ->; destruct i; discriminate).
  destruct (stmt_made _ _ _ _ _ _ _ KProd (run_inv h) PB (or_introl eq_refl) NF R E) as (I & X & At & Kt & fs' & o' & K & SF & SO).
  cbn in SF. subst fs'. destruct (stmt_bases s t fs bs n o' I At K) as (_ & b & t' & EB & UB & _ & [(_ & Kb & Kt' & T1 & P1)|(Z & _)]); [|congruence].
  assert (Lt := alive_lt _ _ At).
  assert (HB : In t' (h_bases (hget s t))) by (rewrite EB; apply in_app_iff; right; now left).
  assert (At' := bases_alive s I t t' At HB). destruct (by_key s I t' b fs At' Kt') as (F & _ & K' & Sb & _).
  destruct (index_of s I t' b fs At' Kt') as ((_ & _ & _ & _ & _ & _ & _ & _ & P) & Ab). rewrite Kb in P. cbn in P.
  assert (NDf : NoDup (map fst fs)) by (clear - ND; induction (map fst fs); [constructor|]; cbn in ND; inversion ND; subst; constructor; auto; intros Z; apply H1, in_app_iff; auto).
  assert (OF : own (h_attrs (hget s t')) f = Some (AField ty i)) by (rewrite P; now apply own_props).
  assert (OT : own (h_attrs (hget s t)) f = None).
  { rewrite P1. apply own_others. rewrite in_map_iff. intros (p & Ep & Hp). apply SO in Hp.
    assert (In f (map fst fs)) by (apply nth_error_In in N; apply in_map_iff; exists (f, ty); auto).
    assert (In f (map fst o)) by (apply in_map_iff; eauto). clear - ND H H0. induction (map fst fs) as [|y l IH]; [destruct H|].
    cbn in ND. inversion ND; subst. destruct H as [->|H]; auto. apply H3, in_app_iff. auto. }
  assert (RB : hsub s b c_AnonymousProduct).
  { replace c_AnonymousProduct with (root (kd s b)) by (now rewrite Kb). apply (v_root s I); [now apply alive_lt|congruence]. }
  unfold getattr.
  destruct (first_some_split (fun x => own (h_attrs (hget s x)) f) (h_mro (hget s t)) t') as (l1 & y & l2 & a & El & NN & Ey & ->).
  { apply mro_sub; auto. now apply sub_base. }
  { now rewrite OF. }
  assert (Hy : hsub s t y) by (apply mro_sub; auto; rewrite El; apply in_app_iff; right; now left).
  assert (AFTER : hsub s t' y -> Some a = Some (AField ty i)).
  { intros Hs. destruct (Nat.eq_dec t' y) as [<-|Ny]; [congruence|]. exfalso.
    assert (Q := mro_order s I t t' y Lt (sub_base s t t' HB) Hs Ny l1 l2 El). apply NN in Q. congruence. }
  inversion Hy as [|p q r Hq Hs]; subst; [congruence|]. rewrite EB in Hq. apply in_app_iff in Hq as [Hq|[<-|[]]]; [|auto].
  apply AFTER. destruct PB as [_ PB]. destruct (PB q Hq) as (Aq & _). assert (Lq := alive_lt _ _ Aq).
  apply (mext_sub _ _ q y (run_inv h) X Lq) in Hs.
  assert (Ly : (y < len (hrun h))%nat) by (assert (Z := sub_le _ (run_inv h) q y Lq Hs); lia).
  assert (D : defines (hrun h) y f) by (apply defines_own; rewrite <- (mext_get _ _ y X Ly), Ey; discriminate).
  specialize (HD q y Hq Hs D). apply (mext_sub _ _ _ _ (run_inv h) X) in HD; [|assert (Z := v_len _ (run_inv h)); unfold c_AnonymousProduct; lia].
  eapply sub_trans; [exact Sb|]. eapply sub_trans; [exact RB|exact HD].
Qed.

Lemma C81_tagged_pf : forall h bs n fs o s t, plain_bases (hrun h) KTag bs -> NoDup (map fst fs ++ map fst o) -> fs <> [] ->
  (forall x, In x (map snd fs) -> usable (hrun h) x) -> class_stmt (hrun h) bs n fs o = Ok (s, t) ->
  exists d, field_dict s t = Some d /\ same_fields KTag fs d /\
  (NoDup (map fst d) -> forall i f ty, nth_error d i = Some (f, ty) -> getattr s t f = Some (AField ty i)).
Proof.
  intros h bs n fs o s t PB ND NF R E.
  destruct (stmt_made _ _ _ _ _ _ _ KTag (run_inv h) PB (or_intror eq_refl) NF R E) as (I & X & At & Kt & fs' & o' & K & SF & SO).
  destruct (stmt_bases s t fs' bs n o' I At K) as (_ & b & t' & EB & UB & _ & [(Z & _)|(_ & Kb & Kt' & T1 & P1)]); [congruence|].
  destruct (v_mro s I t (alive_lt _ _ At)) as (l & El & _). exists fs'. split; [unfold field_dict; rewrite El; cbn [first_some]; now rewrite T1|].
  split; auto. intros ND' i f ty N. unfold getattr. rewrite El. cbn [first_some]. rewrite P1, own_app. now rewrite (own_props fs' i f ty ND' N).
Qed.

Lemma C81_inherit_pf : forall h a n o s t, usable (hrun h) a -> class_stmt (hrun h) [a] n [] o = Ok (s, t) ->
  fields_of s t = fields_of (hrun h) a /\ field_dict s t = field_dict (hrun h) a /\
  (forall m, ~ In m (map fst o) -> getattr s t m = getattr (hrun h) a m).
Proof.
  intros h a n o s t A E. destruct (single_ok _ _ _ _ _ _ (run_inv h) A E) as (Et & X & M & F & T & P).
  assert (L := alive_lt _ _ A).
  assert (G : forall x, In x (h_mro (hget (hrun h) a)) -> hget s x = hget (hrun h) x).
  { intros x Hx. apply (mext_get _ _ x X). assert (Z := mro_le _ (run_inv h) a x L Hx). lia. }
  split; auto. split.
  - unfold field_dict. rewrite M. cbn [first_some]. rewrite T. apply first_some_ext. intros x Hx. now rewrite G.
  - intros m Hm. unfold getattr. rewrite M. cbn [first_some]. rewrite P, own_others by auto. apply first_some_ext. intros x Hx. now rewrite G.
Qed.

Lemma C81_add_refuted_pf : exists h a bs n s t ty, fields_of (hrun h) a = Some [ty] /\ field_dict (hrun h) a = Some [("x"%string, ty)] /\
  bs = [a] /\ class_stmt (hrun h) bs n [("y"%string, ty)] [] = Ok (s, t) /\ field_dict s t = Some [("x"%string, ty)] /\
  getattr s t "x" = Some (AField ty 0) /\ getattr s t "y" = Some (AField ty 0).
Proof.
  exists [HClass [] "T" [] []; HClass [3] "A" [("x"%string, 6)] []]%nat, 9%nat, [9%nat], "B"%string.
  eexists _, _, 6%nat. split; [vm_compute; reflexivity|]. split; [vm_compute; reflexivity|]. split; [reflexivity|]. split; [vm_compute; reflexivity|].
  split; [vm_compute; reflexivity|]. split; vm_compute; reflexivity.
Qed.

Lemma C81_join_refuted_pf : exists h a b s t ty, field_dict (hrun h) a = Some [("x"%string, ty)] /\ field_dict (hrun h) b = Some [("y"%string, ty)] /\
  class_stmt (hrun h) [a; b] "C" [] [] = Ok (s, t) /\ field_dict s t = Some [("x"%string, ty)] /\ getattr s t "y" = Some (AField ty 0).
Proof.
  exists [HClass [] "T" [] []; HClass [3] "A" [("x"%string, 6)] []; HClass [3] "B" [("y"%string, 6)] []]%nat, 9%nat, 11%nat.
  eexists _, _, 6%nat. split; [vm_compute; reflexivity|]. split; [vm_compute; reflexivity|]. split; [vm_compute; reflexivity|]. split; vm_compute; reflexivity.
Qed.

Lemma C81_product_refuted_pf : exists h bs n fs s t f ty v, plain_bases (hrun h) KProd bs /\
  class_stmt (hrun h) bs n fs [] = Ok (s, t) /\ field_dict s t = Some fs /\ In (f, ty) fs /\ getattr s t f = Some (AOther v).
Proof.
  exists [HClass [] "T" [] []; HClass [3] "Base" [] [("x"%string, 5)]]%nat, [7%nat], "P"%string, [("x"%string, 6%nat)].
  eexists _, _, "x"%string, 6%nat, 5%nat. split; [|split; [vm_compute; reflexivity|split; [vm_compute; reflexivity|split; [now left|vm_compute; reflexivity]]]].
  split; [exists 7%nat; split; [now left|vm_compute; reflexivity]|]. intros b [<-|[]]; (split; [|split]); vm_compute; reflexivity.
Qed.
