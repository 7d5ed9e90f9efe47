(** Proofs of the theorems stated in ADTProps.v. *)
From Coq Require Import Lia Sorted Permutation.
From Verif Require Import PyBase BVModel ADTTy ADTTyFacts ADTModel ADTSpec ADTFacts ADTValFacts ADTEqFacts ADTMoreFacts.



Lemma C39_well_typed_partial_pf : forall H l, Forall no_slice l -> well_typed H (run H [] l).
Proof. intros H l Ns. apply run_well_typed; auto. intros r t s E. destruct r; discriminate. Qed.

Lemma C39_slice_refuted_pf : exists l, ~ well_typed nosub (run nosub [] l).
Proof.
  exists [OpAtom bv4 5; OpCall pair4 [0%nat; 0%nat] []; OpSetSlice 1 (Some 0) (Some 1) 0].
  intros W. specialize (W 1%nat pair4 (STup false [2; 3; 4; 5; 0]%nat) eq_refl). inversion W as [k fs b xs En Hk F| |]; subst.
  injection En as <- <-. apply Forall2_length in F. discriminate.
Qed.

Lemma C39_raise_pf : forall H h o e, snd (step H h o) = Raise e -> fst (step H h o) = h.
Proof.
  intros H h o e. destruct o as [t z|t pos kw|pos|r k v|r a b v|r n v]; cbn [step].
  - destruct (node_of t); cbn; auto. discriminate.
  - destruct (forallb _ _); auto. destruct (call _ _ _ _ _); cbn; auto. discriminate.
  - destruct (forallb _ _); auto. destruct (call _ _ _ _ _); cbn; auto. discriminate.
  - destruct (live h v); auto. destruct (nth_error h r) as [[|t s]|]; auto. destruct (setitem _ _ _ _ _ _); cbn; auto. discriminate.
  - destruct (live h v); auto. destruct (nth_error h r) as [[|t s]|]; auto. destruct (set_slice _ _ _ _ _ _ _) as [[? ?]|]; cbn; auto. discriminate.
  - destruct (live h v); auto. destruct (nth_error h r) as [[|t s]|]; auto. destruct (setattr _ _ _ _ _ _); cbn; auto. discriminate.
Qed.

Lemma C39_class_stable_pf : forall H h l r o, nth_error h r = Some o ->
  exists o', nth_error (run H h l) r = Some o' /\ otype o' = otype o.
Proof. intros H h l r o E. exact (run_extends H l h r o E). Qed.

Lemma C39_frame_pf : forall H h o r x, nth_error h r = Some x ->
  (forall k v, o <> OpSetItem r k v) -> (forall a b v, o <> OpSetSlice r a b v) -> (forall n v, o <> OpSetAttr r n v) ->
  nth_error (fst (step H h o)) r = Some x.
Proof.
  intros H h o r x E N1 N2 N3. apply step_frame; auto. destruct o; cbn; try discriminate; intros Q; injection Q as ->.
  - eapply N1; eauto. - eapply N2; eauto. - eapply N3; eauto.
Qed.

Lemma C39_tuple_call_pf : forall H t k fs vs, node_of t = Some (k, fs) -> tuple_like k ->
  (Forall2 (fun f v => sub H (vtype v) (snd f) = true) fs vs -> vcall H t vs [] = Ok (VTup t true vs)) /\
  (~ Forall2 (fun f v => sub H (vtype v) (snd f) = true) fs vs -> exists e, vcall H t vs [] = Raise e /\ (e = ETypeError \/ e = EValueError)).
Proof.
  intros H t k fs vs En Hk. split; intros F. { eapply vcall_tuple; eauto. }
  assert (T : exists e, tuple_init H vtype fs vs = Raise e /\ (e = ETypeError \/ e = EValueError)).
  { destruct (tuple_init H vtype fs vs) as [s|e] eqn:E. { apply tuple_init_ok in E as [_ E]. contradiction. }
    exists e. split; auto. unfold tuple_init in E. destruct (negb _); [|destruct (forallb _ _)]; try discriminate; injection E as <-; auto. }
  destruct T as (e & T & He). unfold vcall, call. rewrite En.
  assert (B : (bind_args (names fs) vs [] = Ok vs /\ length vs = length fs) \/ bind_args (names fs) vs [] = Raise ETypeError).
  { destruct (Nat.eq_dec (length vs) (length fs)) as [El|El]. { left. split; auto. apply bind_pos. unfold names. now rewrite map_length. }
    right. unfold bind_args. unfold names. rewrite map_length. destruct (Nat.ltb_spec (length fs) (length vs)); auto. cbn [forallb negb].
    destruct (skipn (length vs) (map fst fs)) eqn:Es; [|reflexivity].
    apply (f_equal (@length string)) in Es. rewrite skipn_length, map_length in Es. cbn in Es. lia. }
  destruct k; try contradiction.
  - rewrite T. cbn [rmap]. eauto.
  - destruct B as [[-> _]| ->]; cbn [bind]; [rewrite T|]; cbn [rmap]; eauto.
  - destruct B as [[-> _]| ->]; cbn [bind]; [rewrite T|]; cbn [rmap]; eauto.
Qed.

Lemma C39_sum_call_pf : forall H t fs v, node_of t = Some (KSum, fs) ->
  (In (vtype v) (types fs) -> vcall H t [v] [] = Ok (VSum t v)) /\
  (~ In (vtype v) (types fs) -> vcall H t [v] [] = Raise ETypeError).
Proof.
  intros H t fs v En. rewrite (vcall_sum _ _ _ _ En). split; intros Q.
  - apply existsb_ty in Q. now rewrite Q.
  - apply existsb_ty_false in Q. now rewrite Q.
Qed.

Lemma C39_tag_call_pf : forall H t n x fs m v, node_of t = Some (KTag n x, fs) -> twf t ->
  (forall i u, nth_error fs i = Some (m, u) -> sub H (vtype v) u = true -> vcall H t [] [(m, v)] = Ok (VTag t i v)) /\
  (forall i u, nth_error fs i = Some (m, u) -> sub H (vtype v) u = false -> vcall H t [] [(m, v)] = Raise ETypeError) /\
  (~ In m (names fs) -> vcall H t [] [(m, v)] = Raise EValueError).
Proof.
  intros H t n x fs m v En W. destruct (twf_kind _ _ _ W En) as (N & _). split; [|split].
  - intros i u E S. rewrite (vcall_tag _ _ _ _ _ _ _ _ _ En N E). now rewrite S.
  - intros i u E S. rewrite (vcall_tag _ _ _ _ _ _ _ _ _ En N E). now rewrite S.
  - intros Q. unfold vcall, call. rewrite En. unfold tag_init. pose proof (assoc_index m fs) as A. unfold names in Q. apply index_of_None in Q. rewrite Q in A. now rewrite A.
Qed.

Lemma C39_union_arguments_pf : forall H t k fs, node_of t = Some (k, fs) ->
  (k = KSum -> forall vs kw, (length vs + length kw <> 1)%nat \/ (exists n v, kw = [(n, v)] /\ n <> "value"%string) -> vcall H t vs kw = Raise ETypeError) /\
  (forall n x, k = KTag n x ->
    (forall v vs kw, vcall H t (v :: vs) kw = Raise ETypeError) /\
    (forall kw, length kw <> 1%nat -> vcall H t [] kw = Raise EValueError)).
Proof.
  intros H t k fs En. split.
  - intros -> vs kw A. unfold vcall, call. rewrite En. unfold sum_init.
    assert (E : match vs, kw with [x], [] => Some x | [], [(n, x)] => if String.eqb n "value" then Some x else None | _, _ => None end = None).
    { destruct vs as [|v [|v' vs]], kw as [|[n u] [|p kw]]; auto; destruct A as [A|(n' & w & E & A)]; cbn in A; try (exfalso; apply A; reflexivity); try congruence; try lia.
      - injection E as -> ->. destruct (String.eqb_spec n' "value"); congruence. }
    rewrite E. reflexivity.
  - intros n x ->. split; intros; unfold vcall, call; rewrite En; unfold tag_init; [reflexivity|].
    destruct kw as [|[m v] [|p kw]]; cbn in *; try reflexivity. lia.
Qed.

Lemma C39_keywords_pf : forall H t k fs vs kw, node_of t = Some (k, fs) -> tuple_like k -> k <> KTuple -> twf t ->
  Forall2 (fun f v => sub H (vtype v) (snd f) = true) fs vs -> Permutation kw (combine (names fs) vs) ->
  vcall H t [] kw = vcall H t vs [].
Proof.
  intros H t k fs vs kw En Hk Nk W F P. assert (N : NoDup (names fs)). { apply twf_kind in En; auto. destruct k; try contradiction; try tauto. exact (proj1 En). }
  assert (El : length (names fs) = length vs) by (unfold names; rewrite map_length; eapply Forall2_length; eauto).
  rewrite (vcall_tuple H t k fs vs En Hk F), <- (vcall_tuple_kw H t k fs vs En Hk Nk N F).
  assert (Nk' : NoDup (map fst kw)). { eapply Permutation_NoDup; [apply Permutation_map, Permutation_sym, P|]. rewrite combine_fst by auto. auto. }
  assert (B : bind_args (names fs) [] kw = bind_args (names fs) [] (combine (names fs) vs)).
  { unfold bind_args. cbn [length Nat.ltb Nat.leb skipn]. 
    assert (E1 : forallb (fun p => existsb (String.eqb (fst p)) (names fs)) kw = forallb (fun p => existsb (String.eqb (fst p)) (names fs)) (combine (names fs) vs)).
    { apply eq_true_iff_eq. rewrite !forallb_forall. split; intros Q p Hp; apply Q; [eapply Permutation_in; [apply Permutation_sym|]; eauto|eapply Permutation_in; eauto]. }
    rewrite E1. destruct (negb _); auto. f_equal. apply mapM_ext. intros m Hm. now rewrite (assoc_perm kw (combine (names fs) vs) m). }
  unfold vcall, call. rewrite En. destruct k; try contradiction; try congruence; now rewrite B.
Qed.

Lemma C40_components_partial_pf : forall H t b vs i p v k fs, vok H (VTup t b vs) -> node_of t = Some (k, fs) ->
  (p < length vs)%nat -> i = Z.of_nat p \/ i = Z.of_nat p - Z.of_nat (length vs) ->
  (forall f, nth_error fs p = Some f -> sub H (vtype v) (snd f) = true) ->
  exists b' b'' ws, vsetitem H (VTup t b vs) (IxInt i) v = Ok (VTup t b' ws) /\ vcall H t ws [] = Ok (VTup t b'' ws) /\
    length ws = length vs /\ nth_error ws p = Some v /\ forall q, q <> p -> nth_error ws q = nth_error vs q.
Proof.
  intros H t b vs i p v k fs V En Hp Hi Hv. inversion V as [t' k' fs' b' vs' En' Hk F| |]; subst. rewrite En in En'. injection En' as <- <-.
  pose proof (Forall2_length _ _ _ F) as El.
  assert (Ei : forall n, n = length vs -> py_index n i = Ok p).
  { intros n ->. unfold py_index. destruct Hi as [-> | ->].
    - destruct (Z.ltb_spec (Z.of_nat p) 0); [lia|]. destruct (Z.leb_spec 0 (Z.of_nat p)), (Z.ltb_spec (Z.of_nat p) (Z.of_nat (length vs))); cbn [andb]; try lia. now rewrite Nat2Z.id.
    - destruct (Z.ltb_spec (Z.of_nat p - Z.of_nat (length vs)) 0); [|lia]. replace (Z.of_nat p - Z.of_nat (length vs) + Z.of_nat (length vs)) with (Z.of_nat p) by lia.
      destruct (Z.leb_spec 0 (Z.of_nat p)), (Z.ltb_spec (Z.of_nat p) (Z.of_nat (length vs))); cbn [andb]; try lia. now rewrite Nat2Z.id. }
  assert (Ts : tuple_setitem H vtype fs vs i v = Ok (STup false (update p v vs))).
  { unfold tuple_setitem. rewrite !Ei by auto. cbn [bind]. unfold isinstance, types.
    rewrite (map_nth snd fs (EmptyString, TLeaf LObject) p : nth p (map snd fs) (TLeaf LObject) = _).
    rewrite Hv; auto. destruct (nth_error fs p) as [f|] eqn:E. { now rewrite (nth_error_nth _ _ _ E). } apply nth_error_None in E. lia. }
  exists false, true, (update p v vs). split; [|split; [|split; [|split]]].
  - unfold vsetitem. cbn [vshape vtype]. unfold setitem. rewrite En. destruct k; try contradiction; rewrite Ts; reflexivity.
  - eapply vcall_tuple; eauto. apply Forall2_update with (d := (EmptyString, TLeaf LObject)); auto; [lia|]. apply Hv.
    apply nth_error_nth'. lia.
  - apply update_length.
  - now apply update_same.
  - intros q Hq. apply update_other. auto.
Qed.

Lemma C40_rejected_pf : forall H t b vs i v k fs, vok H (VTup t b vs) -> node_of t = Some (k, fs) ->
  (i < - Z.of_nat (length vs) \/ Z.of_nat (length vs) <= i -> vsetitem H (VTup t b vs) (IxInt i) v = Raise EIndexError) /\
  (forall p f, i = Z.of_nat p -> nth_error fs p = Some f -> sub H (vtype v) (snd f) = false -> vsetitem H (VTup t b vs) (IxInt i) v = Raise ETypeError).
Proof.
  intros H t b vs i v k fs V En. inversion V as [t' k' fs' b' vs' En' Hk F| |]; subst. rewrite En in En'. injection En' as <- <-.
  pose proof (Forall2_length _ _ _ F) as El. split.
  - intros Hi. assert (Ts : tuple_setitem H vtype fs vs i v = Raise EIndexError).
    { unfold tuple_setitem, py_index. rewrite El. destruct (Z.ltb_spec i 0).
      - destruct (Z.leb_spec 0 (i + Z.of_nat (length vs))); cbn [andb bind]; auto. lia.
      - destruct (Z.leb_spec 0 i), (Z.ltb_spec i (Z.of_nat (length vs))); cbn [andb bind]; auto; lia. }
    unfold vsetitem. cbn [vshape vtype]. unfold setitem. rewrite En. destruct k; try contradiction; rewrite Ts; reflexivity.
  - intros p f -> Ep S. assert (Hp : (p < length fs)%nat) by (apply nth_error_Some; congruence).
    assert (Ts : tuple_setitem H vtype fs vs (Z.of_nat p) v = Raise ETypeError).
    { unfold tuple_setitem. rewrite py_index_nat by auto. cbn [bind]. unfold isinstance, types.
      rewrite (map_nth snd fs (EmptyString, TLeaf LObject) p : nth p (map snd fs) (TLeaf LObject) = _), (nth_error_nth _ _ _ Ep). now rewrite S. }
    unfold vsetitem. cbn [vshape vtype]. unfold setitem. rewrite En. destruct k; try contradiction; rewrite Ts; reflexivity.
Qed.

Lemma C40_refuted_pf : forall H L K t b vs i v x y, vok H (VTup t b vs) -> vsetitem H (VTup t b vs) (IxInt i) v = Ok x ->
  (exists ws, x = VTup t false ws /\ vcall H t ws [] = Ok y) ->
  py_eq H L x y = Ok false /\ py_eq H L y x = Ok false /\ py_hash K x = Raise ETypeError.
Proof.
  intros H L K t b vs i v x y V E (ws & -> & Ey). inversion V as [t' k' fs' b' vs' En' Hk F| |]; subst.
  assert (y = VTup t true ws).
  { destruct (C39_tuple_call_pf H t k' fs' ws En' Hk) as [C1 C2]. unfold vcall in Ey. destruct (call H vtype t ws []) as [s|] eqn:Ec; cbn [rmap] in Ey; try discriminate.
    injection Ey as <-. unfold call in Ec. rewrite En' in Ec. destruct k'; try contradiction.
    - apply tuple_init_ok in Ec as [-> _]. reflexivity.
    - destruct (bind_args _ _ _) as [l|] eqn:Eb; cbn [bind] in Ec; try discriminate. apply tuple_init_ok in Ec as [-> Fl]. cbn [mk_val]. f_equal.
      unfold bind_args in Eb. destruct (Nat.ltb _ _); try discriminate. cbn [forallb negb] in Eb. destruct (mapM _ _) as [rest|] eqn:Em; cbn [bind] in Eb; try discriminate. injection Eb as <-.
      destruct (skipn (length ws) (names fs')) as [|? ?]; cbn in Em; [injection Em as <-; now rewrite app_nil_r|discriminate].
    - destruct (bind_args _ _ _) as [l|] eqn:Eb; cbn [bind] in Ec; try discriminate. apply tuple_init_ok in Ec as [-> Fl]. cbn [mk_val]. f_equal.
      unfold bind_args in Eb. destruct (Nat.ltb _ _); try discriminate. cbn [forallb negb] in Eb. destruct (mapM _ _) as [rest|] eqn:Em; cbn [bind] in Eb; try discriminate. injection Eb as <-.
      destruct (skipn (length ws) (names fs')) as [|? ?]; cbn in Em; [injection Em as <-; now rewrite app_nil_r|discriminate]. }
  subst y. unfold py_eq. rewrite !eq_exact_tup. auto.
Qed.

Lemma nth_firstn_error {A} (l : list A) n q : (q < n)%nat -> nth_error (firstn n l) q = nth_error l q.
Proof. revert l q. induction n as [|n IH]; intros l q Q; [lia|]. destruct l as [|y l], q as [|q]; cbn; auto. apply IH. lia. Qed.

Lemma nth_skipn_error {A} (l : list A) n q : nth_error (skipn n l) q = nth_error l (n + q).
Proof. revert l. induction n as [|n IH]; intros l; [reflexivity|]. destruct l as [|y l]; cbn [skipn plus nth_error]; [now destruct q|apply IH]. Qed.

Lemma C40_slice_pf : forall H h r v t k fs b xs a c lo hi, nth_error h r = Some (ONode t (STup b xs)) -> (v < length h)%nat ->
  node_of t = Some (k, fs) -> length xs = length fs -> slice_part (length fs) a c lo hi ->
  ((forall p m u, (lo <= p < hi)%nat -> nth_error fs p = Some (m, u) -> sub H (rtype h v) u = false) ->
     step H h (OpSetSlice r a c v) = (h, Raise ETypeError)) /\
  ((exists p m u, (lo <= p < hi)%nat /\ nth_error fs p = Some (m, u) /\ sub H (rtype h v) u = true) ->
     (forall t' b' ys, nth_error h v = Some (ONode t' (STup b' ys)) ->
        step H h (OpSetSlice r a c v) = (update r (ONode t (STup false (firstn lo xs ++ ys ++ skipn hi xs))) h, Ok r)) /\
     (forall f k' n z, nth_error h v = Some (OAtom (TLeaf (LVec f k' (Some n))) z) ->
        step H h (OpSetSlice r a c v) =
          (update r (ONode t (STup false (firstn lo xs ++ seq (length h) (length (zrange n)) ++ skipn hi xs)))
             (h ++ map (fun i => OAtom (TLeaf (LBit f)) (b2z (Z.testbit z i))) (zrange n)), Ok r)) /\
     ((exists f z, nth_error h v = Some (OAtom (TLeaf (LBit f)) z)) \/ (exists n ms z, nth_error h v = Some (OAtom (TEnum n ms) z)) \/
      (exists t' x, nth_error h v = Some (ONode t' (SSum x))) \/ (exists t' i x, nth_error h v = Some (ONode t' (STag i x))) ->
        step H h (OpSetSlice r a c v) = (h, Raise ETypeError))).
Proof.
  intros H h r v t k fs b xs a c lo hi Hr Hv Ht Hl Hp.
  assert (L : live h v = true) by (unfold live; now apply Nat.ltb_lt).
  assert (B : bound (length fs) 0 a = lo /\ Nat.max lo (bound (length fs) (Z.of_nat (length fs)) c) = hi).
  { destruct Hp as (Hlo & Hhi). unfold bound, clamp_index.
    change (1 <? 0) with false. cbv zeta. set (n := Z.of_nat (length fs)) in *. assert (0 <= n) by (unfold n; lia).
    split.
    - destruct a as [i|]; [|lia]. revert Hlo. destruct (Z.ltb_spec i 0); repeat match goal with |- context [?u <? ?w] => destruct (Z.ltb_spec u w) | |- context [?u <=? ?w] => destruct (Z.leb_spec u w) end; lia.
    - revert Hhi. destruct c as [i|]; [|lia]. destruct (Z.ltb_spec i 0); repeat match goal with |- context [?u <? ?w] => destruct (Z.ltb_spec u w) | |- context [?u <=? ?w] => destruct (Z.leb_spec u w) end; lia. }
  destruct B as (B1 & B2).
  assert (E : existsb (sub H (rtype h v)) (firstn (hi - lo) (skipn lo (types fs))) = true <->
              exists p m u, (lo <= p < hi)%nat /\ nth_error fs p = Some (m, u) /\ sub H (rtype h v) u = true).
  { rewrite existsb_exists. split.
    - intros (u & Hu & Hs). apply In_nth_error in Hu as (q & Hq).
      assert (Q : (q < hi - lo)%nat).
      { assert (q < length (firstn (hi - lo) (skipn lo (types fs))))%nat by (apply nth_error_Some; congruence).
        rewrite firstn_length in H0. lia. }
      rewrite nth_firstn_error in Hq by exact Q. rewrite nth_skipn_error in Hq.
      unfold types in Hq. rewrite nth_error_map in Hq. destruct (nth_error fs (lo + q)) as [[m u']|] eqn:F; [|discriminate].
      injection Hq as Hq. cbn in Hq. subst u'. exists (lo + q)%nat, m, u. split; [lia|]. split; [exact F|exact Hs].
    - intros (p & m & u & Hp1 & Hp2 & Hs). exists u. split; [|exact Hs].
      apply (nth_error_In _ (p - lo)). rewrite nth_firstn_error by lia. rewrite nth_skipn_error.
      replace (lo + (p - lo))%nat with p by lia. unfold types. rewrite nth_error_map, Hp2. reflexivity. }
  cbn [step]. rewrite L, Hr. unfold set_slice. rewrite Ht. cbv zeta. rewrite Hl, B1, B2.
  split.
  - intros N. destruct (existsb _ _) eqn:X; [|reflexivity]. exfalso. destruct (proj1 E eq_refl) as (p & m & u & P1 & P2 & P3).
    rewrite (N p m u P1 P2) in P3. discriminate.
  - intros Y. apply E in Y. rewrite Y. unfold iter_obj. split; [|split].
    + intros t' b' ys ->. reflexivity.
    + intros f k' n z ->. cbn [vec_leaf bind fst snd]. rewrite map_length. reflexivity.
    + intros [(f & z & ->)|[(n & ms & z & ->)|[(t' & x & ->)|(t' & i & x & ->)]]]; reflexivity.
Qed.

Lemma C40_attribute_pf : forall (X : Type) H (typ : X -> ty) t k fs b xs i m u x, node_of t = Some (k, fs) -> tuple_like k -> k <> KTuple ->
  twf t -> length xs = length fs -> nth_error fs i = Some (m, u) ->
  setattr H typ t (STup b xs) m x = setitem H typ t (STup b xs) (IxInt (Z.of_nat i)) x.
Proof.
  intros X H typ t k fs b xs i m u x En Hk Nk W El Ei. assert (N : NoDup (names fs)). { apply twf_kind in En; auto. destruct k; try contradiction; try tauto. exact (proj1 En). }
  assert (Em : index_of m (names fs) = Some i). { apply index_of_NoDup; auto. unfold names. now rewrite nth_error_map, Ei. }
  pose proof (assoc_index m fs) as A. unfold names in *. rewrite Em in A. destruct A as (u' & A1 & A2). assert (u' = u) by congruence. subst u'.
  assert (Q : (if isinstance H typ x u then tuple_setitem H typ fs xs (Z.of_nat i) x else Raise ETypeError) = tuple_setitem H typ fs xs (Z.of_nat i) x).
  { destruct (isinstance H typ x u) eqn:E; auto. unfold tuple_setitem. rewrite py_index_nat by (apply nth_error_Some; congruence). cbn [bind]. unfold types.
    rewrite (map_nth snd fs (EmptyString, TLeaf LObject) i : nth i (map snd fs) (TLeaf LObject) = _), (nth_error_nth _ _ _ Ei). cbn [snd]. now rewrite E. }
  unfold setattr, setitem. rewrite En. destruct k; try contradiction; try congruence; unfold names; rewrite Em, A1; exact Q.
Qed.

Lemma C41_value_dict_pf : forall H x k fs, vok H x -> node_of (vtype x) = Some (k, fs) ->
  exists d, value_dict H x = Ok d /\ length d = length fs /\ forall i key o, nth_error d i = Some (key, o) ->
    exists f, nth_error fs i = Some f /\
    key = match k with KTuple => VkPos i | KSum => VkTy (snd f) | _ => VkName (fst f) end /\
    match x with
    | VTup _ _ vs => o = nth_error vs i
    | VSum _ v => o = if sub H (vtype v) (snd f) then Some v else None
    | VTag _ j v => o = if Nat.eqb j i then Some v else None
    | VAtom _ _ => False
    end.
Proof.
  intros H x k fs V En. unfold value_dict. rewrite En. destruct V as [t k' fs' b vs En' Hk F|t fs' f v En' Hf S|t n y fs' i f v En' Hi S]; cbn [vtype] in En; rewrite En in En'.
  - injection En' as <- <-. pose proof (Forall2_length _ _ _ F) as El. rewrite El, mapM_nth. cbn [bind]. eexists. split; [reflexivity|].
    assert (Lk : length (tuple_keys k fs) = length fs). { destruct k; cbn; rewrite ?map_length, ?seq_length; auto; unfold names; now rewrite map_length. }
    split. { rewrite combine_length, map_length, Lk. lia. }
    intros i key o E. assert (Hi : (i < length fs)%nat). { assert (Q : nth_error (combine (tuple_keys k fs) (map Some vs)) i <> None) by congruence. apply nth_error_Some in Q. rewrite combine_length, map_length, Lk in Q. lia. }
    destruct (nth_error fs i) as [f|] eqn:Ef; [|apply nth_error_None in Ef; lia]. destruct (nth_error vs i) as [v|] eqn:Ev; [|apply nth_error_None in Ev; lia].
    exists f. split; auto. assert (E' : nth_error (combine (tuple_keys k fs) (map Some vs)) i = Some (match k with KTuple => VkPos i | KSum => VkTy (snd f) | _ => VkName (fst f) end, Some v)).
    { apply nth_error_combine; [|now rewrite nth_error_map, Ev]. destruct k; try contradiction; cbn [tuple_keys].
      - rewrite nth_error_map, nth_error_seq by auto. reflexivity.
      - unfold names. now rewrite map_map, nth_error_map, Ef.
      - unfold names. now rewrite map_map, nth_error_map, Ef. }
    rewrite E' in E. injection E as <- <-. auto.
  - injection En' as -> <-. eexists. split; [reflexivity|]. split. { rewrite map_length. apply types_length. }
    intros i key o E. unfold types in E. rewrite map_map, nth_error_map in E. destruct (nth_error fs i) as [g|]; [|discriminate]. cbn in E. injection E as <- <-. exists g. auto.
  - injection En' as -> <-. eexists. split; [reflexivity|]. split. { rewrite map_length, combine_length, seq_length. lia. }
    intros j key o E. rewrite nth_error_map in E. destruct (nth_error fs j) as [g|] eqn:Eg.
    + assert (Hj : (j < length fs)%nat) by (apply nth_error_Some; congruence).
      rewrite (nth_error_combine (seq 0 (length fs)) fs j j g) in E by (auto; now apply nth_error_seq). cbn in E. injection E as <- <-. exists g. auto.
    + destruct (nth_error (combine (seq 0 (length fs)) fs) j) eqn:Q; [|discriminate]. assert (Q' : nth_error (combine (seq 0 (length fs)) fs) j <> None) by congruence.
      apply nth_error_Some in Q'. rewrite combine_length, seq_length in Q'. apply nth_error_None in Eg. lia.
Qed.

Lemma C41_tuple_partial_pf : forall H L t vs, twf t -> vok H (VTup t true vs) -> leaf_refl L ->
  exists y, (d <- value_dict H (VTup t true vs) ;; from_values H t d) = Ok y /\ y = VTup t true vs /\ py_eq H L y (VTup t true vs) = Ok true.
Proof.
  intros H L t vs W V Hr. exists (VTup t true vs). split; [|split; auto; apply eq_refl_pf; auto]. inversion V as [t' k fs b vs' En Hk F| |]; subst. eapply tuple_round; eauto.
Qed.

Lemma C41_assigned_refuted_pf : forall H L t vs, twf t -> vok H (VTup t false vs) ->
  exists y, (d <- value_dict H (VTup t false vs) ;; from_values H t d) = Ok y /\ py_eq H L y (VTup t false vs) = Ok false.
Proof.
  intros H L t vs W V. exists (VTup t true vs). split. { inversion V as [t' k fs b vs' En Hk F| |]; subst. eapply tuple_round; eauto. }
  unfold py_eq. rewrite eq_exact_tup. reflexivity.
Qed.

Lemma C41_sum_partial_pf : forall H t fs v, twf t -> node_of t = Some (KSum, fs) -> vok H (VSum t v) ->
  ((d <- value_dict H (VSum t v) ;; from_values H t d) = Ok (VSum t v) <->
   In (vtype v) (types fs) /\ is_none v = false /\ forall u, In u (types fs) -> sub H (vtype v) u = true -> u = vtype v) /\
  ((d <- value_dict H (VSum t v) ;; from_values H t d) <> Ok (VSum t v) ->
   exists e, (d <- value_dict H (VSum t v) ;; from_values H t d) = Raise e).
Proof. intros H t fs v W En V. apply sum_round; auto. apply twf_kind in En; auto. destruct En as [_ S]. now apply before_NoDup. Qed.

Lemma C41_sum_refuted_pf : exists t v, twf t /\ vok nosub (VSum t v) /\ vcall nosub t [v] [] = Ok (VSum t v) /\
  (d <- value_dict nosub (VSum t v) ;; from_values nosub t d) = Raise EValueError.
Proof.
  exists sum_pp, (VTup point true [VAtom bv4 1; VAtom bv4 2]). split; [|split; [|split; vm_compute; reflexivity]].
  - constructor.
    + split; [repeat constructor|]. cbn [sum_pp]. rewrite types_unnamed. apply type_set_sorted.
    + repeat constructor.
      * cbn. intros [Q|[]]. discriminate.
      * cbn. auto.
      * discriminate.
  - econstructor; [reflexivity|left; reflexivity|]. vm_compute. reflexivity.
Qed.

Lemma C41_tag_partial_pf : forall H t i v, twf t -> vok H (VTag t i v) ->
  (is_none v = false -> (d <- value_dict H (VTag t i v) ;; from_values H t d) = Ok (VTag t i v)) /\
  (is_none v = true -> (d <- value_dict H (VTag t i v) ;; from_values H t d) = Raise EValueError).
Proof.
  intros H t i v W V. inversion V as [| |t' n x fs i' f v' En Hi S]; subst. destruct (twf_kind _ _ _ W En) as (N & _). eapply tag_round; eauto.
Qed.

Lemma C41_tag_refuted_pf : exists t i v, twf t /\ vok nosub (VTag t i v) /\ vcall nosub t [] [("a"%string, v)] = Ok (VTag t i v) /\
  (d <- value_dict nosub (VTag t i v) ;; from_values nosub t d) = Raise EValueError.
Proof.
  exists (TNode (KTag "U" 0) [] [("a"%string, none_t); ("b"%string, bit)]), 0%nat, (VAtom none_t 0). split; [|split; [|split; vm_compute; reflexivity]].
  - constructor; [|repeat constructor]. cbn. split; [|split; [discriminate|repeat constructor]]. constructor; [|repeat constructor; auto]. intros [Q|[]]. discriminate.
  - econstructor; [reflexivity|reflexivity|]. vm_compute. reflexivity.
Qed.

Lemma C42_enumerate_partial_pf : forall H t, twf t -> enum_based t = true ->
  exists l, enumerate H t = Ok l /\ NoDup l /\ length l = cardinal t /\ forall v, In v l <-> exact t v.
Proof. intros H t W B. apply enum_spec; auto. Qed.

Lemma C42_modified_refuted_pf : exists m n ms, enumerate nosub (TMod m (TEnum n ms)) = Ok (map (VAtom (TEnum n ms)) [0; 1]) /\
  (forall v, In v (map (VAtom (TEnum n ms)) [0; 1]) -> sub nosub (vtype v) (TMod m (TEnum n ms)) = false) /\
  enumerate nosub (TNode KTuple [] (unnamed [TMod m (TEnum n ms)])) = Raise ETypeError.
Proof.
  exists 1, "Color"%string, [("blue"%string, EInt 1); ("red"%string, EInt 0)]. split; [vm_compute; reflexivity|]. split; [|vm_compute; reflexivity].
  intros v [<-|[<-|[]]]; vm_compute; reflexivity.
Qed.

Lemma C42_tuple_of_vectors_pf : forall H k u fs, tuple_like k -> (forall f, In f fs -> plain_leaf (snd f) = true) ->
  enumerate H (TNode k u fs) = Ok [VTup (TNode k u fs) true (map (fun f => VAtom (snd f) 0) fs)].
Proof.
  intros H k u fs Hk P. unfold enumerate. cbn [enum_as].
  assert (L0 : forall t, plain_leaf t = true -> is_adt t = false /\ forall c, leaf_call0 c t = Ok (VAtom c 0)).
  { induction t as [l|?|?|m t IH]; cbn; intros Q; try discriminate; auto. split; auto. intros c.
    destruct l as [f kd [w|]|f| | | |]; try discriminate; apply Z.eqb_eq in Q; now subst. }
  assert (E : sequence (map (fun f : string * ty => if is_adt (snd f) then enum_as H (snd f) (snd f) else rmap (fun v => [v]) (leaf_call0 (snd f) (snd f))) fs)
    = Ok (map (fun f => [VAtom (snd f) 0]) fs)).
  { rewrite sequence_map, (mapM_ext _ (fun f => Ok [VAtom (snd f) 0])), mapM_ok; auto.
    intros f Hf. destruct (L0 _ (P f Hf)) as [-> E]. rewrite E. reflexivity. }
  assert (Q : product (map (fun f : string * ty => [VAtom (snd f) 0]) fs) = [map (fun f => VAtom (snd f) 0) fs]).
  { clear. induction fs as [|f fs IH]; cbn [map product flat_map]; auto. rewrite IH. reflexivity. }
  assert (V : vcall H (TNode k u fs) (map (fun f => VAtom (snd f) 0) fs) [] = Ok (VTup (TNode k u fs) true (map (fun f => VAtom (snd f) 0) fs))).
  { apply vcall_tuple with (k := k) (fs := fs); auto. clear. induction fs as [|f fs IH]; constructor; auto. cbn [vtype]. apply sub_refl. }
  destruct k; try contradiction; rewrite E; cbn [bind]; rewrite Q; cbn [mapM bind]; rewrite V; reflexivity.
Qed.

Lemma C42_union_of_vectors_pf : forall H k u fs, k = KSum \/ (exists n x, k = KTag n x) ->
  (forall f, In f fs -> plain_leaf (snd f) = true \/ (twf (snd f) /\ enum_based (snd f) = true)) ->
  (exists f, In f fs /\ plain_leaf (snd f) = true) ->
  enumerate H (TNode k u fs) = Raise ETypeError.
Proof.
  intros H k u fs Hk P (f & Hf & Pf). unfold enumerate. cbn [enum_as].
  assert (L0 : forall t, plain_leaf t = true -> is_adt t = false /\ leaf_call t = Raise ETypeError).
  { induction t as [l|?|?|m t IH]; cbn; intros Q; try discriminate; auto. split; auto.
    destruct l as [g kd [w|]|g| | | |]; try discriminate; reflexivity. }
  assert (G : forall g, In g fs -> (exists l, (if is_adt (snd g) then enum_as H (snd g) (snd g) else rmap (fun v => [v]) (leaf_call (snd g))) = Ok l) \/
    (if is_adt (snd g) then enum_as H (snd g) (snd g) else rmap (fun v => [v]) (leaf_call (snd g))) = Raise ETypeError).
  { intros g Hg. destruct (P g Hg) as [Q|[W B]].
    - right. destruct (L0 _ Q) as [-> ->]. reflexivity.
    - left. rewrite (enum_based_adt _ B). destruct (enum_spec H (snd g) W B (snd g) eq_refl (fun _ => eq_refl)) as (l & E & _). eauto. }
  assert (R : forall (X : Type) (h : string * ty -> res X), (forall g, In g fs -> (exists l, h g = Ok l) \/ h g = Raise ETypeError) -> h f = Raise ETypeError -> sequence (map h fs) = Raise ETypeError).
  { clear - Hf. intros X h A E. rewrite sequence_map. induction fs as [|g fs IH]; [contradiction|]. cbn [mapM].
    destruct (A g (or_introl eq_refl)) as [[l Q]|Q]; rewrite Q; cbn [bind]; auto.
    destruct Hf as [->|Hf]; [congruence|]. rewrite IH; auto. intros g' Hg'. apply A. now right. }
  destruct (L0 _ Pf) as [Ef Ec]. destruct Hk as [->|(n & x & ->)].
  - rewrite R; auto. now rewrite Ef, Ec.
  - rewrite R; auto.
    + intros g Hg. destruct (G g Hg) as [[l Q]|Q]; rewrite Q; cbn [bind]; eauto.
    + now rewrite Ef, Ec.
Qed.

Lemma C43_match_pf : forall (X : Type) H (typ : X -> ty) t fs x u, node_of t = Some (KSum, fs) ->
  (In u (types fs) -> exists b, sum_get H typ t (SSum x) u = Ok (b, x) /\ (b = true <-> sub H (typ x) u = true) /\
    match_value (b, x) = if b then Ok x else Raise ETypeError) /\
  (~ In u (types fs) -> sum_get H typ t (SSum x) u = Raise ETypeError).
Proof.
  intros X H typ t fs x u En. unfold sum_get. rewrite En. split; intros Q.
  - apply existsb_ty in Q. rewrite Q. exists (sub H (typ x) u). split; [reflexivity|]. split; reflexivity.
  - apply existsb_ty_false in Q. now rewrite Q.
Qed.

Lemma C43_one_partial_pf : forall H t fs v u, node_of t = Some (KSum, fs) -> vcall H t [v] [] = Ok (VSum t v) ->
  (forall f g, In f fs -> In g fs -> sub H (snd f) (snd g) = true -> snd f = snd g) -> In u (types fs) ->
  (sum_get H vtype t (SSum v) u = Ok (true, v) <-> u = vtype v).
Proof.
  intros H t fs v u En Ec Sp Hu. rewrite (vcall_sum _ _ _ _ En) in Ec. destruct (existsb _ _) eqn:E; [|discriminate]. apply existsb_ty in E.
  unfold sum_get. rewrite En. pose proof Hu as Hu'. apply existsb_ty in Hu'. rewrite Hu'. unfold isinstance. split.
  - intros Q. injection Q as Q. unfold types in *. apply in_map_iff in E as (f & Ef & Hf), Hu as (g & Eg & Hg). rewrite <- Ef, <- Eg in *. symmetry. now apply Sp.
  - intros ->. now rewrite sub_refl.
Qed.

Lemma C43_refuted_pf : exists t v, vcall nosub t [v] [] = Ok (VSum t v) /\
  exists u w, u <> w /\ sum_get nosub vtype t (SSum v) u = Ok (true, v) /\ sum_get nosub vtype t (SSum v) w = Ok (true, v).
Proof.
  exists sum_pp, (VTup point true [VAtom bv4 1; VAtom bv4 2]). split; [vm_compute; reflexivity|]. exists pair4, point. split; [discriminate|]. split; vm_compute; reflexivity.
Qed.

Lemma C44_last_assigned_pf : forall H l0 l r t n x fs s, let h := run H [] l0 in
  nth_error h r = Some (ONode t s) -> node_of t = Some (KTag n x, fs) -> twf t ->
  exists s' m v, nth_error (run H h l) r = Some (ONode t s') /\ In m (names fs) /\
    (forall m', In m' (names fs) -> tag_get t s' m' = Ok (String.eqb m' m, v)) /\
    match last_set H h l r with
    | Some p => p = (m, v)
    | None => forall m', tag_get t s' m' = tag_get t s m'
    end.
Proof.
  intros H l0 l r t n x fs s h E En W. assert (A : all_shaped h). { apply run_shaped. intros r' t' s' Q. destruct r'; discriminate. }
  clearbody h. destruct (twf_kind _ _ _ W En) as (N & _). revert h s E A. induction l as [|o l IH]; intros h s E A.
  - cbn [run fold_left last_set]. pose proof (A _ _ _ E) as S. unfold shaped in S. rewrite En in S. destruct S as (i & v & f & -> & Hi).
    exists (STag i v), (fst f), v. split; auto. split; [apply in_map, nth_error_In with i; auto|]. split; auto.
    intros m' Hm'. unfold tag_get. rewrite En. destruct (index_of m' (names fs)) as [j|] eqn:Ej; [|now apply index_of_None in Ej].
    f_equal. f_equal. apply index_of_nth in Ej. unfold names in Ej. rewrite nth_error_map in Ej. destruct (nth_error fs j) as [g|] eqn:Eg; [|discriminate]. cbn in Ej. injection Ej as <-.
    destruct (Nat.eqb_spec i j) as [->|Nij]. { assert (f = g) by congruence. subst. now rewrite String.eqb_refl. }
    destruct (String.eqb_spec (fst g) (fst f)) as [Q|Q]; auto. destruct Nij. apply (NoDup_nth_error (names fs)); auto.
    + apply nth_error_Some. unfold names. rewrite nth_error_map, Hi. discriminate.
    + unfold names. rewrite !nth_error_map, Hi, Eg. cbn. congruence.
  - set (h1 := fst (step H h o)). assert (A1 : all_shaped h1) by now apply step_shaped.
    destruct (step_extends H h o _ _ E) as (o1 & E1 & T1). fold h1 in E1.
    destruct o1 as [? ?|t1 s1].
    { exfalso. unfold h1 in E1. destruct (tag_step_node H h o r t s E) as (s2 & E2). rewrite E2 in E1. discriminate. }
    cbn in T1. subst t1.
    destruct (IH h1 s1 E1 A1) as (s' & m & v & R1 & R2 & R3 & R4). exists s', m, v. split; [exact R1|]. split; auto. split; auto.
    cbn [last_set]. fold h1. destruct (last_set H h1 l r) as [p|]; auto.
    pose proof (A _ _ _ E) as S. unfold shaped in S. rewrite En in S. destruct S as (i & w & f & -> & Hi).
    destruct (tag_step H h o r t n x fs i w s1 E En E1) as [(E2 & Nset)|(m1 & w1 & -> & Ok1 & Hs1)].
    + subst s1. destruct o as [| | | | |r' n0 v0]; try exact R4. destruct (snd (step H h (OpSetAttr r' n0 v0))) as [q|] eqn:Q; auto.
      destruct (Nat.eqb_spec r r') as [<-|]; auto. now destruct (Nset n0 v0 q eq_refl).
    + rewrite Ok1. rewrite Nat.eqb_refl. destruct Hs1 as (j & -> & Hj).
      assert (Hm : forall m', tag_get t s' m' = tag_get t (STag j w1) m') by exact R4.
      specialize (R3 m1). assert (In1 : In m1 (names fs)) by (apply nth_error_In with j; now apply index_of_nth). specialize (R3 In1).
      rewrite Hm in R3. unfold tag_get in R3. rewrite En, Hj, Nat.eqb_refl in R3. injection R3 as R3 ->.
      symmetry in R3. apply String.eqb_eq in R3. now subst.
Qed.

Lemma C44_constructed_pf : forall (X : Type) H (typ : X -> ty) t n x fs m v s, node_of t = Some (KTag n x, fs) -> twf t ->
  call H typ t [] [(m, v)] = Ok s -> forall m', In m' (names fs) -> tag_get t s m' = Ok (String.eqb m' m, v).
Proof.
  intros X H typ t n x fs m v s En W Ec m' Hm'. destruct (twf_kind _ _ _ W En) as (N & _). unfold call in Ec. rewrite En in Ec. unfold tag_init in Ec.
  destruct (assoc m fs); [|discriminate]. apply tag_set_ok in Ec as (i & u & -> & Ei & _). unfold tag_get. rewrite En.
  destruct (index_of m' (names fs)) as [j|] eqn:Ej; [|now apply index_of_None in Ej]. f_equal. f_equal. apply index_of_nth in Ei. apply index_of_nth in Ej.
  destruct (Nat.eqb_spec i j) as [->|Nij], (String.eqb_spec m' m) as [->|Q]; auto; [congruence|].
  destruct Nij. apply (NoDup_nth_error (names fs)); auto; [|congruence]. apply nth_error_Some. congruence.
Qed.

Lemma C45_reflexive_pf : forall H L, leaf_refl L -> forall a, py_eq H L a a = Ok true.
Proof. intros H L Hr a. apply eq_refl_pf, Hr. Qed.

Lemma C45_symmetric_pf : forall H L, leaf_sym L -> forall a b, py_eq H L a b = py_eq H L b a.
Proof. intros H L Hs a b. apply eq_sym_pf, Hs. Qed.

Lemma C45_transitive_partial_pf : forall H L, leaf_trans L -> forall t a b c, flat H L t -> exact t a -> exact t b -> exact t c ->
  py_eq H L a b = Ok true -> py_eq H L b c = Ok true -> py_eq H L a c = Ok true.
Proof. intros H L Ht t a b c Fl Ea Eb Ec. apply (eq_trans_pf H L Ht a t Fl Ea b c false Eb Ec). Qed.

Lemma C45_transitive_refuted_pf : forall L, leaf_refl L -> exists a b c, vok nosub a /\ vok nosub b /\ vok nosub c /\
  py_eq nosub L a b = Ok true /\ py_eq nosub L b c = Ok true /\ py_eq nosub L a c = Ok false.
Proof.
  intros L Hr. exists (VTup point true [VAtom bv4 1; VAtom bv4 2]), (VTup pair4 true [VAtom bv4 1; VAtom bv4 2]), (VTup size2 true [VAtom bv4 1; VAtom bv4 2]).
  do 3 (split; [econstructor; [reflexivity|exact I|repeat constructor]|]).
  assert (E : all_eq (eq_sw nosub L true) [VAtom bv4 1; VAtom bv4 2] [VAtom bv4 1; VAtom bv4 2] = Ok true) by (apply all_eq_true; repeat constructor; apply eq_refl_pf; auto).
  assert (E' : all_eq (eq_sw nosub L false) [VAtom bv4 1; VAtom bv4 2] [VAtom bv4 1; VAtom bv4 2] = Ok true) by (apply all_eq_true; repeat constructor; apply eq_refl_pf; auto).
  assert (S1 : sub nosub pair4 point = false) by (vm_compute; reflexivity). assert (S2 : sub nosub point pair4 = true) by (vm_compute; reflexivity).
  assert (S3 : sub nosub size2 pair4 = true) by (vm_compute; reflexivity). assert (S4 : sub nosub size2 point = false) by (vm_compute; reflexivity).
  assert (S5 : sub nosub point size2 = false) by (vm_compute; reflexivity).
  split; [|split]; unfold py_eq; cbn [eq_sw vtype]; rewrite ?S1, ?S2, ?S3, ?S4, ?S5; cbn [orb negb Bool.eqb]; auto.
Qed.

Lemma C45_hash_partial_pf : forall H L K, leaf_hash L K -> leaf_sym L -> forall t a b, flat H L t -> exact t a -> exact t b ->
  py_eq H L a b = Ok true -> py_hash K a = py_hash K b.
Proof. intros H L K Hh Hs t a b Fl Ea Eb. apply (eq_hash_pf H L K Hh Hs a t Fl Ea b false Eb). Qed.

Lemma C45_hash_refuted_pf : forall L K, leaf_refl L -> h_int K 1 = 1 -> (forall z, h_int K (h_int K z) = h_int K z) -> forall z, h_atom K bv4 5 = Ok z -> h_int K z <> h_int K (1 + z) ->
  exists a b p q, vok nosub a /\ vok nosub b /\ py_eq nosub L a b = Ok true /\ py_hash K a = Ok p /\ py_hash K b = Ok q /\ p <> q.
Proof.
  intros L K Hr K1 K2 z Hz Hn. set (s := TNode KSum [] (unnamed (type_set [bv4; bv4; col]))).
  exists (VSum s (VAtom bv4 5)), (VTag tagged 1 (VAtom bv4 5)), (h_int K z), (h_int K (1 + z)).
  split; [econstructor; [reflexivity|left; reflexivity|vm_compute; reflexivity]|]. split; [econstructor; [reflexivity|reflexivity|vm_compute; reflexivity]|].
  split; [|split; [|split]].
  - unfold py_eq. assert (S1 : sub nosub tagged s = true) by (vm_compute; reflexivity). cbn [eq_sw vtype]. rewrite S1. cbn [orb atom_eq bv4]. apply Hr.
  - cbn [py_hash bv4]. fold bv4. now rewrite Hz.
  - cbn [py_hash bv4]. fold bv4. rewrite Hz. cbn [rmap]. change (Z.of_nat 1) with 1. now rewrite K1.
  - exact Hn.
Qed.
