(** Proofs of the theorems stated in RebindProps.v. *)
From Coq Require Import Permutation Sorted.
From Verif Require Import PyBase BVModel ADTTy ADTModel ADTSpec RebindModel RebindSpec.
(*P*)
From Verif Require Import ADTTyFacts ADTFacts RebindFacts RebindBVFacts RebindTypeFacts StripFacts RebindCheck RebindKeepFacts.
(*/P*)

Lemma C47_rebind_partial_pf : forall H mn A B st t, twf t -> plain t -> node_of t <> None ->
  exists t', rebind H mn A B st true t = Ok t' /\ replaced_below (to_type (matches H A st) B) t t'.
Proof. intros H mn A B st t.
  intros W P N. destruct (plain_cases _ P) as [E|(k & u & fs & ->)]; [contradiction|]. rewrite rebind_ok by assumption.
  eexists. split; [reflexivity|]. exists k, u, fs. eexists. split; [reflexivity|]. split; [|apply renode_refielded].
  apply on_fields_Forall2. intros a I. cbn [fst snd]. split; auto. apply image_replaced; [apply hitg_spec|].
  intros _. destruct (plain_node_inv _ _ _ P) as [_ F]. rewrite Forall_forall in F. auto.
Qed.

Lemma C47_shallow_partial_pf : forall H mn A B k u fs, twf (TNode k u fs) -> k <> KAnon ->
  exists gs t', rebind H mn A B false false (TNode k u fs) = Ok t' /\ refielded k u fs gs t' /\
    Forall2 (fun a b => fst a = fst b /\ (snd a = A /\ snd b = B \/ snd a <> A /\ snd b = snd a)) fs gs.
Proof. intros H mn A B k u fs.
  intros W N. destruct (twf_node_inv _ _ _ W) as [K _]. rewrite rebind_shallow by assumption.
  do 2 eexists. split; [reflexivity|]. split; [apply renode_refielded|].
  apply on_fields_Forall2. intros a I. cbn [fst snd]. split; auto. destruct (ty_eqb_spec (snd a) A); auto.
Qed.

Lemma C47_same_partial_pf : forall H mn A t, twf t -> plain t -> node_of t <> None -> rebind H mn A A false true t = Ok t.
Proof. intros H mn A t.
  intros W P N. destruct (plain_cases _ P) as [E|(k & u & fs & ->)]; [contradiction|]. rewrite rebind_ok by assumption. f_equal.
  assert (X : forall s, plain s -> image false (hitg H A A false) s = s).
  { induction s as [l|n ms|k' u' fs' IH|m s IH] using ty_ind'; intros Q; cbn [image]; unfold hitg at 1, hit; cbn [andb]; rewrite orb_false_r;
      match goal with |- context [ty_eqb ?s ?b] => destruct (ty_eqb_spec s b); cbn [or_else]; auto end.
    destruct (plain_node_inv _ _ _ Q) as [_ F]. fold (on_fields (image false (hitg H A A false)) fs'). rewrite on_fields_id, renode_id; auto.
    intros a I. rewrite Forall_forall in *. auto. }
  destruct (plain_node_inv _ _ _ P) as [_ F]. rewrite on_fields_id, renode_id; auto. intros a I. rewrite Forall_forall in *. auto.
Qed.

Lemma C47_absent_partial_pf : forall H mn A B st t, twf t -> plain t -> node_of t <> None -> ~ occurs (matches H A st) t ->
  rebind H mn A B st true t = Ok t.
Proof. intros H mn A B st t.
  intros W P N O. destruct (plain_cases _ P) as [E|(k & u & fs & ->)]; [contradiction|]. rewrite rebind_ok by assumption. f_equal.
  destruct (plain_node_inv _ _ _ P) as [_ F]. rewrite on_fields_id, renode_id; auto. intros a I. rewrite Forall_forall in *.
  assert (Q : forall s, (matches H A st s \/ occurs (matches H A st) s) -> ~ (exists b, In b fs /\ snd b = s)).
  { intros s Y (b & J & <-). apply O, occurs_node. eauto. }
  apply image_id; auto.
  - apply hitg_None. intros M. apply (Q (snd a)); eauto.
  - intros Y. apply (Q (snd a)); [right|eauto]. revert Y. clear. generalize (snd a) as s. induction s as [l|n ms|k u fs IH|m s IH] using ty_ind'; intros Y.
    + now apply occurs_atom in Y.
    + now apply occurs_atom in Y.
    + apply occurs_node in Y as (b & J & [Y|Y]); apply occurs_node; exists b; split; auto; [left|right; rewrite Forall_forall in IH; auto].
      pose proof (hitg_spec H A B st (snd b)) as S. destruct (hitg H A B st (snd b)); [now destruct S|easy].
    + inversion Y as [? k fs f E J Z|? k fs f E J Z]; subst; cbn [node_of] in E.
      * pose proof (IH (occ_here _ _ _ _ _ E J Z)) as X. inversion X; subst; [eapply occ_here|eapply occ_deep]; eauto.
      * pose proof (IH (occ_deep _ _ _ _ _ E J Z)) as X. inversion X; subst; [eapply occ_here|eapply occ_deep]; eauto.
Qed.

Lemma C47_gone_partial_pf : forall H mn A B st t t', twf t -> plain t -> node_of A = None -> A <> TLeaf LObject ->
  ~ matches H A st B -> ~ occurs (matches H A st) B -> rebind H mn A B st true t = Ok t' -> ~ occurs (matches H A st) t'.
Proof. intros H mn A B st t t'.
  intros W P N O NB OB. destruct (plain_cases _ P) as [E|(k & u & fs & ->)].
  { unfold rebind. destruct (is_adt t); [|discriminate]. rewrite new_fields_atom by assumption. cbn [bind]. rewrite bind_again_atom by assumption. intros X; inversion X; subst.
    now apply occurs_atom. }
  rewrite rebind_ok by assumption. intros E; inversion E; subst t'; clear E.
  assert (G : forall k u fs, hitg H A B st (TNode k u fs) = None).
  { intros. apply hitg_None. intros [<-|[_ S]]; [discriminate|]. cbn [sub] in S. rewrite !orb_true_iff in S. destruct S as [[S|S]|S].
    - apply ty_eqb_eq in S. subst A. discriminate.
    - destruct A as [[]| | |]; try discriminate. congruence.
    - destruct A; try discriminate. }
  pose proof (image_gone (matches H A st) (hitg H A B st) (TNode k u fs)) as X. cbn [image] in X. rewrite G in X. apply X; auto.
  - intros s M E. now apply hitg_None in E.
  - intros s s' E. pose proof (hitg_spec H A B st s) as S. rewrite E in S. destruct S as [_ ->]. auto.
Qed.

Lemma C47_modified_refuted_pf : ~ (forall H mn A t, twf t -> node_of t <> None -> rebind H mn A A false true t = Ok t).
Proof.
  intros X. specialize (X nosub mname bv4 mtuple). cbv in X.
  assert (W : twf mtuple) by (repeat constructor). assert (E := X W ltac:(discriminate)). discriminate.
Qed.

Lemma C47_anonymous_refuted_pf : ~ (forall H mn A t, twf t -> node_of t <> None -> exists t', rebind H mn A A false true t = Ok t').
Proof.
  intros X. destruct (X nosub mname bit anon4) as [t' E]; [repeat constructor; easy|discriminate|]. vm_compute in E. discriminate.
Qed.

Lemma C47_methods_refuted_pf : ~ (forall H mn A B k u fs, twf (TNode k u fs) -> exists gs, rebind H mn A B false true (TNode k u fs) = Ok (TNode k u gs)).
Proof.
  intros X. destruct (X nosub mname bv4 bit (KProd "P" 7) [] [("x"%string, bv4)]) as [gs E].
  - apply twf_node; [split; [repeat constructor; easy|discriminate]|repeat constructor].
  - vm_compute in E. discriminate.
Qed.

Lemma C47_ex_lemma : twf nested /\ plain nested /\ ~ matches nosub bv4 false bv8 /\ ~ occurs (matches nosub bv4 false) bv8 /\
  ~ occurs (matches nosub none_t true) nested.
Proof.
  split; [apply twfb_ok; vm_compute; reflexivity|]. split; [apply plainb_ok; vm_compute; reflexivity|].
  split; [apply not_matches; vm_compute; reflexivity|]. split; apply not_occurs; vm_compute; reflexivity.
Qed.

Lemma C48_rebind_bitvector_partial_pf : forall H mn iter X f k t, vector_class X -> (forall l, Permutation (iter l) l) ->
  twf t -> plain t ->
  exists t', rebind_bitvector H mn iter X f k false t = Ok t' /\ replaced (to_vector H X f k) false t t'.
Proof. intros H mn iter X f k t.
  intros V I W P. rewrite rebind_bitvector_ok; auto; [|discriminate]. eexists. split; [reflexivity|].
  apply image_replaced; auto. now apply gv_spec.
Qed.

Lemma C48_keep_modifiers_partial_pf : forall H mn iter X f k t, vector_class X -> (forall l, Permutation (iter l) l) ->
  twf t -> plain_mod t ->
  exists t', rebind_bitvector H mn iter X f k true t = Ok t' /\ replaced (to_vector H X f k) true t t'.
Proof. intros H mn iter X f k t.
  intros V I W P. rewrite rebind_bitvector_ok; auto; [|discriminate]. eexists. split; [reflexivity|].
  apply image_replaced; [now apply gv_spec|discriminate].
Qed.

Lemma C48_unwrap_pf : forall H mn iter X f k t, rebind_bitvector H mn iter X f k true t =
  let '(s, ms) := unwrap t in r <- rebind_bitvector H mn iter X f k true s ;; wrap r ms.
Proof. exact bv_unwrap. Qed.

Lemma C48_order_partial_pf : forall H mn iter iter' X f k (keep : bool) t, vector_class X -> (forall l, Permutation (iter l) l) ->
  (forall l, Permutation (iter' l) l) -> twf t -> (if keep then plain_mod t else plain t) ->
  rebind_bitvector H mn iter X f k keep t = rebind_bitvector H mn iter' X f k keep t.
Proof. intros H mn iter iter' X f k keep t. intros V I I' W P. rewrite !rebind_bitvector_ok; auto; intros ->; auto. Qed.

Lemma C48_idempotent_partial_pf : forall H mn iter X f k t t', vector_class X -> (forall l, Permutation (iter l) l) ->
  twf t -> plain t -> rebind_bitvector H mn iter X f k false t = Ok t' -> rebind_bitvector H mn iter X f k false t' = Ok t'.
Proof. intros H mn iter X f k t t'.
  intros V I W P. rewrite rebind_bitvector_ok; auto; [|discriminate]. intros E; inversion E; subst t'; clear E.
  rewrite rebind_bitvector_ok; auto.
  - f_equal. now apply image_twice.
  - apply twf_image; auto. apply gv_twf.
  - intros _. apply plain_image; auto. apply gv_plain.
  - discriminate.
Qed.

Lemma C48_modified_refuted_pf : ~ (forall H mn iter X f k t, vector_class X -> (forall l, Permutation (iter l) l) -> twf t ->
  plain_mod t -> exists t', rebind_bitvector H mn iter X f k false t = Ok t' /\ replaced (to_vector H X f k) true t t').
Proof.
  intros C. destruct (C nosub mname (fun l => l) (TLeaf LAbsVec) 1 KBV (TMod 1 bv4)) as (t' & E & R); [now left|intros; apply Permutation_refl|repeat constructor|repeat constructor; easy|].
  vm_compute in E. inversion E; subst. inversion R; subst. now elim (H eq_refl 1 bv4).
Qed.

Lemma C48_anonymous_refuted_pf : ~ (forall H mn iter X f k t, vector_class X -> (forall l, Permutation (iter l) l) -> twf t ->
  exists t', rebind_bitvector H mn iter X f k false t = Ok t').
Proof.
  intros C. destruct (C nosub mname (fun l => l) (TLeaf LAbsVec) 1 KBV anon4) as (t' & E); [now left|intros; apply Permutation_refl|repeat constructor; easy|].
  vm_compute in E. discriminate.
Qed.

Lemma C48_ex_lemma : twf nested /\ plain nested /\ twf nested_mod /\ plain_mod nested_mod.
Proof.
  split; [apply twfb_ok; vm_compute; reflexivity|]. split; [apply plainb_ok; vm_compute; reflexivity|].
  split; [apply twfb_ok; vm_compute; reflexivity|apply plain_modb_ok; vm_compute; reflexivity].
Qed.

Lemma C49_rebind_type_partial_pf : forall H mn iter f t, (forall l, Permutation (iter l) l) -> twf t -> plain t -> bare t ->
  (forall m s, t <> TMod m s) ->
  exists t', rebind_type H mn iter f t = Ok t' /\ replaced (to_family H f) false t t'.
Proof. intros H mn iter f t.
  intros I W P B M. rewrite rebind_type_ok by assumption. eexists. split; [reflexivity|]. rewrite fam_image by assumption.
  apply image_replaced; auto. apply gfam_spec.
Qed.

Lemma C49_round_trip_partial_pf : forall H mn iter f g t, (forall l, Permutation (iter l) l) -> twf t -> over f t ->
  exists t', rebind_type H mn iter g t = Ok t' /\ over g t' /\ rebind_type H mn iter f t' = Ok t.
Proof. intros H mn iter f g t.
  intros I W O. destruct (fam_over H f g t O W) as [O' E].
  rewrite rebind_type_ok; [|assumption|now apply (over_plain f)|assumption|now apply (over_not_mod f)]. eexists. split; [reflexivity|]. split; auto.
  rewrite rebind_type_ok; [now rewrite E|assumption|now apply (over_plain g)|now apply fam_twf|now apply (over_not_mod g)].
Qed.

Lemma C49_modified_refuted_pf : forall H mn iter f m t, rebind_type H mn iter f (TMod m t) = Raise ENameError.
Proof. reflexivity. Qed.

Lemma C49_nested_modifier_refuted_pf : ~ (forall H mn iter f g t t', (forall l, Permutation (iter l) l) -> twf t ->
  rebind_type H mn iter g t = Ok t' -> over g t' -> rebind_type H mn iter f t' = Ok t).
Proof.
  intros C. specialize (C nosub mname (fun l => l) 0 1 (TNode KTuple [] (unnamed [TMod 1 bv4])) (TNode KTuple [] (unnamed [TLeaf (LVec 1 KBV (Some 4))]))).
  assert (E : rebind_type nosub mname (fun l => l) 0 (TNode KTuple [] (unnamed [TLeaf (LVec 1 KBV (Some 4))])) = Ok (TNode KTuple [] (unnamed [TMod 1 bv4]))); [|vm_compute in E; discriminate].
  apply C; [auto|repeat constructor|vm_compute; reflexivity|apply overb_ok; vm_compute; reflexivity].
Qed.

Lemma C49_signed_refuted_pf : forall H mn iter, rebind_type H mn iter 0 (TLeaf (LVec 0 KSInt (Some 4))) = Ok bv4.
Proof. reflexivity. Qed.

Lemma C49_ex_lemma : let t := TNode (KProd "N" 0) [] [("a"%string, pair4); ("b"%string, TNode KSum [] (unnamed (type_set [bv4; bit; col])))] in
  twf t /\ over 0 t.
Proof. split; [apply twfb_ok|apply overb_ok]; vm_compute; reflexivity. Qed.

Lemma C51_strip_partial_pf : forall mn t, twf t -> bound_only t ->
  exists t', strip mn t = Ok t' /\ modifier_free t' /\ erased t t' /\ strip mn t' = Ok t'.
Proof. intros mn t.
  intros W B. exists (erase t). rewrite !strip_ok; auto using erase_bound. split; [reflexivity|]. split; [now apply erase_free|].
  split; [apply erase_erased|]. f_equal. apply erase_id; [now apply erase_twf|now apply erase_free].
Qed.

Lemma C51_unwrap_pf : forall mn t, strip mn t = strip mn (fst (unwrap t)).
Proof. exact strip_unwrap. Qed.

Lemma C51_unmodified_partial_pf : forall mn t, twf t -> bound_only t -> modifier_free t -> strip mn t = Ok t.
Proof. intros mn t. intros W B M. rewrite strip_ok by assumption. f_equal. now apply erase_id. Qed.

Lemma C51_unbound_refuted_pf : strip mname (TNode KTuple [1] (unnamed [bv4])) = Ok (TNode KTuple [1] (unnamed [bv4])) /\
  sub nosub (TNode KTuple [1] (unnamed [bv4])) (TNode KTuple [] (unnamed [bv4])) = true /\ ~ modifier_free (TNode KTuple [1] (unnamed [bv4])).
Proof. split; [reflexivity|]. split; [reflexivity|]. intros M. inversion M. Qed.

Lemma C51_anonymous_refuted_pf : modifier_free anon4 /\ strip mname anon4 = Raise ETypeError.
Proof. split; [repeat constructor|reflexivity]. Qed.

Lemma C51_methods_refuted_pf : modifier_free with_method /\ exists t', strip mname with_method = Ok t' /\ t' <> with_method.
Proof. split; [repeat constructor|]. eexists. split; [reflexivity|discriminate]. Qed.

Lemma C51_ex_lemma : twf nested_mod /\ bound_only nested_mod.
Proof. split; [apply twfb_ok|apply boundb_ok]; vm_compute; reflexivity. Qed.

Lemma C52_push_partial_pf : forall mn t, bound_only t -> (forall p l ms, leaf_at t p l ms -> NoDup ms) ->
  exists t', push mn t [] = Ok t' /\ mods_on_leaves t' /\ (forall p l ms, leaf_at t' p l ms <-> leaf_at t p l ms).
Proof. intros mn t.
  intros B N. exists (pushed t []). split; [|split].
  - apply push_ok; auto. intros p l ms L. rewrite app_nil_r. eauto.
  - now apply pushed_on_leaves.
  - intros p l ms. rewrite leaf_pushed. split; [intros (r & L & ->); now rewrite app_nil_r|]. intros L. exists ms. now rewrite app_nil_r.
Qed.

Lemma C52_repeated_pf : forall mn t p l ms, bound_only t -> leaf_at t p l ms -> ~ NoDup ms -> push mn t [] = Raise ETypeError.
Proof. intros mn t p l ms. intros B L N. apply (push_dup mn t B [] p l ms L). now rewrite app_nil_r. Qed.

Lemma C52_unwrap_pf : forall mn t mods, push mn t mods = let '(s, ms) := unwrap t in push mn s (ms ++ mods).
Proof. exact push_unwrap. Qed.

Lemma C52_strip_partial_pf : forall mn t t', bound_only t -> push mn t [] = Ok t' -> strip mn t' = strip mn t.
Proof. intros mn t t'.
  intros B E. assert (X : push mn t [] = Ok (pushed t [])).
  { apply push_ok; auto. intros p l ms L. rewrite app_nil_r. destruct (NoDup_dec ms) as [N|N]; auto.
    rewrite (push_dup mn t B [] p l ms L) in E; [discriminate|now rewrite app_nil_r]. }
  rewrite X in E. inversion E; subst. rewrite !strip_ok; auto using pushed_bound. f_equal. apply pushed_erase.
Qed.

Lemma C52_anonymous_refuted_pf : push mname anon4 [] = Raise ETypeError.
Proof. reflexivity. Qed.

Lemma C52_ex_lemma : bound_only nested_mod /\ (forall p l ms, leaf_at nested_mod p l ms -> NoDup ms).
Proof.
  split; [apply boundb_ok; vm_compute; reflexivity|]. intros p l ms L. destruct (NoDup_dec ms) as [N|N]; auto.
  pose proof (push_dup mname nested_mod (boundb_ok nested_mod eq_refl) [] p l ms L) as X. rewrite app_nil_r in X. specialize (X N). vm_compute in X. discriminate.
Qed.

Lemma C84_keep_partial_pf : forall H mn iter A B t, (forall l, Permutation (iter l) l) -> node_of A = None -> A <> TLeaf LObject ->
  node_of B = None -> (forall m s, B <> TMod m s) -> twf B -> twf t -> plain t -> plain_mod t ->
  apart (to_type (fun s => sub H s A = true) B) t ->
  exists t', rebind_keep_modifiers H mn iter A B t = Ok t' /\ replaced (to_type (fun s => sub H s A = true) B) true t t'.
Proof.
  intros H mn iter A B t I NA OA NB MB WB W P Q AP. exists (image true (gk H A B) t). split; [now apply keep_ok|].
  apply image_replaced; [apply gk_spec|discriminate].
Qed.

Lemma C84_here_pf : forall H mn iter A B t, (forall m s, t <> TMod m s) -> sub H t A = true -> rebind_keep_modifiers H mn iter A B t = Ok B.
Proof.
  intros H mn iter A B t M S. unfold rebind_keep_modifiers. destruct t as [l|n ms|k u fs|m s]; cbn [rebind_keep_aux]; try (rewrite S; reflexivity).
  now elim (M m s).
Qed.

Lemma C84_absent_partial_pf : forall H mn iter A B t, (forall l, Permutation (iter l) l) -> twf t -> plain t -> plain_mod t ->
  sub H (fst (unwrap t)) A = false -> ~ occurs (fun s => sub H (fst (unwrap s)) A = true) t ->
  rebind_keep_modifiers H mn iter A B t = Ok t.
Proof. intros H mn iter A B t I W P Q S O. unfold rebind_keep_modifiers. now rewrite keep_absent. Qed.

Lemma C84_absent_ex_lemma : twf nested /\ plain nested /\ plain_mod nested /\ sub nosub (fst (unwrap nested)) mtuple = false /\
  ~ occurs (fun s => sub nosub (fst (unwrap s)) mtuple = true) nested.
Proof.
  split; [apply twfb_ok; vm_compute; reflexivity|]. split; [apply plainb_ok; vm_compute; reflexivity|].
  split; [apply plain_modb_ok; vm_compute; reflexivity|]. split; [reflexivity|]. intros O. apply components_ok in O as (s & I & E).
  assert (F : forallb (fun s => negb (sub nosub (fst (unwrap s)) mtuple)) (components nested) = true) by (vm_compute; reflexivity).
  rewrite forallb_forall in F. specialize (F s I). rewrite E in F. discriminate F.
Qed.

Lemma C84_unwrap_pf : forall H mn iter A B t, rebind_keep_modifiers H mn iter A B t =
  let '(s, ms) := unwrap t in r <- rebind_keep_modifiers H mn iter A B s ;; wrap r ms.
Proof. exact keep_unwrap. Qed.

Lemma C84_subclass_refuted_pf : forall H mn iter, (forall l, Permutation (iter l) l) ->
  let u4 := TLeaf (LVec 0 KUInt (Some 4)) in let s4 := TLeaf (LVec 0 KSInt (Some 4)) in
  rebind_keep_modifiers H mn iter bv4 bit (TNode KTuple [] (unnamed [u4; TNode KTuple [] (unnamed [u4; s4])])) =
    Ok (TNode KTuple [] (unnamed [bit; TNode KTuple [] (unnamed [bit; s4])])) /\ sub H s4 bv4 = true.
Proof. intros. split; reflexivity. Qed.

Lemma C84_modified_leaf_refuted_pf : forall H mn iter,
  rebind_keep_modifiers H mn iter bv4 bit (TNode KTuple [] (unnamed [bv4; TNode KTuple [] (unnamed [bv4; TMod 1 bv4])])) =
    Ok (TNode KTuple [] (unnamed [bit; TNode KTuple [] (unnamed [bit; TMod 1 bv4])])).
Proof. reflexivity. Qed.

Lemma C84_modified_tuple_refuted_pf : forall H mn iter,
  rebind_keep_modifiers H mn iter bv4 bv8 (TNode KTuple [] (unnamed [bv4; TMod 1 (TNode KTuple [] (unnamed [bit]))])) =
    Ok (TNode KTuple [] (unnamed [bv8; TNode KTuple [1] (unnamed [bit])])).
Proof. reflexivity. Qed.

Lemma C84_twice_refuted_pf : forall H mn iter, let b := TNode KTuple [] (unnamed [bv4]) in
  rebind_keep_modifiers H mn iter bv4 b (TNode KTuple [] (unnamed [bv4; bv4])) =
    Ok (TNode KTuple [] (unnamed [TNode KTuple [] (unnamed [b]); TNode KTuple [] (unnamed [b])])).
Proof. reflexivity. Qed.

Lemma C84_ex_lemma : twf nested /\ plain nested /\ plain_mod nested /\ apart (to_type (fun s => sub nosub s bv4 = true) bv8) nested.
Proof.
  split; [apply twfb_ok; vm_compute; reflexivity|]. split; [apply plainb_ok; vm_compute; reflexivity|].
  split; [apply plain_modb_ok; vm_compute; reflexivity|]. apply apartb_ok. vm_compute. reflexivity.
Qed.
