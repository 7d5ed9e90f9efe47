(** Lemmas behind C51 and C52. *)
From Coq Require Import Lia Sorted Permutation.
From Verif Require Import PyBase BVModel ADTTy ADTModel ADTSpec ADTTyFacts ADTFacts ADTMoreFacts RebindModel RebindSpec RebindFacts RebindBVFacts RebindTypeFacts.

Lemma rebuild_ok mn k fs gs : k <> KAnon -> without_methods k = k -> rebuild mn (TNode k [] fs) gs = Ok (mk_node k [] gs).
Proof. intros N E. destruct k; try reflexivity; try congruence; cbn in E; inversion E; subst; reflexivity. Qed.

(** ** strip *)
Fixpoint erase (t : ty) : ty :=
  match t with
  | TMod _ t => erase t
  | TNode k u fs => mk_node k u (map (fun f => (fst f, erase (snd f))) fs)
  | _ => t
  end.
Lemma strip_ok mn t : bound_only t -> strip mn t = Ok (erase t).
Proof.
  induction t as [l|n ms|k u fs IH|m t IH] using ty_ind'; intros B; cbn [strip erase]; auto; inversion B; subst; auto.
  rewrite sequence_map, (mapM_ext _ (fun f => Ok (fst f, erase (snd f)))).
  - rewrite mapM_ok. cbn [bind]. now rewrite rebuild_ok.
  - intros a I. rewrite Forall_forall in *. now rewrite IH by auto.
Qed.
Lemma erase_erased t : erased t (erase t).
Proof.
  induction t as [l|n ms|k u fs IH|m t IH] using ty_ind'; cbn [erase]; try constructor; auto.
  apply (on_fields_Forall2 erase). intros a I. cbn [fst snd]. split; auto. rewrite Forall_forall in IH. auto.
Qed.
Lemma mk_node_Forall (P : ty -> Prop) k u gs : Forall (fun f => P (snd f)) gs -> exists fs, mk_node k u gs = TNode k u fs /\ Forall (fun f => P (snd f)) fs.
Proof.
  intros F. destruct (mk_node_cases k u gs) as (fs & E & I). exists fs. split; auto. rewrite Forall_forall in *. intros b J.
  destruct (I b J) as (a & Ja & ->). auto.
Qed.
Lemma erase_free t : bound_only t -> modifier_free (erase t).
Proof.
  induction t as [l|n ms|k u fs IH|m t IH] using ty_ind'; intros B; cbn [erase]; inversion B; subst; try constructor; auto.
  destruct (mk_node_Forall modifier_free k [] (on_fields erase fs)) as (hs & E & F).
  - apply Forall_on_fields. intros a I. rewrite Forall_forall in *. auto.
  - unfold on_fields in E. rewrite E. now constructor.
Qed.
Lemma erase_twf t : twf t -> bound_only t -> twf (erase t).
Proof.
  induction t as [l|n ms|k u fs IH|m t IH] using ty_ind'; intros W B; cbn [erase]; inversion B; subst; auto.
  - destruct (twf_node_inv _ _ _ W) as [K F]. match goal with E : without_methods k = k |- _ => rewrite <- E end.
    apply (twf_mk_node _ _ fs); [apply names_on_fields|auto|]. apply (Forall_on_fields twf erase). intros a I. rewrite Forall_forall in *. auto.
  - inversion W; subst. auto.
Qed.
Lemma erase_bound t : bound_only t -> bound_only (erase t).
Proof.
  induction t as [l|n ms|k u fs IH|m t IH] using ty_ind'; intros B; cbn [erase]; inversion B; subst; try constructor; auto.
  destruct (mk_node_Forall bound_only k [] (on_fields erase fs)) as (hs & E & F).
  - apply Forall_on_fields. intros a I. rewrite Forall_forall in *. auto.
  - unfold on_fields in E. rewrite E. now constructor.
Qed.
Lemma erase_id t : twf t -> modifier_free t -> erase t = t.
Proof.
  induction t as [l|n ms|k u fs IH|m t IH] using ty_ind'; intros W M; cbn [erase]; auto; inversion M; subst.
  destruct (twf_node_inv _ _ _ W) as [K F]. fold (on_fields erase fs). rewrite on_fields_id; [now apply mk_node_id|].
  intros a I. rewrite Forall_forall in *. auto.
Qed.

(** ** push *)
Definition wrapped (t : ty) (ms : list Z) : ty := fold_left (fun t m => TMod m t) ms t.
Lemma distinct_NoDup l : distinct l = true <-> NoDup l.
Proof.
  induction l as [|x l IH]; cbn [distinct]; [split; auto; constructor|]. rewrite andb_true_iff, negb_true_iff, IH, NoDup_cons_iff.
  assert (E : existsb (Z.eqb x) l = false <-> ~ In x l); [|now rewrite E]. split.
  - intros E I. enough (existsb (Z.eqb x) l = true) by congruence. apply existsb_exists. exists x. split; auto. apply Z.eqb_refl.
  - intros N. destruct (existsb (Z.eqb x) l) eqn:E; auto. apply existsb_exists in E as (y & I & Y). apply Z.eqb_eq in Y. now subst.
Qed.
Lemma wrap_fold ms : forall t, NoDup ms -> (forall m, In m ms -> ~ carries m t) ->
  fold_left (fun r m => t <- r ;; apply_mod m t) ms (Ok t) = Ok (wrapped t ms).
Proof.
  unfold wrapped. induction ms as [|m ms IH]; intros t N C; cbn [fold_left]; auto. cbn [bind]. unfold apply_mod at 2.
  destruct (has_mod m t) eqn:E. { apply has_mod_carries in E. now elim (C m (or_introl eq_refl)). }
  apply NoDup_cons_iff in N as [N N']. apply IH; auto. intros x I. cbn [carries]. intros [->|Y]; [easy|]. now elim (C x (or_intror I)).
Qed.
Lemma wrap_ok t ms : NoDup ms -> (forall m, In m ms -> ~ carries m t) -> wrap t ms = Ok (wrapped t ms).
Proof. intros N C. unfold wrap. rewrite (proj2 (distinct_NoDup ms)); auto. now apply wrap_fold. Qed.
Lemma wrap_dup t ms : ~ NoDup ms -> wrap t ms = Raise ETypeError.
Proof. intros N. unfold wrap. destruct (distinct ms) eqn:E; auto. now apply distinct_NoDup in E. Qed.

Fixpoint pushed (t : ty) (mods : list Z) : ty :=
  match t with
  | TMod m t => pushed t (m :: mods)
  | TNode k u fs => mk_node k u (map (fun f => (fst f, pushed (snd f) mods)) fs)
  | _ => wrapped t mods
  end.
Lemma push_ok mn t : bound_only t -> forall mods, (forall p l ms, leaf_at t p l ms -> NoDup (ms ++ mods)) -> push mn t mods = Ok (pushed t mods).
Proof.
  induction t as [l|n ms|k u fs IH|m t IH] using ty_ind'; intros B mods N; cbn [push pushed]; inversion B; subst.
  - apply wrap_ok; [apply (N _ _ _ (la_leaf l))|easy].
  - apply wrap_ok; [apply (N _ _ _ (la_enum n ms))|easy].
  - rewrite sequence_map, (mapM_ext _ (fun f => Ok (fst f, pushed (snd f) mods))).
    + rewrite mapM_ok. cbn [bind]. now rewrite rebuild_ok.
    + intros a I. rewrite Forall_forall in *. rewrite IH; auto. intros p l ms L. destruct (In_nth_error _ _ I) as (i & E). destruct a as [n t].
      apply (N (position k i n :: p) l). eapply la_node; eauto.
  - apply IH; auto. intros p l ms L. apply la_mod with (m := m) in L. apply N in L. now rewrite <- app_assoc in L.
Qed.
Lemma mapM_raise {A B} (f : A -> res B) e l : (forall a, In a l -> f a = Raise e \/ exists b, f a = Ok b) -> (exists a, In a l /\ f a = Raise e) -> mapM f l = Raise e.
Proof.
  induction l as [|a l IH]; intros F [x [I E]]; [easy|]. cbn [mapM]. destruct (F a) as [Y|[b Y]]; [now left| |]; rewrite Y; cbn [bind]; auto.
  destruct I as [->|I]; [congruence|]. rewrite IH; auto; [|exists x; auto]. intros; apply F; now right.
Qed.
Lemma NoDup_dec (l : list Z) : NoDup l \/ ~ NoDup l.
Proof. destruct (distinct l) eqn:E; [left; now apply distinct_NoDup|right; intros N; apply distinct_NoDup in N; congruence]. Qed.
Lemma push_total mn t : bound_only t -> forall mods, push mn t mods = Raise ETypeError \/ exists t', push mn t mods = Ok t'.
Proof.
  induction t as [l|n ms|k u fs IH|m t IH] using ty_ind'; intros B mods; cbn [push]; inversion B; subst.
  - destruct (NoDup_dec mods); [right; rewrite wrap_ok; eauto; easy|left; now apply wrap_dup].
  - destruct (NoDup_dec mods); [right; rewrite wrap_ok; eauto; easy|left; now apply wrap_dup].
  - rewrite sequence_map. match goal with |- context [mapM ?f fs] => assert (X : mapM f fs = Raise ETypeError \/ exists gs, mapM f fs = Ok gs) end.
    { rewrite Forall_forall in *. match goal with F : forall x, In x fs -> bound_only (snd x) |- _ => revert F end. clear -IH. intros F. induction fs as [|a fs J]; cbn [mapM]; eauto.
      destruct (IH a (or_introl eq_refl) (F a (or_introl eq_refl)) mods) as [->|[t ->]]; cbn [bind]; [now left|].
      destruct J as [->|[gs ->]]; cbn [bind]; [intros x I; apply IH; now right|intros x I; apply F; now right|now left|right; eauto]. }
    destruct X as [->|[gs ->]]; cbn [bind]; [now left|right]. rewrite rebuild_ok; eauto.
  - now apply IH.
Qed.
Lemma push_dup mn t : bound_only t -> forall mods p l ms, leaf_at t p l ms -> ~ NoDup (ms ++ mods) -> push mn t mods = Raise ETypeError.
Proof.
  induction t as [l|n ms|k u fs IH|m t IH] using ty_ind'; intros B mods p l' ms' L N; cbn [push]; inversion B; subst; inversion L; subst.
  - now apply wrap_dup.
  - now apply wrap_dup.
  - rewrite sequence_map, (mapM_raise _ ETypeError); auto.
    + intros a I. rewrite Forall_forall in *. destruct (push_total mn (snd a) ltac:(auto) mods) as [->|[t' ->]]; cbn; eauto.
    + match goal with E : nth_error fs _ = Some (_, ?t) |- _ => exists (n, t); pose proof (nth_error_In _ _ E) as I end. split; auto.
      cbn [snd]. rewrite Forall_forall in *. erewrite (IH _ I); eauto.
  - eapply IH; eauto. now rewrite <- app_assoc in N.
Qed.

Lemma leaf_wrapped ms : forall t p l r, leaf_at (wrapped t ms) p l r <-> exists r0, leaf_at t p l r0 /\ r = r0 ++ ms.
Proof.
  unfold wrapped. induction ms as [|m ms IH]; intros t p l r; cbn [fold_left].
  - split; [intros L; exists r; now rewrite app_nil_r|intros (r0 & L & ->); now rewrite app_nil_r].
  - rewrite IH. split.
    + intros (r0 & L & ->). inversion L; subst. exists ms0. split; auto. now rewrite <- app_assoc.
    + intros (r0 & L & ->). exists (r0 ++ [m]). split; [now constructor|now rewrite <- app_assoc].
Qed.
(** Leaves of a rebuilt node. *)
Definition node_leaf k (fs : list (string * ty)) p l ms : Prop :=
  exists i n t q, nth_error fs i = Some (n, t) /\ leaf_at t q l ms /\ p = position k i n :: q.
Lemma leaf_node k u fs p l ms : leaf_at (TNode k u fs) p l ms <-> node_leaf k fs p l ms.
Proof.
  split; [intros L; inversion L; subst; unfold node_leaf; eauto 10|]. intros (i & n & t & q & E & L & ->). eapply la_node; eauto.
Qed.
Lemma leaf_mk_node k u fs p l ms : leaf_at (mk_node k u fs) p l ms <-> node_leaf k fs p l ms.
Proof.
  destruct k; cbn [mk_node]; try apply leaf_node. rewrite leaf_node. unfold node_leaf. cbn [position].
  split; intros (i & n & t & q & E & L & ->); apply nth_error_In in E.
  - apply in_map_iff in E as (s & X & I). inversion X; subst. apply (proj1 (type_set_In _ _)) in I. apply in_map_iff in I as ([n' t'] & <- & I).
    destruct (In_nth_error _ _ I) as (j & J). exists j, n', t', q. auto.
  - apply (in_map snd) in E. apply (type_set_In (types fs)) in E. cbn [snd] in E. destruct (In_nth_error _ _ E) as (j & J).
    exists j, EmptyString, t, q. split; auto. unfold unnamed. now rewrite nth_error_map, J.
Qed.
Lemma leaf_pushed t : forall mods p l r, leaf_at (pushed t mods) p l r <-> exists ms, leaf_at t p l ms /\ r = ms ++ mods.
Proof.
  induction t as [l0|n ms|k u fs IH|m t IH] using ty_ind'; intros mods p l r; cbn [pushed].
  - apply leaf_wrapped.
  - apply leaf_wrapped.
  - rewrite leaf_mk_node. unfold node_leaf. rewrite Forall_forall in IH. split.
    + intros (i & n & t & q & E & L & ->). rewrite nth_error_map in E. destruct (nth_error fs i) as [[n' t']|] eqn:F; [|discriminate]. inversion E; subst.
      cbn [fst snd] in L. apply (IH _ (nth_error_In _ _ F)) in L as (ms & L & ->). cbn [snd] in L. exists ms. split; auto. eapply la_node; eauto.
    + intros (ms & L & ->). inversion L; subst. match goal with E : nth_error fs _ = Some (?n, ?t) |- _ => exists i, n, (pushed t mods), p0; rewrite nth_error_map, E; pose proof (nth_error_In _ _ E) as I end.
      do 2 (split; auto). apply (IH _ I). cbn [snd]. eauto.
  - rewrite IH. split.
    + intros (ms & L & ->). exists (ms ++ [m]). split; [now constructor|now rewrite <- app_assoc].
    + intros (ms & L & ->). inversion L; subst. exists ms0. split; auto. now rewrite <- app_assoc.
Qed.
Lemma wrapped_atom ms : forall t, node_of (wrapped t ms) = node_of t.
Proof. unfold wrapped. induction ms; intros t; cbn [fold_left]; auto. now rewrite IHms. Qed.
Lemma wrapped_bound ms : forall t, bound_only t -> bound_only (wrapped t ms).
Proof. unfold wrapped. induction ms; intros t B; cbn [fold_left]; auto. apply IHms. now constructor. Qed.
Lemma wrapped_erase ms : forall t, erase (wrapped t ms) = erase t.
Proof. unfold wrapped. induction ms; intros t; cbn [fold_left]; auto. now rewrite IHms. Qed.
Lemma pushed_on_leaves t : bound_only t -> forall mods, mods_on_leaves (pushed t mods).
Proof.
  induction t as [l|n ms|k u fs IH|m t IH] using ty_ind'; intros B mods; cbn [pushed]; inversion B; subst; auto.
  - apply ml_atom. now rewrite wrapped_atom.
  - apply ml_atom. now rewrite wrapped_atom.
  - destruct (mk_node_Forall mods_on_leaves k [] (on_fields (fun t => pushed t mods) fs)) as (hs & E & F).
    + apply (Forall_on_fields mods_on_leaves (fun t => pushed t mods)). intros a I. rewrite Forall_forall in *. auto.
    + unfold on_fields in E. rewrite E. now constructor.
Qed.
Lemma pushed_bound t : bound_only t -> forall mods, bound_only (pushed t mods).
Proof.
  induction t as [l|n ms|k u fs IH|m t IH] using ty_ind'; intros B mods; cbn [pushed]; inversion B; subst; auto using wrapped_bound.
  destruct (mk_node_Forall bound_only k [] (on_fields (fun t => pushed t mods) fs)) as (hs & E & F).
  - apply (Forall_on_fields bound_only (fun t => pushed t mods)). intros a I. rewrite Forall_forall in *. auto.
  - unfold on_fields in E. rewrite E. now constructor.
Qed.
Lemma pushed_erase t : forall mods, erase (pushed t mods) = erase t.
Proof.
  induction t as [l|n ms|k u fs IH|m t IH] using ty_ind'; intros mods; cbn [pushed]; rewrite ?wrapped_erase; auto.
  - cbn [erase]. rewrite Forall_forall in IH. assert (E : on_fields erase (on_fields (fun t => pushed t mods) fs) = on_fields erase fs).
    { rewrite on_fields_on_fields. apply on_fields_ext. intros a I. now apply IH. }
    unfold on_fields in E. destruct k; cbn [mk_node erase]; rewrite ?E; auto.
    pose proof (mk_sum_on u erase (on_fields (fun t => pushed t mods) fs)) as M. unfold on_fields in M. cbn [mk_node] in M. rewrite M. now rewrite E.
Qed.
