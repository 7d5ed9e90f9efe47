(** Lemmas behind C47-C49: rebinding is the structural image of the type. *)
From Coq Require Import Lia Sorted Permutation.
From Verif Require Import PyBase BVModel ADTTy ADTModel ADTSpec ADTTyFacts ADTFacts ADTMoreFacts RebindModel RebindSpec.

Lemma fields_eqb_eq a : forall b, fields_eqb a b = true <-> a = b.
Proof.
  induction a as [|[n t] a IH]; intros [|[n' t'] b]; cbn [fields_eqb fst snd]; try (split; [discriminate|intros E; now inversion E]); [easy|].
  rewrite !andb_true_iff, String.eqb_eq, ty_eqb_eq, IH. split; [intros [[-> ->] ->]; auto|intros E; inversion E; auto].
Qed.
Lemma fields_eqb_refl a : fields_eqb a a = true. Proof. now apply fields_eqb_eq. Qed.

Definition renode (k : nkind) (u : list Z) (fs gs : list (string * ty)) : ty :=
  if fields_eqb gs fs then TNode k u fs else mk_node (without_methods k) u gs.
Lemma renode_refielded k u fs gs : refielded k u fs gs (renode k u fs gs).
Proof.
  unfold refielded, renode. destruct (fields_eqb gs fs) eqn:E; [left; split; auto; now apply fields_eqb_eq|right].
  split; auto. intros ->. now rewrite fields_eqb_refl in E.
Qed.
Lemma unnamed_types fs : Forall (fun f : string * ty => fst f = EmptyString) fs -> unnamed (types fs) = fs.
Proof. unfold unnamed, types. induction 1 as [|[n t] fs E _ IH]; cbn; auto. cbn in E. subst. now rewrite IH. Qed.
Lemma mk_node_id k u fs : kind_ok k fs -> mk_node k u fs = TNode k u fs.
Proof.
  destruct k; cbn [mk_node kind_ok]; auto. intros [E S]. rewrite type_set_id; auto. now rewrite unnamed_types.
Qed.
Lemma bind_again_node mn k u fs gs : k <> KAnon -> kind_ok k fs -> bind_again mn (TNode k u fs) gs = Ok (renode k u fs gs).
Proof.
  intros N K. unfold bind_again, renode. cbn [node_of]. destruct (fields_eqb gs fs) eqn:E.
  - apply fields_eqb_eq in E as ->. destruct k; try reflexivity; try congruence.
    unfold bind_types. cbn [node_of unbound_mods]. now rewrite mk_node_id.
  - destruct k; try reflexivity; congruence.
Qed.

(** The structural image. *)
Definition or_else (o : option ty) (t : ty) : ty := match o with Some t' => t' | None => t end.
Fixpoint image (keep : bool) (g : ty -> option ty) (t : ty) : ty :=
  match t with
  | TMod m s => if keep then TMod m (image keep g s) else or_else (g t) t
  | TNode k u fs => match g t with Some t' => t' | None => renode k u fs (map (fun f => (fst f, image keep g (snd f))) fs) end
  | _ => or_else (g t) t
  end.
Lemma image_here keep g t t' : g t = Some t' -> (keep = true -> forall m s, t <> TMod m s) -> image keep g t = t'.
Proof. intros E N. destruct t, keep; cbn [image]; try rewrite E; auto. now elim (N eq_refl m t). Qed.
Lemma image_atom g t : node_of t = None -> g t = None -> image false g t = t.
Proof. intros E F. destruct t; cbn [image]; try rewrite F; auto. discriminate. Qed.

(** ** The fields of rebind *)
Lemma new_fields_atom H mn A B st rc t : node_of t = None -> new_fields H mn A B st rc t = Ok [].
Proof. induction t; cbn [node_of new_fields]; auto; discriminate. Qed.
Lemma bind_again_atom mn t fs : node_of t = None -> bind_again mn t fs = Ok t.
Proof. intros E. unfold bind_again. now rewrite E. Qed.
Definition hitg H A B st (t : ty) : option ty := if hit H A st t then Some B else None.
Definition fields_of (t : ty) : list (string * ty) := match node_of t with Some (_, fs) => fs | None => [] end.
Definition on_fields (f : ty -> ty) (fs : list (string * ty)) : list (string * ty) := map (fun a => (fst a, f (snd a))) fs.
Lemma new_fields_ok H mn A B st t : plain t -> twf t ->
  new_fields H mn A B st true t = Ok (on_fields (image false (hitg H A B st)) (fields_of t)).
Proof.
  induction t as [l|n ms|k u fs IH|m t IH] using ty_ind'; intros P W; try reflexivity.
  2:{ inversion P as [t' E| ]; subst. rewrite new_fields_atom; auto. unfold fields_of. now rewrite E. }
  cbn [new_fields]. rewrite sequence_map. unfold fields_of. cbn [node_of].
  inversion P as [? E|? ? ? N F]; subst; [discriminate|]. inversion W as [| |? ? ? K G|]; subst. clear K P W.
  unfold on_fields. rewrite <- (mapM_ok (fun a => (fst a, image false (hitg H A B st) (snd a))) fs). apply mapM_ext. intros [s t] I.
  rewrite Forall_forall in IH, F, G. specialize (IH _ I). specialize (F _ I). specialize (G _ I). cbn [fst snd] in *.
  destruct (hit H A st t) eqn:Ht. { rewrite (image_here false _ t B); auto; [|discriminate]. unfold hitg. now rewrite Ht. }
  destruct (is_adt t) eqn:D; cbn [andb].
  2:{ destruct t; try discriminate. cbn [image]. unfold hitg. now rewrite Ht.
      inversion F; subst. rewrite image_atom; auto. unfold hitg. now rewrite Ht. }
  inversion F as [? E|k' u' fs' N' F']; subst.
  - rewrite new_fields_atom, image_atom; auto; [|unfold hitg; now rewrite Ht]. cbn [bind]. now rewrite bind_again_atom.
  - rewrite IH; auto. cbn [bind]. inversion G as [| |? ? ? K G'|]; subst. rewrite bind_again_node; auto. cbn [bind image].
    assert (X : hitg H A B st (TNode k' u' fs') = None) by (unfold hitg; now rewrite Ht). now rewrite X.
Qed.
Lemma plain_node_inv k u fs : plain (TNode k u fs) -> k <> KAnon /\ Forall (fun f => plain (snd f)) fs.
Proof. intros P. inversion P; subst; [discriminate|auto]. Qed.
Lemma twf_node_inv k u fs : twf (TNode k u fs) -> kind_ok k fs /\ Forall (fun f => twf (snd f)) fs.
Proof. intros P. inversion P; subst; auto. Qed.
Lemma plain_cases t : plain t -> node_of t = None \/ exists k u fs, t = TNode k u fs.
Proof. intros P. inversion P; subst; eauto. Qed.
Lemma rebind_ok H mn A B st k u fs : plain (TNode k u fs) -> twf (TNode k u fs) ->
  rebind H mn A B st true (TNode k u fs) = Ok (renode k u fs (on_fields (image false (hitg H A B st)) fs)).
Proof.
  intros P W. unfold rebind. cbn [is_adt]. rewrite new_fields_ok; auto. cbn [bind]. destruct (plain_node_inv _ _ _ P). destruct (twf_node_inv _ _ _ W).
  now rewrite bind_again_node.
Qed.
Lemma rebind_shallow H mn A B k u fs : k <> KAnon -> kind_ok k fs ->
  rebind H mn A B false false (TNode k u fs) = Ok (renode k u fs (on_fields (fun t => if ty_eqb t A then B else t) fs)).
Proof.
  intros N K. unfold rebind. cbn [is_adt new_fields]. rewrite sequence_map.
  rewrite (mapM_ext _ (fun f => Ok (fst f, if ty_eqb (snd f) A then B else snd f))).
  - rewrite mapM_ok. cbn [bind]. now rewrite bind_again_node.
  - intros [s t] _. cbn [fst snd]. unfold hit. cbn [andb]. rewrite orb_false_r. now destruct (ty_eqb t A).
Qed.

(** ** The image is the replacement *)
Lemma on_fields_Forall2 {R : (string * ty) -> (string * ty) -> Prop} f fs :
  (forall a, In a fs -> R a (fst a, f (snd a))) -> Forall2 R fs (on_fields f fs).
Proof. induction fs; cbn [on_fields map]; intros I; constructor; auto. apply I; now left. apply IHfs. intros; apply I; now right. Qed.
Lemma image_replaced keep g G t : (forall t, match g t with Some t' => G t t' | None => forall t', ~ G t t' end) ->
  (keep = false -> plain t) -> replaced G keep t (image keep g t).
Proof.
  intros S. induction t as [l|n ms|k u fs IH|m t IH] using ty_ind'; intros P; cbn [image].
  - pose proof (S (TLeaf l)) as X. destruct (g (TLeaf l)); cbn [or_else]; [apply rep_here|apply rep_atom]; auto; try easy.
  - pose proof (S (TEnum n ms)) as X. destruct (g (TEnum n ms)); cbn [or_else]; [apply rep_here|apply rep_atom]; auto; try easy.
  - pose proof (S (TNode k u fs)) as X. destruct (g (TNode k u fs)); cbn [or_else]; [apply rep_here; auto; easy|].
    eapply rep_node; [auto| |apply renode_refielded]. apply on_fields_Forall2. intros a I. cbn [fst snd]. split; auto.
    rewrite Forall_forall in IH. apply IH; auto. intros E. specialize (P E). destruct (plain_node_inv _ _ _ P) as [_ F]. rewrite Forall_forall in F. auto.
  - destruct keep; [apply rep_mod; auto; apply IH; easy|]. pose proof (S (TMod m t)) as X.
    destruct (g (TMod m t)); cbn [or_else]; [apply rep_here|apply rep_atom]; auto; try easy.
    specialize (P eq_refl). inversion P; subst; auto.
Qed.
Lemma on_fields_id f fs : (forall a, In a fs -> f (snd a) = snd a) -> on_fields f fs = fs.
Proof.
  unfold on_fields. induction fs as [|[n t] fs IH]; cbn [map]; intros E; auto. rewrite IH; [|intros; apply E; now right].
  f_equal. cbn [fst snd]. f_equal. apply (E (n, t)). now left.
Qed.
Lemma renode_id k u fs : renode k u fs fs = TNode k u fs. Proof. unfold renode. now rewrite fields_eqb_refl. Qed.
Lemma image_id g t : g t = None -> plain t -> ~ occurs (fun s => g s <> None) t -> image false g t = t.
Proof.
  induction t as [l|n ms|k u fs IH|m t IH] using ty_ind'; intros E P O; cbn [image]; rewrite ?E; auto.
  fold (on_fields (image false g) fs). rewrite on_fields_id, renode_id; auto. intros a I. destruct (plain_node_inv _ _ _ P) as [_ F].
  rewrite Forall_forall in IH, F. apply IH; auto.
  - destruct (g (snd a)) eqn:G; auto. elim O. apply (occ_here _ (TNode k u fs) k fs a); auto. now rewrite G.
  - intros X. elim O. now apply (occ_deep _ (TNode k u fs) k fs a).
Qed.

(** ** Shape of images *)
Lemma names_on_fields f fs : names (on_fields f fs) = names fs.
Proof. unfold names, on_fields. now rewrite map_map. Qed.
Lemma types_on_fields f fs : types (on_fields f fs) = map f (types fs).
Proof. unfold types, on_fields. now rewrite !map_map. Qed.
Lemma on_fields_on_fields f h fs : on_fields f (on_fields h fs) = on_fields (fun t => f (h t)) fs.
Proof. unfold on_fields. now rewrite map_map. Qed.
Lemma on_fields_ext f h fs : (forall a, In a fs -> f (snd a) = h (snd a)) -> on_fields f fs = on_fields h fs.
Proof. intros E. unfold on_fields. apply map_ext_in. intros a I. now rewrite E. Qed.
Lemma on_fields_nil f fs : on_fields f fs = [] -> fs = []. Proof. now destruct fs. Qed.
Lemma kind_ok_names k fs gs : k <> KSum -> names gs = names fs -> kind_ok k fs -> kind_ok (without_methods k) gs.
Proof.
  intros N E. assert (Z : gs = [] -> fs = []) by (intros ->; destruct fs; [auto|discriminate]).
  destruct k; cbn [kind_ok without_methods]; try congruence; rewrite ?E; try tauto.
  clear Z N. revert gs E. induction fs as [|[n t] fs IH]; intros [|[n' t'] gs] E F; try discriminate; constructor; inversion E; inversion F; cbn in *; subst; auto.
Qed.
Lemma unnamed_empty l : Forall (fun f : string * ty => fst f = EmptyString) (unnamed l).
Proof. unfold unnamed. induction l; cbn; auto. Qed.
Lemma twf_mk_node k u fs gs : names gs = names fs -> kind_ok k fs -> Forall (fun f => twf (snd f)) gs -> twf (mk_node (without_methods k) u gs).
Proof.
  intros E K F. destruct k; cbn [without_methods mk_node]; try (apply twf_node; auto; now apply (kind_ok_names _ fs)).
  - apply twf_node; auto. now apply (kind_ok_names KTuple fs).
  - apply twf_node; auto. now apply (kind_ok_names KAnon fs).
  - apply twf_node; auto. now apply (kind_ok_names (KProd name extra) fs).
  - apply twf_node; [split; [apply unnamed_empty|rewrite types_unnamed; apply type_set_sorted]|].
    rewrite Forall_forall in *. intros [n t] I. apply in_map_iff in I as (s & X & I). inversion X; subst. cbn [snd].
    apply (proj1 (type_set_In _ _)) in I. apply in_map_iff in I as (f & <- & I). auto.
  - apply twf_node; auto. now apply (kind_ok_names (KTag name extra) fs).
Qed.
Lemma Forall_on_fields (P : ty -> Prop) f fs : (forall a, In a fs -> P (f (snd a))) -> Forall (fun a => P (snd a)) (on_fields f fs).
Proof. intros E. rewrite Forall_forall. intros x I. apply in_map_iff in I as (a & <- & I). cbn. auto. Qed.
Lemma twf_image keep g t : (forall s s', g s = Some s' -> twf s') -> twf t -> twf (image keep g t).
Proof.
  intros S. induction t as [l|n ms|k u fs IH|m t IH] using ty_ind'; intros W; cbn [image].
  - destruct (g (TLeaf l)) eqn:E; cbn; eauto.
  - destruct (g (TEnum n ms)) eqn:E; cbn; eauto.
  - destruct (g (TNode k u fs)) eqn:E; [eauto|]. destruct (twf_node_inv _ _ _ W) as [K F].
    unfold renode. destruct (fields_eqb _ fs); auto. apply (twf_mk_node _ _ fs); [apply names_on_fields|auto|].
    apply Forall_on_fields. intros a I. rewrite Forall_forall in IH, F. auto.
  - inversion W; subst. destruct keep; [constructor; auto|]. destruct (g (TMod m t)) eqn:E; cbn; eauto.
Qed.
Lemma plain_mk_node k u gs : k <> KAnon -> Forall (fun f => plain (snd f)) gs -> plain (mk_node (without_methods k) u gs).
Proof.
  intros N F. destruct k; cbn [without_methods mk_node]; try congruence; try (apply plain_node; [discriminate|auto]).
  rewrite Forall_forall in *. intros [n t] I. apply in_map_iff in I as (s & X & I). inversion X; subst. cbn [snd].
  apply (proj1 (type_set_In _ _)) in I. apply in_map_iff in I as (f & <- & I). auto.
Qed.
Lemma plain_image g t : (forall s s', g s = Some s' -> plain s') -> plain t -> plain (image false g t).
Proof.
  intros S. induction t as [l|n ms|k u fs IH|m t IH] using ty_ind'; intros W; cbn [image].
  - destruct (g (TLeaf l)) eqn:E; cbn; eauto.
  - destruct (g (TEnum n ms)) eqn:E; cbn; eauto.
  - destruct (g (TNode k u fs)) eqn:E; [eauto|]. destruct (plain_node_inv _ _ _ W) as [K F].
    unfold renode. destruct (fields_eqb _ fs); auto. apply plain_mk_node; auto.
    apply Forall_on_fields. intros a I. rewrite Forall_forall in IH, F. auto.
  - destruct (g (TMod m t)) eqn:E; cbn; eauto.
Qed.

(** Sums: the set of the images. *)
Lemma mk_sum_on u f fs : mk_node KSum u (on_fields f (unnamed (type_set (types fs)))) = mk_node KSum u (on_fields f fs).
Proof.
  cbn [mk_node]. do 2 f_equal. apply type_set_ext. intros x. rewrite !types_on_fields, types_unnamed, !in_map_iff.
  split; intros (y & <- & I); exists y; split; auto; now apply type_set_In.
Qed.
Lemma renode_sum u fs gs : kind_ok KSum fs -> renode KSum u fs gs = mk_node KSum u gs.
Proof. intros K. unfold renode. destruct (fields_eqb gs fs) eqn:E; auto. apply fields_eqb_eq in E as ->. now rewrite mk_node_id. Qed.
Lemma mk_node_not_sum k u fs : k <> KSum -> mk_node k u fs = TNode k u fs. Proof. destruct k; try reflexivity; congruence. Qed.
Lemma without_twice k : without_methods (without_methods k) = without_methods k. Proof. now destruct k. Qed.
Lemma without_not_sum k : k <> KSum -> without_methods k <> KSum. Proof. destruct k; cbn; congruence. Qed.

Lemma image_idem keep g t : (forall s s', g s = Some s' -> image keep g s' = s') -> (forall k u fs, g (TNode k u fs) = None) -> twf t ->
  (keep = false -> plain t) -> image keep g (image keep g t) = image keep g t.
Proof.
  intros S N. induction t as [l|n ms|k u fs IH|m t IH] using ty_ind'; intros W P; cbn [image].
  - destruct (g (TLeaf l)) eqn:E; cbn [or_else]; eauto. cbn [image]. now rewrite E.
  - destruct (g (TEnum n ms)) eqn:E; cbn [or_else]; eauto. cbn [image]. now rewrite E.
  - rewrite N. fold (on_fields (image keep g) fs). destruct (twf_node_inv _ _ _ W) as [K F].
    assert (J : forall a, In a fs -> image keep g (image keep g (snd a)) = image keep g (snd a)).
    { intros a I. rewrite Forall_forall in IH, F. apply IH; auto. intros E. specialize (P E). destruct (plain_node_inv _ _ _ P) as [_ X]. rewrite Forall_forall in X; auto. }
    assert (D : {k = KSum} + {k <> KSum}) by (destruct k; (now left) || (right; discriminate)). destruct D as [->|D].
    + rewrite renode_sum; auto. cbn [mk_node image]. rewrite N.
      fold (on_fields (image keep g) (unnamed (type_set (types (on_fields (image keep g) fs))))).
      rewrite (on_fields_id _ (unnamed _)), renode_id; auto. intros [n t] I. cbn [snd]. apply in_map_iff in I as (s & X & I). inversion X; subst.
      apply (proj1 (type_set_In _ _)) in I. rewrite types_on_fields in I. apply in_map_iff in I as (y & <- & I).
      apply in_map_iff in I as (a & <- & I). auto.
    + unfold renode. destruct (fields_eqb (on_fields (image keep g) fs) fs) eqn:E.
      * cbn [image]. rewrite N. fold (on_fields (image keep g) fs). unfold renode. now rewrite E.
      * rewrite mk_node_not_sum; [|now apply without_not_sum]. cbn [image]. rewrite N.
        fold (on_fields (image keep g) (on_fields (image keep g) fs)). rewrite (on_fields_id _ (on_fields _ _)), renode_id; auto.
        intros x I. apply in_map_iff in I as (a & <- & I). cbn [snd]. auto.
  - inversion W; subst. destruct keep; [cbn [image]; f_equal; apply IH; easy|]. destruct (g (TMod m t)) eqn:E; cbn [or_else]; eauto. cbn [image]. now rewrite E.
Qed.
