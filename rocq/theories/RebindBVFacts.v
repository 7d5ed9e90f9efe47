(** Lemmas behind C48 and C49: the sequence of shallow rebinds is a simultaneous replacement. *)
From Coq Require Import Lia Sorted Permutation.
From Verif Require Import PyBase BVModel ADTTy ADTModel ADTSpec ADTTyFacts ADTFacts ADTMoreFacts RebindModel RebindSpec RebindFacts.

Lemma on_fields_fix f fs : on_fields f fs = fs -> forall a, In a fs -> f (snd a) = snd a.
Proof.
  unfold on_fields. induction fs as [|[n t] fs IH]; cbn [map]; intros E a I; [easy|]. inversion E as [[E1 E2]].
  destruct I as [<-|I]; cbn [snd]; [exact E1|now apply IH].
Qed.
Section All.
Variables (H : Z -> Z -> bool) (mn : Z -> string) (G : ty -> ty) (k : nkind) (u : list Z) (fs : list (string * ty)).
Hypotheses (KA : k <> KAnon) (K : kind_ok k fs) (I : forall t, In t (types fs) -> G (G t) = G t).
Definition so_far (P : list ty) (t : ty) : ty := if existsb (ty_eqb t) P then G t else t.
Lemma so_far_step P A t : In t (types fs) -> (if ty_eqb (so_far P t) A then G A else so_far P t) = so_far (P ++ [A]) t.
Proof.
  intros J. unfold so_far. rewrite existsb_app. cbn [existsb]. rewrite orb_false_r. destruct (existsb (ty_eqb t) P); cbn [orb].
  - destruct (ty_eqb_spec (G t) A) as [<-|]; auto.
  - destruct (ty_eqb_spec t A) as [->|]; auto.
Qed.
Lemma in_types a : In a fs -> In (snd a) (types fs). Proof. intros J. now apply in_map. Qed.
Lemma rebind_step P A : rebind H mn A (G A) false false (renode k u fs (on_fields (so_far P) fs)) = Ok (renode k u fs (on_fields (so_far (P ++ [A])) fs)).
Proof.
  assert (E : on_fields (fun t => if ty_eqb t A then G A else t) (on_fields (so_far P) fs) = on_fields (so_far (P ++ [A])) fs).
  { rewrite on_fields_on_fields. apply on_fields_ext. intros a J. apply so_far_step. now apply in_types. }
  assert (D : {k = KSum} + {k <> KSum}) by (destruct k; (now left) || (right; discriminate)). destruct D as [D|D].
  - rewrite D in *. rewrite !renode_sum; auto. cbn [mk_node]. rewrite rebind_shallow; [|discriminate|].
    + rewrite renode_sum; [|split; [apply unnamed_empty|rewrite types_unnamed; apply type_set_sorted]].
      rewrite mk_sum_on, E. reflexivity.
    + split; [apply unnamed_empty|rewrite types_unnamed; apply type_set_sorted].
  - unfold renode at 1. destruct (fields_eqb (on_fields (so_far P) fs) fs) eqn:F.
    + apply fields_eqb_eq in F. rewrite rebind_shallow; auto. rewrite F in E. now rewrite E.
    + rewrite mk_node_not_sum; [|now apply without_not_sum].
      rewrite rebind_shallow; [|destruct k; cbn; congruence|apply (kind_ok_names k fs); auto; apply names_on_fields]. rewrite E. f_equal.
      unfold renode. destruct (fields_eqb (on_fields (so_far (P ++ [A])) fs) fs) eqn:F'.
      { apply fields_eqb_eq in F'. exfalso. assert (X : on_fields (so_far P) fs = fs); [|rewrite X, fields_eqb_refl in F; discriminate].
        apply on_fields_id. intros a J. pose proof (on_fields_fix _ _ F' a J) as Y. unfold so_far in *. rewrite existsb_app in Y.
        destruct (existsb (ty_eqb (snd a)) P); auto. }
      rewrite without_twice. rewrite mk_node_not_sum; [|now apply without_not_sum]. destruct (fields_eqb _ (on_fields (so_far P) fs)) eqn:F2; auto.
      apply fields_eqb_eq in F2. now rewrite F2.
Qed.
Lemma rebind_all_from L : forall P, rebind_all H mn false (renode k u fs (on_fields (so_far P) fs)) (map (fun t => (t, G t)) L) = Ok (renode k u fs (on_fields (so_far (P ++ L)) fs)).
Proof.
  unfold rebind_all. induction L as [|A L IH]; intros P; cbn [map fold_left fst snd]; [now rewrite app_nil_r|].
  cbn [bind]. rewrite rebind_step, IH, <- app_assoc. reflexivity.
Qed.
Lemma rebind_all_ok L : (forall t, In t (types fs) -> In t L) ->
  rebind_all H mn false (TNode k u fs) (map (fun t => (t, G t)) L) = Ok (renode k u fs (on_fields G fs)).
Proof.
  intros J. pose proof (rebind_all_from L []) as X. rewrite (on_fields_id (so_far [])), renode_id in X; [|auto].
  rewrite X. cbn [app]. do 2 f_equal. apply on_fields_ext. intros a Y. unfold so_far.
  rewrite (proj2 (existsb_ty (snd a) L)); auto. now apply J, in_types.
Qed.
End All.

Lemma has_mod_carries m t : has_mod m t = true <-> carries m t.
Proof.
  induction t; cbn [has_mod carries]; try (now split).
  - rewrite existsb_exists. split; [intros (x & I & E); apply Z.eqb_eq in E; now subst|intros I; exists m; split; auto; apply Z.eqb_refl].
  - rewrite orb_true_iff, Z.eqb_eq, IHt. tauto.
Qed.
Section BV.
Variables (H : Z -> Z -> bool) (mn : Z -> string) (iter : list ty -> list ty) (X : ty) (yf : Z) (yk : kind).
Hypotheses (VX : vector_class X) (IT : forall l, Permutation (iter l) l).
Definition gv (t : ty) : option ty := if sub H t X then Some (TLeaf (LVec yf yk (vec_size t))) else None.
Lemma sub_vec_sized t : sub H t X = true -> sized t (vec_size t).
Proof.
  induction t as [l|n ms|k u fs|m t IH]; cbn [sub vec_size]; rewrite ?orb_true_iff; intros S.
  - destruct VX as [->|(f & k & n & ->)]; destruct S as [[S|S]|S]; try discriminate;
      try (apply ty_eqb_eq in S; inversion S; subst; constructor); destruct l; try discriminate; constructor.
  - destruct VX as [->|(f & k & n' & ->)]; destruct S as [[S|S]|S]; try discriminate; apply ty_eqb_eq in S; discriminate.
  - destruct VX as [->|(f & k' & n' & ->)]; destruct S as [[S|S]|S]; try discriminate; apply ty_eqb_eq in S; discriminate.
  - constructor. apply IH. destruct VX as [->|(f & k' & n' & ->)]; destruct S as [[S|S]|[S|S]]; try discriminate; auto; apply ty_eqb_eq in S; discriminate.
Qed.
Lemma gv_node k u fs : gv (TNode k u fs) = None.
Proof.
  unfold gv. cbn [sub]. destruct VX as [->|(f & k' & n' & ->)]; cbn [node_sub]; rewrite !orb_false_r;
    match goal with |- context [ty_eqb ?a ?b] => destruct (ty_eqb_spec a b); [discriminate|reflexivity] end.
Qed.
Lemma gv_enum n ms : gv (TEnum n ms) = None.
Proof.
  unfold gv. cbn [sub]. destruct VX as [->|(f & k' & n' & ->)]; rewrite !orb_false_r;
    match goal with |- context [ty_eqb ?a ?b] => destruct (ty_eqb_spec a b); [discriminate|reflexivity] end.
Qed.
Lemma gv_spec t : match gv t with Some t' => to_vector H X yf yk t t' | None => forall t', ~ to_vector H X yf yk t t' end.
Proof.
  unfold gv. destruct (sub H t X) eqn:E.
  - split; auto. exists (vec_size t). split; auto. now apply sub_vec_sized.
  - intros t' [S _]. congruence.
Qed.
Lemma gv_image keep s s' : gv s = Some s' -> image keep gv s' = s'.
Proof.
  unfold gv at 1. destruct (sub H s X); [|discriminate]. intros E. inversion E. cbn [image]. unfold gv.
  destruct (sub H (TLeaf (LVec yf yk (vec_size s))) X); cbn [or_else vec_size]; auto.
Qed.
Lemma gv_twf s s' : gv s = Some s' -> twf s'. Proof. unfold gv. destruct (sub H s X); [|discriminate]. intros E; inversion E. constructor. Qed.
Lemma gv_plain s s' : gv s = Some s' -> plain s'. Proof. unfold gv. destruct (sub H s X); [|discriminate]. intros E; inversion E. now apply plain_atom. Qed.

Lemma carries_image keep m t : carries m (image keep gv t) -> carries m t.
Proof.
  induction t as [l|n ms|k u fs|m' t IH]; cbn [image].
  - unfold gv. destruct (sub H (TLeaf l) X); cbn; auto.
  - unfold gv. destruct (sub H (TEnum n ms) X); cbn; auto.
  - rewrite gv_node. unfold renode. destruct (fields_eqb _ _); auto. destruct k; cbn; auto.
  - destruct keep; cbn [carries]; [tauto|]. unfold gv. destruct (sub H (TMod m' t) X); cbn; tauto.
Qed.
Lemma image_twice keep t : twf t -> (keep = false -> plain t) -> image keep gv (image keep gv t) = image keep gv t.
Proof. apply image_idem; [apply gv_image|apply gv_node]. Qed.

Lemma find_pair f fs t : In t (types fs) -> find (fun p : ty * ty => ty_eqb (fst p) t) (map (fun a : string * ty => (snd a, f (snd a))) fs) = Some (t, f t).
Proof.
  induction fs as [|[n s] fs IH]; cbn [types map find fst snd]; [easy|]. intros I. destruct (ty_eqb_spec s t) as [->|N]; auto.
  apply IH. destruct I; [congruence|auto].
Qed.
Definition pairs_of (f : ty -> ty) (t : ty) : list (ty * ty) := map (fun a => (snd a, f (snd a))) (fields_of t).
Lemma class_fields_In k u fs t : In t (class_fields iter (TNode k u fs)) <-> In t (types fs).
Proof.
  unfold class_fields. cbn [node_of]. destruct k; try reflexivity; rewrite <- (type_set_In (types fs));
  (split; apply Permutation_in; [|apply Permutation_sym]; apply IT).
Qed.
Lemma aux_ok keep t : twf t -> (keep = false -> plain t) -> (keep = true -> plain_mod t) ->
  rebind_bv_aux H mn iter X yf yk keep t = (Ok (image keep gv t), Ok (pairs_of (image keep gv) t)).
Proof.
  induction t as [l|n ms|k u fs IH|m t IH] using ty_ind'; intros W P Q.
  - cbn [rebind_bv_aux image]. unfold gv. cbn [vec_size is_adt]. destruct (sub H (TLeaf l) X) eqn:E; reflexivity.
  - cbn [rebind_bv_aux image]. pose proof (gv_enum n ms) as E. rewrite E. unfold gv in E. destruct (sub H (TEnum n ms) X); [discriminate|]. reflexivity.
  - cbn [rebind_bv_aux]. pose proof (gv_node k u fs) as E. unfold gv in E. destruct (sub H (TNode k u fs) X) eqn:S; [discriminate|]. clear E.
    destruct (twf_node_inv _ _ _ W) as [K F]. rewrite Forall_forall in IH, F.
    assert (Pf : keep = false -> forall a, In a fs -> plain (snd a)). { intros E. destruct (plain_node_inv _ _ _ (P E)) as [_ Y]. now rewrite Forall_forall in Y. }
    assert (Qf : keep = true -> forall a, In a fs -> plain_mod (snd a)). { intros E. specialize (Q E). inversion Q; subst. rewrite Forall_forall in *. auto. }
    assert (KA : k <> KAnon). { destruct keep; [specialize (Q eq_refl); now inversion Q|]. now destruct (plain_node_inv _ _ _ (P eq_refl)). }
    assert (E : sequence (map (fun f => r <- fst (rebind_bv_aux H mn iter X yf yk keep (snd f));; Ok (snd f, r)) fs) = Ok (pairs_of (image keep gv) (TNode k u fs))).
    { rewrite sequence_map. unfold pairs_of, fields_of. cbn [node_of]. rewrite <- (mapM_ok (fun a => (snd a, image keep gv (snd a))) fs).
      apply mapM_ext. intros a I. rewrite (IH a I); auto. }
    rewrite E. cbn [is_adt bind]. f_equal. clear E.
    replace (map (pair_of (pairs_of (image keep gv) (TNode k u fs))) (class_fields iter (TNode k u fs))) with (map (fun t => (t, image keep gv t)) (class_fields iter (TNode k u fs))).
    + rewrite (rebind_all_ok H mn (image keep gv)); auto.
      * cbn [image]. now rewrite gv_node.
      * intros t I. apply in_map_iff in I as (a & <- & I). apply image_twice; auto.
      * intros t I. now apply class_fields_In.
    + apply map_ext_in. intros t I. apply class_fields_In in I. unfold pair_of, pairs_of, fields_of. cbn [node_of]. now rewrite find_pair.
  - cbn [rebind_bv_aux]. inversion W; subst. destruct keep.
    + specialize (Q eq_refl). inversion Q; subst. rewrite IH; auto; [|discriminate]. cbn [bind image]. unfold apply_mod.
      destruct (has_mod m (image true gv t)) eqn:E; [apply has_mod_carries, carries_image in E; contradiction|]. reflexivity.
    + specialize (P eq_refl). inversion P as [? E|]; subst. cbn [node_of] in E. rewrite IH; [|auto|intros _; now apply plain_atom|discriminate].
      unfold pairs_of, fields_of. cbn [node_of]. rewrite E. cbn [map image]. f_equal.
      assert (G : gv (TMod m t) = if sub H (TMod m t) X then Some (TLeaf (LVec yf yk (vec_size (TMod m t)))) else None) by reflexivity.
      rewrite G. destruct (sub H (TMod m t) X); cbn [or_else]; auto. destruct (is_adt (TMod m t)); auto.
      unfold class_fields. cbn [node_of]. now rewrite E.
Qed.
Lemma rebind_bitvector_ok keep t : twf t -> (keep = false -> plain t) -> (keep = true -> plain_mod t) ->
  rebind_bitvector H mn iter X yf yk keep t = Ok (image keep gv t).
Proof. intros. unfold rebind_bitvector. now rewrite aux_ok. Qed.
End BV.
