(** Lemmas behind C47 (replaced types are gone) and C49. *)
From Coq Require Import Lia Sorted Permutation.
From Verif Require Import PyBase BVModel ADTTy ADTModel ADTSpec ADTTyFacts ADTFacts ADTMoreFacts RebindModel RebindSpec RebindFacts RebindBVFacts.

Lemma hitg_spec H A B st t : match hitg H A B st t with
  | Some t' => to_type (matches H A st) B t t' | None => forall t', ~ to_type (matches H A st) B t t' end.
Proof.
  unfold hitg, hit. destruct (ty_eqb_spec t A) as [->|N]; cbn [orb]; [split; [now left|easy]|].
  destruct st; cbn [andb]; [destruct (sub H t A) eqn:E|].
  - split; [right; auto|easy].
  - intros t' [[Y|[_ Y]] _]; congruence.
  - intros t' [[Y|[Z _]] _]; [congruence|discriminate].
Qed.
Lemma hitg_None H A B st t : hitg H A B st t = None <-> ~ matches H A st t.
Proof.
  pose proof (hitg_spec H A B st t) as S. destruct (hitg H A B st t); [|split; [intros _ M; apply (S B); now split|easy]].
  split; [discriminate|intros N; now destruct S].
Qed.
Lemma occurs_node P k u fs : occurs P (TNode k u fs) <-> exists a, In a fs /\ (P (snd a) \/ occurs P (snd a)).
Proof.
  split.
  - intros O. inversion O as [? ? ? f E I Y|? ? ? f E I Y]; subst; cbn [node_of] in E; inversion E; subst; eauto.
  - intros (a & I & [Y|Y]); [eapply occ_here|eapply occ_deep]; eauto; reflexivity.
Qed.
Lemma occurs_atom P t : node_of t = None -> ~ occurs P t.
Proof. intros E O. inversion O; congruence. Qed.
Lemma renode_fields k u fs gs : exists k' fs', renode k u fs gs = TNode k' u fs' /\ forall b, In b fs' -> exists a, In a gs /\ snd b = snd a.
Proof.
  unfold renode. destruct (fields_eqb gs fs) eqn:E; [apply fields_eqb_eq in E as ->; eauto 6|].
  destruct k; cbn [without_methods mk_node]; try (do 2 eexists; split; [reflexivity|eauto]).
  intros b I. apply in_map_iff in I as (s & <- & I). apply (proj1 (type_set_In _ _)) in I. apply in_map_iff in I as (a & <- & I). eauto.
Qed.
Lemma image_gone (P : ty -> Prop) g t : (forall s, P s -> g s <> None) -> (forall k u fs, g (TNode k u fs) = None) ->
  (forall s s', g s = Some s' -> ~ P s' /\ ~ occurs P s') -> plain t -> ~ P (image false g t) /\ ~ occurs P (image false g t).
Proof.
  intros S N G. induction t as [l|n ms|k u fs IH|m t IH] using ty_ind'; intros Q; cbn [image].
  - destruct (g (TLeaf l)) eqn:E; cbn [or_else]; [eauto|]. split; [intros Y; now apply (S _ Y)|now apply occurs_atom].
  - destruct (g (TEnum n ms)) eqn:E; cbn [or_else]; [eauto|]. split; [intros Y; now apply (S _ Y)|now apply occurs_atom].
  - rewrite N. fold (on_fields (image false g) fs). destruct (renode_fields k u fs (on_fields (image false g) fs)) as (k' & fs' & -> & F).
    split; [intros Y; now apply (S _ Y)|]. rewrite occurs_node. intros (b & I & Y). destruct (F b I) as (a & J & E). rewrite E in Y.
    apply in_map_iff in J as (c & <- & J). cbn [snd] in Y. destruct (plain_node_inv _ _ _ Q) as [_ Q']. rewrite Forall_forall in IH, Q'.
    destruct (IH c J (Q' c J)). tauto.
  - inversion Q as [? E|]; subst. destruct (g (TMod m t)) eqn:F; cbn [or_else]; [eauto|]. split; [intros Y; now apply (S _ Y)|now apply occurs_atom].
Qed.

(** ** rebind_type *)
Section Family.
Variables (H : Z -> Z -> bool) (mn : Z -> string) (iter : list ty -> list ty).
Hypothesis IT : forall l, Permutation (iter l) l.
Definition gvec f := gv H (TLeaf LAbsVec) f KBV.
Definition gbit f := hitg H (TLeaf LAbsBit) (TLeaf (LBit f)) true.
Lemma abs_vec : vector_class (TLeaf LAbsVec). Proof. now left. Qed.
Lemma gvec_node f k u fs : gvec f (TNode k u fs) = None. Proof. apply gv_node, abs_vec. Qed.
Lemma gbit_node f k u fs : gbit f (TNode k u fs) = None.
Proof.
  unfold gbit, hitg, hit. destruct (ty_eqb_spec (TNode k u fs) (TLeaf LAbsBit)); [discriminate|]. cbn [orb andb sub node_sub].
  destruct (ty_eqb_spec (TNode k u fs) (TLeaf LAbsBit)); [discriminate|reflexivity].
Qed.
Definition fam f (t : ty) : ty := image false (gbit f) (image false (gvec f) t).
Lemma renode_bare k u fs gs : without_methods k = k -> kind_ok k fs -> renode k u fs gs = mk_node k u gs.
Proof. intros E K. unfold renode. destruct (fields_eqb gs fs) eqn:F; [apply fields_eqb_eq in F as ->; now rewrite mk_node_id|now rewrite E]. Qed.
Lemma image_bare g k u fs : g (TNode k u fs) = None -> without_methods k = k -> kind_ok k fs ->
  image false g (TNode k u fs) = mk_node k u (on_fields (image false g) fs).
Proof. intros E B K. cbn [image]. rewrite E. now apply renode_bare. Qed.
Lemma mk_node_cases k u gs : exists fs, mk_node k u gs = TNode k u fs /\ forall b, In b fs -> exists a, In a gs /\ snd b = snd a.
Proof.
  destruct k; cbn [mk_node]; try (eexists; split; [reflexivity|eauto]).
  intros b I. apply in_map_iff in I as (s & <- & I). apply (proj1 (type_set_In _ _)) in I. apply in_map_iff in I as (a & <- & I). eauto.
Qed.
Lemma mk_node_kind_ok k u fs gs : names gs = names fs -> without_methods k = k -> kind_ok k fs -> exists hs, mk_node k u gs = TNode k u hs /\ kind_ok k hs.
Proof.
  intros N E K. destruct k; cbn [mk_node]; try (eexists; split; [reflexivity|]; rewrite <- E; apply (kind_ok_names _ fs); auto; discriminate).
  eexists. split; [reflexivity|]. split; [apply unnamed_empty|rewrite types_unnamed; apply type_set_sorted].
Qed.
Lemma mk_node_on k u f gs fs : names gs = names fs -> kind_ok k fs -> without_methods k = k -> forall hs, mk_node k u gs = TNode k u hs -> mk_node k u (on_fields f hs) = mk_node k u (on_fields f gs).
Proof. intros _ _ _ hs E. destruct k; cbn [mk_node] in E; inversion E; subst; auto. apply mk_sum_on. Qed.
Lemma fam_node f k u fs : without_methods k = k -> kind_ok k fs -> fam f (TNode k u fs) = mk_node k u (on_fields (fam f) fs).
Proof.
  intros E K. unfold fam. rewrite image_bare; auto using gvec_node.
  destruct (mk_node_kind_ok k u fs (on_fields (image false (gvec f)) fs)) as (hs & M & K'); auto using names_on_fields.
  rewrite M, image_bare; auto using gbit_node. rewrite (mk_node_on k u _ (on_fields (image false (gvec f)) fs) fs); auto using names_on_fields.
  now rewrite on_fields_on_fields.
Qed.
Lemma gvec_twf f s s' : gvec f s = Some s' -> twf s'. Proof. apply gv_twf. Qed.
Lemma gvec_plain f s s' : gvec f s = Some s' -> plain s'. Proof. apply gv_plain. Qed.
Lemma gbit_leaf f s s' : gbit f s = Some s' -> s' = TLeaf (LBit f).
Proof. unfold gbit, hitg. destruct (hit _ _ _ _); [|discriminate]. intros E; now inversion E. Qed.
Lemma gbit_twf f s s' : gbit f s = Some s' -> twf s'. Proof. intros E. apply gbit_leaf in E as ->. constructor. Qed.
Lemma fam_twf f t : twf t -> twf (fam f t).
Proof. intros W. apply twf_image; [apply gbit_twf|]. apply twf_image; [apply gvec_twf|auto]. Qed.
Lemma rebind_type_node f k u fs : plain (TNode k u fs) -> twf (TNode k u fs) -> rebind_type H mn iter f (TNode k u fs) = Ok (fam f (TNode k u fs)).
Proof.
  intros P W. cbn [rebind_type]. rewrite rebind_bitvector_ok; auto using abs_vec; [|discriminate]. cbn [bind].
  assert (P1 : plain (image false (gvec f) (TNode k u fs))) by (apply plain_image; [apply gvec_plain|auto]).
  assert (W1 : twf (image false (gvec f) (TNode k u fs))) by (apply twf_image; [apply gvec_twf|auto]).
  fold (gvec f). unfold fam. revert P1 W1. cbn [image]. rewrite gvec_node.
  destruct (renode_fields k u fs (map (fun f0 => (fst f0, image false (gvec f) (snd f0))) fs)) as (k' & fs' & -> & _). intros P1 W1.
  rewrite rebind_ok by assumption. cbn [image]. rewrite gbit_node. reflexivity.
Qed.
Lemma sub_vec_bit t : sub H t (TLeaf LAbsVec) = true -> sub H t (TLeaf LAbsBit) = false.
Proof.
  induction t as [l|n ms|k u fs|m t IH]; cbn [sub node_sub]; rewrite ?orb_false_r.
  - destruct (ty_eqb_spec (TLeaf l) (TLeaf LAbsVec)) as [E|E]; [inversion E; subst; reflexivity|]. cbn [orb].
    destruct l; cbn [leaf_sub]; try discriminate; intros _; match goal with |- context [ty_eqb ?a ?b] => destruct (ty_eqb_spec a b); [discriminate|reflexivity] end.
  - destruct (ty_eqb_spec (TEnum n ms) (TLeaf LAbsVec)); discriminate.
  - destruct (ty_eqb_spec (TNode k u fs) (TLeaf LAbsVec)); discriminate.
  - destruct (ty_eqb_spec (TMod m t) (TLeaf LAbsVec)); [discriminate|]. destruct (ty_eqb_spec (TMod m t) (TLeaf LAbsBit)); [discriminate|]. exact IH.
Qed.
Lemma sub_bit_eq t : hit H (TLeaf LAbsBit) true t = sub H t (TLeaf LAbsBit).
Proof. unfold hit. destruct (ty_eqb_spec t (TLeaf LAbsBit)) as [->|]; auto. Qed.
Lemma rebind_type_atom f t : (forall m s, t <> TMod m s) -> node_of t = None -> rebind_type H mn iter f t = Ok (fam f t).
Proof.
  intros M N. unfold fam. 
  assert (E : image false (gvec f) t = or_else (gvec f t) t) by (destruct t; try reflexivity; discriminate). rewrite E.
  unfold gvec at 1, gv. destruct t as [l|n ms|k u fs|m s]; try discriminate; [| |now elim (M m s)]; cbn [rebind_type].
  - destruct (sub H (TLeaf l) (TLeaf LAbsVec)) eqn:S; cbn [or_else].
    + rewrite (rebind_bitvector_ok H mn iter (TLeaf LAbsVec) f KBV abs_vec IT false); [|constructor|intros _; now apply plain_atom|discriminate]. fold (gvec f). rewrite E.
      unfold gvec, gv. rewrite S. cbn [or_else image]. unfold gbit, hitg. rewrite sub_bit_eq, sub_vec_bit; [reflexivity|].
      cbn [sub leaf_sub]. now rewrite !orb_true_r.
    + cbn [image]. unfold gbit, hitg. rewrite sub_bit_eq. now destruct (sub H (TLeaf l) (TLeaf LAbsBit)).
  - destruct (sub H (TEnum n ms) (TLeaf LAbsVec)) eqn:S; cbn [or_else].
    + apply sub_vec_sized in S; [inversion S|apply abs_vec].
    + cbn [image]. unfold gbit, hitg. rewrite sub_bit_eq. now destruct (sub H (TEnum n ms) (TLeaf LAbsBit)).
Qed.
(** The two passes are one. *)
Definition gfam f (t : ty) : option ty := match gvec f t with Some t' => Some t' | None => gbit f t end.
Lemma gfam_spec f t : match gfam f t with Some t' => to_family H f t t' | None => forall t', ~ to_family H f t t' end.
Proof.
  unfold gfam. pose proof (gv_spec H (TLeaf LAbsVec) f KBV abs_vec t) as V. fold (gvec f) in V. destruct (gvec f t); [now left|].
  unfold gbit, hitg. rewrite sub_bit_eq. destruct (sub H t (TLeaf LAbsBit)) eqn:S; [now right|].
  intros t' [Y|[Y _]]; [now apply (V t')|congruence].
Qed.
Lemma image_gbit_vec f n : image false (gbit f) (TLeaf (LVec f KBV n)) = TLeaf (LVec f KBV n).
Proof. cbn [image]. unfold gbit, hitg. rewrite sub_bit_eq, sub_vec_bit; [reflexivity|]. cbn [sub leaf_sub]. now rewrite !orb_true_r. Qed.
Lemma fam_atom f t : node_of t = None -> fam f t = or_else (gfam f t) t.
Proof.
  intros N. unfold fam, gfam. assert (E : forall g, image false g t = or_else (g t) t) by (intros; destruct t; try reflexivity; discriminate).
  rewrite E. destruct (gvec f t) eqn:G; cbn [or_else]; [|apply E].
  unfold gvec, gv in G. destruct (sub H t (TLeaf LAbsVec)); [|discriminate]. inversion G. apply image_gbit_vec.
Qed.
Lemma bare_node_inv k u fs : bare (TNode k u fs) -> without_methods k = k /\ Forall (fun f => bare (snd f)) fs.
Proof. intros B. inversion B; subst; [discriminate|auto]. Qed.
Lemma fam_image f t : plain t -> bare t -> twf t -> fam f t = image false (gfam f) t.
Proof.
  induction t as [l|n ms|k u fs IH|m t IH] using ty_ind'; intros P B W; try (apply fam_atom; reflexivity).
  - destruct (bare_node_inv _ _ _ B) as [E Bf]. destruct (twf_node_inv _ _ _ W) as [K Wf]. destruct (plain_node_inv _ _ _ P) as [_ Pf].
    rewrite fam_node by auto. rewrite image_bare; [|unfold gfam; now rewrite gvec_node, gbit_node|auto|auto]. f_equal. apply on_fields_ext. intros a I.
    rewrite Forall_forall in *. auto.
  - inversion P; subst. now apply fam_atom.
Qed.
Lemma over_plain f t : over f t -> plain t.
Proof.
  induction t as [l|n ms|k u fs IH|m t IH] using ty_ind'; intros O; try (now apply plain_atom); inversion O; subst.
  apply plain_node; auto. rewrite Forall_forall in *. auto.
Qed.
Lemma over_bare f t : over f t -> bare t.
Proof.
  induction t as [l|n ms|k u fs IH|m t IH] using ty_ind'; intros O; try (now apply bare_atom); inversion O; subst.
  apply bare_node; auto. rewrite Forall_forall in *. auto.
Qed.
Lemma sub_leaf l l' : sub H (TLeaf l) (TLeaf l') = ty_eqb (TLeaf l) (TLeaf l') || match l' with LObject => true | _ => false end || leaf_sub H l l'.
Proof. reflexivity. Qed.
Lemma fam_leaf f l : fam f (TLeaf l) =
  TLeaf (match l with LVec _ _ n => LVec f KBV n | LAbsVec => LVec f KBV None | LBit _ | LAbsBit => LBit f | l => l end).
Proof.
  rewrite fam_atom by reflexivity. unfold gfam, gvec, gv, gbit, hitg. rewrite sub_bit_eq, !sub_leaf.
  assert (N : forall l', l <> l' -> ty_eqb (TLeaf l) (TLeaf l') = false) by (intros l' D; destruct (ty_eqb_spec (TLeaf l) (TLeaf l')); congruence).
  destruct l; cbn [leaf_sub]; rewrite ?orb_true_r, ?orb_false_r; cbn [or_else vec_size]; try rewrite !N by discriminate; cbn [or_else]; auto.
Qed.
Lemma fam_over f g t : over f t -> twf t -> over g (fam g t) /\ fam f (fam g t) = t.
Proof.
  induction t as [l|n ms|k u fs IH|m t IH] using ty_ind'; intros O W.
  - rewrite !fam_leaf. inversion O; subst; split; auto; constructor.
  - assert (E : forall h, fam h (TEnum n ms) = TEnum n ms).
    { intros h. rewrite fam_atom by reflexivity. unfold gfam, gvec. rewrite gv_enum by apply abs_vec. unfold gbit, hitg. rewrite sub_bit_eq. cbn [sub].
      destruct (ty_eqb_spec (TEnum n ms) (TLeaf LAbsBit)); [discriminate|reflexivity]. }
    rewrite !E. split; [constructor|reflexivity].
  - inversion O; subst. destruct (twf_node_inv _ _ _ W) as [K Wf]. rewrite fam_node; auto. split.
    + destruct (mk_node_cases k u (on_fields (fam g) fs)) as (hs & -> & I). apply over_node; auto. rewrite Forall_forall in *. intros b J.
      destruct (I b J) as (a & J' & ->). apply in_map_iff in J' as (c & <- & J'). cbn [snd]. now apply IH; auto.
    + destruct (mk_node_kind_ok k u fs (on_fields (fam g) fs)) as (hs & M & K'); auto using names_on_fields.
      rewrite M, fam_node; auto. rewrite (mk_node_on k u _ (on_fields (fam g) fs) fs); auto using names_on_fields.
      rewrite on_fields_on_fields, on_fields_id; [now apply mk_node_id|]. intros a I. rewrite Forall_forall in *. now apply IH; auto.
  - inversion O.
Qed.
Lemma rebind_type_ok f t : plain t -> twf t -> (forall m s, t <> TMod m s) -> rebind_type H mn iter f t = Ok (fam f t).
Proof.
  intros P W M. destruct (plain_cases _ P) as [N|(k & u & fs & ->)]; [now apply rebind_type_atom|now apply rebind_type_node].
Qed.
Lemma over_not_mod f t : over f t -> forall m s, t <> TMod m s. Proof. intros O m s ->. inversion O. Qed.
End Family.
