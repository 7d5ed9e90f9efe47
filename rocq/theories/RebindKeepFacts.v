(** Lemmas behind C84: rebind_keep_modifiers; the functions of RebindModel.v through unwrap_modifier and wrap_modifier. *)
From Coq Require Import Lia Sorted Permutation.
From Verif Require Import PyBase BVModel ADTTy ADTModel ADTSpec ADTTyFacts ADTFacts ADTMoreFacts RebindModel RebindSpec RebindFacts RebindBVFacts RebindTypeFacts RebindCheck.

(** ** unwrap and wrap *)
Definition wrap_from (r : res ty) (ms : list Z) : res ty := fold_left (fun r m => t <- r ;; apply_mod m t) ms r.
Lemma wrap_raise e ms : wrap_from (Raise e) ms = Raise e.
Proof. unfold wrap_from. induction ms; cbn; auto. Qed.
Lemma wrap_carries m ms : forall t, has_mod m t = true -> In m ms -> wrap_from (Ok t) ms = Raise ETypeError.
Proof.
  induction ms as [|x ms IH]; intros t C I; [easy|]. unfold wrap_from. cbn [fold_left bind]. unfold apply_mod at 2. destruct (has_mod x t) eqn:E; [apply wrap_raise|].
  destruct I as [->|I]; [congruence|]. apply (IH (TMod x t)); auto. cbn [has_mod]. now rewrite C, orb_true_r.
Qed.
Lemma wrap_dup ms : distinct ms = false -> forall t, wrap_from (Ok t) ms = Raise ETypeError.
Proof.
  induction ms as [|x ms IH]; [discriminate|]. cbn [distinct]. intros D t. unfold wrap_from. cbn [fold_left bind]. unfold apply_mod at 2.
  destruct (has_mod x t); [apply wrap_raise|]. destruct (existsb (Z.eqb x) ms) eqn:E; [|now apply IH].
  apply (wrap_carries x); [cbn [has_mod]; now rewrite Z.eqb_refl|]. apply existsb_exists in E as (y & I & E). apply Z.eqb_eq in E. now subst.
Qed.
Lemma wrap_is t ms : wrap t ms = wrap_from (Ok t) ms.
Proof. unfold wrap. destruct (distinct ms) eqn:D; [reflexivity|]. symmetry. now apply wrap_dup. Qed.
Lemma wrap_res (r : res ty) ms : (t <- r ;; wrap t ms) = wrap_from r ms.
Proof. destruct r; cbn [bind]; [apply wrap_is|]. symmetry. apply wrap_raise. Qed.
Lemma wrap_from_snoc r ms m : wrap_from r (ms ++ [m]) = (t <- wrap_from r ms ;; apply_mod m t).
Proof. unfold wrap_from. now rewrite fold_left_app. Qed.
Lemma unwrap_core t : forall m s, fst (unwrap t) <> TMod m s.
Proof. induction t; cbn [unwrap]; try easy. destruct (unwrap t) eqn:E. cbn [fst] in *. auto. Qed.
Lemma bv_unwrap H mn iter X f k t : rebind_bitvector H mn iter X f k true t =
  let '(s, ms) := unwrap t in r <- rebind_bitvector H mn iter X f k true s ;; wrap r ms.
Proof.
  rewrite (surjective_pairing (unwrap t)). rewrite wrap_res. unfold rebind_bitvector.
  induction t as [l|n e|k' u fs|m t IH]; cbn [unwrap fst snd]; try reflexivity. destruct (unwrap t) as [s ms] eqn:E. cbn [fst snd] in *.
  rewrite wrap_from_snoc, <- IH. cbn [rebind_bv_aux]. now destruct (rebind_bv_aux H mn iter X f k true t).
Qed.
Lemma keep_unwrap H mn iter A B t : rebind_keep_modifiers H mn iter A B t =
  let '(s, ms) := unwrap t in r <- rebind_keep_modifiers H mn iter A B s ;; wrap r ms.
Proof.
  rewrite (surjective_pairing (unwrap t)). rewrite wrap_res. unfold rebind_keep_modifiers.
  induction t as [l|n e|k' u fs|m t IH]; cbn [unwrap fst snd]; try reflexivity. destruct (unwrap t) as [s ms] eqn:E. cbn [fst snd] in *.
  rewrite wrap_from_snoc, <- IH. cbn [rebind_keep_aux]. now destruct (rebind_keep_aux H mn iter A B t).
Qed.
Lemma strip_unwrap mn t : strip mn t = strip mn (fst (unwrap t)).
Proof. induction t; try reflexivity. cbn [unwrap strip]. destruct (unwrap t). exact IHt. Qed.
Lemma push_unwrap mn t : forall mods, push mn t mods = let '(s, ms) := unwrap t in push mn s (ms ++ mods).
Proof.
  induction t as [l|n e|k u fs|m t IH]; intros mods; try reflexivity. cbn [unwrap push]. rewrite IH. destruct (unwrap t). now rewrite <- app_assoc.
Qed.

(** ** rebind_keep_modifiers *)
Lemma image_same H A s : plain s -> image false (hitg H A A false) s = s.
Proof.
  induction s as [l|n ms|k' u' fs' IH|m s IH] using ty_ind'; intros Q; cbn [image]; unfold hitg at 1, hit; cbn [andb]; rewrite orb_false_r;
    match goal with |- context [ty_eqb ?s ?b] => destruct (ty_eqb_spec s b); cbn [or_else]; auto end.
  destruct (plain_node_inv _ _ _ Q) as [_ F]. fold (on_fields (image false (hitg H A A false)) fs'). rewrite on_fields_id, renode_id; auto.
  intros a I. rewrite Forall_forall in *. auto.
Qed.
Lemma occurs_imp (P Q : ty -> Prop) t : (forall s, P s -> Q s) -> occurs P t -> occurs Q t.
Proof. intros I O. induction O; [eapply occ_here|eapply occ_deep]; eauto. Qed.
Lemma deep_is_shallow H mn A B k u fs : plain (TNode k u fs) -> twf (TNode k u fs) ->
  (B = A \/ forall a, In a fs -> ~ occurs (eq A) (snd a)) ->
  rebind H mn A B false true (TNode k u fs) = rebind H mn A B false false (TNode k u fs).
Proof.
  intros P W N. rewrite rebind_ok by assumption. destruct (plain_node_inv _ _ _ P) as [KA F]. destruct (twf_node_inv _ _ _ W) as [K _].
  rewrite rebind_shallow by assumption. do 2 f_equal. apply on_fields_ext. intros a I. rewrite Forall_forall in F. specialize (F a I).
  destruct (ty_eqb_spec (snd a) A) as [E|E].
  { apply image_here; [|discriminate]. unfold hitg, hit. rewrite E. replace (ty_eqb A A) with true; auto. symmetry. now apply ty_eqb_eq. }
  destruct N as [->|N]; [now apply image_same|]. apply image_id; auto.
  - unfold hitg, hit. cbn [andb]. rewrite orb_false_r. now destruct (ty_eqb_spec (snd a) A).
  - intros O. apply (N a I). revert O. apply occurs_imp. intros s X. unfold hitg, hit in X. cbn [andb] in X. rewrite orb_false_r in X.
    destruct (ty_eqb_spec s A); auto. now elim X.
Qed.
Lemma renode_shape k u fs gs : exists k' hs, renode k u fs gs = TNode k' u hs /\ (k <> KAnon -> k' <> KAnon) /\
  (forall h, In h hs -> exists g, In g gs /\ snd g = snd h).
Proof.
  unfold renode. destruct (fields_eqb gs fs) eqn:E.
  - apply fields_eqb_eq in E as ->. exists k, fs. split; auto. split; auto. eauto.
  - assert (D : {k = KSum} + {k <> KSum}) by (destruct k; (now left) || (right; discriminate)). destruct D as [->|D].
    + cbn [without_methods mk_node]. do 2 eexists. split; [reflexivity|]. split; [discriminate|]. intros [n t] I.
      apply in_map_iff in I as (s & X & I). inversion X; subst. apply (proj1 (type_set_In _ _)) in I. apply in_map_iff in I as (g & <- & I). eauto.
    + rewrite mk_node_not_sum; [|now apply without_not_sum]. exists (without_methods k), gs. split; auto. split; [destruct k; cbn; congruence|]. eauto.
Qed.
Lemma occurs_mod P m t : occurs P (TMod m t) <-> occurs P t.
Proof.
  split; intros O.
  - inversion O as [? k fs f E I X|? k fs f E I X]; subst; cbn [node_of] in E; [eapply occ_here|eapply occ_deep]; eauto.
  - inversion O as [? k fs f E I X|? k fs f E I X]; subst; [eapply occ_here|eapply occ_deep]; cbn [node_of]; eauto.
Qed.
Lemma occurs_node_iff P k u fs : occurs P (TNode k u fs) <-> exists f, In f fs /\ (P (snd f) \/ occurs P (snd f)).
Proof.
  split.
  - intros O. inversion O as [? k' fs' f E I X|? k' fs' f E I X]; subst; cbn [node_of] in E; inversion E; subst; eauto.
  - intros (f & I & [X|X]); [eapply occ_here|eapply occ_deep]; eauto; reflexivity.
Qed.

Section Keep.
Variables (H : Z -> Z -> bool) (mn : Z -> string) (iter : list ty -> list ty) (A B : ty).
Hypotheses (IT : forall l, Permutation (iter l) l) (NA : node_of A = None) (OA : A <> TLeaf LObject)
  (NB : node_of B = None) (MB : forall m s, B <> TMod m s) (WB : twf B).
Definition gk (t : ty) : option ty := if sub H t A then Some B else None.
Lemma gk_node k u fs : gk (TNode k u fs) = None.
Proof.
  unfold gk. destruct (sub H (TNode k u fs) A) eqn:S; auto. exfalso. cbn [sub] in S. rewrite !orb_true_iff in S. destruct S as [[S|S]|S].
  - apply ty_eqb_eq in S. rewrite <- S in NA. discriminate.
  - destruct A as [[]| | |]; try discriminate. now elim OA.
  - destruct A; try discriminate S. discriminate NA.
Qed.
Lemma gk_B : image true gk B = B.
Proof.
  assert (X : forall b, b = B -> node_of b = None -> (forall m s, b <> TMod m s) -> image true gk b = b); [|now apply X].
  intros b E N M. destruct b as [l|n ms|k u fs|m s]; [| |discriminate N|now elim (M m s)]; cbn [image]; unfold gk; destruct (sub H _ A); auto.
Qed.
Lemma gk_fix s s' : gk s = Some s' -> image true gk s' = s'.
Proof. unfold gk at 1. destruct (sub H s A); [|discriminate]. intros E. inversion E; subst s'. apply gk_B. Qed.
Lemma gk_twice t : twf t -> image true gk (image true gk t) = image true gk t.
Proof. intros W. apply image_idem; auto; [apply gk_fix|apply gk_node|discriminate]. Qed.
Lemma gk_twf s s' : gk s = Some s' -> twf s'.
Proof. unfold gk. destruct (sub H s A); [|discriminate]. intros E. now inversion E; subst. Qed.
Lemma image_node_of t : node_of t = None -> node_of (image true gk t) = None.
Proof.
  induction t; cbn [node_of image]; try discriminate; auto; intros _; unfold gk; destruct (sub H _ A); cbn; auto.
Qed.
Lemma keep_plain t : plain t -> plain (image true gk t).
Proof.
  induction t as [l|n ms|k u fs IH|m t IH] using ty_ind'; intros P.
  - apply plain_atom. now apply image_node_of.
  - apply plain_atom. now apply image_node_of.
  - cbn [image]. rewrite gk_node. destruct (plain_node_inv _ _ _ P) as [KA F]. fold (on_fields (image true gk) fs).
    destruct (renode_shape k u fs (on_fields (image true gk) fs)) as (k' & hs & -> & K' & S). apply plain_node; auto.
    rewrite Forall_forall in *. intros h I. destruct (S h I) as (x & J & <-). apply in_map_iff in J as (a & <- & J). cbn [snd]. auto.
  - apply plain_atom. apply image_node_of. inversion P; auto.
Qed.
(** Components of images do not change any more. *)
Lemma occ_fixed t s : twf t -> occurs (eq s) (image true gk t) -> image true gk s = s.
Proof.
  revert s. induction t as [l|n ms|k u fs IH|m t IH] using ty_ind'; intros s W O.
  - exfalso. inversion O as [? k fs f E|? k fs f E]; subst; rewrite image_node_of in E; discriminate || reflexivity.
  - exfalso. inversion O as [? k fs f E|? k fs f E]; subst; rewrite image_node_of in E; discriminate || reflexivity.
  - cbn [image] in O. rewrite gk_node in O. fold (on_fields (image true gk) fs) in O. destruct (twf_node_inv _ _ _ W) as [_ F].
    destruct (renode_shape k u fs (on_fields (image true gk) fs)) as (k' & hs & E & _ & S). rewrite E in O.
    apply occurs_node_iff in O as (h & I & X). destruct (S h I) as (x & J & E'). apply in_map_iff in J as (a & <- & J). cbn [snd] in E'.
    rewrite <- E' in X. rewrite Forall_forall in IH, F. destruct X as [->|X]; [apply gk_twice; auto|]. apply (IH a J s); auto.
  - inversion W; subst. cbn [image] in O. apply occurs_mod in O. auto.
Qed.
Definition fixed_g (t : ty) : Prop := image true gk t = t.
Inductive apart_g : ty -> Prop :=
| ag_atom t : node_of t = None -> apart_g t
| ag_node k u fs : (forall f h, In f fs -> In h fs -> occurs (eq (snd f)) (snd h) -> fixed_g (snd f)) ->
    Forall (fun f => apart_g (snd f)) fs -> apart_g (TNode k u fs).

Section Node.
Variables (k : nkind) (u : list Z) (fs : list (string * ty)).
Hypotheses (P : plain (TNode k u fs)) (W : twf (TNode k u fs))
  (AP : forall f h, In f fs -> In h fs -> occurs (eq (snd f)) (snd h) -> fixed_g (snd f)).
Let G := image true gk.
Lemma so_far_ok L a : In a fs -> plain (so_far G L (snd a)) /\ twf (so_far G L (snd a)).
Proof.
  intros I. destruct (plain_node_inv _ _ _ P) as [_ F]. destruct (twf_node_inv _ _ _ W) as [_ F']. rewrite Forall_forall in *. unfold so_far.
  destruct (existsb _ L); split; auto; [apply keep_plain; auto|apply twf_image; auto; apply gk_twf].
Qed.
Lemma deep_step L a : In a fs -> rebind H mn (snd a) (G (snd a)) false true (renode k u fs (on_fields (so_far G L) fs)) =
  Ok (renode k u fs (on_fields (so_far G (L ++ [snd a])) fs)).
Proof.
  intros Ia. destruct (plain_node_inv _ _ _ P) as [KA F]. destruct (twf_node_inv _ _ _ W) as [K F']. rewrite Forall_forall in F, F'.
  assert (GG : forall t, In t (types fs) -> G (G t) = G t). { intros t J. apply in_map_iff in J as (x & <- & J). apply gk_twice. auto. }
  rewrite <- (rebind_step H mn G k u fs KA K GG L (snd a)).
  assert (W' : twf (renode k u fs (on_fields (so_far G L) fs))).
  { unfold renode. destruct (fields_eqb _ fs); auto. apply (twf_mk_node _ _ fs); [apply names_on_fields|auto|]. apply Forall_on_fields. intros x J. now apply so_far_ok. }
  assert (P' : plain (renode k u fs (on_fields (so_far G L) fs))).
  { unfold renode. destruct (fields_eqb _ fs); auto. apply plain_mk_node; auto. apply Forall_on_fields. intros x J. now apply so_far_ok. }
  destruct (renode_shape k u fs (on_fields (so_far G L) fs)) as (k' & hs & E & _ & S). rewrite E in *. apply deep_is_shallow; auto.
  destruct (ty_eqb_spec (G (snd a)) (snd a)) as [Ef|Ef]; [now left|right]. intros h J O. apply Ef. destruct (S h J) as (x & Q & E').
  apply in_map_iff in Q as (b & <- & Ib). cbn [snd] in E'. rewrite <- E' in O. unfold so_far in O. destruct (existsb _ L).
  - apply occ_fixed in O; auto.
  - apply (AP a b); auto.
Qed.
Lemma deep_all (fl : list (string * ty)) : (forall a, In a fl -> In a fs) -> forall L,
  rebind_all H mn true (renode k u fs (on_fields (so_far G L) fs)) (map (fun a => (snd a, G (snd a))) fl) =
  Ok (renode k u fs (on_fields (so_far G (L ++ map snd fl)) fs)).
Proof.
  unfold rebind_all. induction fl as [|a fl IH]; intros I L; cbn [map fold_left fst snd]; [now rewrite app_nil_r|].
  cbn [bind]. rewrite deep_step by (apply I; now left). rewrite IH by (intros; apply I; now right). now rewrite <- app_assoc.
Qed.
Lemma deep_all_ok T : (forall t, In t T <-> In t (types fs)) ->
  rebind_all H mn true (TNode k u fs) (map (fun t => (t, G t)) T) = Ok (renode k u fs (on_fields G fs)).
Proof.
  intros I. assert (X : exists fl, (forall a, In a fl -> In a fs) /\ map snd fl = T).
  { assert (Y : forall t, In t T -> In t (types fs)) by (intros; now apply I). clear I. induction T as [|t T' IH]; [exists []; split; [easy|reflexivity]|].
    destruct IH as (fl & I1 & I2); [intros; apply Y; now right|]. assert (J := Y t (or_introl eq_refl)). apply in_map_iff in J as (a & <- & J).
    exists (a :: fl). split; [intros b [<-|Ib]; auto|cbn; now rewrite I2]. }
  destruct X as (fl & I1 & I2). pose proof (deep_all fl I1 []) as X. rewrite (on_fields_id (so_far G [])), renode_id in X; [|auto].
  cbn [app] in X. replace (map (fun t => (t, G t)) T) with (map (fun a : string * ty => (snd a, G (snd a))) fl) by (rewrite <- I2, map_map; reflexivity).
  rewrite X. do 2 f_equal. apply on_fields_ext. intros a Y. unfold so_far. rewrite (proj2 (existsb_ty (snd a) (map snd fl))); auto.
  rewrite I2. apply I. now apply in_map.
Qed.
End Node.

Lemma keep_carries m t : carries m (image true gk t) -> carries m t.
Proof.
  induction t as [l|n ms|k u fs|m' t IH]; cbn [image].
  - unfold gk. destruct (sub H (TLeaf l) A); cbn; auto. destruct B; cbn in *; try easy. now elim (MB m0 t).
  - unfold gk. destruct (sub H (TEnum n ms) A); cbn; auto. destruct B; cbn in *; try easy. now elim (MB m0 t).
  - rewrite gk_node. unfold renode. destruct (fields_eqb _ _); auto. destruct k; cbn; auto.
  - cbn [carries]. tauto.
Qed.
Lemma keep_aux_ok t : twf t -> plain t -> plain_mod t -> apart_g t ->
  rebind_keep_aux H mn iter A B t = (Ok (image true gk t), Ok (pairs_of (image true gk) t)).
Proof.
  induction t as [l|n ms|k u fs IH|m t IH] using ty_ind'; intros W P Q AP.
  - cbn [rebind_keep_aux image]. unfold gk. destruct (sub H (TLeaf l) A); reflexivity.
  - cbn [rebind_keep_aux image]. unfold gk. destruct (sub H (TEnum n ms) A); reflexivity.
  - cbn [rebind_keep_aux]. pose proof (gk_node k u fs) as E. unfold gk in E. destruct (sub H (TNode k u fs) A); [discriminate|]. clear E.
    destruct (twf_node_inv _ _ _ W) as [K F]. destruct (plain_node_inv _ _ _ P) as [KA F']. rewrite Forall_forall in IH, F, F'.
    inversion Q as [| |? ? ? _ Qf|]; subst. rewrite Forall_forall in Qf. inversion AP as [? E|? ? ? AP1 AP2]; subst; [discriminate|]. rewrite Forall_forall in AP2.
    assert (E : sequence (map (fun f => r <- fst (rebind_keep_aux H mn iter A B (snd f));; Ok (snd f, r)) fs) = Ok (pairs_of (image true gk) (TNode k u fs))).
    { rewrite sequence_map. unfold pairs_of, fields_of. cbn [node_of]. rewrite <- (mapM_ok (fun a => (snd a, image true gk (snd a))) fs).
      apply mapM_ext. intros a I. rewrite (IH a I); auto. }
    rewrite E. cbn [bind]. f_equal. clear E.
    replace (map (pair_of (pairs_of (image true gk) (TNode k u fs))) (class_fields iter (TNode k u fs))) with (map (fun t => (t, image true gk t)) (class_fields iter (TNode k u fs))).
    + rewrite deep_all_ok; auto; [cbn [image]; now rewrite gk_node|]. intros t. now apply class_fields_In.
    + apply map_ext_in. intros t I. apply class_fields_In in I; auto. unfold pair_of, pairs_of, fields_of. cbn [node_of]. now rewrite find_pair.
  - inversion P as [? E|]; subst. cbn [node_of] in E. inversion Q; subst. inversion W; subst. cbn [rebind_keep_aux].
    rewrite IH; auto; [|now apply plain_atom|now apply ag_atom]. cbn [bind image]. unfold apply_mod.
    destruct (has_mod m (image true gk t)) eqn:C; [apply has_mod_carries, keep_carries in C; contradiction|].
    unfold pairs_of, fields_of. cbn [node_of]. reflexivity.
Qed.
Lemma gk_spec t : match gk t with Some t' => to_type (fun s => sub H s A = true) B t t' | None => forall t', ~ to_type (fun s => sub H s A = true) B t t' end.
Proof. unfold gk. destruct (sub H t A) eqn:E; [now split|]. intros t' [X _]. congruence. Qed.
(** replaced is functional. *)
Lemma replaced_image t t' : replaced (to_type (fun s => sub H s A = true) B) true t t' -> t' = image true gk t.
Proof.
  revert t'. induction t as [l|n ms|k u fs IH|m t IH] using ty_ind'; intros t' R.
  - inversion R as [? ? N [S E]| |? N G E|]; subst; cbn [image]; unfold gk; [now rewrite S|].
    destruct (sub H (TLeaf l) A) eqn:S; auto. now elim (G B).
  - inversion R as [? ? N [S E]| |? N G E|]; subst; cbn [image]; unfold gk; [now rewrite S|].
    destruct (sub H (TEnum n ms) A) eqn:S; auto. now elim (G B).
  - pose proof (gk_node k u fs) as GN. inversion R as [? ? N [S E]| |? N G E|? ? ? gs ? G F2 RF]; subst.
    + unfold gk in GN. now rewrite S in GN.
    + discriminate.
    + cbn [image]. rewrite GN. fold (on_fields (image true gk) fs). assert (X : gs = on_fields (image true gk) fs).
      { clear RF R GN G. induction F2 as [|[n1 a] [n2 b] fs gs [E1 E2] F2 IH2]; [reflexivity|]. cbn in *. inversion IH; subst. f_equal; auto.
        f_equal; auto. }
      rewrite X in RF. unfold refielded in RF. unfold renode. destruct (fields_eqb _ fs) eqn:Q.
      * apply fields_eqb_eq in Q. rewrite Q in RF. destruct RF as [[_ ->]|[Y _]]; [reflexivity|now elim Y].
      * destruct RF as [[Y _]|[_ ->]]; [rewrite Y, fields_eqb_refl in Q; discriminate|reflexivity].
  - inversion R as [? ? N [S E]|? ? t2 _ R'|? N G E|]; subst.
    + now elim (N eq_refl m t).
    + cbn [image]. f_equal. auto.
    + now elim (N eq_refl m t).
Qed.
Lemma apart_g_of t : apart (to_type (fun s => sub H s A = true) B) t -> apart_g t.
Proof.
  induction t as [l|n ms|k u fs IH|m t IH] using ty_ind'; intros P; inversion P as [? E|? ? ? P1 P2]; subst; try (now apply ag_atom).
  apply ag_node.
  - intros f h If Ih O. unfold fixed_g. symmetry. apply replaced_image. eauto.
  - rewrite Forall_forall in *. auto.
Qed.
Lemma keep_ok t : twf t -> plain t -> plain_mod t -> apart (to_type (fun s => sub H s A = true) B) t ->
  rebind_keep_modifiers H mn iter A B t = Ok (image true gk t).
Proof. intros W P Q AP. unfold rebind_keep_modifiers. rewrite keep_aux_ok; auto. now apply apart_g_of. Qed.
Fixpoint apartb (t : ty) : bool :=
  match t with
  | TNode _ _ fs =>
      forallb (fun f => forallb (fun h => negb (existsb (ty_eqb (snd f)) (components (snd h))) || ty_eqb (image true gk (snd f)) (snd f)) fs) fs &&
      forallb (fun f => apartb (snd f)) fs
  | _ => match node_of t with None => true | _ => false end
  end.
Lemma apartb_ok t : apartb t = true -> apart (to_type (fun s => sub H s A = true) B) t.
Proof.
  induction t as [l|n ms|k u fs IH|m t IH] using ty_ind'; cbn [apartb]; rewrite ?andb_true_iff; intros E; try (now apply apart_atom).
  - destruct E as [E1 E2]. apply apart_node.
    + intros f h If Ih O. rewrite forallb_forall in E1. specialize (E1 f If). rewrite forallb_forall in E1. specialize (E1 h Ih).
      apply components_ok in O as (s & I & <-). apply orb_true_iff in E1 as [E1|E1].
      * exfalso. rewrite negb_true_iff in E1. apply not_true_iff_false in E1. apply E1. apply existsb_exists. exists (snd f). split; auto. now apply ty_eqb_eq.
      * apply ty_eqb_eq in E1. pose proof (image_replaced true gk _ (snd f) gk_spec) as R. rewrite E1 in R. apply R. discriminate.
    + rewrite forallb_forall in E2. rewrite Forall_forall in *. auto.
  - apply apart_atom. destruct (node_of (TMod m t)); easy.
Qed.
End Keep.

(** A type that is not, and has no component that is, a subclass of A. *)
Lemma rebind_self H mn A k u fs : twf (TNode k u fs) -> plain (TNode k u fs) -> rebind H mn A A false true (TNode k u fs) = Ok (TNode k u fs).
Proof.
  intros W P. rewrite rebind_ok by assumption. destruct (plain_node_inv _ _ _ P) as [_ F]. rewrite Forall_forall in F.
  rewrite on_fields_id, renode_id; auto. intros a I. apply image_same. auto.
Qed.
Lemma keep_absent H mn iter A B (IT : forall l : list ty, Permutation (iter l) l) t : twf t -> plain t -> plain_mod t ->
  sub H (fst (unwrap t)) A = false -> ~ occurs (fun s => sub H (fst (unwrap s)) A = true) t ->
  rebind_keep_aux H mn iter A B t = (Ok t, Ok (pairs_of (fun s => s) t)).
Proof.
  induction t as [l|n ms|k u fs IH|m t IH] using ty_ind'; intros W P Q S O.
  - cbn [rebind_keep_aux unwrap fst] in *. now rewrite S.
  - cbn [rebind_keep_aux unwrap fst] in *. now rewrite S.
  - cbn [rebind_keep_aux unwrap fst] in *. rewrite S.
    destruct (twf_node_inv _ _ _ W) as [K F]. destruct (plain_node_inv _ _ _ P) as [KA F']. rewrite Forall_forall in IH, F, F'.
    inversion Q as [| |? ? ? _ Qf|]; subst. rewrite Forall_forall in Qf.
    assert (N : forall a, In a fs -> sub H (fst (unwrap (snd a))) A = false /\ ~ occurs (fun s => sub H (fst (unwrap s)) A = true) (snd a)).
    { intros a I. split; [apply not_true_iff_false|]; intros X; apply O, occurs_node_iff; exists a; auto. }
    assert (E : sequence (map (fun f => r <- fst (rebind_keep_aux H mn iter A B (snd f));; Ok (snd f, r)) fs) = Ok (pairs_of (fun s => s) (TNode k u fs))).
    { rewrite sequence_map. unfold pairs_of, fields_of. cbn [node_of]. rewrite <- (mapM_ok (fun a => (snd a, snd a)) fs).
      apply mapM_ext. intros a I. destruct (N a I) as [N1 N2]. rewrite (IH a I); auto. }
    rewrite E. cbn [bind]. f_equal. clear E.
    replace (map (pair_of (pairs_of (fun s => s) (TNode k u fs))) (class_fields iter (TNode k u fs))) with (map (fun t => (t, t)) (class_fields iter (TNode k u fs))).
    + generalize (class_fields iter (TNode k u fs)). intros T. unfold rebind_all. induction T as [|t T IHT]; cbn [map fold_left fst snd]; auto.
      cbn [bind]. rewrite rebind_self; auto.
    + apply map_ext_in. intros t I. apply class_fields_In in I; auto. unfold pair_of, pairs_of, fields_of. cbn [node_of]. now rewrite (find_pair (fun s => s)).
  - inversion P as [? E|]; subst. cbn [node_of] in E. inversion Q; subst. inversion W; subst. cbn [rebind_keep_aux].
    cbn [unwrap] in S. destruct (unwrap t) as [c ms] eqn:U. cbn [fst] in S.
    rewrite IH; auto; [|now apply plain_atom|]; [|now rewrite <- occurs_mod with (m := m)]. cbn [bind]. unfold apply_mod.
    destruct (has_mod m t) eqn:C; [apply has_mod_carries in C; contradiction|]. reflexivity.
Qed.
