(** Facts about the classes of a family, and about operations on instances of them. *)
From Coq Require Import Lia.
From Verif Require Import PyBase BVModel ADTTy ADTTyFacts ADTModel ADTSpec ADTFacts AliasModel AliasSpec AliasFacts DProgModel DProgSpec.

(** ** The order of codes is the same in every family *)
Lemma lex_app u r r' : lex (u ++ r) (u ++ r') = lex r r'.
Proof. induction u as [|x u IH]; cbn [app lex]; [reflexivity|]. now rewrite Z.compare_refl. Qed.
Lemma lex_apart u : forall v r r' q q', (forall a b, u ++ a <> v ++ b) -> lex (u ++ r) (v ++ r') = lex (u ++ q) (v ++ q').
Proof.
  induction u as [|x u IH]; intros [|y v] r r' q q' N.
  - exfalso. now apply (N [] []).
  - exfalso. apply (N (y :: v) []). now rewrite app_nil_r.
  - exfalso. apply (N [] (x :: u)). now rewrite app_nil_r.
  - cbn [app lex]. destruct (x ?= y) eqn:E; auto. apply IH. intros a b Q. apply (N a b). apply Z.compare_eq in E. subst y. cbn [app]. now rewrite Q.
Qed.
Lemma lex_pinj {A} (f : A -> list Z) x : pinj f x -> forall y r r' q q', lex r r' = lex q q' -> lex (f x ++ r) (f y ++ r') = lex (f x ++ q) (f y ++ q').
Proof.
  intros P y r r' q q' E. destruct (list_eq_dec Z.eq_dec (f x) (f y)) as [Q|N].
  - rewrite <- Q, !lex_app. exact E.
  - apply lex_apart. intros a b Q. apply P in Q as [Q _]. congruence.
Qed.
Definition lex_like {A} (f g : A -> list Z) (ok : A -> Prop) (x : A) : Prop :=
  forall y r r' q q', ok x -> ok y -> lex r r' = lex q q' -> lex (g x ++ r) (g y ++ r') = lex (f x ++ q) (f y ++ q').
Lemma lex_list {A} (f g : A -> list Z) ok l : Forall (lex_like f g ok) l -> lex_like (list_code f) (list_code g) (Forall ok) l.
Proof.
  intros F m r r' q q' O O' E. unfold list_code. cbn [app lex]. destruct (Z.of_nat (length l) ?= Z.of_nat (length m)) eqn:C; auto.
  apply Z.compare_eq, Nat2Z.inj in C. revert m r r' q q' O O' E C. induction F as [|x l Fx F IH]; intros [|y m] r r' q q' O O' E C; try discriminate; auto.
  cbn [flat_map]. rewrite <- !app_assoc. inversion O; inversion O'; subst. apply Fx; auto.
Qed.
Definition field_code (f : string * ty) : list Z := str_code (fst f) ++ code (snd f).
Definition fld_fam (f : Z) (p : string * ty) : string * ty := (fst p, ty_fam f (snd p)).
Lemma list_code_map {A B} (f : B -> list Z) (g : A -> B) l : list_code f (map g l) = list_code (fun x => f (g x)) l.
Proof. unfold list_code. rewrite map_length. f_equal. induction l; cbn; congruence. Qed.
Lemma lex_fam f t : lex_like code (fun t => code (ty_fam f t)) (fun t => pure t = true) t.
Proof.
  induction t as [l|n ms|k u fs IH|m t IH] using ty_ind'; intros [l'|n' ms'|k' u' fs'|m' t'] r r' q q' O O' E; cbn [ty_fam code app]; try reflexivity; cbn [lex]; rewrite ?Z.compare_refl.
  - cbn [pure] in O, O'. destruct l as [g kd [z|]|g| | | |i], l' as [g' kd' [z'|]|g'| | | |i']; cbn [leaf_fam leaf_code app lex leaf_pure] in *; rewrite ?Z.compare_refl; try exact E; try reflexivity;
      repeat match goal with Q : (_ =? 0) = true |- _ => apply Z.eqb_eq in Q; subst end; cbn [Z.eqb]; rewrite ?Z.compare_refl; cbn [Z.compare]; try reflexivity; rewrite ?E; reflexivity.
  - rewrite <- !app_assoc. apply lex_pinj; [apply pinj_str|]. apply lex_pinj; [|exact E]. apply pinj_list, Forall_forall. intros [a b] _. apply pinj_pair; [apply pinj_str|apply pinj_evalue].
  - rewrite <- !app_assoc. apply lex_pinj; [apply pinj_kind|]. apply lex_pinj; [apply pinj_list, Forall_forall; intros a _ b x y Q; cbn in Q; split; congruence|].
    rewrite !list_code_map. apply (lex_list field_code (fun p => field_code (fld_fam f p)) (fun p => pure (snd p) = true)); auto.
    + eapply Forall_impl; [|exact IH]. intros [a b] Hb [a' b'] s s' p p' P P' Q. unfold field_code, fld_fam. cbn [fst snd] in *. rewrite <- !app_assoc. apply lex_pinj; [apply pinj_str|]. now apply Hb.
    + now apply Forall_forall, forallb_forall.
    + now apply Forall_forall, forallb_forall.
  - destruct (m ?= m'); auto.
Qed.
Lemma lex_fam_eq f a b : pure a = true -> pure b = true -> lex (code (ty_fam f a)) (code (ty_fam f b)) = lex (code a) (code b).
Proof. intros A B. pose proof (lex_fam f a b [] [] [] [] A B eq_refl) as E. now rewrite !app_nil_r in E. Qed.
Lemma ty_eqb_fam f a b : pure a = true -> pure b = true -> ty_eqb (ty_fam f a) (ty_fam f b) = ty_eqb a b.
Proof. intros A B. unfold ty_eqb. now rewrite lex_fam_eq. Qed.
Lemma set_add_pure x l : pure x = true -> Forall (fun t => pure t = true) l -> Forall (fun t => pure t = true) (set_add x l).
Proof. intros P. induction 1 as [|y l Y F IH]; cbn [set_add]; auto. destruct (lex _ _); auto. Qed.
Lemma set_add_fam f x l : pure x = true -> Forall (fun t => pure t = true) l -> set_add (ty_fam f x) (map (ty_fam f) l) = map (ty_fam f) (set_add x l).
Proof. intros P. induction 1 as [|y l Y F IH]; cbn [set_add map]; auto. rewrite lex_fam_eq by auto. destruct (lex _ _); cbn [map]; congruence. Qed.
Lemma type_set_pure l : Forall (fun t => pure t = true) l -> Forall (fun t => pure t = true) (type_set l).
Proof. unfold type_set. induction 1; cbn [fold_right]; auto. now apply set_add_pure. Qed.
Lemma type_set_fam f l : Forall (fun t => pure t = true) l -> type_set (map (ty_fam f) l) = map (ty_fam f) (type_set l).
Proof. unfold type_set. induction 1; cbn [fold_right map]; auto. rewrite IHForall. apply set_add_fam; auto. now apply type_set_pure. Qed.

(** ** Fields and subclasses *)
Definition flds_fam (f : Z) (fs : list (string * ty)) : list (string * ty) := map (fld_fam f) fs.
Lemma types_fam f fs : types (flds_fam f fs) = map (ty_fam f) (types fs).
Proof. unfold types, flds_fam. rewrite !map_map. reflexivity. Qed.
Lemma names_fam f fs : names (flds_fam f fs) = names fs.
Proof. unfold names, flds_fam. rewrite !map_map. reflexivity. Qed.
Lemma unnamed_fam f l : unnamed (map (ty_fam f) l) = flds_fam f (unnamed l).
Proof. unfold unnamed, flds_fam. now rewrite !map_map. Qed.
Lemma node_of_fam f t : node_of (ty_fam f t) = option_map (fun p => (fst p, flds_fam f (snd p))) (node_of t).
Proof. induction t; cbn; auto. Qed.
Lemma node_of_pure t k fs : node_of t = Some (k, fs) -> pure t = true -> Forall (fun t => pure t = true) (types fs).
Proof. induction t; cbn [node_of pure]; try discriminate; auto. intros [= <- <-] P. unfold types. apply Forall_map, Forall_forall. intros p Hp. rewrite forallb_forall in P. now apply P. Qed.
Lemma pure_unnamed l k u : Forall (fun t => pure t = true) l -> pure (TNode k u (unnamed l)) = true.
Proof. intros F. cbn [pure]. apply forallb_forall. intros p Hp. apply in_map_iff in Hp as (t & <- & Ht). now apply (proj1 (Forall_forall _ _) F) in Ht. Qed.
Lemma types_pure fs : forallb (fun p => pure (snd p)) fs = true -> Forall (fun t => pure t = true) (types fs).
Proof. intros P. unfold types. apply Forall_map, Forall_forall. intros p Hp. rewrite forallb_forall in P. now apply P. Qed.
Lemma leaf_sub_fam H f a b : leaf_pure a = true -> leaf_pure b = true -> leaf_sub H (leaf_fam f a) (leaf_fam f b) = leaf_sub H a b.
Proof.
  intros A B. destruct a, b; cbn [leaf_fam leaf_sub leaf_pure] in *; auto; apply Z.eqb_eq in A; apply Z.eqb_eq in B; subst; cbn [Z.eqb]; now rewrite ?Z.eqb_refl.
Qed.
Lemma node_sub_fam f k u fs t : pure (TNode k u fs) = true -> pure t = true -> node_sub k u (flds_fam f fs) (ty_fam f t) = node_sub k u fs t.
Proof.
  intros A B. destruct t as [| |k' u' fs'|]; cbn [ty_fam node_sub]; auto. change (map (fun p : string * ty => (fst p, ty_fam f (snd p))) fs') with (flds_fam f fs'). pose proof (types_pure _ A) as A'.
  assert (Q : forall k0 u0 gs k1 u1 gs', pure (TNode k0 u0 gs) = true -> pure (TNode k1 u1 gs') = true ->
    ty_eqb (TNode k0 u0 (flds_fam f gs)) (TNode k1 u1 (flds_fam f gs')) = ty_eqb (TNode k0 u0 gs) (TNode k1 u1 gs')).
  { intros k0 u0 gs k1 u1 gs' G G'. exact (ty_eqb_fam f (TNode k0 u0 gs) (TNode k1 u1 gs') G G'). }
  destruct k, k'; auto; rewrite ?types_fam, ?(type_set_fam f _ A'), ?unnamed_fam; rewrite ?Q; auto; apply pure_unnamed; auto; now apply type_set_pure.
Qed.
Lemma sub_fam H f s : forall t, pure s = true -> pure t = true -> sub H (ty_fam f s) (ty_fam f t) = sub H s t.
Proof.
  induction s as [l|n ms|k u fs IH|m s IH] using ty_ind'; intros t A B.
  - cbn [sub ty_fam]. change (TLeaf (leaf_fam f l)) with (ty_fam f (TLeaf l)). rewrite ty_eqb_fam by auto. f_equal; [f_equal; destruct t as [[]| | |]; reflexivity|].
    destruct t; cbn [ty_fam]; auto. now apply leaf_sub_fam.
  - cbn [sub ty_fam]. change (TEnum n ms) with (ty_fam f (TEnum n ms)) at 1. rewrite ty_eqb_fam by auto. f_equal. f_equal. destruct t as [[]| | |]; reflexivity.
  - cbn [sub ty_fam]. change (map (fun p : string * ty => (fst p, ty_fam f (snd p))) fs) with (flds_fam f fs). rewrite node_sub_fam by auto. f_equal. f_equal; [|destruct t as [[]| | |]; reflexivity]. exact (ty_eqb_fam f (TNode k u fs) t A B).
  - cbn [pure] in A. cbn [sub ty_fam]. rewrite (IH t A B). f_equal; [f_equal; [exact (ty_eqb_fam f (TMod m s) t A B)|destruct t as [[]| | |]; reflexivity]|].
    f_equal. destruct t; cbn [ty_fam]; auto. f_equal. now apply IH.
Qed.

(** ** Operations in another family *)
Section Fam.
Context {X : Type} (H : Z -> Z -> bool) (f : Z) (tx tx' : X -> ty) (TX : forall x, tx' x = ty_fam f (tx x)) (PX : forall x, pure (tx x) = true).
Lemma isinstance_fam x t : pure t = true -> isinstance H tx' x (ty_fam f t) = isinstance H tx x t.
Proof. intros P. unfold isinstance. rewrite TX. now apply sub_fam. Qed.
Lemma existsb_fam u l : pure u = true -> Forall (fun t => pure t = true) l -> existsb (ty_eqb (ty_fam f u)) (map (ty_fam f) l) = existsb (ty_eqb u) l.
Proof. intros P. induction 1; cbn [existsb map]; auto. rewrite ty_eqb_fam by auto. congruence. Qed.
Lemma tuple_init_fam fs xs : Forall (fun t => pure t = true) (types fs) -> tuple_init H tx' (flds_fam f fs) xs = tuple_init H tx fs xs.
Proof.
  intros P. unfold tuple_init. unfold flds_fam at 1. rewrite map_length. rewrite types_fam. assert (Q : forallb (fun p => isinstance H tx' (fst p) (snd p)) (combine xs (map (ty_fam f) (types fs))) = forallb (fun p => isinstance H tx (fst p) (snd p)) (combine xs (types fs))); [|now rewrite Q].
  revert xs. induction P as [|t ts Pt P IH]; intros [|x xs]; cbn [combine map forallb]; auto. cbn [fst snd]. rewrite isinstance_fam by auto. now rewrite IH.
Qed.
Lemma assoc_fam n fs : assoc n (flds_fam f fs) = option_map (ty_fam f) (assoc n fs).
Proof. unfold flds_fam. induction fs as [|[m t] fs IH]; cbn; auto. destruct (String.eqb n m); auto. Qed.
Lemma assoc_pure n fs t : Forall (fun t => pure t = true) (types fs) -> assoc n fs = Some t -> pure t = true.
Proof. intros F E. apply assoc_types in E. now apply (proj1 (Forall_forall _ _) F) in E. Qed.
Lemma tag_set_fam fs n x : Forall (fun t => pure t = true) (types fs) -> tag_set H tx' (flds_fam f fs) n x = tag_set H tx fs n x.
Proof.
  intros P. unfold tag_set. rewrite names_fam, assoc_fam. destruct (index_of n (names fs)); auto. destruct (assoc n fs) as [t|] eqn:E; cbn [option_map]; auto. rewrite isinstance_fam; auto. eapply assoc_pure; eauto.
Qed.
Lemma call_fam t pos kw : pure t = true -> call H tx' (ty_fam f t) pos kw = call H tx t pos kw.
Proof.
  intros P. unfold call. rewrite node_of_fam. destruct (node_of t) as [[k fs]|] eqn:E; cbn [option_map fst snd]; auto. pose proof (node_of_pure _ _ _ E P) as F.
  destruct k; rewrite ?names_fam.
  - destruct kw; auto. now apply tuple_init_fam.
  - destruct (bind_args _ _ _); cbn [bind]; auto. now apply tuple_init_fam.
  - destruct (bind_args _ _ _); cbn [bind]; auto. now apply tuple_init_fam.
  - unfold sum_init. destruct (match pos with [] => _ | _ => _ end) as [x|]; auto. rewrite TX, types_fam, existsb_fam; auto.
  - unfold tag_init. destruct pos; auto. destruct kw as [|[n x] [|? ?]]; auto. rewrite assoc_fam, tag_set_fam by auto. now destruct (assoc n fs).
Qed.
Lemma tuple_setitem_fam fs xs i x : Forall (fun t => pure t = true) (types fs) -> tuple_setitem H tx' (flds_fam f fs) xs i x = tuple_setitem H tx fs xs i x.
Proof.
  intros P. unfold tuple_setitem. unfold flds_fam at 1. rewrite map_length. destruct (py_index _ _) as [p|]; cbn [bind]; auto. rewrite types_fam.
  change (TLeaf LObject) with (ty_fam f (TLeaf LObject)) at 1. rewrite map_nth. rewrite isinstance_fam; auto.
  destruct (nth_in_or_default p (types fs) (TLeaf LObject)) as [Q|Q]; [|rewrite Q]; auto; now apply (proj1 (Forall_forall _ _) P) in Q.
Qed.
Lemma setitem_fam t s k x : pure t = true -> match k with IxTy u => pure u = true | _ => True end ->
  setitem H tx' (ty_fam f t) s (match k with IxTy u => IxTy (ty_fam f u) | k => k end) x = setitem H tx t s k x.
Proof.
  intros P K. unfold setitem. rewrite node_of_fam. destruct (node_of t) as [[kd fs]|] eqn:E; cbn [option_map fst snd]; auto. pose proof (node_of_pure _ _ _ E P) as F.
  destruct kd; destruct s; auto; destruct k as [i|n|u| ]; auto; rewrite ?tuple_setitem_fam, ?assoc_fam by auto; auto.
  - now destruct (assoc n fs).
  - rewrite types_fam, existsb_fam, isinstance_fam by auto. reflexivity.
Qed.
Lemma setattr_fam t s n x : pure t = true -> setattr H tx' (ty_fam f t) s n x = setattr H tx t s n x.
Proof.
  intros P. unfold setattr. rewrite node_of_fam. destruct (node_of t) as [[kd fs]|] eqn:E; cbn [option_map fst snd]; auto. pose proof (node_of_pure _ _ _ E P) as F.
  destruct kd; destruct s; auto; rewrite ?tag_set_fam by auto; auto; rewrite names_fam, assoc_fam; destruct (index_of n (names fs)); auto; destruct (assoc n fs) as [u|] eqn:A; cbn [option_map]; auto;
    rewrite isinstance_fam by (eapply assoc_pure; eauto); now rewrite tuple_setitem_fam.
Qed.
Lemma sum_get_fam t s u : pure t = true -> pure u = true -> sum_get H tx' (ty_fam f t) s (ty_fam f u) = sum_get H tx t s u.
Proof.
  intros P U. unfold sum_get. rewrite node_of_fam. destruct (node_of t) as [[kd fs]|] eqn:E; cbn [option_map fst snd]; auto. pose proof (node_of_pure _ _ _ E P) as F.
  destruct s; auto; rewrite ?types_fam, ?(type_set_fam f _ F), existsb_fam, isinstance_fam; auto. now apply type_set_pure.
Qed.
Lemma tag_get_fam {Y} t (s : shape Y) n : tag_get (ty_fam f t) s n = tag_get t s n.
Proof. unfold tag_get. rewrite node_of_fam. destruct (node_of t) as [[kd fs]|]; cbn [option_map fst snd]; auto. now rewrite names_fam. Qed.
Lemma field_fam t s n : field (ty_fam f t) s n = field t s n.
Proof. unfold field. rewrite node_of_fam. destruct (node_of t) as [[kd fs]|]; cbn [option_map fst snd]; auto. destruct kd; auto; now rewrite names_fam. Qed.
End Fam.

(** ** Access to related components *)
Section Rel2.
Context {X Y : Type} (H : Z -> Z -> bool) (tx : X -> ty) (tY : Y -> ty) (R : X -> Y -> Prop) (RT : forall a b, R a b -> tx a = tY b).
Definition mrel2 (a : bool * X) (b : bool * Y) : Prop := fst a = fst b /\ R (snd a) (snd b).
Lemma sum_get_rel t s s' u : srel R s s' -> rrel mrel2 (sum_get H tx t s u) (sum_get H tY t s' u).
Proof.
  unfold sum_get. intros Q. destruct (node_of t) as [[k fs]|]; [|reflexivity]. destruct s, s'; cbn [srel] in Q; try contradiction; cbn [rrel]; auto.
  - destruct (existsb _ _); cbn [rrel]; auto. split; cbn [fst snd]; auto. unfold isinstance. now rewrite (RT _ _ Q).
  - destruct Q as [<- Q]. destruct (existsb _ _); cbn [rrel]; auto. split; cbn [fst snd]; auto. unfold isinstance. now rewrite (RT _ _ Q).
Qed.
Lemma tag_get_rel t s s' n : srel R s s' -> rrel mrel2 (tag_get t s n) (tag_get t s' n).
Proof.
  unfold tag_get. intros Q. destruct (node_of t) as [[k fs]|]; [|reflexivity]. destruct s, s'; cbn [srel] in Q; try contradiction; cbn [rrel]; auto.
  destruct Q as [<- Q]. destruct (index_of _ _); cbn [rrel]; auto. split; auto.
Qed.
Lemma match_value_rel a b : mrel2 a b -> rrel R (match_value a) (match_value b).
Proof. destruct a as [[|] x], b as [c y]; intros [E Q]; cbn in E; subst; cbn; auto. Qed.
End Rel2.
Section Rel3.
Context (R : nat -> nat -> Prop).
Lemma Forall2_nth {A B} (P : A -> B -> Prop) l m : Forall2 P l m -> forall i, match nth_error l i, nth_error m i with Some a, Some b => P a b | None, None => True | _, _ => False end.
Proof. induction 1 as [|a b l m Q F IH]; intros [|i]; cbn; auto. apply IH. Qed.
Lemma component_rel s s' i : srel R s s' -> rrel R (component s i) (component s' i).
Proof.
  unfold component. intros Q. destruct s, s'; cbn [srel] in Q; try contradiction; cbn [rrel]; auto. destruct Q as [_ F]. rewrite (Forall2_length _ _ _ F).
  destruct (py_index _ _) as [q|]; cbn [bind rrel]; auto. pose proof (Forall2_nth _ _ _ F q) as N. destruct (nth_error xs q), (nth_error xs0 q); try contradiction; cbn [rrel]; auto.
Qed.
Lemma field_rel t s s' n : srel R s s' -> rrel R (field t s n) (field t s' n).
Proof.
  unfold field. intros Q. destruct (node_of t) as [[[] fs]|]; cbn [rrel]; auto; destruct (index_of _ _); cbn [rrel]; auto; now apply component_rel.
Qed.
End Rel3.
