(** Shapes of instances in histories with slices, and the round trip through value_dict. *)
From Coq Require Import Lia Sorted Permutation.
From Verif Require Import PyBase BVModel ADTTy ADTTyFacts ADTModel ADTSpec ADTFacts ADTValFacts.

Lemma twf_kind t k fs : twf t -> node_of t = Some (k, fs) -> kind_ok k fs.
Proof. induction 1; cbn [node_of]; intros E; try discriminate; auto. now injection E as -> ->. Qed.
(** Shapes of objects, preserved by every operation. *)
Definition shaped (t : ty) (s : shape nat) : Prop :=
  match node_of t with
  | Some (KTag _ _, fs) => exists i v f, s = STag i v /\ nth_error fs i = Some f
  | Some (KSum, _) => exists v, s = SSum v
  | Some _ => exists b xs, s = STup b xs
  | None => False
  end.
Lemma gfits_shaped H typ t s : gfits H typ t s -> shaped t s.
Proof.
  unfold shaped. destruct 1 as [k fs b xs En Hk F|fs f r En Hf Hs|n x fs i f r En Hi Hs]; rewrite En; eauto.
  all: destruct k; try contradiction; eauto.
Qed.
Lemma setitem_shaped H typ t s k (x : nat) s' : shaped t s -> setitem H typ t s k x = Ok s' -> shaped t s'.
Proof.
  unfold shaped, setitem. destruct (node_of t) as [[kd fs]|]; [|contradiction].
  assert (T : forall xs i, tuple_setitem H typ fs xs i x = Ok s' -> exists b ys, s' = STup b ys).
  { intros xs i. unfold tuple_setitem. destruct (py_index _ i); cbn [bind]; try discriminate. destruct (isinstance _ _ _ _); try discriminate.
    destruct (py_index _ i); cbn [bind]; try discriminate. intros Q. injection Q as <-. eauto. }
  destruct kd as [| |n0 x0| |n0 x0].
  - intros (b & xs & ->). destruct k; try discriminate; eauto.
  - intros (b & xs & ->). destruct k; try discriminate; eauto.
  - intros (b & xs & ->). destruct k; try discriminate; eauto. destruct (assoc s fs); discriminate.
  - intros (v & ->). destruct k; try discriminate. destruct (existsb _ _); try discriminate. destruct (isinstance _ _ _ _); try discriminate.
    intros Q. injection Q as <-. eauto.
  - intros (i & v & f & -> & _). discriminate.
Qed.
Lemma setattr_shaped H typ t s n (x : nat) s' : shaped t s -> setattr H typ t s n x = Ok s' -> shaped t s'.
Proof.
  unfold shaped, setattr. destruct (node_of t) as [[kd fs]|]; [|contradiction].
  assert (T : forall xs i, tuple_setitem H typ fs xs i x = Ok s' -> exists b ys, s' = STup b ys).
  { intros xs i. unfold tuple_setitem. destruct (py_index _ i); cbn [bind]; try discriminate. destruct (isinstance _ _ _ _); try discriminate.
    destruct (py_index _ i); cbn [bind]; try discriminate. intros Q. injection Q as <-. eauto. }
  destruct kd as [| |n0 x0| |n0 x0].
  - intros (b & xs & ->). discriminate.
  - intros (b & xs & ->). destruct (index_of n (names fs)), (assoc n fs); try discriminate. destruct (isinstance _ _ _ _); try discriminate. eauto.
  - intros (b & xs & ->). destruct (index_of n (names fs)), (assoc n fs); try discriminate. destruct (isinstance _ _ _ _); try discriminate. eauto.
  - intros (v & ->). discriminate.
  - intros (i & v & f & -> & _) Q. apply tag_set_ok in Q as (j & u & -> & _ & Q & _). eauto 6.
Qed.
Definition all_shaped (h : heap) : Prop := forall r t s, nth_error h r = Some (ONode t s) -> shaped t s.
Lemma all_shaped_app h l : all_shaped h -> (forall t s, In (ONode t s) l -> shaped t s) -> all_shaped (h ++ l).
Proof.
  intros A B r t s E. destruct (Nat.lt_ge_cases r (length h)) as [Hr|Hr].
  - rewrite nth_error_app1 in E by auto. eauto.
  - rewrite nth_error_app2 in E by auto. apply nth_error_In in E. auto.
Qed.
Lemma all_shaped_update h r t s : all_shaped h -> shaped t s -> all_shaped (update r (ONode t s) h).
Proof.
  intros A B r' t' s' E. rewrite update_nth in E. destruct (Nat.eqb r r'); eauto. destruct (nth_error h r'); [|discriminate]. now injection E as <- <-.
Qed.
Lemma step_shaped H h o : all_shaped h -> all_shaped (fst (step H h o)).
Proof.
  intros A. destruct o as [t z|t pos kw|pos|r k v|r a b v|r n v]; cbn [step].
  - destruct (node_of t); cbn [fst]; auto. apply all_shaped_app; auto. intros ? ? [Q|[]]. discriminate.
  - destruct (forallb _ _); cbn [fst]; auto. destruct (call _ _ _ _ _) as [s|] eqn:E; cbn [fst]; auto. apply all_shaped_app; auto.
    intros t' s' [Q|[]]. injection Q as <- <-. eapply gfits_shaped, call_fits; eauto.
  - destruct (forallb _ _); cbn [fst]; auto. destruct (call _ _ _ _ _) as [s|] eqn:E; cbn [fst]; auto. apply all_shaped_app; auto.
    intros t' s' [Q|[]]. injection Q as <- <-. eapply gfits_shaped, call_fits; eauto.
  - destruct (live h v); cbn [fst]; auto. destruct (nth_error h r) as [[|t s]|] eqn:E; cbn [fst]; auto.
    destruct (setitem _ _ _ _ _ _) eqn:E2; cbn [fst]; auto. apply all_shaped_update; auto. eapply setitem_shaped; eauto.
  - destruct (live h v); cbn [fst]; auto. destruct (nth_error h r) as [[|t s]|] eqn:E; cbn [fst]; auto.
    destruct (set_slice _ _ _ _ _ _ _) as [[h' s']|] eqn:E2; cbn [fst]; auto. pose proof (A _ _ _ E) as S. unfold shaped, set_slice in *.
    destruct (node_of t) as [[k fs]|] eqn:En; [|contradiction]. destruct s as [b0 xs|x|i x]; try discriminate. destruct (existsb _ _); try discriminate.
    destruct (iter_obj h v) as [[h'' ys]|] eqn:E3; cbn [bind] in E2; try discriminate. injection E2 as E2 <-. cbn [fst] in E2. subst h''. apply all_shaped_update.
    + unfold iter_obj in E3. destruct (nth_error h v) as [[t1 z|t1 [b1 zs|z|i1 z]]|]; try discriminate.
      * destruct (vec_leaf t1) as [[f n]|]; try discriminate. injection E3 as <- _. apply all_shaped_app; auto. intros t2 s2 Q. apply in_map_iff in Q as (? & Q & _). discriminate.
      * now injection E3 as <- _.
    + unfold shaped. rewrite En. destruct k; eauto.
      * destruct S as (? & S). discriminate.
      * destruct S as (? & ? & ? & S & _). discriminate.
  - destruct (live h v); cbn [fst]; auto. destruct (nth_error h r) as [[|t s]|] eqn:E; cbn [fst]; auto.
    destruct (setattr _ _ _ _ _ _) eqn:E2; cbn [fst]; auto. apply all_shaped_update; auto. eapply setattr_shaped; eauto.
Qed.
Lemma run_shaped H l : forall h, all_shaped h -> all_shaped (run H h l).
Proof. induction l as [|o l IH]; intros h A; auto. unfold run. cbn [fold_left]. apply IH. now apply step_shaped. Qed.
Definition target (o : op) : option nat := match o with OpSetItem r _ _ | OpSetSlice r _ _ _ | OpSetAttr r _ _ => Some r | _ => None end.
Lemma step_frame H h o r x : nth_error h r = Some x -> target o <> Some r -> nth_error (fst (step H h o)) r = Some x.
Proof.
  intros E N. assert (Ap : forall l : heap, nth_error (h ++ l) r = Some x). { intros l. rewrite nth_error_app1; auto. apply nth_error_Some. congruence. }
  destruct o as [t z|t pos kw|pos|r0 k v|r0 a b v|r0 n v]; cbn [step target] in *.
  - destruct (node_of t); cbn [fst]; auto.
  - destruct (forallb _ _); cbn [fst]; auto. destruct (call _ _ _ _ _); cbn [fst]; auto.
  - destruct (forallb _ _); cbn [fst]; auto. destruct (call _ _ _ _ _); cbn [fst]; auto.
  - destruct (live h v); cbn [fst]; auto. destruct (nth_error h r0) as [[|t s]|]; cbn [fst]; auto. destruct (setitem _ _ _ _ _ _); cbn [fst]; auto.
    rewrite update_other by congruence; auto.
  - destruct (live h v); cbn [fst]; auto. destruct (nth_error h r0) as [[|t s]|] eqn:E0; cbn [fst]; auto. destruct (set_slice _ _ _ _ _ _ _) as [[h' s']|] eqn:E2; cbn [fst]; auto.
    rewrite update_other by congruence. unfold set_slice in E2. destruct (node_of t) as [[k fs]|]; try discriminate. destruct s; try discriminate. destruct (existsb _ _); try discriminate.
    destruct (iter_obj h v) as [[h'' ys]|] eqn:E3; cbn [bind] in E2; try discriminate. injection E2 as E2 _. cbn [fst] in E2. subst h''.
    unfold iter_obj in E3. destruct (nth_error h v) as [[t1 z|t1 [b1 zs|z|i1 z]]|]; try discriminate.
    + destruct (vec_leaf t1) as [[f n]|]; try discriminate. injection E3 as <- _. apply Ap.
    + injection E3 as <- _. exact E.
  - destruct (live h v); cbn [fst]; auto. destruct (nth_error h r0) as [[|t s]|]; cbn [fst]; auto. destruct (setattr _ _ _ _ _ _); cbn [fst]; auto.
    rewrite update_other by congruence; auto.
Qed.

Lemma combine_fst {A B} (l : list A) (m : list B) : length l = length m -> map fst (combine l m) = l.
Proof. revert m. induction l as [|a l IH]; intros [|b m] E; cbn in *; try discriminate; auto. f_equal. apply IH. lia. Qed.
Lemma assoc_In {A} (l : list (string * A)) m a : NoDup (map fst l) -> (assoc m l = Some a <-> In (m, a) l).
Proof.
  induction l as [|[x b] l IH]; intros N; cbn [assoc]. { split; [discriminate|intros []]. }
  inversion N as [|? ? Nx N']; subst. destruct (String.eqb_spec m x) as [->|Nm].
  - split. { intros Q. injection Q as ->. now left. } intros [Q|Q]. { now injection Q as ->. } destruct Nx. apply in_map_iff. now exists (x, a).
  - rewrite IH by auto. split; [now right|]. intros [Q|Q]; auto. congruence.
Qed.
Lemma assoc_perm {A} (l l' : list (string * A)) m : NoDup (map fst l) -> Permutation l l' -> assoc m l = assoc m l'.
Proof.
  intros N P. assert (N' : NoDup (map fst l')) by (eapply Permutation_NoDup; [apply Permutation_map, P|auto]).
  destruct (assoc m l) as [a|] eqn:E.
  - symmetry. apply assoc_In; auto. apply assoc_In in E; auto. eapply Permutation_in; eauto.
  - destruct (assoc m l') as [a|] eqn:E'; auto. apply assoc_In in E'; auto. apply Permutation_sym in P. eapply Permutation_in in E'; eauto. apply assoc_In in E'; auto. congruence.
Qed.
Lemma nth_error_combine {A B} (l : list A) (m : list B) : forall i a b, nth_error l i = Some a -> nth_error m i = Some b -> nth_error (combine l m) i = Some (a, b).
Proof. revert m. induction l as [|x l IH]; intros [|y m] [|i] a b; cbn; try discriminate; auto. intros E F. injection E as ->. now injection F as ->. Qed.
Lemma nth_error_seq n i : (i < n)%nat -> nth_error (seq 0 n) i = Some i.
Proof. intros Hi. rewrite (nth_error_nth' _ 0%nat) by (now rewrite seq_length). now rewrite seq_nth. Qed.

Lemma tuple_values H ks fs vs : length ks = length fs -> Forall2 (fun f v => sub H (vtype v) (snd f) = true) fs vs ->
  mapM (fun p : vkey * option val * ty => match p with
        | (_, Some v, u) => if sub H (vtype v) u then Ok v else Raise ETypeError
        | (_, None, u) => Raise ETypeError
        end) (combine (combine ks (map Some vs)) (types fs)) = Ok vs.
Proof.
  intros El F. revert ks El. induction F as [|f v fs vs S F IH]; intros [|k ks] El; cbn in El; try discriminate; auto.
  cbn [map combine types mapM]. rewrite S. cbn [bind]. fold (types fs). rewrite IH by lia. reflexivity.
Qed.
Lemma tuple_round H t k fs b vs : twf t -> node_of t = Some (k, fs) -> tuple_like k -> Forall2 (fun f v => sub H (vtype v) (snd f) = true) fs vs ->
  (d <- value_dict H (VTup t b vs) ;; from_values H t d) = Ok (VTup t true vs).
Proof.
  intros W En Hk F. pose proof (Forall2_length _ _ _ F) as El. pose proof (twf_kind _ _ _ W En) as Ok_.
  unfold value_dict. cbn [vtype]. rewrite En, El, mapM_nth. cbn [bind]. unfold from_values. rewrite En.
  assert (Lk : length (tuple_keys k fs) = length fs). { destruct k; cbn; unfold names; rewrite ?map_length, ?seq_length, ?map_length; auto. }
  destruct k; try contradiction; rewrite tuple_values by auto; cbn [bind].
  - eapply vcall_tuple; eauto.
  - eapply vcall_tuple_kw; eauto; discriminate.
  - destruct Ok_. eapply vcall_tuple_kw; eauto; discriminate.
Qed.
(** Sums: the items from_values keeps. *)
Lemma sum_items H v fs : is_none v = false ->
  flat_map (fun p : vkey * option val * ty => match snd (fst p) with Some v => if is_none v then [] else [(fst (fst p), snd p, v)] | None => [] end)
    (combine (map (fun t => (VkTy t, if sub H (vtype v) t then Some v else None)) (types fs)) (types fs))
  = map (fun u => (VkTy u, u, v)) (filter (sub H (vtype v)) (types fs)).
Proof.
  intros Hn. induction (types fs) as [|u l IH]; auto. cbn [map combine flat_map filter fst snd]. destruct (sub H (vtype v) u) eqn:E; cbn [map app]; [rewrite Hn; cbn [app]|]; now rewrite IH.
Qed.
Lemma sum_items_none H v fs : is_none v = true ->
  flat_map (fun p : vkey * option val * ty => match snd (fst p) with Some v => if is_none v then [] else [(fst (fst p), snd p, v)] | None => [] end)
    (combine (map (fun t => (VkTy t, if sub H (vtype v) t then Some v else None)) (types fs)) (types fs)) = [].
Proof.
  intros Hn. induction (types fs) as [|u l IH]; auto. cbn [map combine flat_map fst snd]. destruct (sub H (vtype v) u); [rewrite Hn|]; auto.
Qed.
Lemma filter_one {A} (P : A -> bool) l : NoDup l -> match filter P l with
  | [a] => In a l /\ P a = true /\ forall b, In b l -> P b = true -> b = a
  | [] => forall b, In b l -> P b = false
  | a :: b :: _ => a <> b /\ In a l /\ In b l /\ P a = true /\ P b = true
  end.
Proof.
  intros N. pose proof (NoDup_filter P N) as N'. assert (I : forall a, In a (filter P l) <-> In a l /\ P a = true) by (intros; apply filter_In).
  destruct (filter P l) as [|a [|b m]].
  - intros b Hb. destruct (P b) eqn:E; auto. destruct (proj2 (I b)); auto.
  - destruct (proj1 (I a)) as [A1 B1]; [now left|]. split; auto. split; auto. intros b Hb Pb. destruct (proj2 (I b)) as [Q|[]]; auto.
  - inversion N' as [|? ? Na _]; subst. destruct (proj1 (I a)), (proj1 (I b)); cbn; auto. repeat split; auto. intros ->. apply Na. now left.
Qed.
Lemma sum_round H t fs v : node_of t = Some (KSum, fs) -> vok H (VSum t v) -> NoDup (types fs) ->
  let r := (d <- value_dict H (VSum t v) ;; from_values H t d) in
  (r = Ok (VSum t v) <-> In (vtype v) (types fs) /\ is_none v = false /\ forall u, In u (types fs) -> sub H (vtype v) u = true -> u = vtype v) /\
  (r <> Ok (VSum t v) -> exists e, r = Raise e).
Proof.
  intros En V N r.
  assert (Er : r = if is_none v then Raise EValueError else match filter (sub H (vtype v)) (types fs) with [_] => vcall H t [v] [] | _ => Raise EValueError end).
  { unfold r, value_dict. cbn [vtype]. rewrite En. cbn [bind]. unfold from_values. rewrite En. destruct (is_none v) eqn:Hn.
    - rewrite sum_items_none by auto. reflexivity.
    - rewrite sum_items by auto. replace (forallb _ _) with true.
      + cbn [negb]. destruct (filter _ _) as [|? [|? ?]]; reflexivity.
      + symmetry. apply forallb_forall. intros i Hi. apply in_map_iff in Hi as (u & <- & Hu). apply filter_In in Hu as [_ Hu]. exact Hu. }
  rewrite (vcall_sum _ _ _ _ En) in Er. pose proof (filter_one (sub H (vtype v)) (types fs) N) as F1. inversion V as [|t' fs' f v' En' Hf S|]; subst. rewrite En in En'. injection En' as <-.
  assert (Hin : In (snd f) (types fs)) by now apply in_map.
  destruct (is_none v) eqn:Hn.
  { split; [|intros _; rewrite Er; eauto]. split; [rewrite Er; discriminate|]. intros (_ & Q & _). discriminate. }
  destruct (filter (sub H (vtype v)) (types fs)) as [|a [|b m]].
  - rewrite (F1 _ Hin) in S. discriminate.
  - destruct F1 as (A1 & A2 & A3). destruct (existsb (ty_eqb (vtype v)) (types fs)) eqn:Ex.
    + apply existsb_ty in Ex. split; [|intros Q; rewrite Er in Q; congruence]. split; auto. intros _. split; auto. split; auto.
      intros u Hu Su. rewrite (A3 u Hu Su). symmetry. apply A3; auto. apply sub_refl.
    + apply existsb_ty_false in Ex. split; [|intros _; rewrite Er; eauto]. split; [rewrite Er; discriminate|]. intros (Q & _). contradiction.
  - destruct F1 as (Nab & A1 & A2 & A3 & A4). split; [|intros _; rewrite Er; eauto]. split; [rewrite Er; discriminate|].
    intros (Q1 & Q2 & Q3). destruct Nab. rewrite (Q3 a A1 A3). symmetry. now apply Q3.
Qed.
(** Tagged unions. *)
Lemma tag_items v j fs : forall k,
  flat_map (fun p : vkey * option val * ty => match snd (fst p) with Some v => if is_none v then [] else [(fst (fst p), snd p, v)] | None => [] end)
    (combine (map (fun p : nat * (string * ty) => (VkName (fst (snd p)), if Nat.eqb j (fst p) then Some v else None)) (combine (seq k (length fs)) fs)) (types fs))
  = if is_none v then [] else if Nat.leb k j then match nth_error fs (j - k) with Some f => [(VkName (fst f), snd f, v)] | None => [] end else [].
Proof.
  induction fs as [|f fs IH]; intros k.
  - cbn. destruct (is_none v), (Nat.leb k j), (j - k)%nat; reflexivity.
  - cbn [length seq combine map types flat_map fst snd]. fold (types fs). rewrite IH. destruct (Nat.eqb_spec j k) as [->|Nk].
    + destruct (is_none v); auto. rewrite Nat.leb_refl, Nat.sub_diag. destruct (Nat.leb_spec (S k) k); [lia|]. reflexivity.
    + destruct (is_none v); auto. cbn [app]. destruct (Nat.leb_spec (S k) j), (Nat.leb_spec k j); try lia; auto.
      replace (j - k)%nat with (S (j - S k)) by lia. reflexivity.
Qed.
Lemma tag_round H t n x fs i f v : node_of t = Some (KTag n x, fs) -> NoDup (names fs) -> nth_error fs i = Some f -> sub H (vtype v) (snd f) = true ->
  (is_none v = false -> (d <- value_dict H (VTag t i v) ;; from_values H t d) = Ok (VTag t i v)) /\
  (is_none v = true -> (d <- value_dict H (VTag t i v) ;; from_values H t d) = Raise EValueError).
Proof.
  intros En N Hi S. unfold value_dict. cbn [vtype]. rewrite En. cbn [bind]. unfold from_values. rewrite En, tag_items.
  rewrite Nat.sub_0_r, Hi. cbn [Nat.leb]. split; intros Hn; rewrite Hn; cbn [forallb fst snd negb andb]; auto.
  rewrite S. cbn [andb negb]. destruct f as [m u]. cbn [fst snd] in *. rewrite (vcall_tag H t n x fs i m u v En N Hi). now rewrite S.
Qed.
(** A step and an object that is a TaggedUnion instance. *)
Lemma tag_step_node H h o r t s : nth_error h r = Some (ONode t s) -> exists s', nth_error (fst (step H h o)) r = Some (ONode t s').
Proof.
  intros E. assert (Ap : forall l : heap, nth_error (h ++ l) r = Some (ONode t s)). { intros l. rewrite nth_error_app1; auto. apply nth_error_Some. congruence. }
  assert (D : target o <> Some r \/ target o = Some r). { destruct (target o) as [q|]; [|left; discriminate]. destruct (Nat.eq_dec q r); [right; congruence|left; congruence]. }
  destruct D as [D|D]. { exists s. now apply step_frame. }
  assert (Up : forall (h' : heap) s', (exists l, h' = h ++ l) -> nth_error (update r (ONode t s') h') r = Some (ONode t s')).
  { intros h' s' (l & ->). apply update_same. rewrite app_length. assert (r < length h)%nat by (apply nth_error_Some; congruence). lia. }
  assert (Ex : exists l, h = h ++ l) by (exists []; now rewrite app_nil_r).
  destruct o as [t0 z|t0 pos kw|pos|r0 k v|r0 a b v|r0 n v]; cbn [target] in D; try discriminate; injection D as ->; cbn [step].
  - destruct (live h v); cbn [fst]; eauto. rewrite E. destruct (setitem _ _ _ _ _ _); cbn [fst]; eauto.
  - destruct (live h v); cbn [fst]; eauto. rewrite E. destruct (set_slice _ _ _ _ _ _ _) as [[h' s']|] eqn:E2; cbn [fst]; eauto.
    exists s'. apply Up. unfold set_slice in E2. destruct (node_of t) as [[k fs]|]; try discriminate. destruct s; try discriminate. destruct (existsb _ _); try discriminate.
    destruct (iter_obj h v) as [[h'' ys]|] eqn:E3; cbn [bind] in E2; try discriminate. injection E2 as E2 _. cbn [fst] in E2. subst h''.
    unfold iter_obj in E3. destruct (nth_error h v) as [[t1 z|t1 [b1 zs|z|i1 z]]|]; try discriminate.
    + destruct (vec_leaf t1) as [[f n]|]; try discriminate. injection E3 as <- _. eauto.
    + injection E3 as <- _. exact Ex.
  - destruct (live h v); cbn [fst]; eauto. rewrite E. destruct (setattr _ _ _ _ _ _); cbn [fst]; eauto.
Qed.
Lemma tag_step H h o r t n x fs i w s1 : nth_error h r = Some (ONode t (STag i w)) -> node_of t = Some (KTag n x, fs) ->
  nth_error (fst (step H h o)) r = Some (ONode t s1) ->
  (s1 = STag i w /\ forall m v q, o = OpSetAttr r m v -> snd (step H h o) <> Ok q) \/
  (exists m v, o = OpSetAttr r m v /\ snd (step H h o) = Ok r /\ exists j, s1 = STag j v /\ index_of m (names fs) = Some j).
Proof.
  intros E En E1.
  assert (D : target o <> Some r \/ target o = Some r). { destruct (target o) as [q|]; [|left; discriminate]. destruct (Nat.eq_dec q r); [right; congruence|left; congruence]. }
  destruct D as [D|D].
  { left. rewrite (step_frame H h o r _ E D) in E1. injection E1 as <-. split; auto. intros m v q ->. cbn in D. congruence. }
  destruct o as [t0 z|t0 pos kw|pos|r0 k v|r0 a b v|r0 m v]; cbn [target] in D; try discriminate; injection D as ->; cbn [step] in *.
  - left. split; [|discriminate]. destruct (live h v); cbn [fst] in E1; [|congruence]. rewrite E in E1. unfold setitem in E1. rewrite En in E1. cbn [fst] in E1. congruence.
  - left. split; [|discriminate]. destruct (live h v); cbn [fst] in E1; [|congruence]. rewrite E in E1. unfold set_slice in E1. rewrite En in E1. cbn [fst] in E1. congruence.
  - destruct (live h v); cbn [fst snd] in *; [|left; split; [congruence|discriminate]]. rewrite E in *. unfold setattr in *. rewrite En in *.
    destruct (tag_set H (rtype h) fs m v) as [s|] eqn:Es; cbn [fst snd] in *; [|left; split; [congruence|discriminate]].
    right. exists m, v. split; auto. split; auto. apply tag_set_ok in Es as (j & u & -> & Ej & _). exists j. split; auto.
    rewrite update_same in E1 by (apply nth_error_Some; congruence). now injection E1 as <-.
Qed.
