(** Lemmas for the theorems on instances of algebraic data types. *)
From Coq Require Import Lia Sorted.
From Verif Require Import PyBase BVModel ADTTy ADTTyFacts ADTModel ADTSpec.

(** ** Lists *)
Lemma mapM_Forall2 {A B} (f : A -> res B) l m : mapM f l = Ok m <-> Forall2 (fun a b => f a = Ok b) l m.
Proof.
  revert m. induction l as [|a l IH]; intros m; cbn [mapM].
  - split; intros E. { injection E as <-. constructor. } inversion E. reflexivity.
  - destruct (f a) as [b|e] eqn:Ea; cbn [bind].
    + destruct (mapM f l) as [bs|e] eqn:El; cbn [bind].
      * split; intros E. { injection E as <-. constructor; auto. now apply IH. }
        inversion E as [|? b' ? bs' E1 E2]; subst. apply IH in E2. congruence.
      * split; intros E; try discriminate. inversion E as [|? b' ? bs' E1 E2]; subst. apply IH in E2. discriminate.
    + split; intros E; try discriminate. inversion E; subst. congruence.
Qed.
Lemma Forall2_length {A B} (R : A -> B -> Prop) l m : Forall2 R l m -> length l = length m.
Proof. induction 1; cbn; auto. Qed.
Lemma Forall2_impl {A B} (R S : A -> B -> Prop) l m : (forall a b, R a b -> S a b) -> Forall2 R l m -> Forall2 S l m.
Proof. intros E. induction 1; constructor; auto. Qed.
Lemma sequence_map {A B} (f : A -> res B) l : sequence (map f l) = mapM f l.
Proof. unfold sequence. induction l as [|a l IH]; cbn [map mapM]; auto. now rewrite IH. Qed.
Lemma mapM_ok {A B} (f : A -> B) l : mapM (fun a => Ok (f a)) l = Ok (map f l).
Proof. induction l as [|a l IH]; cbn [mapM map bind]; auto. rewrite IH. reflexivity. Qed.
Lemma mapM_ext {A B} (f g : A -> res B) l : (forall a, In a l -> f a = g a) -> mapM f l = mapM g l.
Proof. induction l as [|a l IH]; cbn; auto. intros E. rewrite (E a), IH; auto. Qed.
Lemma existsb_ty t l : existsb (ty_eqb t) l = true <-> In t l.
Proof.
  rewrite existsb_exists. split. { intros (u & Hu & E). apply ty_eqb_eq in E. now subst. }
  intros Hin. exists t. split; auto. apply ty_eqb_refl.
Qed.
Lemma existsb_ty_false t l : existsb (ty_eqb t) l = false <-> ~ In t l.
Proof. rewrite <- existsb_ty. destruct (existsb (ty_eqb t) l); split; congruence. Qed.
Lemma update_length {A} n (a : A) l : length (update n a l) = length l.
Proof. revert n. induction l as [|x l IH]; intros [|n]; cbn; auto. Qed.
Lemma update_same {A} n (a : A) l : (n < length l)%nat -> nth_error (update n a l) n = Some a.
Proof. revert n. induction l as [|x l IH]; intros [|n] Hn; cbn in *; try lia; auto. apply IH. lia. Qed.
Lemma update_other {A} n m (a : A) l : n <> m -> nth_error (update n a l) m = nth_error l m.
Proof. revert n m. induction l as [|x l IH]; intros [|n] [|m] Hn; cbn; auto; try congruence. Qed.
Lemma update_nth {A} n m (a : A) l : nth_error (update n a l) m = if Nat.eqb n m then (match nth_error l m with Some _ => Some a | None => None end) else nth_error l m.
Proof. revert n m. induction l as [|x l IH]; intros [|n] [|m]; cbn; auto. destruct (Nat.eqb n m); auto. Qed.
Lemma Forall2_update {A B} (R : A -> B -> Prop) l m n b d : Forall2 R l m -> (n < length l)%nat -> R (nth n l d) b -> Forall2 R l (update n b m).
Proof. intros F. revert n. induction F; intros [|n] Hn Hb; cbn in *; try lia; constructor; auto. apply IHF; auto. lia. Qed.
Lemma index_of_nth s l i : index_of s l = Some i -> nth_error l i = Some s.
Proof.
  revert i. induction l as [|x l IH]; intros i; cbn; try discriminate. destruct (String.eqb_spec s x) as [->|N].
  - intros E. injection E as <-. reflexivity.
  - destruct (index_of s l) as [j|]; cbn; try discriminate. intros E. injection E as <-. cbn. now apply IH.
Qed.
Lemma index_of_None s l : index_of s l = None <-> ~ In s l.
Proof.
  induction l as [|x l IH]; cbn; [tauto|]. destruct (String.eqb_spec s x) as [->|N]. { split; try discriminate. tauto. }
  destruct (index_of s l); cbn; split; try discriminate.
  - intros Q. destruct IH as [_ IH]. discriminate IH. tauto.
  - intros _ [E|E]; [congruence|]. now apply IH in E.
  - auto.
Qed.
Lemma index_of_NoDup s l i : NoDup l -> nth_error l i = Some s -> index_of s l = Some i.
Proof.
  intros Hl. revert i. induction Hl as [|x l Hx Hl IH]; intros [|i]; cbn; try discriminate.
  - intros E. injection E as ->. now rewrite String.eqb_refl.
  - intros E. destruct (String.eqb_spec s x) as [->|N]. { destruct Hx. eapply nth_error_In; eauto. } now rewrite (IH _ E).
Qed.
Lemma assoc_index {A} s (fs : list (string * A)) : match index_of s (map fst fs) with
  | Some i => exists a, assoc s fs = Some a /\ nth_error fs i = Some (s, a) | None => assoc s fs = None end.
Proof.
  induction fs as [|[x a] fs IH]; cbn; auto. destruct (String.eqb_spec s x) as [->|N]; [eauto|].
  destruct (index_of s (map fst fs)); cbn; auto.
Qed.
Lemma py_index_ok n i : forall p, py_index n i = Ok p -> (p < n)%nat.
Proof.
  intros p. unfold py_index. destruct (_ && _) eqn:E; try discriminate. intros Q. injection Q as <-.
  apply andb_true_iff in E as [E1 E2]. apply Z.leb_le in E1. apply Z.ltb_lt in E2. lia.
Qed.
Lemma py_index_nat n p : (p < n)%nat -> py_index n (Z.of_nat p) = Ok p.
Proof.
  intros Hp. unfold py_index. destruct (Z.ltb_spec (Z.of_nat p) 0); [lia|].
  destruct (Z.leb_spec 0 (Z.of_nat p)), (Z.ltb_spec (Z.of_nat p) (Z.of_nat n)); cbn; try lia. now rewrite Nat2Z.id.
Qed.
Lemma types_length fs : length (types fs) = length fs.
Proof. apply map_length. Qed.
Lemma forallb_combine {X} (P : X -> ty -> bool) (xs : list X) fs : length xs = length fs ->
  forallb (fun p => P (fst p) (snd p)) (combine xs (types fs)) = true <-> Forall2 (fun f x => P x (snd f) = true) fs xs.
Proof.
  revert fs. induction xs as [|x xs IH]; intros [|f fs] E; cbn in *; try discriminate.
  - split; auto.
  - rewrite andb_true_iff, IH by lia. split. { intros [A B]. now constructor. } intros F. inversion F; subst. auto.
Qed.

(** ** Operations produce well-typed shapes (any component type) *)
Section Ops.
Context {X : Type} (H : Z -> Z -> bool) (typ : X -> ty).
Inductive gfits (t : ty) : shape X -> Prop :=
| gf_tup k fs b xs : node_of t = Some (k, fs) -> tuple_like k ->
    Forall2 (fun f r => sub H (typ r) (snd f) = true) fs xs -> gfits t (STup b xs)
| gf_sum fs f r : node_of t = Some (KSum, fs) -> In f fs -> sub H (typ r) (snd f) = true -> gfits t (SSum r)
| gf_tag n x fs i f r : node_of t = Some (KTag n x, fs) -> nth_error fs i = Some f -> sub H (typ r) (snd f) = true ->
    gfits t (STag i r).
Lemma tuple_init_ok fs xs s : tuple_init H typ fs xs = Ok s <-> s = STup true xs /\ Forall2 (fun f x => sub H (typ x) (snd f) = true) fs xs.
Proof.
  unfold tuple_init. destruct (Nat.eqb_spec (length xs) (length fs)) as [El|El]; cbn [negb].
  - unfold isinstance. rewrite <- (forallb_combine (fun x t => sub H (typ x) t) xs fs El).
    destruct (forallb _ _); split; try discriminate; [|intros [-> _]; auto|intros [_ Q]; discriminate]. intros Q. injection Q as <-. auto.
  - split; try discriminate. intros [_ F]. apply Forall2_length in F. congruence.
Qed.
Lemma tag_set_ok fs n x s : tag_set H typ fs n x = Ok s ->
  exists i t, s = STag i x /\ index_of n (names fs) = Some i /\ nth_error fs i = Some (n, t) /\ sub H (typ x) t = true.
Proof.
  unfold tag_set. pose proof (assoc_index n fs) as A. unfold names. destruct (index_of n (map fst fs)) as [i|]; [|discriminate].
  destruct A as (t & -> & A). unfold isinstance. destruct (sub H (typ x) t) eqn:E; [|discriminate]. intros Q. injection Q as <-. exists i, t. auto.
Qed.
Lemma call_fits t pos kw s : call H typ t pos kw = Ok s -> gfits t s.
Proof.
  unfold call. destruct (node_of t) as [[[| |n x| |n x] fs]|] eqn:En; try discriminate.
  - destruct kw; try discriminate. intros Q. apply tuple_init_ok in Q as [-> Q]. econstructor; eauto. exact I.
  - destruct (bind_args _ _ _) as [xs|]; cbn [bind]; try discriminate. intros Q. apply tuple_init_ok in Q as [-> Q]. econstructor; eauto. exact I.
  - destruct (bind_args _ _ _) as [xs|]; cbn [bind]; try discriminate. intros Q. apply tuple_init_ok in Q as [-> Q]. econstructor; eauto. exact I.
  - unfold sum_init. destruct (match pos with [] => _ | _ => _ end) as [x|]; try discriminate.
    destruct (existsb _ _) eqn:E; try discriminate. intros Q. injection Q as <-. apply existsb_ty in E. apply in_map_iff in E as (f & E & Hf).
    econstructor; eauto. rewrite E. apply sub_refl.
  - unfold tag_init. destruct pos; try discriminate. destruct kw as [|[m v] [|]]; try discriminate. destruct (assoc m fs); try discriminate.
    intros Q. apply tag_set_ok in Q as (i & u & -> & _ & Q1 & Q2). econstructor; eauto.
Qed.
Lemma tuple_setitem_ok fs xs i x s : Forall2 (fun f r => sub H (typ r) (snd f) = true) fs xs -> tuple_setitem H typ fs xs i x = Ok s ->
  exists p, py_index (length fs) i = Ok p /\ s = STup false (update p x xs) /\ Forall2 (fun f r => sub H (typ r) (snd f) = true) fs (update p x xs).
Proof.
  intros F. unfold tuple_setitem. rewrite <- (Forall2_length _ _ _ F). destruct (py_index (length fs) i) as [p|] eqn:Ep; cbn [bind]; try discriminate.
  destruct (isinstance _ _ _ _) eqn:E; try discriminate. intros Q. injection Q as <-. exists p. do 2 (split; auto).
  apply Forall2_update with (d := (EmptyString, TLeaf LObject)); auto. { now apply py_index_ok in Ep. }
  unfold isinstance, types in E. rewrite <- E. f_equal. symmetry. apply (map_nth snd fs (EmptyString, TLeaf LObject)).
Qed.
Lemma setitem_fits t s k x s' : gfits t s -> setitem H typ t s k x = Ok s' -> gfits t s'.
Proof.
  intros F Q. unfold setitem in Q. destruct F as [kd fs b xs En Hk F|fs f r En Hin Hs|n y fs i f r En Hi Hs]; rewrite En in Q.
  - assert (Q' : exists i, tuple_setitem H typ fs xs i x = Ok s').
    { destruct kd, k; try discriminate; eauto; try now destruct Hk. now destruct (assoc s fs). }
    destruct Q' as [i Q']. apply tuple_setitem_ok in Q' as (p & _ & -> & Q'); auto. econstructor; eauto.
  - destruct k as [|?|u|]; try discriminate. destruct (existsb _ _) eqn:E; try discriminate. unfold isinstance in Q. destruct (sub H (typ x) u) eqn:E2; try discriminate.
    injection Q as <-. apply existsb_ty in E. apply in_map_iff in E as (g & E & Hg). subst u. econstructor; eauto.
  - discriminate.
Qed.
Lemma setattr_fits t s n x s' : gfits t s -> setattr H typ t s n x = Ok s' -> gfits t s'.
Proof.
  intros F Q. unfold setattr in Q. destruct F as [kd fs b xs En Hk F|fs f r En Hin Hs|m y fs i f r En Hi Hs]; rewrite En in Q.
  - assert (Q' : exists i, tuple_setitem H typ fs xs i x = Ok s').
    { destruct kd; try discriminate; try now destruct Hk.
      all: destruct (index_of n (names fs)), (assoc n fs); try discriminate; destruct (isinstance _ _ _ _); try discriminate; eauto. }
    destruct Q' as [i Q']. apply tuple_setitem_ok in Q' as (p & _ & -> & Q'); auto. econstructor; eauto.
  - discriminate.
  - apply tag_set_ok in Q as (j & u & -> & _ & Q1 & Q2). econstructor; eauto.
Qed.
End Ops.

(** ** The heap *)
Definition shape_refs {X} (s : shape X) : list X := match s with STup _ xs => xs | SSum x | STag _ x => [x] end.
Lemma gfits_fits H h t s : (forall r, In r (shape_refs s) -> live h r = true) -> gfits H (rtype h) t s -> fits H h t s.
Proof.
  intros Hl F. assert (G : forall r u, In r (shape_refs s) -> sub H (rtype h r) u = true -> instance H h r u).
  { intros r u Hr Hs. apply Hl in Hr. unfold live in Hr. apply Nat.ltb_lt in Hr. unfold rtype in Hs.
    destruct (nth_error h r) as [o|] eqn:E; [exists o; auto|]. apply nth_error_None in E. lia. }
  destruct F as [kd fs b xs En Hk F|fs f r En Hin Hs|m y fs i f r En Hi Hs].
  - econstructor; eauto. clear En. cbn [shape_refs] in G. induction F as [|f x fs xs Hx F IH]; constructor.
    + apply G; cbn; auto.
    + apply IH. { intros r Hr. apply Hl. cbn. auto. } intros r u Hr. apply G. cbn. auto.
  - econstructor; eauto. apply G; cbn; auto.
  - econstructor; eauto. apply G; cbn; auto.
Qed.
Lemma fits_gfits H h t s : fits H h t s -> gfits H (rtype h) t s /\ (forall r, In r (shape_refs s) -> live h r = true).
Proof.
  assert (G : forall r u, instance H h r u -> sub H (rtype h r) u = true /\ live h r = true).
  { intros r u (o & E & Hs). unfold rtype, live. rewrite E. split; auto. apply Nat.ltb_lt. apply nth_error_Some. congruence. }
  intros F. destruct F as [kd fs b xs En Hk F|fs f r En Hin Hs|m y fs i f r En Hi Hs].
  - split.
    + econstructor; eauto. eapply Forall2_impl; [|exact F]. intros a r Q. now apply G.
    + cbn. clear En. induction F as [|f x fs xs Hx F IH]; cbn; [easy|]. intros r [->|Hr]; auto. now apply G in Hx.
  - apply G in Hs as [A B]. split. { econstructor; eauto. } intros r' [<-|[]]. auto.
  - apply G in Hs as [A B]. split. { econstructor; eauto. } intros r' [<-|[]]. auto.
Qed.

(** One heap extends another: the objects are still there with the same class. *)
Definition extends (h h' : heap) : Prop := forall r o, nth_error h r = Some o -> exists o', nth_error h' r = Some o' /\ otype o' = otype o.
Lemma extends_refl h : extends h h.
Proof. intros r o E. eauto. Qed.
Lemma extends_trans a b c : extends a b -> extends b c -> extends a c.
Proof. intros X Y r o E. apply X in E as (o' & E & T). apply Y in E as (o'' & E & T'). exists o''. split; congruence. Qed.
Lemma extends_app h l : extends h (h ++ l).
Proof. intros r o E. exists o. split; auto. rewrite nth_error_app1; auto. apply nth_error_Some. congruence. Qed.
Lemma extends_update h r t s s0 : nth_error h r = Some (ONode t s0) -> extends h (update r (ONode t s) h).
Proof.
  intros E r' o E'. rewrite update_nth. destruct (Nat.eqb_spec r r') as [<-|N]; [|eauto]. rewrite E. assert (o = ONode t s0) by congruence. subst o. eauto.
Qed.
Lemma extends_instance H h h' r t : extends h h' -> instance H h r t -> instance H h' r t.
Proof. intros X (o & E & Hs). apply X in E as (o' & E' & T). exists o'. split; auto. now rewrite T. Qed.
Lemma extends_fits H h h' t s : extends h h' -> fits H h t s -> fits H h' t s.
Proof.
  intros X F. destruct F as [kd fs b xs En Hk F|fs f r En Hin Hs|m y fs i f r En Hi Hs]; econstructor; eauto using extends_instance.
  eapply Forall2_impl; [|exact F]. intros a r Q. eapply extends_instance; eauto.
Qed.
Lemma iter_obj_extends h v p : iter_obj h v = Ok p -> extends h (fst p).
Proof.
  unfold iter_obj. destruct (nth_error h v) as [[t z|t [b xs|x|k x]]|]; try discriminate.
  - destruct (vec_leaf t) as [[f n]|]; try discriminate. intros Q. injection Q as <-. apply extends_app.
  - intros Q. injection Q as <-. apply extends_refl.
Qed.
Lemma step_extends H h o : extends h (fst (step H h o)).
Proof.
  destruct o as [t z|t pos kw|pos|r k v|r a b v|r n v]; cbn [step].
  - destruct (node_of t); cbn [fst]; auto using extends_refl, extends_app.
  - destruct (forallb _ _); [|apply extends_refl]. destruct (call _ _ _ _ _); cbn [fst]; auto using extends_refl, extends_app.
  - destruct (forallb _ _); [|apply extends_refl]. destruct (call _ _ _ _ _); cbn [fst]; auto using extends_refl, extends_app.
  - destruct (live h v); [|apply extends_refl]. destruct (nth_error h r) as [[|t s]|] eqn:E; try apply extends_refl.
    destruct (setitem _ _ _ _ _ _); cbn [fst]; auto using extends_refl. eapply extends_update; eauto.
  - destruct (live h v); [|apply extends_refl]. destruct (nth_error h r) as [[|t s]|] eqn:E; try apply extends_refl.
    destruct (set_slice _ _ _ _ _ _ _) as [[h' s']|] eqn:E2; cbn [fst]; auto using extends_refl.
    unfold set_slice in E2. destruct (node_of t) as [[k fs]|]; try discriminate. destruct s; try discriminate. destruct (existsb _ _); try discriminate.
    destruct (iter_obj h v) as [p|] eqn:E3; try discriminate. cbn [bind] in E2. injection E2 as E2 _. apply iter_obj_extends in E3. rewrite E2 in E3.
    destruct (E3 _ _ E) as ([|t' s''] & F1 & F2).
    + intros r' o E'. rewrite update_nth. destruct (Nat.eqb_spec r r') as [<-|N]; [|eauto]. rewrite F1. assert (o = ONode t (STup istuple xs)) by congruence. subst o. eauto.
    + cbn in F2. subst t'. eapply extends_trans; [exact E3|]. eapply extends_update; eauto.
  - destruct (live h v); [|apply extends_refl]. destruct (nth_error h r) as [[|t s]|] eqn:E; try apply extends_refl.
    destruct (setattr _ _ _ _ _ _); cbn [fst]; auto using extends_refl. eapply extends_update; eauto.
Qed.
Lemma run_extends H l : forall h, extends h (run H h l).
Proof.
  induction l as [|o l IH]; intros h; [apply extends_refl|]. unfold run. cbn [fold_left]. eapply extends_trans; [apply step_extends|apply IH].
Qed.

(** References occurring in a new shape come from the operands or the old shape. *)
Lemma bind_args_refs {X} ns pos kw (l : list X) : bind_args ns pos kw = Ok l -> forall r, In r l -> In r (pos ++ map snd kw).
Proof.
  unfold bind_args. destruct (Nat.ltb _ _); try discriminate. destruct (negb _); try discriminate.
  destruct (mapM _ _) as [rest|] eqn:E; cbn [bind]; try discriminate. intros Q r Hr. injection Q as <-.
  apply in_app_iff in Hr as [Hr|Hr]; apply in_app_iff; auto. right. apply mapM_Forall2 in E.
  revert Hr. induction E as [|n x ns' rest Hx E IH]; cbn; [easy|]. intros [<-|Hr]; auto.
  destruct (assoc n kw) as [y|] eqn:A; try discriminate. injection Hx as <-. clear -A. induction kw as [|[m z] kw IH]; cbn in *; try discriminate.
  destruct (String.eqb n m); auto. injection A as ->. auto.
Qed.
Lemma call_refs {X} H (typ : X -> ty) t pos kw s : call H typ t pos kw = Ok s -> forall r, In r (shape_refs s) -> In r (pos ++ map snd kw).
Proof.
  unfold call. destruct (node_of t) as [[[| |n x| |n x] fs]|]; try discriminate.
  - destruct kw; try discriminate. intros Q. apply tuple_init_ok in Q as [-> _]. cbn. intros r Hr. now rewrite app_nil_r.
  - destruct (bind_args _ _ _) as [xs|] eqn:E; cbn [bind]; try discriminate. intros Q. apply tuple_init_ok in Q as [-> _]. cbn. eapply bind_args_refs; eauto.
  - destruct (bind_args _ _ _) as [xs|] eqn:E; cbn [bind]; try discriminate. intros Q. apply tuple_init_ok in Q as [-> _]. cbn. eapply bind_args_refs; eauto.
  - unfold sum_init. destruct pos as [|y [|]], kw as [|[m z] [|]]; try discriminate.
    + destruct (String.eqb m "value"); try discriminate. destruct (existsb _ _); try discriminate. intros Q. injection Q as <-. cbn. tauto.
    + destruct (existsb _ _); try discriminate. intros Q. injection Q as <-. cbn. tauto.
  - unfold tag_init. destruct pos; try discriminate. destruct kw as [|[m v] [|]]; try discriminate. destruct (assoc m fs); try discriminate.
    intros Q. apply tag_set_ok in Q as (i & u & -> & _). cbn. tauto.
Qed.
Lemma update_In {A} n (x : A) l y : In y (update n x l) -> y = x \/ In y l.
Proof. revert n. induction l as [|z l IH]; intros [|n]; cbn; auto; intros [E|E]; auto. apply IH in E as [E|E]; auto. Qed.
Lemma tuple_setitem_refs {X} H (typ : X -> ty) fs xs i x s : tuple_setitem H typ fs xs i x = Ok s -> forall r, In r (shape_refs s) -> r = x \/ In r xs.
Proof.
  unfold tuple_setitem. destruct (py_index (length fs) i); cbn [bind]; try discriminate. destruct (isinstance _ _ _ _); try discriminate.
  destruct (py_index (length xs) i); cbn [bind]; try discriminate. intros Q. injection Q as <-. cbn. intros r. apply update_In.
Qed.
Lemma setitem_refs {X} H (typ : X -> ty) t s k x s' : setitem H typ t s k x = Ok s' -> forall r, In r (shape_refs s') -> r = x \/ In r (shape_refs s).
Proof.
  unfold setitem. destruct (node_of t) as [[kd fs]|]; [|discriminate]. destruct kd, s; try discriminate; destruct k; try discriminate; try apply tuple_setitem_refs.
  - destruct (assoc s fs); discriminate.
  - destruct (existsb _ _); try discriminate. destruct (isinstance _ _ _ _); try discriminate. intros Q. injection Q as <-. cbn. intros r [<-|[]]. auto.
Qed.
Lemma setattr_refs {X} H (typ : X -> ty) t s n x s' : setattr H typ t s n x = Ok s' -> forall r, In r (shape_refs s') -> r = x \/ In r (shape_refs s).
Proof.
  unfold setattr. destruct (node_of t) as [[kd fs]|]; [|discriminate]. destruct kd, s; try discriminate.
  - destruct (index_of n (names fs)), (assoc n fs); try discriminate. destruct (isinstance _ _ _ _); try discriminate. apply tuple_setitem_refs.
  - destruct (index_of n (names fs)), (assoc n fs); try discriminate. destruct (isinstance _ _ _ _); try discriminate. apply tuple_setitem_refs.
  - intros Q. apply tag_set_ok in Q as (i & u & -> & _). cbn. intros r [<-|[]]. auto.
Qed.
Lemma live_In h l : forallb (live h) l = true -> forall r, In r l -> live h r = true.
Proof. intros E r Hr. rewrite forallb_forall in E. auto. Qed.
Lemma well_typed_app H h o : well_typed H h -> (forall t s, o = ONode t s -> fits H h t s) -> well_typed H (h ++ [o]).
Proof.
  intros W Ho r t s E. eapply extends_fits; [apply extends_app|].
  destruct (Nat.lt_ge_cases r (length h)) as [Hr|Hr].
  - rewrite nth_error_app1 in E by auto. now apply W in E.
  - rewrite nth_error_app2 in E by auto. apply Ho. destruct (r - length h)%nat as [|[|]]; cbn in E; congruence.
Qed.
Lemma well_typed_update H h r t s s0 : well_typed H h -> nth_error h r = Some (ONode t s0) -> fits H h t s -> well_typed H (update r (ONode t s) h).
Proof.
  intros W E F r' t' s' E'. eapply extends_fits; [eapply extends_update; eauto|]. rewrite update_nth in E'.
  destruct (Nat.eqb_spec r r') as [<-|N]; [|now apply W in E']. rewrite E in E'. injection E' as <- <-. exact F.
Qed.
Lemma step_well_typed H h o : no_slice o -> well_typed H h -> well_typed H (fst (step H h o)).
Proof.
  intros Ns W. destruct o as [t z|t pos kw|pos|r k v|r a b v|r n v]; cbn [step]; try contradiction.
  - destruct (node_of t); cbn [fst]; auto. apply well_typed_app; auto. discriminate.
  - destruct (forallb _ _) eqn:El; cbn [fst]; auto. destruct (call _ _ _ _ _) as [s|] eqn:E; cbn [fst]; auto.
    apply well_typed_app; auto. intros t' s' Q. injection Q as <- <-. apply gfits_fits; [|eapply call_fits; eauto].
    intros r Hr. eapply live_In; eauto. eapply call_refs; eauto.
  - destruct (forallb _ _) eqn:El; cbn [fst]; auto. destruct (call _ _ _ _ _) as [s|] eqn:E; cbn [fst]; auto.
    apply well_typed_app; auto. intros t' s' Q. injection Q as <- <-. apply gfits_fits; [|eapply call_fits; eauto].
    intros r Hr. eapply live_In; eauto. eapply call_refs in E; eauto. cbn in E. now rewrite app_nil_r in E.
  - destruct (live h v) eqn:El; cbn [fst]; auto. destruct (nth_error h r) as [[|t s]|] eqn:E; cbn [fst]; auto.
    destruct (setitem _ _ _ _ _ _) as [s'|] eqn:E2; cbn [fst]; auto. eapply well_typed_update; eauto.
    destruct (fits_gfits _ _ _ _ (W _ _ _ E)) as [G1 G2]. apply gfits_fits; [|eapply setitem_fits; eauto].
    intros x Hx. eapply setitem_refs in E2 as [->|Hx']; eauto.
  - destruct (live h v) eqn:El; cbn [fst]; auto. destruct (nth_error h r) as [[|t s]|] eqn:E; cbn [fst]; auto.
    destruct (setattr _ _ _ _ _ _) as [s'|] eqn:E2; cbn [fst]; auto. eapply well_typed_update; eauto.
    destruct (fits_gfits _ _ _ _ (W _ _ _ E)) as [G1 G2]. apply gfits_fits; [|eapply setattr_fits; eauto].
    intros x Hx. eapply setattr_refs in E2 as [->|Hx']; eauto.
Qed.
Lemma run_well_typed H l : forall h, Forall no_slice l -> well_typed H h -> well_typed H (run H h l).
Proof.
  induction l as [|o l IH]; intros h Ns W; [exact W|]. inversion Ns; subst. unfold run. cbn [fold_left]. apply IH; auto. apply step_well_typed; auto.
Qed.
