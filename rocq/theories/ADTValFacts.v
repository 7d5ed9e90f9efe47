(** Lemmas on enumerate, equality, hashing, value_dict and from_values. *)
From Coq Require Import Lia Sorted.
From Verif Require Import PyBase BVModel ADTTy ADTTyFacts ADTModel ADTSpec ADTFacts.

Lemma val_ind' (P : val -> Prop) :
  (forall t z, P (VAtom t z)) -> (forall t b vs, Forall P vs -> P (VTup t b vs)) ->
  (forall t v, P v -> P (VSum t v)) -> (forall t k v, P v -> P (VTag t k v)) -> forall v, P v.
Proof.
  intros H1 H2 H3 H4. fix IH 1. intros [t z|t b vs|t v|t k v]; [apply H1| |apply H3, IH|apply H4, IH].
  apply H2. induction vs; constructor; auto.
Qed.

Lemma exact_type t v : exact t v -> vtype v = t.
Proof. destruct 1; reflexivity. Qed.
Lemma node_is_adt t k fs : node_of t = Some (k, fs) -> is_adt t = true.
Proof. induction t; cbn; try discriminate; auto. Qed.
Lemma enum_based_adt t : enum_based t = true -> is_adt t = true.
Proof. induction t; cbn; try discriminate; auto. destruct (node_of t); [auto|discriminate]. Qed.

(** ** product *)
Lemma product_In {A} (ls : list (list A)) : forall vs, In vs (product ls) <-> Forall2 (fun l v => In v l) ls vs.
Proof.
  induction ls as [|l ls IH]; intros vs; cbn [product].
  - split. { intros [<-|[]]. constructor. } intros F. inversion F. now left.
  - rewrite in_flat_map. split.
    + intros (x & Hx & E). apply in_map_iff in E as (ws & <- & E). constructor; auto. now apply IH.
    + intros F. inversion F as [|? v ? ws Hv Fw]; subst. exists v. split; auto. apply in_map, IH, Fw.
Qed.
Lemma NoDup_app {A} (l m : list A) : NoDup l -> NoDup m -> (forall x, In x l -> ~ In x m) -> NoDup (l ++ m).
Proof.
  intros Hl Hm D. induction Hl as [|a l Ha Hl IH]; cbn; auto. constructor.
  - rewrite in_app_iff. intros [Q|Q]; [auto|]. apply (D a); cbn; auto.
  - apply IH. intros x Hx. apply D. cbn. auto.
Qed.
Lemma NoDup_map_inj {A B} (f : A -> B) l : (forall a b, In a l -> In b l -> f a = f b -> a = b) -> NoDup l -> NoDup (map f l).
Proof.
  intros I Hl. induction Hl as [|a l Ha Hl IH]; cbn; constructor.
  - intros Q. apply in_map_iff in Q as (b & E & Hb). apply I in E; cbn; auto. now subst.
  - apply IH. intros x y Hx Hy. apply I; cbn; auto.
Qed.
Lemma product_NoDup {A} (ls : list (list A)) : Forall (@NoDup A) ls -> NoDup (product ls).
Proof.
  induction 1 as [|l ls Hl F IH]; cbn [product]; [repeat constructor; auto|].
  induction Hl as [|x l Hx Hl IHl]; cbn [flat_map]; [constructor|]. apply NoDup_app; auto.
  - apply NoDup_map_inj; auto. intros a b _ _ E. congruence.
  - intros vs Q1 Q2. apply in_map_iff in Q1 as (ws & <- & _). apply in_flat_map in Q2 as (y & Hy & Q2). apply in_map_iff in Q2 as (us & E & _).
    injection E as -> _. contradiction.
Qed.
Lemma product_length {A} (ls : list (list A)) : length (product ls) = prod (map (@length A) ls).
Proof.
  induction ls as [|l ls IH]; cbn [product map prod fold_right]; auto. fold (prod (map (@length A) ls)). rewrite <- IH.
  induction l as [|x l IHl]; cbn [flat_map length]; auto. rewrite app_length, map_length, IHl. reflexivity.
Qed.
Lemma concat_length {A} (ls : list (list A)) : length (List.concat ls) = total (map (@length A) ls).
Proof. induction ls as [|l ls IH]; cbn; auto. rewrite app_length, IH. reflexivity. Qed.
(** Lists indexed by elements with different [f]. *)
Lemma concat_NoDup {A B C} (f : A -> C) (g : B -> C) (lf : A -> list B) (fs : list A) :
  NoDup (map f fs) -> (forall a, In a fs -> NoDup (lf a)) -> (forall a b, In a fs -> In b (lf a) -> g b = f a) ->
  NoDup (List.concat (map lf fs)).
Proof.
  induction fs as [|a fs IH]; cbn [map List.concat]; intros N D G; [constructor|]. inversion N as [|? ? Na Nf]; subst. apply NoDup_app.
  - apply D. now left.
  - apply IH; auto. { intros x Hx. apply D. now right. } intros x b Hx. apply G. now right.
  - intros b Hb Q. apply in_concat in Q as (l & Hl & Q). apply in_map_iff in Hl as (c & <- & Hc).
    apply Na. rewrite <- (G a b), (G c b); cbn; auto. now apply in_map.
Qed.

(** ** Calls *)
Lemma assoc_combine {A} n (ns : list string) (vs : list A) i : NoDup ns -> length ns = length vs -> nth_error ns i = Some n -> assoc n (combine ns vs) = nth_error vs i.
Proof.
  intros N. revert vs i. induction N as [|m ns Hm N IH]; intros [|v vs] [|i] El E; cbn in *; try discriminate.
  - injection E as ->. now rewrite String.eqb_refl.
  - destruct (String.eqb_spec n m) as [->|]. { destruct Hm. eapply nth_error_In; eauto. } apply IH; auto.
Qed.
Lemma bind_pos {X} ns (pos : list X) : length pos = length ns -> bind_args ns pos [] = Ok pos.
Proof.
  intros E. unfold bind_args. rewrite E. rewrite Nat.ltb_irrefl. cbn [forallb negb]. rewrite skipn_all. cbn [mapM bind]. now rewrite app_nil_r.
Qed.
Lemma mapM_nth {A} (l : list A) : mapM (fun i => match nth_error l i with Some v => Ok v | None => Raise EIndexError end) (seq 0 (length l)) = Ok l.
Proof.
  apply mapM_Forall2. enough (G : forall l k (m : list A), (forall i, nth_error m (k + i) = nth_error l i) ->
    Forall2 (fun i b => match nth_error m i with Some v => Ok v | None => Raise EIndexError end = Ok b) (seq k (length l)) l) by now apply (G l 0%nat l).
  clear l. induction l as [|x l IH]; intros k m E; cbn [seq length]; constructor.
  - specialize (E 0%nat). rewrite Nat.add_0_r in E. now rewrite E.
  - apply IH. intros i. etransitivity; [|exact (E (S i))]. f_equal. lia.
Qed.
Lemma skipn_nth {A} (l : list A) : forall i v, nth_error l i = Some v -> skipn i l = v :: skipn (S i) l.
Proof. induction l as [|x l IH]; intros [|i] v; cbn; try discriminate; [congruence|]. apply IH. Qed.
Lemma bind_kw {X} ns (vs : list X) : NoDup ns -> length ns = length vs -> bind_args ns [] (combine ns vs) = Ok vs.
Proof.
  intros N El. unfold bind_args. cbn [length Nat.ltb Nat.leb skipn app].
  assert (E1 : forallb (fun p => existsb (String.eqb (fst p)) ns) (combine ns vs) = true).
  { apply forallb_forall. intros [n v] Hp. apply existsb_exists. exists n. split; [|apply String.eqb_refl]. eapply in_combine_l; eauto. }
  rewrite E1. cbn [negb].
  assert (E2 : mapM (fun n => match assoc n (combine ns vs) with Some x => Ok x | None => Raise ETypeError end) ns = Ok vs).
  { apply mapM_Forall2. enough (G : forall l i, (i + length l = length ns)%nat -> (forall j, nth_error l j = nth_error ns (i + j)) ->
      Forall2 (fun n b => match assoc n (combine ns vs) with Some x => Ok x | None => Raise ETypeError end = Ok b) l (skipn i vs)) by now apply (G ns 0%nat).
    induction l as [|n l IH]; intros i Ei Ej; cbn in Ei.
    - rewrite skipn_all2 by lia. constructor.
    - pose proof (Ej 0%nat) as E0. cbn in E0. rewrite Nat.add_0_r in E0. symmetry in E0. pose proof (assoc_combine _ _ _ _ N El E0) as A.
      destruct (nth_error vs i) as [v|] eqn:Ev; [|apply nth_error_None in Ev; lia].
      rewrite (skipn_nth _ _ _ Ev). constructor; [now rewrite A|].
      apply IH; [lia|]. intros j. rewrite (Nat.add_succ_comm i j). apply (Ej (S j)). }
  rewrite E2. reflexivity.
Qed.
Lemma vcall_tuple H cls k fs vs : node_of cls = Some (k, fs) -> tuple_like k -> Forall2 (fun f v => sub H (vtype v) (snd f) = true) fs vs ->
  vcall H cls vs [] = Ok (VTup cls true vs).
Proof.
  intros En Hk F. unfold vcall, call. rewrite En. assert (Q : tuple_init H vtype fs vs = Ok (STup true vs)) by now apply tuple_init_ok.
  assert (B : bind_args (names fs) vs [] = Ok vs) by (apply bind_pos; unfold names; rewrite map_length; symmetry; eapply Forall2_length; eauto).
  destruct k; try contradiction; rewrite ?B; cbn [bind]; now rewrite Q.
Qed.
Lemma vcall_tuple_kw H cls k fs vs : node_of cls = Some (k, fs) -> tuple_like k -> k <> KTuple -> NoDup (names fs) ->
  Forall2 (fun f v => sub H (vtype v) (snd f) = true) fs vs -> vcall H cls [] (combine (names fs) vs) = Ok (VTup cls true vs).
Proof.
  intros En Hk Hn N F. unfold vcall, call. rewrite En. assert (Q : tuple_init H vtype fs vs = Ok (STup true vs)) by now apply tuple_init_ok.
  assert (B : bind_args (names fs) [] (combine (names fs) vs) = Ok vs).
  { apply bind_kw; auto. unfold names. rewrite map_length. eapply Forall2_length; eauto. }
  destruct k; try contradiction; try congruence; rewrite B; cbn [bind]; now rewrite Q.
Qed.
Lemma vcall_sum H cls fs v : node_of cls = Some (KSum, fs) ->
  vcall H cls [v] [] = if existsb (ty_eqb (vtype v)) (types fs) then Ok (VSum cls v) else Raise ETypeError.
Proof. intros En. unfold vcall, call. rewrite En. unfold sum_init. now destruct (existsb _ _). Qed.
Lemma vcall_tag H cls n x fs i m t v : node_of cls = Some (KTag n x, fs) -> NoDup (names fs) -> nth_error fs i = Some (m, t) ->
  vcall H cls [] [(m, v)] = if sub H (vtype v) t then Ok (VTag cls i v) else Raise ETypeError.
Proof.
  intros En N E. unfold vcall, call. rewrite En. unfold tag_init, tag_set.
  assert (Ei : index_of m (names fs) = Some i). { apply index_of_NoDup; auto. unfold names. now rewrite nth_error_map, E. }
  pose proof (assoc_index m fs) as A. unfold names in *. rewrite Ei in A |- *. destruct A as (t' & -> & A). assert (t' = t) by congruence. subst t'.
  unfold isinstance. now destruct (sub H (vtype v) t).
Qed.

(** ** enumerate *)
Definition lf (H : Z -> Z -> bool) (t : ty) : list val := match enum_as H t t with Ok l => l | Raise _ => [] end.
Lemma Forall2_map_l {A B C} (R : B -> C -> Prop) (g : A -> B) l m : Forall2 R (map g l) m <-> Forall2 (fun a c => R (g a) c) l m.
Proof.
  revert m. induction l as [|a l IH]; intros m; cbn; split; intros F; inversion F; subst; constructor; auto; now apply IH.
Qed.
Lemma Forall2_impl_In {A B} (R S : A -> B -> Prop) l m : (forall a b, In a l -> R a b -> S a b) -> Forall2 R l m -> Forall2 S l m.
Proof. intros I F. induction F; constructor; auto; [apply I; cbn; auto|]. apply IHF. intros c d Hc. apply I. now right. Qed.
Lemma before_NoDup l : Sorted before l -> NoDup l.
Proof. exact (sorted_NoDup l). Qed.
Lemma enum_spec H t : twf t -> enum_based t = true -> forall cls, node_of cls = node_of t -> (node_of t = None -> cls = t) ->
  exists l, enum_as H cls t = Ok l /\ NoDup l /\ length l = cardinal t /\ forall v, In v l <-> exact cls v.
Proof.
  induction t as [lfx|n ms|k u fs IH|m t IH] using ty_ind'; intros W B cls En Ec; cbn [enum_based] in B; try discriminate.
  - cbn [enum_as]. eexists. split; [reflexivity|]. rewrite (Ec eq_refl). split; [|split].
    + apply NoDup_map_inj. { intros; congruence. } unfold zrange. apply NoDup_map_inj; [intros a b _ _ E; lia|apply seq_NoDup].
    + unfold zrange. rewrite !map_length, seq_length, Nat2Z.id. reflexivity.
    + intros v. rewrite in_map_iff. split.
      * intros (i & <- & Hi). apply ex_enum. unfold zrange in Hi. apply in_map_iff in Hi as (j & <- & Hj). apply in_seq in Hj. lia.
      * intros X. inversion X; subst; try discriminate. exists i. split; auto. unfold zrange. apply in_map_iff. exists (Z.to_nat i). split; [lia|]. apply in_seq. lia.
  - clear Ec. rename En into En'. assert (En : node_of cls = Some (k, fs)) by exact En'. clear En'. inversion W as [| |? ? ? Kk Wf|]; subst. rewrite forallb_forall in B. rewrite Forall_forall in Wf, IH.
    assert (G : forall f, In f fs -> is_adt (snd f) = true /\ enum_as H (snd f) (snd f) = Ok (lf H (snd f)) /\ NoDup (lf H (snd f)) /\
      length (lf H (snd f)) = cardinal (snd f) /\ forall v, In v (lf H (snd f)) <-> exact (snd f) v).
    { intros f Hf. split; [apply enum_based_adt; auto|]. destruct (IH f Hf (Wf f Hf) (B f Hf) (snd f) eq_refl (fun _ => eq_refl)) as (l & E & Q). unfold lf. rewrite E. auto. }
    cbn [enum_as].
    assert (Et : tuple_like k -> exists l,
      (ls <- sequence (map (fun f : string * ty => if is_adt (snd f) then enum_as H (snd f) (snd f) else rmap (fun v => [v]) (leaf_call0 (snd f) (snd f))) fs) ;; mapM (fun vs => vcall H cls vs []) (product ls)) = Ok l /\
      NoDup l /\ length l = prod (map (fun f => cardinal (snd f)) fs) /\ forall v, In v l <-> exact cls v).
    { intros Hk. rewrite sequence_map, (mapM_ext _ (fun f => Ok (lf H (snd f)))), mapM_ok.
      2:{ intros f Hf. destruct (G f Hf) as (-> & -> & _). reflexivity. }
      cbn [bind]. exists (map (VTup cls true) (product (map (fun f => lf H (snd f)) fs))).
      assert (P : forall vs, In vs (product (map (fun f => lf H (snd f)) fs)) <-> Forall2 (fun f v => exact (snd f) v) fs vs).
      { intros vs. rewrite product_In, Forall2_map_l. split; apply Forall2_impl_In; intros f v Hf; destruct (G f Hf) as (_ & _ & _ & _ & Q); apply Q. }
      split; [|split; [|split]].
      - rewrite <- mapM_ok. apply mapM_ext. intros vs Hvs. apply P in Hvs. eapply vcall_tuple; eauto. eapply Forall2_impl; [|exact Hvs].
        intros f v Q. rewrite (exact_type _ _ Q). apply sub_refl.
      - apply NoDup_map_inj. { intros; congruence. } apply product_NoDup. apply Forall_forall. intros l Hl. apply in_map_iff in Hl as (f & <- & Hf). now apply G.
      - rewrite map_length, product_length, map_map. f_equal. apply map_ext_in. intros f Hf. now apply G.
      - intros v. rewrite in_map_iff. split.
        + intros (vs & <- & Hvs). apply P in Hvs. econstructor; eauto.
        + intros X. inversion X as [t z A| |t k' fs' vs En' Hk' F| |]; subst.
          * apply node_is_adt in En. congruence.
          * discriminate.
          * exists vs. split; auto. apply P. rewrite En in En'. injection En' as <- <-. exact F.
          * rewrite En in H0. injection H0 as -> _. destruct Hk.
          * rewrite En in H0. injection H0 as -> _. destruct Hk. }
    destruct k as [| |nm x| |nm x]; try (apply Et; exact I).
    + destruct Kk as [_ Ks]. rewrite sequence_map, (mapM_ext _ (fun f => Ok (lf H (snd f)))), mapM_ok.
      2:{ intros f Hf. destruct (G f Hf) as (-> & -> & _). reflexivity. }
      cbn [bind]. exists (map (VSum cls) (List.concat (map (fun f => lf H (snd f)) fs))).
      assert (P : forall v, In v (List.concat (map (fun f => lf H (snd f)) fs)) <-> exists f, In f fs /\ exact (snd f) v).
      { intros v. rewrite in_concat. split.
        - intros (l & Hl & Hv). apply in_map_iff in Hl as (f & <- & Hf). exists f. split; auto. now apply G.
        - intros (f & Hf & Q). exists (lf H (snd f)). split; [apply in_map_iff; eauto|]. now apply G. }
      split; [|split; [|split]].
      * rewrite <- mapM_ok. apply mapM_ext. intros v Hv. apply P in Hv as (f & Hf & Q). rewrite (vcall_sum _ _ _ _ En).
        replace (existsb (ty_eqb (vtype v)) (types fs)) with true; auto. symmetry. apply existsb_ty. rewrite (exact_type _ _ Q). now apply in_map.
      * apply NoDup_map_inj. { intros; congruence. } apply (concat_NoDup snd vtype (fun f => lf H (snd f))).
        -- now apply before_NoDup.
        -- intros f Hf. now apply G.
        -- intros f v Hf Hv. apply G in Hv; auto. now apply exact_type.
      * rewrite map_length, concat_length, map_map. cbn [cardinal]. f_equal. apply map_ext_in. intros f Hf. now apply G.
      * intros v. rewrite in_map_iff. split.
        -- intros (w & <- & Hw). apply P in Hw as (f & Hf & Q). econstructor; eauto.
        -- intros X. inversion X as [t z A| |t k' fs' vs En' Hk' F|t fs' f w En' Hf Q|t n x fs' i f w En' Hf Q]; subst.
           ++ apply node_is_adt in En. congruence.
           ++ discriminate.
           ++ rewrite En in En'. injection En' as <- _. destruct Hk'.
           ++ rewrite En in En'. injection En' as <-. exists w. split; auto. apply P. eauto.
           ++ rewrite En in En'. discriminate.
    + destruct Kk as (Kn & _ & _). set (g := fun p : string * val => VTag cls (match index_of (fst p) (names fs) with Some i => i | None => 0%nat end) (snd p)).
      set (pf := fun f : string * ty => map (pair (fst f)) (lf H (snd f))).
      rewrite sequence_map, (mapM_ext _ (fun f => Ok (pf f))), mapM_ok.
      2:{ intros f Hf. destruct (G f Hf) as (-> & -> & _). reflexivity. }
      cbn [bind]. exists (map g (List.concat (map pf fs))).
      assert (P : forall p, In p (List.concat (map pf fs)) <-> exists f, In f fs /\ fst p = fst f /\ exact (snd f) (snd p)).
      { intros p. rewrite in_concat. split.
        - intros (l & Hl & Hv). apply in_map_iff in Hl as (f & <- & Hf). exists f. split; auto. unfold pf in Hv. apply in_map_iff in Hv as (v & <- & Hv). split; auto. cbn. now apply G.
        - intros (f & Hf & E & Q). exists (pf f). split; [apply in_map_iff; eauto|]. unfold pf. apply in_map_iff. exists (snd p). split; [destruct p; cbn in *; congruence|]. now apply G. }
      assert (Ix : forall f, In f fs -> exists i, nth_error fs i = Some f /\ index_of (fst f) (names fs) = Some i).
      { intros f Hf. apply In_nth_error in Hf as [i Hi]. exists i. split; auto. apply index_of_NoDup; auto. unfold names. now rewrite nth_error_map, Hi. }
      split; [|split; [|split]].
      * rewrite <- mapM_ok. apply mapM_ext. intros [nn v] Hv. apply P in Hv as ([m t] & Hf & E & Q). cbn [fst snd] in *. subst nn.
        destruct (Ix _ Hf) as (i & Hi & Ei). rewrite (vcall_tag H cls nm x fs i m t v En Kn Hi). rewrite (exact_type _ _ Q), sub_refl. unfold g. cbn [fst snd] in *. now rewrite Ei.
      * apply NoDup_map_inj.
        -- intros [a v] [b w] Ha Hb E. apply P in Ha as (f & Hf & Ef & _), Hb as (f' & Hf' & Ef' & _). cbn [fst] in Ef, Ef'. subst a b.
           destruct (Ix _ Hf) as (i & Hi & Ei), (Ix _ Hf') as (i' & Hi' & Ei'). unfold g in E. cbn [fst snd] in E. rewrite Ei, Ei' in E. injection E as <- <-. congruence.
        -- apply (concat_NoDup fst fst pf); auto.
           ++ intros f Hf. apply NoDup_map_inj. { intros; congruence. } now apply G.
           ++ intros f p Hf Hp. unfold pf in Hp. apply in_map_iff in Hp as (v & <- & _). reflexivity.
      * rewrite map_length, concat_length, map_map. cbn [cardinal]. f_equal. apply map_ext_in. intros f Hf. unfold pf. rewrite map_length. now apply G.
      * intros v. rewrite in_map_iff. split.
        -- intros (p & <- & Hp). apply P in Hp as (f & Hf & Ef & Q). destruct (Ix _ Hf) as (i & Hi & Ei). unfold g. rewrite Ef, Ei. econstructor; eauto.
        -- intros X. inversion X as [t z A| |t k' fs' vs En' Hk' F|t fs' f w En' Hf Q|t n x' fs' i f w En' Hf Q]; subst.
           ++ apply node_is_adt in En. congruence.
           ++ discriminate.
           ++ rewrite En in En'. injection En' as <- _. destruct Hk'.
           ++ rewrite En in En'. discriminate.
           ++ rewrite En in En'. injection En' as _ _ <-. pose proof (nth_error_In _ _ Hf) as Hin. destruct (Ix _ Hin) as (i' & Hi' & Ei').
              assert (i' = i). { apply (NoDup_nth_error (names fs)); auto. - apply nth_error_Some. unfold names. rewrite nth_error_map, Hi'. discriminate. - unfold names. now rewrite !nth_error_map, Hi', Hf. }
              subst i'. exists (fst f, w). split; [unfold g; cbn [fst snd]; now rewrite Ei'|]. apply P. exists f. auto.
  - cbn [enum_as cardinal]. cbn [node_of] in En. apply IH; auto; [now inversion W|destruct (node_of t); congruence|]. intros Q. rewrite Q in B. discriminate.
Qed.
