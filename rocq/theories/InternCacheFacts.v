(** The invariant of the class cache and what each creation does to it. *)
From Coq Require Import Lia.
From Verif Require Import PyBase InternModel InternSpec InternFacts.
Local Opaque same_fields.

Lemma ordered_is : forall m, ordered m = order_matters m.
Proof. now intros []. Qed.
Lemma mk_eqb_iff : forall a b, mk_eqb a b = true <-> a = b.
Proof. intros [] []; cbn; split; intros H; easy. Qed.
Lemma mem_iff : forall x l, mem x l = true <-> In x l.
Proof.
  intros x l. unfold mem. rewrite existsb_exists. split.
  - intros (y & H & E). apply Nat.eqb_eq in E. now subst.
  - intros H. exists x. split; [easy|apply Nat.eqb_refl].
Qed.
Lemma alive_iff : forall s c, alive s c = true <-> is_alive s c.
Proof.
  intros s c. unfold alive, is_alive. rewrite andb_true_iff, Nat.ltb_lt, negb_true_iff.
  rewrite <- mem_iff, Bool.not_true_iff_false. tauto.
Qed.

(** The class shows what the key asked for. *)
Definition made (c : tclass) (k : ckey) : Prop :=
  match k with
  | KGet u o fs => by_index (t_meta c) /\ o = order_matters (t_meta c) /\ hd_error (t_bases c) = Some u /\
      exists gs, t_fields c = Some gs /\ same_fields o fs gs
  | KAttr u o n fs ns => by_name (t_meta c) /\ o = order_matters (t_meta c) /\ hd_error (t_bases c) = Some u /\ t_name c = n /\
      same_fields false ns (t_ns c) /\ exists gs, t_fields c = Some gs /\ same_fields o fs gs
  end.
Lemma made_same : forall c k k', made c k' -> same_key k k' -> made c k.
Proof.
  intros c [u o fs|u o n fs ns] [u' o' fs'|u' o' n' fs' ns']; cbn; try easy.
  - intros (H1 & H2 & H3 & gs & H4 & H5) (-> & -> & H). do 3 (split; [easy|]). exists gs. split; [easy|].
    eapply same_fields_trans; eassumption.
  - intros (H1 & H2 & H3 & H0 & H6 & gs & H4 & H5) (-> & -> & -> & H & H7). do 4 (split; [easy|]).
    split; [eapply same_fields_trans; eassumption|]. exists gs. split; [easy|]. eapply same_fields_trans; eassumption.
Qed.
Lemma made_unique : forall c k k', made c k -> made c k' -> same_key k k'.
Proof.
  assert (X : forall m, by_index m -> by_name m -> False) by (intros m [|[|]] [|[|]]; congruence).
  intros c [u o fs|u o n fs ns] [u' o' fs'|u' o' n' fs' ns']; cbn.
  - intros (H1 & -> & H3 & gs & H4 & H5) (H1' & -> & H3' & gs' & H4' & H5').
    split; [congruence|]. split; [easy|]. assert (gs' = gs) by congruence. subst. eapply same_fields_trans; [eassumption|].
    now apply same_fields_sym.
  - intros (H & _) (H' & _). eauto.
  - intros (H & _) (H' & _). eauto.
  - intros (H1 & -> & H3 & H0 & H6 & gs & H4 & H5) (H1' & -> & H3' & H0' & H6' & gs' & H4' & H5').
    split; [congruence|]. split; [easy|]. split; [congruence|]. assert (gs' = gs) by congruence. subst.
    split; (eapply same_fields_trans; [eassumption|now apply same_fields_sym]).
Qed.

(** The tree of unbound classes. *)
Definition unbound_ok (s : ist) (c : tclass) : Prop :=
  t_fields c = None ->
  (forall b, hd_error (t_bases c) = Some b -> t_fields (get_cls s b) = None) /\
  match t_meta c with
  | MAnon => exists b, hd_error (t_bases c) = Some b /\ (t_meta (get_cls s b) = MAnon \/ t_meta (get_cls s b) = MTuple)
  | MProd => exists b, hd_error (t_bases c) = Some b /\ (t_meta (get_cls s b) = MProd \/ t_meta (get_cls s b) = MAnon)
  | MTag => exists b, hd_error (t_bases c) = Some b /\ (t_meta (get_cls s b) = MTag \/ t_meta (get_cls s b) = MSum)
  | _ => True
  end.
Record wf (s : ist) : Prop := {
  w_dead : forall c, In c (dead s) -> (c < length (classes s))%nat;
  w_older : forall c r, (c < length (classes s))%nat -> In r (refs_of (get_cls s c)) -> (r < c)%nat;
  w_closed : forall c r, is_alive s c -> In r (refs_of (get_cls s c)) -> is_alive s r;
  w_cache : forall k t, In (k, t) (cache s) -> is_alive s t /\ made (get_cls s t) k;
  w_tree : forall c, (c < length (classes s))%nat -> unbound_ok s (get_cls s c)
}.

Record grow (s s' : ist) : Prop := {
  g_classes : exists l, classes s' = classes s ++ l;
  g_dead : dead s' = dead s;
  g_vars : vars s' = vars s;
  g_look : forall k t, lookup s k = Some t -> lookup s' k = Some t
}.
Lemma grow_refl : forall s, grow s s.
Proof. intros s. constructor; auto. exists []. now rewrite app_nil_r. Qed.
Lemma grow_trans : forall a b c, grow a b -> grow b c -> grow a c.
Proof.
  intros a b c [[l H1] H2 H3 H4] [[l' H1'] H2' H3' H4']. constructor; try congruence; auto.
  exists (l ++ l'). rewrite H1', H1. now rewrite app_assoc.
Qed.
Lemma grow_len : forall s s', grow s s' -> (length (classes s) <= length (classes s'))%nat.
Proof. intros s s' [[l ->] _ _ _]. rewrite app_length. lia. Qed.
Lemma grow_get : forall s s' c, grow s s' -> (c < length (classes s))%nat -> get_cls s' c = get_cls s c.
Proof. intros s s' c [[l H] _ _ _] Hc. unfold get_cls. rewrite H. now apply app_nth1. Qed.
Lemma grow_alive : forall s s' c, grow s s' -> is_alive s c -> is_alive s' c.
Proof. intros s s' c G [H1 H2]. pose proof (grow_len _ _ G). destruct G. split; [lia|congruence]. Qed.

Lemma lookup_iff : forall s k t, lookup s k = Some t -> exists k0, In (k0, t) (cache s) /\ same_key k k0.
Proof.
  intros s k t H. unfold lookup in H. destruct (find _ _) as [[k0 t0]|] eqn:E; [|discriminate]. injection H as <-.
  apply find_some in E as [E1 E2]. exists k0. split; [easy|]. now apply key_eqb_iff.
Qed.
Lemma lookup_made : forall s k t, wf s -> lookup s k = Some t -> is_alive s t /\ made (get_cls s t) k.
Proof.
  intros s k t W H. apply lookup_iff in H as (k0 & H1 & H2). apply (w_cache s W) in H1 as [H1 H3].
  split; [easy|]. eapply made_same; eassumption.
Qed.
Lemma key_eqb_same : forall k k' e, same_key k k' -> key_eqb k e = key_eqb k' e.
Proof.
  intros k k' e H. destruct (key_eqb k e) eqn:E, (key_eqb k' e) eqn:E'; try easy.
  - apply key_eqb_iff in E. rewrite <- E'. symmetry. apply key_eqb_iff.
    eapply same_key_trans; [apply same_key_sym; eassumption|easy].
  - apply key_eqb_iff in E'. rewrite <- E. apply key_eqb_iff. eapply same_key_trans; eassumption.
Qed.
Lemma lookup_same : forall s k k', same_key k k' -> lookup s k = lookup s k'.
Proof.
  intros s k k' H. unfold lookup. f_equal. induction (cache s) as [|e l IH]; cbn; [easy|].
  rewrite (key_eqb_same k k') by easy. now rewrite IH.
Qed.

Lemma get_add_new : forall s c, get_cls (fst (add_class s c)) (length (classes s)) = c.
Proof. intros s c. unfold get_cls. cbn. rewrite app_nth2 by lia. now rewrite Nat.sub_diag. Qed.
Lemma get_add_old : forall s c d, (d < length (classes s))%nat -> get_cls (fst (add_class s c)) d = get_cls s d.
Proof. intros s c d H. unfold get_cls. cbn. now apply app_nth1. Qed.
Lemma add_alive : forall s c d, is_alive s d -> is_alive (fst (add_class s c)) d.
Proof. intros s c d [H1 H2]. split; [cbn; rewrite app_length; lia|easy]. Qed.
Lemma unbound_ok_add : forall s c d, (forall r, In r (t_bases d) -> r < length (classes s))%nat ->
  unbound_ok s d -> unbound_ok (fst (add_class s c)) d.
Proof.
  intros s c d Hr H Hf. specialize (H Hf) as [H1 H2].
  assert (G : forall b, hd_error (t_bases d) = Some b -> get_cls (fst (add_class s c)) b = get_cls s b).
  { intros b Hb. apply get_add_old. apply Hr. destruct (t_bases d); [discriminate|]. injection Hb as ->. now left. }
  split; [intros b Hb; rewrite G by easy; auto|].
  destruct (t_meta d); auto; destruct H2 as (b & Hb & H2); exists b; (split; [easy|]); now rewrite G.
Qed.
(** A new class. *)
Lemma add_wf : forall s c, wf s -> (forall r, In r (refs_of c) -> is_alive s r) -> unbound_ok s c -> wf (fst (add_class s c)).
Proof.
  intros s c W Hr Hu.
  assert (L : length (classes (fst (add_class s c))) = S (length (classes s))) by (cbn; rewrite app_length; cbn; lia).
  assert (C : forall d, (d < length (classes (fst (add_class s c))))%nat -> (d < length (classes s))%nat \/ d = length (classes s)) by lia.
  constructor.
  - intros d Hd. apply (w_dead s W) in Hd. lia.
  - intros d r Hd Hin. destruct (C d Hd) as [H| ->].
    + rewrite get_add_old in Hin by easy. now apply (w_older s W d).
    + rewrite get_add_new in Hin. apply Hr in Hin as [H _]. easy.
  - intros d r [Hd Hn] Hin. apply add_alive. destruct (C d Hd) as [H| ->].
    + rewrite get_add_old in Hin by easy. now apply (w_closed s W d).
    + rewrite get_add_new in Hin. now apply Hr.
  - intros k t Hin. apply (w_cache s W) in Hin as [H1 H2]. split; [now apply add_alive|].
    rewrite get_add_old; [easy|apply H1].
  - intros d Hd. destruct (C d Hd) as [H| ->].
    + rewrite get_add_old by easy. apply unbound_ok_add; [|now apply (w_tree s W)].
      intros r Hin. assert (r < d)%nat; [|lia]. apply (w_older s W d r H). unfold refs_of. apply in_or_app. now left.
    + rewrite get_add_new. apply unbound_ok_add; [|easy].
      intros r Hin. assert (is_alive s r) as [Hl _]; [|easy]. apply Hr. unfold refs_of. apply in_or_app. now left.
Qed.
Lemma add_grow : forall s c, grow s (fst (add_class s c)).
Proof. intros s c. constructor; auto. now exists [c]. Qed.
Lemma store_wf : forall s k t, wf s -> is_alive s t -> made (get_cls s t) k -> wf (store s k t).
Proof.
  intros s k t W H1 H2. destruct W as [A B C D E]. constructor; try assumption.
  intros k' t' [H|H]; [injection H as <- <-; now split|now apply D].
Qed.
Lemma lookup_store : forall s k t k', lookup (store s k t) k' = if key_eqb k' k then Some t else lookup s k'.
Proof. intros s k t k'. unfold lookup, store. cbn. now destruct (key_eqb k' k). Qed.
(** A new class that is remembered under a key that was not there. *)
Lemma create_spec : forall s s2 c k, wf s2 -> grow s s2 -> lookup s k = None ->
  (forall r, In r (refs_of c) -> is_alive s2 r) -> unbound_ok s2 c -> made c k ->
  let t := length (classes s2) in let s' := store (fst (add_class s2 c)) k t in
  wf s' /\ grow s s' /\ lookup s' k = Some t /\ get_cls s' t = c /\ is_alive s' t.
Proof.
  intros s s2 c k W G L Hr Hu Hm t s'.
  pose proof (add_wf s2 c W Hr Hu) as W2.
  assert (A : is_alive (fst (add_class s2 c)) t).
  { split; [cbn; rewrite app_length; cbn; unfold t; lia|]. intros H. apply (w_dead s2 W) in H. unfold t in H. lia. }
  split; [apply store_wf; [easy|easy|unfold t; now rewrite get_add_new]|].
  split.
  - assert (G2 : grow s (fst (add_class s2 c))) by (eapply grow_trans; [exact G|apply add_grow]).
    destruct G2 as [g1 g2 g3 g4]. constructor; try assumption.
    intros k' t' H. unfold s'. rewrite lookup_store. destruct (key_eqb k' k) eqn:E; [|now apply g4].
    apply key_eqb_iff in E. rewrite (lookup_same s k' k E) in H. congruence.
  - split; [|split; [apply get_add_new|exact A]].
    unfold s'. rewrite lookup_store. assert (E : key_eqb k k = true) by (apply key_eqb_iff, same_key_refl). now rewrite E.
Qed.

Lemma base_alive : forall s c b, wf s -> is_alive s c -> hd_error (t_bases (get_cls s c)) = Some b -> is_alive s b /\ (b < c)%nat.
Proof.
  intros s c b W Hc Hb. assert (In b (refs_of (get_cls s c))).
  { unfold refs_of. apply in_or_app. left. destruct (t_bases (get_cls s c)); [discriminate|]. injection Hb as ->. now left. }
  split; [now apply (w_closed s W c)|]. apply (w_older s W c); [apply Hc|easy].
Qed.
Lemma parent_hd : forall s c, parent s c = hd_error (t_bases (get_cls s c)).
Proof. intros s c. unfold parent. now destruct (t_bases _). Qed.

(** The nearest unbound class of the other metaclass. *)
Lemma ancestor_spec : forall s m m', wf s ->
  (m = MAnon /\ m' = MTuple) \/ (m = MProd /\ m' = MAnon) \/ (m = MTag /\ m' = MSum) ->
  forall fuel c, (c <= fuel)%nat -> is_alive s c -> t_fields (get_cls s c) = None -> t_meta (get_cls s c) = m ->
  exists b, ancestor fuel s c m' = Some b /\ is_alive s b /\ (b < c)%nat /\ t_fields (get_cls s b) = None /\ t_meta (get_cls s b) = m'.
Proof.
  intros s m m' W Hm. induction fuel as [|f IH]; intros c Hf Ha Hu Hc.
  all: destruct (w_tree s W c (proj1 Ha) Hu) as [T1 T2].
  all: assert (exists b, hd_error (t_bases (get_cls s c)) = Some b /\ (t_meta (get_cls s b) = m \/ t_meta (get_cls s b) = m')) as (b & Hb & Hbm)
    by (rewrite Hc in T2; destruct Hm as [[-> ->]|[[-> ->]|[-> ->]]]; exact T2).
  all: destruct (base_alive s c b W Ha Hb) as [Hba Hlt].
  1: lia.
  cbn [ancestor]. rewrite parent_hd, Hb.
  destruct (mk_eqb (t_meta (get_cls s b)) m') eqn:E.
  - exists b. apply mk_eqb_iff in E. do 3 (split; [easy|]). split; [now apply T1|easy].
  - destruct Hbm as [Hbm|Hbm]; [|rewrite Hbm in E; destruct m'; discriminate].
    destruct (IH b) as (a & H1 & H2 & H3 & H4); [lia|easy|auto|easy|]. exists a. split; [easy|]. split; [easy|]. split; [lia|easy].
Qed.

Lemma val_refs_unname : forall fs, val_refs (unname fs) = val_refs fs.
Proof. induction fs as [|f fs IH]; [easy|]. unfold val_refs, unname in *. cbn. now rewrite IH. Qed.
Lemma same_unname : forall o a b, same_fields o a b -> same_fields o (unname a) (unname b).
Proof.
  Local Transparent same_fields.
  intros [|] a b; cbn.
  - induction 1 as [|x y a b [H1 H2] H IH]; constructor; [now split|easy].
  - intros [H1 H2]. unfold unname. split; intros f Hf; apply in_map_iff in Hf as (g & <- & Hg).
    + apply H1 in Hg as (h & Hh & E1 & E2). exists (EmptyString, snd h). split; [|now split].
      apply in_map_iff. now exists h.
    + apply H2 in Hg as (h & Hh & E1 & E2). exists (EmptyString, snd h). split; [|now split].
      apply in_map_iff. now exists h.
  Local Opaque same_fields.
Qed.

Lemma forallb_exists_false : forall {A} (p : A -> bool) l, forallb p l = false -> exists x, In x l /\ p x = false.
Proof.
  induction l as [|a l IH]; cbn; intros H; [discriminate|]. apply andb_false_iff in H as [H|H]; [exists a; auto|].
  destruct (IH H) as (x & Hx & E). exists x. auto.
Qed.
(** u[idx] succeeds unless a field name of an AnonymousProduct is not a valid parameter name, on an unbound class and existing field types, and returns the class remembered for it. *)
Lemma getitem_spec : forall fuel s u fs, wf s -> is_alive s u -> t_fields (get_cls s u) = None ->
  by_index (t_meta (get_cls s u)) -> (forall r, In r (val_refs fs) -> is_alive s r) -> (u < fuel)%nat ->
  (exists s' t, getitem fuel s u fs = Ok (s', t) /\ wf s' /\ grow s s' /\
    lookup s' (KGet u (ordered (t_meta (get_cls s u))) fs) = Some t /\ is_alive s' t) \/
  (getitem fuel s u fs = Raise ESyntaxError /\ t_meta (get_cls s u) = MAnon /\ exists f, In f fs /\ param_ok (fst f) = false).
Proof.
  induction fuel as [|f IH]; intros s u fs W Ha Hu Hi Hr Hf; [lia|].
  cbn [getitem]. destruct (lookup s (KGet u (ordered (t_meta (get_cls s u))) fs)) as [t|] eqn:L.
  { left. exists s, t. split; [easy|]. split; [easy|]. split; [apply grow_refl|]. split; [easy|].
    now apply (lookup_made s _ t W) in L. }
  set (m := t_meta (get_cls s u)) in *.
  (* the base of the same metaclass *)
  set (e1 := match parent s u with Some b => _ | None => _ end).
  assert (R1 : (exists s1 l1, e1 = Ok (s1, l1) /\ wf s1 /\ grow s s1 /\ forall r, In r l1 -> is_alive s1 r) \/
    (e1 = Raise ESyntaxError /\ m = MAnon /\ exists f, In f fs /\ param_ok (fst f) = false)).
  { unfold e1. rewrite parent_hd. destruct (hd_error (t_bases (get_cls s u))) as [b|] eqn:Hb.
    - destruct (mk_eqb (t_meta (get_cls s b)) m) eqn:E.
      + apply mk_eqb_iff in E. destruct (base_alive s u b W Ha Hb) as [Hba Hlt].
        destruct (IH s b fs) as [(s1 & t1 & -> & W1 & G1 & _ & A1)|(-> & Bm & Bp)]; [easy|easy| |now rewrite E|easy|lia| |].
        * now apply (w_tree s W u (proj1 Ha) Hu).
        * left. exists s1, [t1]. cbn [bind fst snd]. do 3 (split; [easy|]). now intros r [<-|[]].
        * right. split; [easy|]. split; [congruence|easy].
      + left. exists s, []. do 2 (split; [easy|]). split; [apply grow_refl|now intros r []].
    - left. exists s, []. do 2 (split; [easy|]). split; [apply grow_refl|now intros r []]. }
  destruct R1 as [(s1 & l1 & -> & W1 & G1 & A1)|(-> & R1)]; [|now right]. cbn [bind fst snd].
  pose proof (grow_get s s1 u G1 (proj1 Ha)) as Eu.
  assert (R2 : exists s2 l2,
    match m with
    | MAnon => match ancestor f s1 u MTuple with
               | Some b => r <- getitem f s1 b (unname fs) ;; Ok (fst r, [snd r])
               | None => Raise ETypeError
               end
    | _ => Ok (s1, [])
    end = Ok (s2, l2) /\ wf s2 /\ grow s1 s2 /\ forall r, In r l2 -> is_alive s2 r).
  { assert (N : exists s2 l2, Ok (s1, []) = Ok (s2, l2) /\ wf s2 /\ grow s1 s2 /\ forall r : cid, In r l2 -> is_alive s2 r).
    { exists s1, []. do 2 (split; [easy|]). split; [apply grow_refl|now intros r []]. }
    destruct m eqn:Em; try exact N.
    destruct (ancestor_spec s1 MAnon MTuple W1 (or_introl (conj eq_refl eq_refl)) f u) as (b & -> & Hba & Hlt & Hbu & Hbm).
    - lia.
    - now apply (grow_alive s).
    - now rewrite Eu.
    - now rewrite Eu.
    - destruct (IH s1 b (unname fs)) as [(s2 & t2 & -> & W2 & G2 & _ & A2)|(_ & Bm & _)]; [easy|easy|easy|rewrite Hbm; now left| |lia| |congruence].
      + rewrite val_refs_unname. intros r Hin. now apply (grow_alive s), Hr.
      + exists s2, [t2]. cbn [bind fst snd]. do 3 (split; [easy|]). now intros r [<-|[]]. }
  destruct R2 as (s2 & l2 & -> & W2 & G2 & A2). cbn [bind fst snd].
  destruct (mk_eqb m MAnon && negb (forallb (fun f => param_ok (fst f)) fs)) eqn:EP.
  { right. split; [easy|]. apply andb_true_iff in EP as [EP1 EP2]. split; [now apply mk_eqb_iff|].
    apply negb_true_iff in EP2. apply forallb_exists_false in EP2 as (g & Hg & E). now exists g. }
  left. assert (G : grow s s2) by (eapply grow_trans; eassumption).
  destruct (create_spec s s2 (TC m (u :: l1 ++ l2) "" (Some fs) []) (KGet u (ordered m) fs)) as (S1 & S2 & S3 & _ & S4);
    [easy|easy|easy| |discriminate| |].
  - intros r Hin. unfold refs_of in Hin. cbn [t_bases t_fields t_ns val_refs flat_map] in Hin. rewrite app_nil_r in Hin.
    apply in_app_or in Hin as [[<-|Hin]|Hin].
    + now apply (grow_alive s).
    + apply in_app_or in Hin as [Hin|Hin]; [apply (grow_alive s1); auto|auto].
    + now apply (grow_alive s), Hr.
  - cbn [made t_meta t_bases t_fields hd_error]. split; [easy|]. split; [apply ordered_is|]. split; [easy|].
    exists fs. split; [easy|apply same_fields_refl].
  - cbn [add_class]. eexists _, _. split; [reflexivity|]. split; [exact S1|]. split; [exact S2|]. split; [exact S3|exact S4].
Qed.

(** A type with named fields. *)
Lemma attr_spec : forall s u n fs ns cached, wf s -> is_alive s u -> t_fields (get_cls s u) = None ->
  by_name (t_meta (get_cls s u)) -> (forall r, In r (val_refs fs ++ val_refs ns) -> is_alive s r) -> fs <> [] ->
  (exists s' t, attr_class s u n fs ns cached = Ok (s', t) /\ wf s' /\ grow s s' /\ is_alive s' t /\
    made (get_cls s' t) (KAttr u (ordered (t_meta (get_cls s u))) n fs ns) /\
    (cached = true -> lookup s' (KAttr u (ordered (t_meta (get_cls s u))) n fs ns) = Some t) /\
    (cached = false -> (length (classes s) <= t)%nat) /\
    ((length (classes s) <= t)%nat -> t_fields (get_cls s' t) = Some fs)) \/
  (attr_class s u n fs ns cached = Raise ESyntaxError /\ t_meta (get_cls s u) = MProd /\ exists f, In f fs /\ param_ok (fst f) = false).
Proof.
  intros s u n fs ns cached W Ha Hu Hi Hr Hne. unfold attr_class. set (m := t_meta (get_cls s u)) in *.
  set (k := KAttr u (ordered m) n fs ns).
  assert (E : forall (A : Type) (a b : A), match fs with [] => a | _ :: _ => b end = b) by (destruct fs; easy).
  rewrite E. clear E. fold k.
  destruct (if cached then lookup s k else None) as [t|] eqn:L.
  { destruct cached; [|discriminate]. left. exists s, t. destruct (lookup_made s k t W L) as [A M].
    split; [easy|]. split; [easy|]. split; [apply grow_refl|]. split; [easy|]. split; [easy|]. split; [easy|]. split; [easy|].
    intros H. destruct A. lia. }
  set (e1 :=
    match m with
    | MProd => match ancestor (S u) s u MAnon with
               | Some b => r <- getitem (S b) s b fs ;; Ok (fst r, [snd r]) | None => Raise ETypeError end
    | MTag => match ancestor (S u) s u MSum with
              | Some b => r <- getitem (S b) s b (unname fs) ;; Ok (fst r, [snd r]) | None => Raise ETypeError end
    | MEnum => Ok (s, [])
    | _ => Raise ETypeError
    end).
  assert (R : (exists s1 l1, e1 = Ok (s1, l1) /\ wf s1 /\ grow s s1 /\ forall r, In r l1 -> is_alive s1 r) \/
    (e1 = Raise ESyntaxError /\ m = MProd /\ exists f, In f fs /\ param_ok (fst f) = false)).
  { unfold e1. destruct m eqn:Em; try (exfalso; destruct Hi as [Hi|[Hi|Hi]]; discriminate).
    - destruct (ancestor_spec s MProd MAnon W (or_intror (or_introl (conj eq_refl eq_refl))) (S u) u) as (b & -> & Hba & Hlt & Hbu & Hbm);
        [lia|easy|easy|easy|].
      destruct (getitem_spec (S b) s b fs) as [(s1 & t1 & -> & W1 & G1 & _ & A1)|(-> & _ & Bp)];
        [easy|easy|easy|rewrite Hbm; right; now left| |lia| |].
      + intros r Hin. apply Hr, in_or_app. now left.
      + left. exists s1, [t1]. cbn [bind fst snd]. do 3 (split; [easy|]). now intros r [<-|[]].
      + right. do 2 (split; [easy|]). easy.
    - destruct (ancestor_spec s MTag MSum W (or_intror (or_intror (conj eq_refl eq_refl))) (S u) u) as (b & -> & Hba & Hlt & Hbu & Hbm);
        [lia|easy|easy|easy|].
      destruct (getitem_spec (S b) s b (unname fs)) as [(s1 & t1 & -> & W1 & G1 & _ & A1)|(_ & Bm & _)];
        [easy|easy|easy|rewrite Hbm; right; now right| |lia| |congruence].
      + rewrite val_refs_unname. intros r Hin. apply Hr, in_or_app. now left.
      + left. exists s1, [t1]. cbn [bind fst snd]. do 3 (split; [easy|]). now intros r [<-|[]].
    - left. exists s, []. do 2 (split; [easy|]). split; [apply grow_refl|now intros r []]. }
  destruct R as [(s1 & l1 & -> & W1 & G1 & A1)|(-> & R)]; [left|right; now split]. cbn [bind fst snd].
  set (c := TC m (u :: l1) n (Some fs) ns).
  assert (Rc : forall r, In r (refs_of c) -> is_alive s1 r).
  { intros r Hin. unfold refs_of in Hin. cbn [c t_bases t_fields t_ns] in Hin.
    apply in_app_or in Hin as [[<-|Hin]|Hin]; [now apply (grow_alive s)|now apply A1|now apply (grow_alive s), Hr]. }
  assert (Mc : made c k).
  { cbn [made c k t_meta t_bases t_fields t_ns t_name hd_error]. split; [easy|]. split; [apply ordered_is|]. do 2 (split; [easy|]).
    split; [apply same_fields_refl|]. exists fs. split; [easy|apply same_fields_refl]. }
  cbn [add_class]. destruct cached.
  - destruct (create_spec s s1 c k) as (S1 & S2 & S3 & S4 & S5); [easy|easy|easy|easy|discriminate|easy|].
    eexists _, _. split; [reflexivity|]. split; [exact S1|]. split; [exact S2|]. split; [exact S5|].
    split; [unfold add_class in S4; cbn [fst] in S4; rewrite S4; exact Mc|]. split; [now intros _|].
    split; [easy|]. intros _. unfold add_class in S4. cbn [fst] in S4. now rewrite S4.
  - eexists _, _. split; [reflexivity|]. split; [now apply (add_wf s1 c W1 Rc)|].
    split; [eapply grow_trans; [exact G1|apply add_grow]|].
    split; [split; [cbn; rewrite app_length; cbn; lia|intros H; apply (w_dead s1 W1) in H; lia]|].
    change (IS (classes s1 ++ [c]) (dead s1) (cache s1) (vars s1)) with (fst (add_class s1 c)). rewrite get_add_new.
    split; [exact Mc|]. split; [easy|]. split; [intros _; now apply grow_len|easy].
Qed.
