(** The invariant of the class cache along histories. *)
From Coq Require Import Lia.
From Verif Require Import PyBase InternModel InternSpec InternFacts InternCacheFacts.
Local Opaque same_fields.

Lemma wf0 : wf ist0.
Proof.
  constructor.
  - intros c [].
  - intros c r Hc Hin. do 7 (destruct c as [|c]; [cbn in Hin; intuition lia|]). cbn in Hc. lia.
  - intros c r [Hc _] Hin. split; [|now intros []].
    do 7 (destruct c as [|c]; [cbn in Hin |- *; intuition lia|]). cbn in Hc. lia.
  - intros k t [].
  - intros c Hc. assert (A : (c < 7)%nat) by exact Hc. clear Hc.
    do 7 (destruct c as [|c]; [intros _; split; [intros b Hb; cbn in Hb; try discriminate Hb; injection Hb as <-; reflexivity
                                               |try exact I; (eexists; split; [reflexivity|]); cbn; tauto]|]). lia.
Qed.

(** Holding the result in a variable. *)
Definition held (s : ist) (v : list cid) : ist := IS (classes s) (dead s) (cache s) v.
Lemma held_wf : forall s v, wf s -> wf (held s v).
Proof. intros s v [A B C D E]. constructor; assumption. Qed.
Lemma held_get : forall s v c, get_cls (held s v) c = get_cls s c. Proof. reflexivity. Qed.
Lemma held_lookup : forall s v k, lookup (held s v) k = lookup s k. Proof. reflexivity. Qed.
Lemma held_alive : forall s v c, is_alive (held s v) c <-> is_alive s c. Proof. reflexivity. Qed.

(** One creation step, from the outcome of its expression. *)
Definition ok_result (s : ist) (r : res (ist * cid)) : Prop :=
  match r with Ok (s', t) => wf s' /\ grow s s' /\ is_alive s' t | Raise _ => True end.

Lemma refs_alive : forall s l, forallb (alive s) l = true -> forall r, In r l -> is_alive s r.
Proof. intros s l H r Hr. rewrite forallb_forall in H. apply alive_iff. now apply H. Qed.
Lemma val_refs_map : forall (l : list cid), val_refs (map (fun c => (EmptyString, NType c)) l) = l.
Proof. induction l as [|c l IH]; [easy|]. unfold val_refs in *. cbn. now rewrite IH. Qed.
Lemma val_refs_pairs : forall (l : list (string * cid)), val_refs (map (fun p => (fst p, NType (snd p))) l) = map snd l.
Proof. induction l as [|c l IH]; [easy|]. unfold val_refs in *. cbn. now rewrite IH. Qed.
Lemma index_refs : forall i, val_refs (index_fields i) = idx_refs i.
Proof. intros [c|l|l]; cbn; [easy|apply val_refs_map|apply val_refs_pairs]. Qed.

Lemma unbound_iff : forall s u, is_bound s u = false <-> t_fields (get_cls s u) = None.
Proof. intros s u. unfold is_bound. destruct (t_fields _); split; easy. Qed.

Lemma good_by_index : forall m i, index_fits m i -> by_index m.
Proof. intros [] []; cbn; try easy; intros _; unfold by_index; tauto. Qed.
Lemma bind_getitem_eq : forall s u i, bind_getitem s u i =
  if is_bound s u then Raise EOutOfModel else
  match t_meta (get_cls s u), i with
  | (MTuple | MSum), (IdxOne _ | IdxSeq _) | MAnon, IdxMap _ => getitem (S u) s u (index_fields i)
  | _, _ => Raise ETypeError
  end.
Proof. intros s u i. unfold bind_getitem. destruct (is_bound s u); [easy|]. now destruct (t_meta _), i. Qed.
Lemma bind_inv : forall s u i s' t, wf s -> forallb (alive s) (u :: idx_refs i) = true ->
  bind_getitem s u i = Ok (s', t) ->
  index_fits (t_meta (get_cls s u)) i /\ t_fields (get_cls s u) = None /\ wf s' /\ grow s s' /\
  lookup s' (KGet u (ordered (t_meta (get_cls s u))) (index_fields i)) = Some t /\ is_alive s' t.
Proof.
  intros s u i s' t W Hr H. pose proof (refs_alive _ _ Hr) as Ha. rewrite bind_getitem_eq in H.
  destruct (is_bound s u) eqn:Hb; [discriminate|]. apply unbound_iff in Hb.
  assert (G : index_fits (t_meta (get_cls s u)) i) by (destruct (t_meta (get_cls s u)), i; try discriminate H; exact I).
  assert (E : getitem (S u) s u (index_fields i) = Ok (s', t)) by (destruct (t_meta (get_cls s u)), i; try discriminate H; exact H).
  split; [exact G|]. split; [exact Hb|].
  destruct (getitem_spec (S u) s u (index_fields i)) as [(s1 & t1 & E1 & R)|(E1 & _)].
  - easy.
  - apply Ha. now left.
  - easy.
  - eapply good_by_index; exact G.
  - rewrite index_refs. intros r Hin. apply Ha. now right.
  - lia.
  - rewrite E in E1. injection E1 as <- <-. exact R.
  - rewrite E in E1. discriminate.
Qed.

(** Class statements and from_fields. *)
Lemma selects_refs : forall P l fs, selects P l fs -> forall r, In r (val_refs fs) -> In r (val_refs l).
Proof.
  intros P l fs H. induction H as [|x l r Hx H IH|x l r Hx H IH]; intros c Hc; [easy| |].
  - unfold val_refs in *. cbn in *. apply in_app_or in Hc as [Hc|Hc]; apply in_or_app; auto.
  - unfold val_refs in *. cbn in *. apply in_or_app. auto.
Qed.
Lemma selects_filter : forall (P Q : field -> Prop) (q : field -> bool), (forall f, q f = true <-> Q f) ->
  forall l r, selects P l r -> selects (fun f => P f /\ Q f) l (filter q r).
Proof.
  intros P Q q Hq l r H. induction H as [|x l r Hx H IH|x l r Hx H IH]; cbn; [constructor| |].
  - destruct (q x) eqn:E; constructor; auto; [split; [easy|now apply Hq]|].
    intros [_ H']. apply Hq in H'. congruence.
  - constructor; [|easy]. now intros [H' _].
Qed.
Lemma selects_det : forall {A} (P : A -> Prop) l a b, selects P l a -> selects P l b -> a = b.
Proof.
  intros A P l a b H. revert b. induction H as [|x l r Hx H IH|x l r Hx H IH]; intros b Hb; inversion_clear Hb; try easy.
  - f_equal. auto.
  - auto.
Qed.
Lemma selects_In : forall {A} (P : A -> Prop) l r, selects P l r -> forall x, In x r <-> In x l /\ P x.
Proof.
  intros A P l r H. induction H as [|y l r Hy H IH|y l r Hy H IH]; intros x; cbn; [easy| |]; rewrite IH.
  - split; [intros [<-|[H1 H2]]; auto|intros [[<-|H1] H2]; auto].
  - split; [intros [H1 H2]; auto|intros [[<-|H1] H2]; [easy|auto]].
Qed.

(** What a request for a named type amounts to. *)
Definition named_call (s : ist) (o : iop) : option (cid * string * list field * list field * bool) :=
  match o with
  | OStmt u n l =>
      match split_ns (t_meta (get_cls s u)) l with
      | Some (fs, ns) => Some (u, n, fs, filter (fun f => negb (is_dunder (fst f))) ns, true)
      | None => None
      end
  | OFrom u n fs c => if existsb (fun f => str_mem (fst f) (reserved_names ++ reserved_sunders)) fs then None else Some (u, n, fs, [], c)
  | _ => None
  end.
Definition named_res (s : ist) (o : iop) : res (ist * cid) :=
  match o with OStmt u n l => class_stmt s u n l | OFrom u n fs c => from_fields s u n fs c | _ => Raise EOutOfModel end.
Lemma named_inv : forall s o s' t, named_res s o = Ok (s', t) ->
  exists u n fs ns c, named_call s o = Some (u, n, fs, ns, c) /\ t_fields (get_cls s u) = None /\
    by_name (t_meta (get_cls s u)) /\ attr_class s u n fs ns c = Ok (s', t).
Proof.
  assert (X : forall m, match m with MProd | MTag | MEnum => true | _ => false end = true -> by_name m)
    by (intros [] H; try discriminate H; unfold by_name; tauto).
  intros s o s' t H. destruct o; try discriminate H; cbn [named_res named_call] in *.
  - unfold class_stmt in H. destruct (is_bound s u) eqn:Hb; [discriminate|].
    destruct (t_meta (get_cls s u)) eqn:Em; try discriminate H;
      (destruct (split_ns _ l) as [[fs ns]|] eqn:Es; [|discriminate H]);
      eexists _, _, _, _, _; (split; [reflexivity|]); (split; [now apply unbound_iff|]);
      (split; [apply X; now rewrite Em|exact H]).
  - unfold from_fields in H. destruct (t_meta (get_cls s u)) eqn:Em; try discriminate H;
      (destruct (is_bound s u) eqn:Hb; [discriminate H|]); (destruct (existsb (fun f : string * nval => str_mem (fst f) (reserved_names ++ reserved_sunders)) fs); [discriminate H|]);
      eexists _, _, _, _, _; (split; [reflexivity|]); (split; [now apply unbound_iff|]);
      (split; [apply X; now rewrite Em|exact H]).
Qed.
(** The converse: a request that is not rejected runs attr_class. *)
Lemma named_run : forall s o u n fs ns c, named_call s o = Some (u, n, fs, ns, c) -> t_fields (get_cls s u) = None ->
  by_name (t_meta (get_cls s u)) -> named_res s o = attr_class s u n fs ns c.
Proof.
  intros s o u n fs ns c H Hb Hn. apply unbound_iff in Hb. destruct o; try discriminate H; cbn [named_res named_call] in *.
  - destruct (split_ns _ l) as [[fs' ns']|] eqn:Es; [|discriminate H]. injection H as <- <- <- <- <-.
    unfold class_stmt. rewrite Hb. rewrite Es. destruct (t_meta (get_cls s u0)); try reflexivity; destruct Hn as [Hn|[Hn|Hn]]; discriminate.
  - destruct (existsb (fun f : string * nval => str_mem (fst f) (reserved_names ++ reserved_sunders)) fs0) eqn:Ee; [discriminate H|]. injection H as <- <- <- <- <-.
    unfold from_fields. rewrite Hb, Ee. destruct (t_meta (get_cls s u0)); try reflexivity; destruct Hn as [Hn|[Hn|Hn]]; discriminate.
Qed.
Lemma named_refs : forall s o u n fs ns c, named_call s o = Some (u, n, fs, ns, c) ->
  forallb (alive s) (op_refs o) = true -> is_alive s u /\ forall r, In r (val_refs fs ++ val_refs ns) -> is_alive s r.
Proof.
  intros s o u n fs ns c H Ha. pose proof (refs_alive _ _ Ha) as Hr. destruct o; try discriminate H; cbn [named_call op_refs] in *.
  - pose proof (split_ns_spec (t_meta (get_cls s u0)) l) as Sp. destruct (split_ns _ l) as [[fs' ns']|]; [|discriminate H].
    injection H as <- <- <- <- <-. destruct Sp as (_ & S1 & S2). split; [apply Hr; now left|]. intros r Hin. apply Hr. right.
    apply in_app_or in Hin as [Hin|Hin]; [now apply (selects_refs _ _ _ S1)|].
    assert (Q : forall f : field, negb (is_dunder (fst f)) = true <-> ~ dunder_name (fst f)).
    { intros f. rewrite negb_true_iff, <- is_dunder_iff. now rewrite Bool.not_true_iff_false. }
    now apply (selects_refs _ _ _ (selects_filter _ _ _ Q _ _ S2)).
  - destruct (existsb (fun f : string * nval => str_mem (fst f) (reserved_names ++ reserved_sunders)) fs0); [discriminate H|]. injection H as <- <- <- <- <-. split; [apply Hr; now left|].
    intros r Hin. rewrite app_nil_r in Hin. apply Hr. now right.
Qed.
Lemma attr_empty : forall s u n ns c, wf s -> is_alive s u -> t_fields (get_cls s u) = None -> by_name (t_meta (get_cls s u)) ->
  (forall r, In r (val_refs ns) -> is_alive s r) ->
  ok_result s (attr_class s u n [] ns c).
Proof.
  intros s u n ns c W Ha Hu Hn Hr. cbn [attr_class ok_result].
  set (d := TC (t_meta (get_cls s u)) [u] n None ns).
  change (wf (fst (add_class s d)) /\ grow s (fst (add_class s d)) /\ is_alive (fst (add_class s d)) (length (classes s))).
  split; [|split; [apply add_grow|]].
  - apply add_wf; [easy| |].
    + intros r Hin. unfold refs_of in Hin. cbn in Hin. destruct Hin as [<-|Hin]; auto.
    + intros _. split.
      * intros b Hb. injection Hb as <-. easy.
      * cbn. destruct (t_meta (get_cls s u)) eqn:E; try exact I; exists u; (split; [easy|]); auto.
  - split; [cbn; rewrite app_length; cbn; lia|]. intros H. apply (w_dead s W) in H. lia.
Qed.
Lemma named_ok : forall s o, wf s -> forallb (alive s) (op_refs o) = true -> ok_result s (named_res s o).
Proof.
  intros s o W Ha. destruct (named_res s o) as [[s' t]|e] eqn:E; [|exact I].
  apply named_inv in E as (u & n & fs & ns & c & E1 & E2 & E3 & E4).
  destruct (named_refs s o u n fs ns c E1 Ha) as [Hu Hr]. rewrite <- E4.
  destruct fs as [|f fs].
  - apply attr_empty; auto.
  - destruct (attr_spec s u n (f :: fs) ns c W Hu E2 E3 Hr) as [(s1 & t1 & F & W1 & G1 & A1 & _)|(F & _)];
      [discriminate| |]; rewrite F; cbn; auto 12 using incl_refl.
Qed.
Lemma hold_spec : forall s r, wf s -> ok_result s r ->
  let s' := fst (hold r s) in
  wf s' /\ (forall c, (c < length (classes s))%nat -> get_cls s' c = get_cls s c) /\
  (length (classes s) <= length (classes s'))%nat /\
  (forall k t, lookup s k = Some t -> lookup s' k = Some t) /\ dead s' = dead s.
Proof.
  intros s [[s' t]|e] W H; cbn [hold fst ok_result] in *.
  - destruct H as (W' & G & A). change (IS (classes s') (dead s') (cache s') (t :: vars s')) with (held s' (t :: vars s')).
    split; [now apply held_wf|]. split; [intros c Hc; rewrite held_get; now apply (grow_get s s')|].
    split; [apply (grow_len s s' G)|]. split; [intros k u Hk; rewrite held_lookup; now apply (g_look s s' G)|]. apply (g_dead s s' G).
  - auto.
Qed.
Lemma hold_res : forall s r t, snd (hold r s) = Ok t -> exists s', r = Ok (s', t) /\ fst (hold r s) = held s' (t :: vars s').
Proof. intros s [[s' u]|e] t H; cbn in *; [|discriminate]. injection H as ->. now exists s'. Qed.

(** Any step. *)
Lemma step_spec : forall s o, wf s ->
  let s' := fst (istep s o) in
  wf s' /\ (forall c, (c < length (classes s))%nat -> get_cls s' c = get_cls s c) /\
  (length (classes s) <= length (classes s'))%nat /\
  (forall k t, lookup s k = Some t -> is_alive s' t -> lookup s' k = Some t) /\ incl (dead s) (dead s').
Proof.
  intros s o W. unfold istep. destruct (forallb (alive s) (op_refs o)) eqn:Ha; [|cbn; auto 12 using incl_refl].
  assert (K : forall r, ok_result s r -> let s' := fst (hold r s) in
    wf s' /\ (forall c, (c < length (classes s))%nat -> get_cls s' c = get_cls s c) /\
    (length (classes s) <= length (classes s'))%nat /\
    (forall k t, lookup s k = Some t -> is_alive s' t -> lookup s' k = Some t) /\ incl (dead s) (dead s')).
  { intros r Hr. destruct (hold_spec s r W Hr) as (A & B & C & D & E). cbn. rewrite E. auto 12 using incl_refl. }
  assert (N : forall c, wf s -> (forall r, In r (refs_of c) -> is_alive s r) -> unbound_ok s c -> ok_result s (Ok (add_class s c))).
  { intros c _ H1 H2.
    change (wf (fst (add_class s c)) /\ grow s (fst (add_class s c)) /\ is_alive (fst (add_class s c)) (length (classes s))).
    split; [now apply add_wf|]. split; [apply add_grow|].
    split; [cbn; rewrite app_length; cbn; lia|]. intros H. apply (w_dead s W) in H. lia. }
  destruct o as [|u|u i|u n l|u n fs c|c|c]; cbn [op_refs] in Ha.
  - apply K. apply N; [easy|now intros r []|]. intros _. split; [discriminate|exact I].
  - assert (Hu : is_alive s u) by (apply (refs_alive _ _ Ha); now left).
    assert (R : is_bound s u = false -> ok_result s (Ok (add_class s (TC (t_meta (get_cls s u)) [u] "" None [])))).
    { intros Hb. apply unbound_iff in Hb. apply N; [easy| |].
      - intros r Hin. cbn in Hin. destruct Hin as [<-|[]]. easy.
      - intros _. split.
        + intros b Hb'. injection Hb' as <-. easy.
        + cbn. destruct (t_meta (get_cls s u)) eqn:E; try exact I; exists u; (split; [easy|]); auto. }
    destruct (is_bound s u); [destruct (t_meta (get_cls s u)); cbn; auto 12 using incl_refl|]. specialize (R eq_refl).
    destruct (t_meta (get_cls s u)); solve [now apply K|cbn; auto 12 using incl_refl].
  - apply K. destruct (bind_getitem s u i) as [[s' t]|e] eqn:E; [|exact I].
    destruct (bind_inv s u i s' t W Ha E) as (_ & _ & H1 & H2 & _ & H3). cbn. auto.
  - apply K. now apply (named_ok s (OStmt u n l) W).
  - apply K. now apply (named_ok s (OFrom u n fs c) W).
  - cbn [fst]. change (IS (classes s) (dead s) (cache s) (remove Nat.eq_dec c (vars s))) with (held s (remove Nat.eq_dec c (vars s))).
    split; [now apply held_wf|]. auto 12 using incl_refl.
  - destruct (alive s c && negb (referenced s c) && Nat.leb n_builtin c) eqn:E; [|cbn; auto 12 using incl_refl].
    apply andb_true_iff in E as [E _]. apply andb_true_iff in E as [E1 E2]. apply alive_iff in E1.
    apply negb_true_iff in E2. apply orb_false_iff in E2 as [_ E2]. cbn [fst].
    set (s' := IS (classes s) (c :: dead s) _ (vars s)).
    assert (L : forall d, is_alive s' d <-> is_alive s d /\ d <> c).
    { intros d. unfold is_alive. cbn. split; intros H; intuition congruence. }
    split.
    + constructor.
      * intros d [<-|H]; [apply E1|now apply (w_dead s W)].
      * exact (w_older s W).
      * intros d r Hd Hin. apply L in Hd as [Hd Hn]. apply L. split; [now apply (w_closed s W d)|].
        intros ->. assert (F : existsb (fun d => alive s d && InternModel.mem c (refs_of (get_cls s d))) (seq 0 (length (classes s))) = true).
        { apply existsb_exists. exists d. split; [apply in_seq; destruct Hd; lia|]. apply andb_true_iff.
          split; [now apply alive_iff|now apply mem_iff]. }
        congruence.
      * intros k t Hin. cbn in Hin. apply filter_In in Hin as [Hin Hne]. apply (w_cache s W) in Hin as [H1 H2].
        split; [|exact H2]. apply L. split; [easy|]. intros ->. cbn in Hne. now rewrite Nat.eqb_refl in Hne.
      * exact (w_tree s W).
    + split; [easy|]. split; [easy|]. split; [|now apply incl_tl, incl_refl]. intros k t Hk Ht. apply L in Ht as [_ Hn]. revert Hk. unfold lookup. cbn [cache s']. clear L s' E2 E1 N K W.
      induction (cache s) as [|[k0 t0] l IH]; [easy|]. cbn [find filter fst snd].
      destruct (key_eqb k k0) eqn:Ek.
      * cbn. intros H. injection H as ->. apply Nat.eqb_neq in Hn. rewrite Hn. cbn. now rewrite Ek.
      * intros H. apply IH in H. destruct (negb (t0 =? c)%nat); [|easy]. cbn. now rewrite Ek.
Qed.

Lemma run_spec : forall h s, wf s ->
  wf (irun s h) /\ (forall c, (c < length (classes s))%nat -> get_cls (irun s h) c = get_cls s c) /\
  (length (classes s) <= length (classes (irun s h)))%nat /\
  (forall k t, lookup s k = Some t -> is_alive (irun s h) t -> lookup (irun s h) k = Some t) /\ incl (dead s) (dead (irun s h)).
Proof.
  induction h as [|o h IH]; intros s W; cbn [irun fold_left]; [auto 12 using incl_refl|].
  destruct (step_spec s o W) as (A & B & C & D & E). fold (irun (fst (istep s o)) h).
  destruct (IH _ A) as (A' & B' & C' & D' & E').
  split; [easy|]. split; [intros c Hc; rewrite B' by lia; auto|]. split; [lia|].
  split; [|eapply incl_tran; eassumption].
  intros k t Hk Ht. apply D'; [|easy]. apply D; [easy|]. split.
  - destruct (lookup_made s k t W Hk) as [[H _] _]. lia.
  - intros H. apply E' in H. destruct Ht. easy.
Qed.
Lemma reached_wf : forall s h, reached s h -> wf s.
Proof. intros s h ->. apply (run_spec h ist0 wf0). Qed.

(** Parameter names. *)
Lemma letter_iff : forall c, letter c = true <-> plain_char c.
Proof.
  intros c. unfold letter, plain_char. pose proof (N_ascii_bounded c) as B. split.
  - intros H. exists (N_of_ascii c). split; [now rewrite ascii_N_embedding|]. split; [easy|].
    rewrite !orb_true_iff, !andb_true_iff, !N.leb_le, N.eqb_eq in H. lia.
  - intros (n & -> & Hn & H). rewrite N_ascii_embedding in * by easy.
    rewrite !orb_true_iff, !andb_true_iff, !N.leb_le, N.eqb_eq. lia.
Qed.
Lemma digit_iff : forall c, digit c = true <-> number_char c.
Proof.
  intros c. unfold digit, number_char. split.
  - intros H. exists (N_of_ascii c). split; [now rewrite ascii_N_embedding|]. rewrite andb_true_iff, !N.leb_le in H. easy.
  - intros (n & -> & H). rewrite N_ascii_embedding by lia. rewrite andb_true_iff, !N.leb_le. easy.
Qed.
Lemma all_chars_iff : forall p s, all_chars p s = true <-> forall d, In d (list_ascii_of_string s) -> p d = true.
Proof.
  intros p. induction s as [|c s IH]; cbn; [easy|]. rewrite andb_true_iff, IH. split.
  - intros [H1 H2] d [<-|H]; auto.
  - intros H. auto.
Qed.
Lemma param_ok_iff : forall n, param_ok n = true <-> parameter_name n.
Proof.
  intros n. unfold param_ok, parameter_name. destruct n as [|c r].
  - split; [discriminate|]. now intros (_ & _ & _ & c & r & H & _).
  - rewrite !andb_true_iff, letter_iff, all_chars_iff, !negb_true_iff, <- !Bool.not_true_iff_false, !str_mem_iff.
    split.
    + intros [[[H1 H2] H3] H4]. split; [easy|]. split; [intros E; apply H4; rewrite E; now left|].
      split; [intros E; apply H4; rewrite E; right; now left|]. exists c, r. do 2 (split; [easy|]).
      intros d Hd. apply H2 in Hd. rewrite orb_true_iff, letter_iff, digit_iff in Hd. easy.
    + intros (H1 & H2 & H3 & c' & r' & E & H4 & H5). injection E as <- <-. split; [split; [split; [easy|]|easy]|].
      * intros d Hd. rewrite orb_true_iff, letter_iff, digit_iff. auto.
      * intros [E|[E|[]]]; [now apply H2|now apply H3].
Qed.

(** Steps from the outcome of the request. *)
Lemma step_get : forall s u i s1 t, wf s -> istep s (OGet u i) = (s1, Ok t) ->
  index_fits (t_meta (get_cls s u)) i /\ t_fields (get_cls s u) = None /\ wf s1 /\ is_alive s u /\
  (forall c, (c < length (classes s))%nat -> get_cls s1 c = get_cls s c) /\
  lookup s1 (KGet u (order_matters (t_meta (get_cls s u))) (index_fields i)) = Some t /\ is_alive s1 t.
Proof.
  intros s u i s1 t W H. unfold istep in H. destruct (forallb (alive s) (op_refs (OGet u i))) eqn:Ha; [|discriminate].
  assert (R : snd (hold (bind_getitem s u i) s) = Ok t) by (now rewrite H).
  apply hold_res in R as (s' & E & F). rewrite H in F. cbn [fst] in F. subst s1.
  destruct (bind_inv s u i s' t W Ha E) as (H1 & H2 & H3 & H4 & H5 & H6). rewrite ordered_is in H5.
  do 2 (split; [easy|]). split; [now apply held_wf|]. split; [apply (refs_alive _ _ Ha); now left|].
  split; [intros c Hc; rewrite held_get; now apply (grow_get s s')|]. now split.
Qed.
Lemma step_named : forall s o s1 t, wf s -> istep s o = (s1, Ok t) -> named_res s o <> Raise EOutOfModel ->
  forallb (alive s) (op_refs o) = true /\ exists s', named_res s o = Ok (s', t) /\ s1 = held s' (t :: vars s').
Proof.
  intros s o s1 t W H N. unfold istep in H. destruct (forallb (alive s) (op_refs o)) eqn:Ha; [|discriminate].
  split; [easy|]. destruct o; cbn [named_res] in N; try easy; cbn [named_res].
  - assert (R : snd (hold (class_stmt s u name l) s) = Ok t) by (now rewrite H).
    apply hold_res in R as (s' & E & F). rewrite H in F. cbn [fst] in F. subst s1. now exists s'.
  - assert (R : snd (hold (from_fields s u name fs cached) s) = Ok t) by (now rewrite H).
    apply hold_res in R as (s' & E & F). rewrite H in F. cbn [fst] in F. subst s1. now exists s'.
Qed.

(** What was asked for is what the model looks at. *)
Lemma same_value_descr : forall v w, same_value v w -> is_descriptor v = is_descriptor w.
Proof. intros v w [->|(z & H1 & H2)]; [easy|]. destruct v, w; cbn in *; congruence. Qed.
Lemma negb_dunder : forall f : field, negb (is_dunder (fst f)) = true <-> ~ dunder_name (fst f).
Proof. intros f. rewrite negb_true_iff, <- is_dunder_iff. now rewrite Bool.not_true_iff_false. Qed.
Lemma asks_call : forall s o u n fs ns, asks (t_meta (get_cls s u)) o u n fs ns ->
  forall u' n' fs' ns' c', named_call s o = Some (u', n', fs', ns', c') ->
  u' = u /\ n' = n /\ fs' = fs /\ ns' = ns /\ c' = true.
Proof.
  intros s o u n fs ns H u' n' fs' ns' c' E. inversion H as [? ? l ? ? S1 S2| ]; subst; cbn [named_call] in E.
  - pose proof (split_ns_spec (t_meta (get_cls s u)) l) as Sp. destruct (split_ns _ l) as [[fs0 ns0]|]; [|discriminate].
    injection E as <- <- <- <- <-. destruct Sp as (_ & T1 & T2). do 2 (split; [easy|]).
    split; [eapply selects_det; eassumption|]. split; [|easy].
    eapply selects_det; [exact (selects_filter _ _ _ negb_dunder _ _ T2)|exact S2].
  - destruct (existsb (fun f : string * nval => str_mem (fst f) (reserved_names ++ reserved_sunders)) fs); [discriminate|].
    injection E as <- <- <- <- <-. easy.
Qed.
(** Requests with a forbidden name. *)
Definition name_reserved (n : string) : Prop := reserved_word n \/ reserved_private n.
Lemma reserved_any_iff : forall n, str_mem n (reserved_names ++ reserved_sunders) = true <-> name_reserved n.
Proof. intros n. rewrite str_mem_iff, in_app_iff. reflexivity. Qed.
Lemma reserved_plain : forall n, name_reserved n -> ~ dunder_name n.
Proof.
  intros n H D. apply is_dunder_iff in D. destruct H as [H|H].
  - apply reserved_word_plain in H. rewrite D in H. discriminate.
  - unfold reserved_private in H. cbn in H. repeat destruct H as [<-|H]; try discriminate D. easy.
Qed.
Lemma forbidden_reserved : forall f, forbidden f -> name_reserved (fst f).
Proof. intros f [H|[H _]]; [now right|now left]. Qed.
Lemma same_forbidden : forall f g, same_field f g -> forbidden f -> forbidden g.
Proof.
  intros f g [E1 E2] [H|[H1 H2]]; [left; congruence|right]. rewrite <- E1. split; [easy|].
  now rewrite <- (same_value_descr _ _ E2).
Qed.
Lemma call_none : forall s o u n fs ns, asks (t_meta (get_cls s u)) o u n fs ns -> named_call s o = None ->
  exists f, In f (fs ++ ns) /\ name_reserved (fst f) /\ (In f ns -> forbidden f).
Proof.
  intros s o u n fs ns H E. inversion H as [? ? l ? ? S1 S2| ]; subst; cbn [named_call] in E.
  - pose proof (split_ns_spec (t_meta (get_cls s u)) l) as Sp. destruct (split_ns _ l) as [[fs0 ns0]|]; [discriminate|].
    destruct Sp as (f & Hf & F). exists f. split; [|split; [now apply forbidden_reserved|easy]].
    apply in_or_app. pose proof (forbidden_reserved f F) as R. apply reserved_plain in R.
    destruct (is_dunder (fst f)) eqn:E1; [now apply is_dunder_iff in E1|].
    destruct (is_sunder (fst f)) eqn:E2.
    + right. apply (selects_In _ _ _ S2). split; [easy|]. split; [|easy]. rewrite is_field_iff, E2. now intros (_ & ? & _).
    + destruct (field_type (t_meta (get_cls s u)) (snd f)) eqn:E3.
      * left. apply (selects_In _ _ _ S1). split; [easy|]. now apply is_field_iff.
      * right. apply (selects_In _ _ _ S2). split; [easy|]. split; [|easy]. rewrite is_field_iff, E3. now intros (_ & _ & ?).
  - destruct (existsb (fun f : string * nval => str_mem (fst f) (reserved_names ++ reserved_sunders)) fs) eqn:Ee; [|discriminate].
    apply existsb_exists in Ee as (f & Hf & R). exists f. rewrite app_nil_r. split; [easy|]. split; [now apply reserved_any_iff|].
    now intros [].
Qed.
Lemma call_some : forall s o u n fs ns r, asks (t_meta (get_cls s u)) o u n fs ns -> named_call s o = Some r ->
  forall f, (In f fs -> ~ name_reserved (fst f)) /\ (In f ns -> ~ forbidden f).
Proof.
  intros s o u n fs ns r H E f. inversion H as [? ? l ? ? S1 S2| ]; subst; cbn [named_call] in E.
  - pose proof (split_ns_spec (t_meta (get_cls s u)) l) as Sp. destruct (split_ns _ l) as [[fs0 ns0]|]; [|discriminate].
    destruct Sp as (N & _). split; intros Hf.
    + apply (selects_In _ _ _ S1) in Hf as [Hl Hf]. intros R. apply (N f Hl). destruct R as [R|R]; [right|now left].
      split; [easy|]. now apply (kind_not_descr (t_meta (get_cls s u))), Hf.
    + apply (selects_In _ _ _ S2) in Hf as [Hl _]. now apply N.
  - destruct (existsb (fun f : string * nval => str_mem (fst f) (reserved_names ++ reserved_sunders)) fs) eqn:Ee; [discriminate|].
    split; [|now intros []]. intros Hf R. assert (X : existsb (fun f : string * nval => str_mem (fst f) (reserved_names ++ reserved_sunders)) fs = true).
    { apply existsb_exists. exists f. split; [easy|]. now apply reserved_any_iff. }
    congruence.
Qed.
Lemma same_fields_In : forall o a b g, same_fields o a b -> In g b -> exists f, In f a /\ same_field f g.
Proof.
  Local Transparent same_fields.
  intros [|] a b g; cbn.
  - induction 1 as [|x y a b E H IH]; intros Hg; [easy|]. destruct Hg as [<-|Hg]; [exists x; auto using in_eq|].
    destruct (IH Hg) as (f & Hf & E'). exists f. split; [now right|easy].
  - intros [_ H] Hg. now apply H.
  Local Opaque same_fields.
Qed.
Lemma call_same : forall s s2 o o' u n fs ns fs' ns' b r,
  t_meta (get_cls s2 u) = t_meta (get_cls s u) ->
  asks (t_meta (get_cls s u)) o u n fs ns -> asks (t_meta (get_cls s u)) o' u n fs' ns' ->
  same_fields b fs fs' -> same_fields false ns ns' -> named_call s o = Some r -> named_call s2 o' = Some (u, n, fs', ns', true).
Proof.
  intros s s2 o o' u n fs ns fs' ns' b r Em A A' Sf Sn E.
  assert (A2 : asks (t_meta (get_cls s2 u)) o' u n fs' ns') by (rewrite Em; exact A').
  destruct (named_call s2 o') as [[[[[u1 n1] fs1] ns1] c1]|] eqn:E2.
  - destruct (asks_call s2 o' u n fs' ns' A2 _ _ _ _ _ E2) as (-> & -> & -> & -> & ->). easy.
  - exfalso. destruct (call_none s2 o' u n fs' ns' A2 E2) as (g & Hg & R & F).
    apply in_app_or in Hg as [Hg|Hg].
    + destruct (same_fields_In _ _ _ g Sf Hg) as (f & Hf & [Ef _]).
      destruct (call_some s o u n fs ns r A E f) as [C _]. apply (C Hf). now rewrite Ef.
    + destruct (same_fields_In _ _ _ g Sn Hg) as (f & Hf & Ef).
      destruct (call_some s o u n fs ns r A E f) as [_ C]. apply (C Hf). apply (same_forbidden g f); [now apply same_field_sym|auto].
Qed.
