(** Invariants of the thread model. *)
From Coq Require Import Lia.
From Verif Require Import PyBase BVFacts MetaModel MetaSpec MergeFacts MetaFacts ThreadModel ThreadSpec.

Definition grow (s s' : meta) : Prop := exists l, classes s' = classes s ++ l.
Lemma grow_refl s : grow s s. Proof. exists []. now rewrite app_nil_r. Qed.
Lemma grow_get s s' c : grow s s' -> (c < len s)%nat -> get_cls s' c = get_cls s c.
Proof. intros [l E] H. eapply get_app; eauto. Qed.
Lemma grow_len s s' : grow s s' -> (len s <= len s')%nat.
Proof. intros [l E]. unfold len. rewrite E, app_length. lia. Qed.

(** x is an acceptable c[n] *)
Definition good (s : meta) (c : nat) (n : Z) (x : nat) : Prop :=
  (c < len s)%nat /\ (x < len s)%nat /\ 0 <= n /\ bvb s c = true /\ bvb s x = true /\ c_size (get_cls s c) = None
  /\ c_size (get_cls s x) = Some n /\ c_unsized (get_cls s x) = Some c /\ In c (c_bases (get_cls s x)) /\ issub s x c = true.
Lemma good_grow s s' c n x : grow s s' -> good s c n x -> good s' c n x.
Proof.
  intros G (A & B & C & D & E & F & H & I & J & K). pose proof (grow_len _ _ G).
  unfold good, issub, bvb in *. rewrite !(grow_get s s') by auto. repeat split; auto; lia.
Qed.

Record winv (s : meta) : Prop := {
  w_bases : forall c b, (c < len s)%nat -> In b (c_bases (get_cls s c)) -> (b < len s)%nat;
  w_mro : forall c, (c < len s)%nat -> exists l, c_mro (get_cls s c) = c :: l;
  w_cache : forall c n x, In (c, n, x) (cache s) -> good s c n x }.

Lemma minv_winv s : minv s -> winv s.
Proof.
  intros M. constructor.
  - intros c b H I. pose proof (i_bases _ M c b H I). lia.
  - intros c H. destruct (i_mro _ M c H) as (l & E & _). eauto.
  - intros c n x H. destruct (i_cache _ M c n x H) as (A1 & A2 & A3 & A4 & A5 & A6 & A7 & A8).
    apply alive_spec in A1 as [A1 _].
    assert (B : In c (c_bases (get_cls s x))) by (rewrite A8; now left).
    pose proof (i_bases _ M _ _ A1 B). repeat split; auto; try lia.
    apply issub_sub; auto. econstructor; [exact B|constructor].
Qed.

Definition fok (s : meta) (f : frame) : Prop :=
  (f_cls f < len s)%nat /\ 0 <= f_n f /\ bvb s (f_cls f) = true /\ c_size (get_cls s (f_cls f)) = None
  /\ Forall (fun b => (b < len s)%nat) (f_todo f)
  /\ Forall (fun x => (x < len s)%nat /\ c_size (get_cls s x) = Some (f_n f)) (f_done f).
(** the calls of a stack belong to the request c0[n0] *)
Fixpoint belongs (c0 : nat) (n0 : Z) (st : list frame) : Prop :=
  match st with
  | [] => True
  | f :: st => f_n f = n0 /\ (st = [] -> f_cls f = c0) /\ belongs c0 n0 st
  end.
(** what an exception may be *)
Definition bad (s : meta) (c0 : nat) (n0 : Z) (st : list frame) (e : exn) : Prop :=
  (n0 < 0 -> e = EValueError) /\ (0 <= n0 -> c_size (get_cls s c0) <> None -> e = ETypeError).
Definition cok (s : meta) (c0 : nat) (n0 : Z) (st : list frame) (ctl : control) : Prop :=
  match ctl with
  | Idle => st = []
  | Enter c n => (c < len s)%nat /\ bvb s c = true /\ n = n0 /\ (st = [] -> c = c0)
  | Loop => st <> []
  | Made c n x => good s c n x /\ n = n0 /\ (st = [] -> c = c0)
  | Got x => (st = [] -> good s c0 n0 x) /\ (x < len s)%nat /\ c_size (get_cls s x) = Some n0
  | Failed e => bad s c0 n0 st e
  end.
Definition fine (s : meta) (e : nat * Z * res nat) : Prop :=
  let '(c, n, r) := e in
  (n < 0 -> r = Raise EValueError) /\ (0 <= n -> c_size (get_cls s c) <> None -> r = Raise ETypeError)
  /\ forall x, r = Ok x -> good s c n x.
Record tok (s : meta) (t : thread) : Prop := {
  k_prog : Forall (fun e => (fst e < len s)%nat /\ bvb s (fst e) = true) (t_prog t);
  k_stack : Forall (fok s) (t_stack t);
  k_got : Forall (fine s) (t_got t) ;
  k_gotlen : Forall (fun e => (fst (fst e) < len s)%nat) (t_got t);
  k_ctl : match t_prog t with
          | [] => t_ctl t = Idle /\ t_stack t = []
          | (c0, n0) :: _ => cok s c0 n0 (t_stack t) (t_ctl t) /\ belongs c0 n0 (t_stack t)
          end }.

Lemma fok_grow s s' f : grow s s' -> fok s f -> fok s' f.
Proof.
  intros G (A & B & C & D & E & F). pose proof (grow_len _ _ G). unfold fok, bvb in *.
  rewrite !(grow_get s s') by auto. repeat split; auto; try lia.
  - eapply Forall_impl; [|exact E]. cbn. intros. lia.
  - eapply Forall_impl; [|exact F]. cbn. intros a [P Q]. rewrite (grow_get s s') by auto. split; auto. lia.
Qed.
Lemma tok_grow s s' t : grow s s' -> tok s t -> tok s' t.
Proof.
  intros G [A B C C' D]. pose proof (grow_len _ _ G) as L. constructor.
  - eapply Forall_impl; [|exact A]. cbn. unfold bvb. intros a [P Q]. rewrite (grow_get s s') by auto. split; auto. lia.
  - eapply Forall_impl; [|exact B]. intros. eapply fok_grow; eauto.
  - rewrite Forall_forall in *. intros [[c n] r] I. specialize (C _ I). specialize (C' _ I). cbn in *.
    destruct C as (C1 & C2 & C3). rewrite (grow_get s s') by auto. split; [auto|split; [auto|]].
    intros; eapply good_grow; eauto.
  - eapply Forall_impl; [|exact C']. cbn. intros. lia.
  - destruct (t_prog t) as [|[c0 n0] q]; auto. destruct D as [D E]. split; auto.
    inversion A as [|? ? [A1 A2] A3]. subst. cbn in *.
    destruct (t_ctl t); cbn in *; auto.
    + unfold bvb in *. destruct D as (P & Q & R & S). rewrite (grow_get s s') by auto. repeat split; auto. lia.
    + destruct D as (P & Q & R). split; [eapply good_grow; eauto|auto].
    + destruct D as (P & Q & R). rewrite (grow_get s s') by auto. split; [intros; eapply good_grow; eauto|]. split; auto. lia.
    + unfold bad in *. rewrite (grow_get s s') by auto. auto.
Qed.

Lemma winv_fields s s' : classes s' = classes s -> winv s -> (forall c n x, In (c, n, x) (cache s') -> good s c n x) -> winv s'.
Proof.
  intros E [A B C] K.
  assert (G : forall c, get_cls s' c = get_cls s c) by (intros; unfold get_cls; now rewrite E).
  assert (L : len s' = len s) by (unfold len; now rewrite E).
  constructor.
  - intros c b. rewrite G, L. apply A.
  - intros c. rewrite G, L. apply B.
  - intros c n x I. specialize (K _ _ _ I). unfold good, issub, bvb in *. now rewrite !G, !L.
Qed.

Lemma merge_first s bs l b : winv s -> Forall (fun b => (b < len s)%nat) bs -> c3 s bs = Some l -> In b bs -> In b l.
Proof.
  intros W F E I. unfold c3 in E. apply (proj2 (merge_In _ _ _ E b)). exists bs. split; auto.
  apply in_or_app. right. now left.
Qed.

Lemma new_class_good s c n done s' x : winv s -> fok s (Frame c n [] done) ->
  new_class s true (c :: done) (Some c) (Some n) = Ok (s', x) ->
  winv s' /\ grow s s' /\ cache s' = cache s /\ good s' c n x.
Proof.
  intros W (A & B & C & D & _ & F) E. cbn [f_cls f_n f_todo f_done] in *. unfold new_class in E.
  cbn [join_size] in E. rewrite D in E. rewrite join_sized in E by (intros t I; rewrite Forall_forall in F; now apply F).
  cbn [bind] in E. destruct (c3 s (c :: done)) as [l|] eqn:C3; [|discriminate]. inv E.
  assert (FB : Forall (fun b => (b < len s)%nat) (c :: done)).
  { constructor; auto. eapply Forall_impl; [|exact F]. cbn. tauto. }
  set (s' := Meta _ _ _ _).
  assert (G : grow s s') by (eexists; reflexivity).
  assert (N : get_cls s' (length (classes s)) = Cls true (c :: done) (length (classes s) :: l) (Some c) (Some n)).
  { unfold get_cls, s'. cbn. rewrite app_nth2 by lia. rewrite Nat.sub_diag. reflexivity. }
  assert (L : len s' = S (len s)) by (unfold len, s'; cbn; rewrite app_length; cbn; lia).
  split; [|split; [exact G|split; [reflexivity|]]].
  - constructor.
    + intros k b Hk I. destruct (Nat.eq_dec k (length (classes s))) as [->|K].
      * rewrite N in I. cbn in I. rewrite Forall_forall in FB. rewrite L. apply (FB b) in I. lia.
      * unfold len in *. rewrite (grow_get s s') in I by (auto; unfold len; lia).
        apply (w_bases _ W) in I; unfold len in *; lia.
    + intros k Hk. destruct (Nat.eq_dec k (length (classes s))) as [->|K].
      * rewrite N. cbn. eauto.
      * unfold len in *. rewrite (grow_get s s') by (auto; unfold len; lia). apply (w_mro _ W). unfold len; lia.
    + intros k m y I. eapply good_grow; eauto. now apply (w_cache _ W).
  - unfold good, issub, bvb. rewrite N, L, !(grow_get s s') by auto. cbn [c_bv c_bases c_mro c_unsized c_size].
    unfold len in *. repeat split; auto; try lia; [now left|].
    apply mem_In. right. eapply merge_first; eauto. now left.
Qed.

Lemma belongs_n c0 n0 f st : belongs c0 n0 (f :: st) -> f_n f = n0.
Proof. cbn. tauto. Qed.

Lemma new_class_err s c n done e : fok s (Frame c n [] done) ->
  new_class s true (c :: done) (Some c) (Some n) = Raise e -> e = ETypeError.
Proof.
  intros (A & B & C & D & _ & F) E. cbn [f_cls f_n f_todo f_done] in *. unfold new_class in E.
  cbn [join_size] in E. rewrite D in E. rewrite join_sized in E by (intros t I; rewrite Forall_forall in F; now apply F).
  cbn [bind] in E. destruct (c3 s (c :: done)); [discriminate|]. now inv E.
Qed.

Lemma tstep_ok s t s' t' : winv s -> tok s t -> tstep s t = (s', t') -> winv s' /\ grow s s' /\ tok s' t'.
Proof.
  intros W T E. pose proof T as T0. destruct t as [prog st ctl got]. destruct T as [A B C C' D]. cbn in A, B, C, C', D, E.
  assert (GR := grow_refl s).
  destruct prog as [|[c0 n0] q].
  { destruct D as [-> ->]. inv E. split; auto. }
  destruct D as [D E0]. inversion A as [|? ? [A1 A2] A3]. subst. cbn in A1, A2.
  destruct ctl as [|c n| |c n x|x|e]; cbn in D.
  - inv E. split; [auto|split; [auto|]]. constructor; cbn; auto.
  - destruct D as (D1 & D2 & -> & D4). destruct (find_cache s c n0) as [x|] eqn:F.
    { inv E. apply find_cache_In in F. apply (w_cache _ W) in F as F'. split; [auto|split; [auto|]]. constructor; cbn; auto.
      split; auto.
      destruct F' as (F1 & F2 & F3 & F4 & F5 & F6 & F7 & F8). split; [|auto]. intros ->. rewrite <- D4 by auto.
      now apply (w_cache _ W). }
    destruct (n0 <? 0) eqn:N.
    { inv E. split; [auto|split; [auto|]]. constructor; cbn; auto. split; auto. unfold bad. split; [auto|]. intros; lia. }
    destruct (c_size (get_cls s c)) as [m|] eqn:SZ.
    { inv E. split; [auto|split; [auto|]]. constructor; cbn; auto. split; auto. unfold bad. split; [intros; lia|auto]. }
    inv E. split; [auto|split; [auto|]]. constructor; cbn; auto.
    + constructor; auto. repeat split; auto; cbn; try lia; [|constructor].
      apply Forall_forall. intros b I. exact (w_bases _ W c b D1 I).
    + repeat split; auto. discriminate.
  - destruct st as [|[c n todo done] st]; [congruence|]. inversion B as [|? ? B1 B2]. subst.
    pose proof (belongs_n _ _ _ _ E0) as E1. cbn in E1. subst n0. destruct E0 as (_ & E2 & E3). cbn in E2.
    pose proof B1 as B0.
    destruct B1 as (P1 & P2 & P3 & P4 & P5 & P6). cbn in P1, P2, P3, P4, P5, P6.
    destruct todo as [|b bs].
    + destruct (new_class s true (c :: done) (Some c) (Some n)) as [[s2 x]|e] eqn:NC.
      * injection E as <- <-. destruct (new_class_good s c n done s2 x W) as (W' & G & CC & GD); auto.
        split; [exact W'|]. split; [exact G|].
        pose proof (tok_grow _ _ _ G T0) as [X1 X2 X3 X4 X5]. cbn in X1, X2, X3, X4, X5.
        inv X2. constructor; cbn; auto.
      * injection E as <- <-. split; [auto|split; [auto|]]. constructor; cbn; auto. split; auto.
        unfold bad. split; [intros; lia|]. intros. eapply new_class_err; eauto.
    + inv P5. destruct (c_bv (get_cls s b)) eqn:BV; injection E as <- <-; (split; [auto|split; [auto|]]);
        constructor; cbn; auto.
      * constructor; auto. repeat split; auto.
      * split; auto. repeat split; auto. discriminate.
      * constructor; auto. repeat split; auto.
      * split; auto. discriminate.
  - destruct D as (D1 & -> & D3). injection E as <- <-.
    set (s1 := Meta _ _ _ _).
    assert (G : grow s s1) by (exists []; unfold s1; cbn; now rewrite app_nil_r).
    pose proof (tok_grow _ _ _ G T0) as [X1 X2 X3 X4 X5]. cbn in X1, X2, X3, X4, X5.
    split; [|split; [exact G|]].
    + apply (winv_fields s); auto. intros k m y [I|I]; [now inv I|]. now apply (w_cache _ W).
    + constructor; cbn; auto. split; [|tauto]. destruct X5 as [(Y1 & Y2 & Y3) _].
      split; [intros Z; rewrite <- (Y3 Z); exact Y1|]. destruct Y1 as (F1 & F2 & F3 & F4 & F5 & F6 & F7 & F8). auto.
  - destruct D as (D1 & D2 & D3). destruct st as [|[c n bs done] st].
    + injection E as <- <-. split; [auto|split; [auto|]]. constructor; cbn; auto.
      * apply Forall_app. split; auto. constructor; auto. cbn.
        destruct (D1 eq_refl) as (F1 & F2 & F3 & F4 & F5 & F6 & F7 & F8). split; [intros; lia|]. split; [congruence|].
        intros y Y. inv Y. auto.
      * apply Forall_app. split; auto.
      * destruct q as [|[c1 n1] q]; cbn; auto.
    + injection E as <- <-. inv B. pose proof (belongs_n _ _ _ _ E0) as E1. cbn in E1. subst n0.
      destruct H1 as (P1 & P2 & P3 & P4 & P5 & P6). cbn in P1, P2, P3, P4, P5, P6.
      split; [auto|split; [auto|]]. constructor; cbn; auto.
      * constructor; auto. repeat split; auto. cbn. apply Forall_app. split; auto.
      * split; [discriminate|]. cbn in E0. tauto.
  - injection E as <- <-. split; [auto|split; [auto|]]. constructor; cbn; auto.
    + apply Forall_app. split; auto. constructor; auto. cbn. destruct D as [D1 D2].
      split; [intros; now rewrite D1|]. split; [intros; now rewrite D2|]. discriminate.
    + apply Forall_app. split; auto.
    + destruct q as [|[c1 n1] q]; cbn; auto.
Qed.

(** * pools *)
Lemma set_nth_In {A} (l : list A) i x y : In y (set_nth l i x) -> y = x \/ In y l.
Proof. revert i. induction l as [|a l IH]; intros [|i] H; cbn in *; auto; destruct H; auto. destruct (IH _ H); auto. Qed.
Lemma set_nth_same {A} (l : list A) i x y : nth_error l i = Some y -> nth_error (set_nth l i x) i = Some x.
Proof. revert i. induction l as [|a l IH]; intros [|i] H; cbn in *; try discriminate; auto. Qed.
Lemma set_nth_other {A} (l : list A) i j x : i <> j -> nth_error (set_nth l i x) j = nth_error l j.
Proof. revert i j. induction l as [|a l IH]; intros [|i] [|j] H; cbn; auto; try congruence. Qed.

Definition pinv (p : pool) : Prop := winv (p_meta p) /\ Forall (tok (p_meta p)) (p_threads p).
Lemma grow_trans a b c : grow a b -> grow b c -> grow a c.
Proof. intros [l E] [m F]. exists (l ++ m). now rewrite F, E, app_assoc. Qed.
Lemma sched_ok p i : pinv p -> pinv (sched p i) /\ grow (p_meta p) (p_meta (sched p i)).
Proof.
  intros [W T]. unfold sched. destruct (nth_error (p_threads p) i) as [t|] eqn:E.
  2: { split; [split; auto|apply grow_refl]. }
  destruct (tstep (p_meta p) t) as [s' t'] eqn:S. rewrite Forall_forall in T.
  destruct (tstep_ok _ _ _ _ W (T _ (nth_error_In _ _ E)) S) as (W' & G & T').
  cbn. split; [|auto]. split; auto. cbn. apply Forall_forall. intros y I. apply set_nth_In in I as [->|I]; auto.
  eapply tok_grow; eauto.
Qed.
Lemma prun_ok l : forall p, pinv p -> pinv (prun p l) /\ grow (p_meta p) (p_meta (prun p l)).
Proof.
  induction l as [|i l IH]; intros p P; [split; [auto|apply grow_refl]|].
  destruct (sched_ok p i P) as [A B]. destruct (IH _ A) as [C D]. split; auto. eapply grow_trans; eauto.
Qed.
Lemma spawn_ok h progs : requests_ok (mrun h) progs -> pinv (spawn h progs).
Proof.
  intros R. split; [apply minv_winv, mrun_minv|]. apply Forall_forall. intros t I. cbn in I.
  apply in_map_iff in I as (r & <- & I). constructor; cbn; auto.
  - apply Forall_forall. intros [c n] J. destruct (R _ _ _ I J) as [X Y]. apply alive_spec in X. cbn. tauto.
  - destruct r as [|[c n] r]; cbn; auto.
Qed.

(** * after a quiet moment *)
Definition settled (c : nat) (n : Z) (x : nat) (s : meta) (t : thread) : Prop :=
  Forall (fun f => ~ (f_cls f = c /\ f_n f = n)) (t_stack t)
  /\ (forall y, t_ctl t <> Made c n y)
  /\ match t_prog t with
     | (c0, n0) :: _ => c0 = c -> n0 = n -> t_stack t = []
         /\ match t_ctl t with Idle => True | Enter a m => a = c /\ m = n | Got y => y = x | _ => False end
     | [] => True
     end.
Lemma find_store s c n x c' n' y : find_cache s c n = Some y -> (c, n) <> (c', n') ->
  find_cache (Meta (classes s) (dead s) ((c', n', x) :: cache s) (vars s)) c n = Some y.
Proof.
  intros F N. unfold find_cache in *. cbn. destruct (Nat.eqb c' c && (n' =? n))%bool eqn:Q; [|exact F].
  apply andb_true_iff in Q as [Q1 Q2]. apply Nat.eqb_eq in Q1. apply Z.eqb_eq in Q2. congruence.
Qed.
Lemma settled_step c n x s t s' t' : find_cache s c n = Some x -> settled c n x s t ->
  tok s t -> tstep s t = (s', t') ->
  find_cache s' c n = Some x /\ settled c n x s' t'
  /\ exists new, t_got t' = t_got t ++ new /\ Forall (fun e => fst e = (c, n) -> snd e = Ok x) new.
Proof.
  intros F S T E. destruct t as [prog st ctl got]. destruct S as (S1 & S2 & S3). cbn in S1, S2, S3, E.
  destruct T as [TA TB TC TC' TD]. cbn in TD.
  assert (NIL : forall A (l : list A) (P : A -> Prop), exists new, l = l ++ new /\ Forall P new)
    by (intros; exists []; rewrite app_nil_r; auto).
  destruct prog as [|[c0 n0] q].
  { destruct TD as [-> ->]. injection E as <- <-. split; [auto|]. split; [repeat split; cbn; auto|]. apply NIL. }
  destruct TD as [TD TE].
  destruct ctl as [|a m| |a m y|y|e]; cbn in TD.
  - injection E as <- <-. split; [auto|]. split; [|apply NIL]. split; [exact S1|]. split; [discriminate|].
    cbn. intros -> ->. destruct (S3 eq_refl eq_refl). auto.
  - destruct TD as (TD1 & TD2 & -> & TD4).
    assert (Case : (a = c /\ n0 = n) \/ ~ (a = c /\ n0 = n)).
    { destruct (Nat.eq_dec a c), (Z.eq_dec n0 n); tauto. }
    destruct Case as [[-> ->]|NE].
    + rewrite F in E. injection E as <- <-. split; [auto|]. split; [|apply NIL]. split; [exact S1|]. split; [discriminate|].
      cbn. intros -> _. destruct (S3 eq_refl eq_refl). auto.
    + assert (NH : c0 = c -> n0 = n -> False).
      { intros -> ->. destruct (S3 eq_refl eq_refl) as [? [? ?]]. tauto. }
      destruct (find_cache s a n0) as [z|]; [injection E as <- <-; split; [auto|]; split; [|apply NIL];
        split; [exact S1|]; split; [discriminate|]; cbn; intros; exfalso; auto|].
      destruct (n0 <? 0); [injection E as <- <-; split; [auto|]; split; [|apply NIL];
        split; [exact S1|]; split; [discriminate|]; cbn; intros; exfalso; auto|].
      destruct (c_size (get_cls s a)); [injection E as <- <-; split; [auto|]; split; [|apply NIL];
        split; [exact S1|]; split; [discriminate|]; cbn; intros; exfalso; auto|].
      injection E as <- <-. split; [auto|]; split; [|apply NIL].
      split; [constructor; auto|]; split; [discriminate|]. cbn; intros; exfalso; auto.
  - assert (NH : c0 = c -> n0 = n -> False) by (intros -> ->; destruct (S3 eq_refl eq_refl); tauto).
    destruct st as [|[a m todo done] st]; [congruence|]. inv S1. cbn in H1.
    destruct todo as [|b bs].
    + destruct (new_class s true (a :: done) (Some a) (Some m)) as [[s2 z]|e] eqn:NC; injection E as <- <-.
      * assert (CE : cache s2 = cache s).
        { unfold new_class in NC. destruct (join_size s (Some m) (a :: done)); [|discriminate]. cbn [bind] in NC.
          destruct (c3 s (a :: done)); [|discriminate]. now inv NC. }
        split; [unfold find_cache; now rewrite CE|]. split; [|apply NIL].
        split; [exact H2|]. split; [intros w Q; inv Q; tauto|]. cbn; intros; exfalso; auto.
      * split; [auto|]. split; [|apply NIL]. split; [exact H2|]. split; [discriminate|]. cbn; intros; exfalso; auto.
    + destruct (c_bv (get_cls s b)); injection E as <- <-; (split; [auto|]; split; [|apply NIL]);
        (split; [constructor; auto|]; split; [discriminate|]; cbn; intros; exfalso; auto).
  - assert (NH : c0 = c -> n0 = n -> False) by (intros -> ->; destruct (S3 eq_refl eq_refl); tauto).
    injection E as <- <-. split.
    { apply find_store; auto. intros Q. inv Q. now apply (S2 y). }
    split; [|apply NIL]. split; [exact S1|]. split; [discriminate|]. cbn; intros; exfalso; auto.
  - destruct st as [|[a m bs done] st].
    + injection E as <- <-. split; [auto|]. split.
      { split; [constructor|]. split; [discriminate|]. cbn. destruct q as [|[c1 n1] q]; auto. }
      eexists. split; [reflexivity|]. constructor; auto. cbn. intros Q. injection Q as -> ->.
      destruct (S3 eq_refl eq_refl) as [_ ->]. reflexivity.
    + injection E as <- <-. split; [auto|]. split; [|apply NIL]. inv S1. cbn in H1. split; [constructor; auto|].
      split; [discriminate|]. cbn. intros -> ->. destruct (S3 eq_refl eq_refl) as [Q _]. discriminate.
  - assert (NH : c0 = c -> n0 = n -> False) by (intros -> ->; destruct (S3 eq_refl eq_refl); tauto).
    injection E as <- <-. split; [auto|]. split.
    { split; [constructor|]. split; [discriminate|]. cbn. destruct q as [|[c1 n1] q]; auto. }
    eexists. split; [reflexivity|]. constructor; auto. cbn. intros Q. injection Q as -> ->. exfalso; auto.
Qed.
Lemma settled_any c n x s s' t : settled c n x s t -> settled c n x s' t.
Proof. auto. Qed.
Lemma quiet_settled c n x p : quiet p -> Forall (settled c n x (p_meta p)) (p_threads p).
Proof.
  intros Q. apply Forall_forall. intros t I. destruct (Q t I) as [A B]. unfold settled. rewrite A, B.
  split; [constructor|]. split; [discriminate|]. destruct (t_prog t) as [|[c0 n0] q]; auto.
Qed.

Definition sinv (c : nat) (n : Z) (x : nat) (p0 p : pool) : Prop :=
  pinv p /\ find_cache (p_meta p) c n = Some x /\ Forall (settled c n x (p_meta p)) (p_threads p)
  /\ length (p_threads p) = length (p_threads p0)
  /\ forall i t0 t, nth_error (p_threads p0) i = Some t0 -> nth_error (p_threads p) i = Some t ->
       exists new, t_got t = t_got t0 ++ new /\ Forall (fun e => fst e = (c, n) -> snd e = Ok x) new.
Lemma set_nth_length {A} (l : list A) i x : length (set_nth l i x) = length l.
Proof. revert i. induction l as [|a l IH]; intros [|i]; cbn; auto. Qed.
Lemma sinv_step c n x p0 p i : sinv c n x p0 p -> sinv c n x p0 (sched p i).
Proof.
  intros (P & F & S & L & H). destruct (sched_ok p i P) as [P' _]. split; [exact P'|].
  unfold sched in *. destruct (nth_error (p_threads p) i) as [t|] eqn:E; [|auto].
  destruct (tstep (p_meta p) t) as [s' t'] eqn:ST. cbn in *. destruct P as [W T]. rewrite Forall_forall in S, T.
  pose proof (nth_error_In _ _ E) as I.
  destruct (settled_step c n x _ _ _ _ F (S _ I) (T _ I) ST) as (F' & S' & new & G1 & G2).
  split; [exact F'|]. split.
  { apply Forall_forall. intros y J. apply set_nth_In in J as [->|J]; auto. eapply settled_any; eauto. }
  split; [now rewrite set_nth_length|].
  intros j t0 u J0 J. destruct (Nat.eq_dec i j) as [->|N].
  - rewrite (set_nth_same _ _ _ _ E) in J. injection J as <-. destruct (H _ _ _ J0 E) as (n1 & A & B).
    exists (n1 ++ new). rewrite G1, A, app_assoc. split; auto. apply Forall_app. auto.
  - rewrite set_nth_other in J by auto. eauto.
Qed.
Lemma sinv_run c n x p0 l : forall p, sinv c n x p0 p -> sinv c n x p0 (prun p l).
Proof. induction l as [|i l IH]; intros p H; auto. apply IH, sinv_step, H. Qed.
Lemma sinv_start c n x p : pinv p -> quiet p -> find_cache (p_meta p) c n = Some x -> sinv c n x p p.
Proof.
  intros P Q F. split; [exact P|]. split; [exact F|]. split; [now apply quiet_settled|]. split; [reflexivity|].
  intros i t0 t A B. rewrite A in B. inv B. exists []. rewrite app_nil_r. auto.
Qed.

(** * an answered request is in the cache *)
Definition filled (s : meta) (t : thread) : Prop :=
  Forall (fun e => forall x, snd e = Ok x -> find_cache s (fst (fst e)) (snd (fst e)) <> None) (t_got t)
  /\ match t_ctl t, t_stack t, t_prog t with
     | Got _, [], (c0, n0) :: _ => find_cache s c0 n0 <> None
     | _, _, _ => True
     end.
Definition fuller (s s' : meta) : Prop := forall c n, find_cache s c n <> None -> find_cache s' c n <> None.
Lemma filled_fuller s s' t : fuller s s' -> filled s t -> filled s' t.
Proof.
  intros F [A B]. split.
  - eapply Forall_impl; [|exact A]. cbn. intros a H x E. apply F. eauto.
  - destruct (t_ctl t); auto. destruct (t_stack t); auto. destruct (t_prog t) as [|[c n] q]; auto.
Qed.
Lemma fuller_step s t s' t' : tstep s t = (s', t') -> fuller s s'.
Proof.
  intros E c n H. destruct t as [prog st ctl got]. cbn in E.
  assert (K : find_cache s' c n = find_cache s c n \/ exists k m y, cache s' = (k, m, y) :: cache s).
  { destruct ctl as [|a m| |a m y|y|e]; cbn in E.
    - destruct prog as [|[? ?] ?]; inv E; auto.
    - destruct (find_cache s a m); [inv E; auto|]. destruct (m <? 0); [inv E; auto|].
      destruct (c_size (get_cls s a)); inv E; auto.
    - destruct st as [|[a m [|b bs] done] st]; [inv E; auto| |destruct (c_bv (get_cls s b)); inv E; auto].
      destruct (new_class s true (a :: done) (Some a) (Some m)) as [[s2 z]|e] eqn:NC; inv E; auto. left.
      unfold new_class in NC. destruct (join_size s (Some m) (a :: done)); [|discriminate]. cbn [bind] in NC.
      destruct (c3 s (a :: done)); [|discriminate]. now inv NC.
    - inv E. right. cbn. eauto.
    - destruct st as [|[? ? ? ?] ?]; [|inv E; auto]. destruct prog as [|[? ?] ?]; inv E; auto.
    - destruct prog as [|[? ?] ?]; inv E; auto. }
  destruct K as [->|(k & m & y & K)]; auto. unfold find_cache in *. rewrite K. cbn.
  destruct (Nat.eqb k c && (m =? n))%bool; [discriminate|auto].
Qed.
Lemma filled_step s t s' t' : tok s t -> filled s t -> tstep s t = (s', t') -> filled s' t'.
Proof.
  intros T [A B] E. pose proof (fuller_step _ _ _ _ E) as F.
  assert (A' : Forall (fun e => forall x, snd e = Ok x -> find_cache s' (fst (fst e)) (snd (fst e)) <> None) (t_got t)).
  { eapply Forall_impl; [|exact A]. cbn. intros a H x X. apply F. eauto. }
  clear A. destruct T as [_ _ _ _ D]. destruct t as [prog st ctl got]. cbn in *.
  destruct prog as [|[c0 n0] q].
  { destruct D as [-> ->]. inv E. split; auto. }
  destruct D as [D _]. destruct ctl as [|a m| |a m y|y|e]; cbn in D, E.
  - inv E. split; cbn; auto.
  - destruct D as (D1 & D2 & -> & D4). destruct (find_cache s a n0) eqn:FC.
    { inv E. split; auto. cbn. destruct st; auto. rewrite <- D4 by auto. congruence. }
    destruct (n0 <? 0); [inv E; split; cbn; auto|]. destruct (c_size (get_cls s a)); inv E; split; cbn; auto.
  - destruct st as [|[a m [|b bs] done] st]; [congruence| |destruct (c_bv (get_cls s b)); inv E; split; cbn; auto].
    destruct (new_class s true (a :: done) (Some a) (Some m)) as [[s2 z]|e]; inv E; split; cbn; auto.
  - destruct D as (D1 & -> & D3). inv E. split; cbn; auto. destruct st; auto. rewrite <- D3 by auto.
    unfold find_cache. cbn. rewrite Nat.eqb_refl, Z.eqb_refl. discriminate.
  - destruct st as [|[a m bs done] st]; inv E; split; cbn; auto.
    apply Forall_app. split; auto.
  - inv E. split; cbn; auto. apply Forall_app. split; auto. constructor; auto. cbn. discriminate.
Qed.
Lemma filled_sched p i : pinv p -> Forall (filled (p_meta p)) (p_threads p) ->
  Forall (filled (p_meta (sched p i))) (p_threads (sched p i)).
Proof.
  intros [W T] H. unfold sched. destruct (nth_error (p_threads p) i) as [t|] eqn:E; [|auto].
  destruct (tstep (p_meta p) t) as [s' t'] eqn:S. cbn. rewrite Forall_forall in *. intros y I.
  pose proof (nth_error_In _ _ E). apply set_nth_In in I as [->|I].
  - eapply filled_step; eauto.
  - eapply filled_fuller; [eapply fuller_step; eauto|auto].
Qed.
Lemma filled_run l : forall p, pinv p -> Forall (filled (p_meta p)) (p_threads p) ->
  Forall (filled (p_meta (prun p l))) (p_threads (prun p l)).
Proof.
  induction l as [|i l IH]; intros p P H; auto. apply IH; [now apply sched_ok|now apply filled_sched].
Qed.
Lemma spawn_filled h progs : Forall (filled (p_meta (spawn h progs))) (p_threads (spawn h progs)).
Proof. apply Forall_forall. intros t I. cbn in I. apply in_map_iff in I as (r & <- & I). split; cbn; auto. Qed.

(** * a thread alone *)
Lemma alone_app k1 : forall k2 s t s1 t1, alone k1 s t = (s1, t1) -> alone (k1 + k2) s t = alone k2 s1 t1.
Proof.
  induction k1 as [|k IH]; intros k2 s t s1 t1 E; cbn in *; [now inv E|].
  destruct (tstep s t) as [s' t']. now apply IH.
Qed.
Lemma alone_index fuel : forall s c n s' x prog st got, index_cls fuel s c n = Ok (s', x) ->
  exists k, alone k s (Thread prog st (Enter c n) got) = (s', Thread prog st (Got x) got).
Proof.
  induction fuel as [|f IH]; intros s c n s' x prog st got E.
  - cbn in E. exists 1%nat. cbn. destruct (find_cache s c n); [now inv E|].
    destruct (n <? 0); [discriminate|]. destruct (c_size (get_cls s c)); discriminate.
  - cbn [index_cls] in E. destruct (find_cache s c n) eqn:F.
    { inv E. exists 1%nat. cbn. now rewrite F. }
    destruct (n <? 0) eqn:N; [discriminate|]. destruct (c_size (get_cls s c)) eqn:Z; [discriminate|].
    match type of E with context [bind (?g s (c_bases (get_cls s c))) _] => set (go := g) in E end.
    assert (GO : forall bs s s1 l done, go s bs = Ok (s1, l) ->
      exists k, alone k s (Thread prog (Frame c n bs done :: st) Loop got)
        = (s1, Thread prog (Frame c n [] (done ++ l) :: st) Loop got)).
    { induction bs as [|b bs IHb]; intros s0 s1 l done G.
      - cbn in G. inv G. exists 0%nat. now rewrite app_nil_r.
      - cbn in G. destruct (c_bv (get_cls s0 b)) eqn:BV.
        + destruct (index_cls f s0 b n) as [[s2 y]|] eqn:I; [|discriminate]. cbn [bind fst snd] in G.
          destruct (go s2 bs) as [[s3 l3]|] eqn:G2; [|discriminate]. cbn [bind fst snd] in G. inv G.
          destruct (IH s0 b n s2 y prog (Frame c n bs done :: st) got I) as [k1 K1].
          destruct (IHb _ _ _ (done ++ [y]) G2) as [k2 K2].
          exists (1 + (k1 + (1 + k2)))%nat.
          rewrite (alone_app 1 _ _ _ s0 (Thread prog (Frame c n bs done :: st) (Enter b n) got)) by (cbn; now rewrite BV).
          rewrite (alone_app k1 _ _ _ _ _ K1).
          rewrite (alone_app 1 _ _ _ s2 (Thread prog (Frame c n bs (done ++ [y]) :: st) Loop got)) by reflexivity.
          rewrite K2. now rewrite <- app_assoc.
        + destruct (IHb _ _ _ done G) as [k2 K2]. exists (1 + k2)%nat.
          rewrite (alone_app 1 _ _ _ s0 (Thread prog (Frame c n bs done :: st) Loop got)) by (cbn; now rewrite BV).
          exact K2. }
    destruct (go s (c_bases (get_cls s c))) as [[s1 l]|] eqn:G; [|discriminate]. cbn [bind fst snd] in E.
    destruct (new_class s1 true (c :: l) (Some c) (Some n)) as [[s2 y]|] eqn:NC; [|discriminate].
    cbn [bind fst snd] in E. inv E.
    destruct (GO _ _ _ _ [] G) as [k K]. cbn [app] in K.
    exists (1 + (k + 2))%nat.
    rewrite (alone_app 1 _ _ _ s (Thread prog (Frame c n (c_bases (get_cls s c)) [] :: st) Loop got))
      by (cbn; now rewrite F, N, Z).
    rewrite (alone_app k _ _ _ _ _ K). cbn [alone tstep]. rewrite NC. reflexivity.
Qed.
