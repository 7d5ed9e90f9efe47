(** Proofs of the theorems stated in EnumProps.v. *)
From Coq Require Import Lia ZifyBool.
From Verif Require Import PyBase BVFacts InternModel MetaModel MergeFacts EnumModel EnumSpec EnumFacts.


(** What a class statement with members makes, seen from any later state. *)

(** Entries that are no members stay. *)

(** The attributes of the class that a statement with members makes or finds. *)




Lemma first_here {A} (f : nat -> option A) s c t : einv s -> (c < clen s)%nat -> f c = Some t -> first_some f (ec_mro (cget s c)) = Some t.
Proof. intros I L E. destruct (v_mro s I c L) as (l & Em & _). rewrite Em. cbn [first_some]. now rewrite E. Qed.

Lemma assoc_In {A} n (l : list (string * A)) a : assoc n l = Some a -> In (n, a) l.
Proof.
  unfold assoc. destruct (find _ l) as [[k v]|] eqn:F; [|discriminate]. cbn. intros E. inv E. apply find_some in F as [F1 F2].
  cbn in F2. apply String.eqb_eq in F2. now subst.
Qed.

Lemma assoc_None {A} n (l : list (string * A)) : assoc n l = None <-> ~ In n (map fst l).
Proof.
  unfold assoc. destruct (find _ l) as [[k v]|] eqn:F.
  - split; [discriminate|]. intros N. exfalso. apply N. apply find_some in F as [F1 F2]. cbn in F2. apply String.eqb_eq in F2. subst.
    apply in_map_iff. now exists (n, v).
  - split; auto. intros _ H. apply in_map_iff in H as ([k v] & E & H). cbn in E. subst. apply find_none with (2 := H) in F. cbn in F.
    now rewrite String.eqb_refl in F.
Qed.

Lemma assoc_app {A} n (a b : list (string * A)) : assoc n (a ++ b) = match assoc n a with Some x => Some x | None => assoc n b end.
Proof. unfold assoc. rewrite find_app. now destruct (find _ a). Qed.

Lemma assoc_table n m t : NoDup (map fst t) -> In (n, m) t -> assoc n (map to_attr t) = Some (EMem m).
Proof.
  induction t as [|[k v] t IH]; intros N H; [destruct H|]. inversion N as [|? ? N1 N2]; subst. unfold assoc. cbn [map to_attr find fst snd].
  destruct (String.eqb_spec k n) as [->|Hk].
  - cbn. destruct H as [H|H]; [now inv H|]. exfalso. apply N1. apply in_map_iff. now exists (n, m).
  - destruct H as [H|H]; [inv H; congruence|]. apply IH; auto.
Qed.

Lemma attr_names t : map fst (map to_attr t) = map fst t.
Proof. rewrite map_map. apply map_ext. now intros [a b]. Qed.

Lemma member_table s m : einv s -> (m < mlen s)%nat -> exists t, ec_table (cget s (type_of s m)) = Some t /\ In (em_name (mget s m), m) t /\
  etable s (type_of s m) = Some t /\ (type_of s m < clen s)%nat.
Proof.
  intros I H. destruct (v_mem s I m H) as (L & t & E & F). exists t. do 2 (split; auto). split; auto. now apply (first_here (fun x => ec_table (cget s x)) s).
Qed.

Lemma table_attr s c t n m : einv s -> (c < clen s)%nat -> ec_table (cget s c) = Some t -> In (n, m) t ->
  cls_attr s c n = Some (EMem m) /\ class_attr s c n = Ok (OMem m).
Proof.
  intros I L E H. destruct (v_table s I c t L E) as (b & o & st & A1 & A2 & A3 & A4 & A5 & A6 & A7 & A8 & A9 & A10).
  assert (C : cls_attr s c n = Some (EMem m)).
  { apply (first_here (fun x => assoc n (ec_attrs (cget s x))) s); auto. rewrite A7, assoc_app. now rewrite (assoc_table n m t). }
  split; auto. unfold class_attr. rewrite C. destruct (str_mem n meta_props) eqn:Q; auto. exfalso. apply str_mem_In in Q.
  assert (Hn : In n (map fst t)) by (apply in_map_iff; now exists (n, m)). pose proof (A9 n Hn) as R. clear - Q A8 R Hn.
  destruct Q as [<-|[<-|[<-|[<-|[<-|[]]]]]]; try contradiction; apply R; cbn; tauto.
Qed.

Lemma stmt_members s name bases cache fs o s' c : einv s -> bases <> [] -> (forall b, In b bases -> (b < clen s)%nat) -> NoDup (map fst fs) ->
  (forall n, In n (map fst fs) -> ~ In n (reserved_names ++ reserved_sunders)) -> fs <> [] ->
  handler s cache fs name bases o = (s', Ok c) ->
  einv s' /\ (c < clen s')%nat /\ exists t b, ec_table (cget s' c) = Some t /\ bases = [b] /\ ec_bases (cget s' c) = [b] /\
    (forall n v, In (n, v) fs -> exists m w, In (n, m) t /\ em_val (mget s' m) = w /\ same_value v w) /\
    (forall n m, In (n, m) t -> exists v, In (n, v) fs /\ same_value v (em_val (mget s' m))) /\
    ((c = clen s) -> map fst t = map fst fs /\ values_of s' t = fs) /\ (c < clen s \/ c = clen s)%nat.
Proof.
  intros I Hne Hb Nd Rs Hf H. destruct (handler_spec s cache fs name bases o s' c I Hne Hb Nd Rs H) as (I' & X & D). split; auto.
  destruct D as [s' k E|k c Hf' _ Hin K|s' c b Hf' Eb M Ch]; [contradiction| |].
  - destruct (v_cache s I k c Hin) as (L & t & o' & E1 & E2 & E3 & E4 & E5 & E6). split; auto.
    destruct (v_table s I c t L E1) as (b & o2 & st & A1 & A2 & A3 & A4 & A5 & A6 & A7 & A8 & A9 & A10).
    unfold ekey_eqb in K. cbn [k_fields k_bases k_name k_others] in K. apply andb_true_iff in K as [K K4]. apply andb_true_iff in K as [K K3].
    apply andb_true_iff in K as [K1 K2]. exists t, b. split; auto.
    assert (EB : bases = k_bases k).
    { clear - K2. revert K2. generalize (k_bases k). induction bases as [|x l IH]; intros [|y q] Q; cbn in Q; try discriminate; auto.
      apply andb_true_iff in Q as [Q1 Q2]. apply Nat.eqb_eq in Q1. subst. f_equal. auto. }
    split; [congruence|]. split; [auto|].
    unfold set_eqb in K1. apply andb_true_iff in K1 as [K1 K1']. rewrite forallb_forall in K1, K1'. rewrite <- E4 in K1, K1'.
    split; [|split; [|split; [intros; lia|auto]]].
    + intros n v Q. apply K1 in Q. apply existsb_exists in Q as ([n' w] & Q1 & Q2). unfold field_eqb in Q2. cbn [fst snd] in Q2.
      apply andb_true_iff in Q2 as [Q2 Q3]. apply String.eqb_eq in Q2. subst n'. apply val_eqb_spec in Q3. unfold values_of in Q1.
      apply in_map_iff in Q1 as ([n' m] & Q1 & Q4). cbn [fst snd] in Q1. inv Q1. eauto.
    + intros n m Q. assert (Q' : In (n, em_val (mget s m)) (values_of s t)) by (unfold values_of; apply in_map_iff; now exists (n, m)).
      apply K1' in Q'. apply existsb_exists in Q' as ([n' w] & Q1 & Q2). unfold field_eqb in Q2. cbn [fst snd] in Q2.
      apply andb_true_iff in Q2 as [Q2 Q3]. apply String.eqb_eq in Q2. subst n'. apply val_eqb_spec in Q3. exists w. split; auto.
      now apply same_value_sym.
  - destruct M as [M1 (k & M2 & N1 & N2 & N3 & N4 & N5 & N6 & N7) M3]. subst c.
    assert (G : cget s' (clen s) = k) by (unfold cget, clen; rewrite M2, app_nth2, Nat.sub_diag by lia; reflexivity).
    assert (L : (clen s < clen s')%nat) by (unfold clen; rewrite M2, app_length; cbn; lia).
    split; [lia|]. exists (from_table s fs), b. rewrite G. do 3 (split; [solve [auto]|]).
    assert (V : values_of s' (from_table s fs) = fs).
    { unfold values_of, from_table. assert (Gm : forall i, (i < length fs)%nat -> em_val (mget s' (mlen s + i)) = snd (nth i fs (""%string, VInt 0))).
      { intros i Hi. unfold mget. rewrite M3. rewrite app_nth2 by (unfold mlen; lia). replace (mlen s + i - length (emembers s))%nat with i by (unfold mlen; lia).
        destruct (nth_error fs i) as [f|] eqn:En; [|apply nth_error_None in En; lia].
        rewrite (nth_error_nth _ i (EM 0 (VInt 0) "") (map_nth_error _ i fs En)). cbn [em_val]. now rewrite (nth_error_nth fs i _ En). }
      clear - Gm. unfold mlen in Gm. revert Gm. generalize (length (emembers s)). induction fs as [|[n v] fs IH]; intros st Gm; cbn; [reflexivity|].
      f_equal; [f_equal; specialize (Gm 0%nat ltac:(cbn; lia)); rewrite Nat.add_0_r in Gm; exact Gm|]. apply (IH (S st)). intros i Hi.
      specialize (Gm (S i) ltac:(cbn; lia)). rewrite <- Nat.add_succ_comm in Gm. exact Gm. }
    split; [|split; [|split; [|auto]]].
    + intros n v Q. rewrite <- V in Q. unfold values_of in Q. apply in_map_iff in Q as ([n' m] & Q & Q'). cbn [fst snd] in Q. inv Q.
      exists m, (em_val (mget s' m)). split; auto. split; auto. apply same_value_refl.
    + intros n m Q. exists (em_val (mget s' m)). split; [|apply same_value_refl]. rewrite <- V. unfold values_of. apply in_map_iff. now exists (n, m).
    + intros _. split; auto. apply table_fst.
Qed.

Lemma stmt_step s name bases l cache s' c : einv s -> bases <> [] -> (forall b, In b bases -> is_class s b) -> NoDup (map fst l) ->
  enum_stmt s name bases l cache = (s', Ok c) -> estep s (EClass name bases l cache) = s'.
Proof.
  intros I Hne Hb Nd H. unfold estep. cbn [eok]. assert (E1 : forallb (fun b => Nat.ltb b (length (eclasses s))) bases = true).
  { apply forallb_forall. intros b B. apply Nat.ltb_lt. now apply Hb. }
  assert (E2 : negb (Nat.eqb (length bases) 0) = true) by (destruct bases; [congruence|reflexivity]).
  apply distinct_spec in Nd. rewrite E1, E2, Nd. cbn [andb negb]. now rewrite H.
Qed.

Lemma seen_members s' c fs t : einv s' -> (c < clen s')%nat -> ec_table (cget s' c) = Some t ->
  (forall n v, In (n, v) fs -> exists m w, In (n, m) t /\ em_val (mget s' m) = w /\ same_value v w) ->
  (forall n m, In (n, m) t -> exists v, In (n, v) fs /\ same_value v (em_val (mget s' m))) ->
  forall h, let now := erun s' h in
  (forall n v, In (n, v) fs -> exists m w, class_attr now c n = Ok (OMem m) /\ is_member now m /\ type_of now m = c /\ made_as now m n w /\ same_value v w) /\
  (forall m, is_member now m -> type_of now m = c -> exists n v w, In (n, v) fs /\ made_as now m n w /\ same_value v w).
Proof.
  intros I L E P Q h now. destruct (run_inv h s' I) as [I2 X]. fold now in I2, X.
  assert (L2 : (c < clen now)%nat) by (pose proof (ext_clen _ _ X); lia). assert (E2 : ec_table (cget now c) = Some t) by now rewrite (ext_cget s' now).
  destruct (v_table s' I c t L E) as (b & o2 & st & A1 & A2 & A3 & A4 & A5 & A6 & A7 & A8 & A9 & A10). split.
  - intros n v H. destruct (P n v H) as (m & w & B1 & B2 & B3). exists m, w. destruct (A10 n m B1) as (C1 & C2 & C3).
    split; [eapply table_attr; eauto|]. unfold is_member, type_of, made_as. fold (mlen now). rewrite (ext_mget s' now) by auto.
    split; [pose proof (ext_mlen _ _ X); lia|]. auto.
  - intros m Hm T. destruct (v_mem now I2 m Hm) as (_ & t' & B1 & B2). unfold type_of in T. rewrite T, E2 in B1. inv B1.
    destruct (Q _ _ B2) as (v & B3 & B4). destruct (A10 _ _ B2) as (C1 & C2 & C3). rewrite (ext_mget s' now) in * by auto.
    exists (em_name (mget s' m)), v, (em_val (mget s' m)). split; auto. split; auto. unfold made_as. now rewrite (ext_mget s' now).
Qed.

Lemma esub_ext s s' a b : einv s -> eext s s' -> (a < clen s)%nat -> (esub s' a b <-> esub s a b).
Proof.
  intros I X. revert b. induction a as [a IH] using lt_wf_ind. intros b L. split; intros H.
  - inversion H as [|x y z Hb Hs]; subst; [constructor|]. rewrite (ext_cget s s') in Hb by auto. pose proof (v_bases s I a y L Hb).
    econstructor; eauto. apply IH; auto; lia.
  - inversion H as [|x y z Hb Hs]; subst; [constructor|]. pose proof (v_bases s I a y L Hb).
    econstructor; [rewrite (ext_cget s s') by auto; eauto|]. apply IH; auto; lia.
Qed.

Lemma einst_sub s m c : einv s -> (m < mlen s)%nat -> (einst s m c = true <-> esub s (type_of s m) c).
Proof. intros I H. unfold einst, type_of. apply issub_sub; auto. now apply (v_mem s I). Qed.

Lemma eqm_spec s x y : einv s -> (x < mlen s)%nat -> (y < mlen s)%nat ->
  (esub s (type_of s y) (type_of s x) -> eq_method s x y = Some (val_eqb (em_val (mget s x)) (em_val (mget s y)))) /\
  (~ esub s (type_of s y) (type_of s x) -> eq_method s x y = None).
Proof.
  intros I Hx Hy. unfold eq_method. assert (Q := einst_sub s y (type_of s x) I Hy). unfold type_of in Q |- *.
  destruct (einst s y (em_cls (mget s x))); split; intros K; auto; exfalso; [apply K, Q|]; auto.
  assert (false = true) by tauto. discriminate.
Qed.

Lemma esub_dec s a b : einv s -> (a < clen s)%nat -> {esub s a b} + {~ esub s a b}.
Proof.
  intros I H. destruct (eissub s a b) eqn:E; [left; now apply issub_sub|right]. intros K. apply (issub_sub s I) in K; auto. congruence.
Qed.

Lemma mem_eqb_spec s x y : einv s -> (x < mlen s)%nat -> (y < mlen s)%nat ->
  (mem_eqb s x y = true <-> (esub s (type_of s x) (type_of s y) \/ esub s (type_of s y) (type_of s x)) /\ same_value (em_val (mget s x)) (em_val (mget s y))).
Proof.
  intros I Hx Hy. destruct (eqm_spec s x y I Hx Hy) as [A1 A2]. destruct (eqm_spec s y x I Hy Hx) as [B1 B2].
  assert (Lx : (type_of s x < clen s)%nat) by now apply (v_mem s I). assert (Ly : (type_of s y < clen s)%nat) by now apply (v_mem s I).
  rewrite <- val_eqb_spec. unfold mem_eqb.
  destruct (esub_dec s (type_of s x) (type_of s y) I Lx) as [D1|D1], (esub_dec s (type_of s y) (type_of s x) I Ly) as [D2|D2];
    rewrite ?(A1 D2), ?(A2 D2), ?(B1 D1), ?(B2 D1).
  - rewrite (val_eqb_sym (em_val (mget s y))). destruct (negb _ && _); split; [tauto|tauto|tauto|tauto].
  - rewrite (val_eqb_sym (em_val (mget s y))). destruct (negb _ && _); tauto.
  - destruct (negb _ && _); tauto.
  - replace (if negb _ && _ then (@None bool, @None bool) else (None, None)) with (@None bool, @None bool) by now destruct (negb _ && _).
    rewrite Nat.eqb_eq. split; [|tauto]. intros ->. exfalso. apply D1. constructor.
Qed.

Lemma join_first s bs : forall bt r, join_fields s bt bs = Ok r ->
  fst r = match bt with Some f => Some f | None => first_some (fun b => ec_fields (cget s b)) bs end.
Proof.
  induction bs as [|b bs IH]; intros bt r H; cbn [join_fields first_some] in *; [inv H; now destruct bt|].
  destruct (ec_fields (cget s b)) as [f|] eqn:E.
  - destruct bt as [f'|]; [destruct (tuple_eqb s f' f); [|discriminate]|]; apply IH in H; exact H.
  - destruct (join_fields s bt bs) as [q|] eqn:J; [|discriminate]. cbn in H. inv H. cbn [fst]. apply (IH bt q). exact J.
Qed.

Lemma first_some_In {A} (f : nat -> option A) l x : first_some f l = Some x -> exists y, In y l /\ f y = Some x.
Proof.
  induction l as [|y l IH]; cbn; [discriminate|]. destruct (f y) eqn:E; [intros H; inv H; eauto|]. intros H. apply IH in H as (z & A1 & A2). eauto.
Qed.

Lemma fields_above s c : einv s -> (c < clen s)%nat -> forall f m, ec_fields (cget s c) = Some f -> In m f -> esub s c (type_of s m).
Proof.
  intros I. induction c as [c IH] using lt_wf_ind. intros L f m E H.
  destruct (ec_table (cget s c)) as [t|] eqn:T.
  - destruct (v_table s I c t L T) as (b & o & st & A1 & A2 & A3 & A4 & A5 & A6 & A7 & A8 & A9 & A10). rewrite E in A3. inv A3.
    apply in_map_iff in H as ([n m'] & Q & H). cbn in Q. subst m'. destruct (A10 n m H) as (_ & B & _). unfold type_of. rewrite B. constructor.
  - destruct (Nat.eq_dec c 0) as [->|N]; [rewrite (v_zero s I) in E; discriminate|].
    destruct (v_join s I c) as (r & J & R & _); [lia|auto|]. apply join_first in J. rewrite E in R. rewrite <- R in J. symmetry in J.
    apply first_some_In in J as (b & Hb & Eb). assert (Lb := v_bases s I c b L Hb). econstructor; [exact Hb|]. eapply IH; eauto; lia.
Qed.

Lemma antisym s a b : einv s -> (a < clen s)%nat -> esub s a b -> esub s b a -> a = b.
Proof.
  intros I L H1 H2. assert (A := sub_le s I a b L H1). assert (B := sub_le s I b a ltac:(lia) H2). lia.
Qed.

Lemma cls_attr_single s c b n : einv s -> (c < clen s)%nat -> ec_bases (cget s c) = [b] ->
  cls_attr s c n = match assoc n (ec_attrs (cget s c)) with Some a => Some a | None => cls_attr s b n end.
Proof.
  intros I L E. destruct (v_mro s I c L) as (l & Em & M). rewrite E in M.
  assert (Lb : (b < c)%nat) by (apply (v_bases s I c b L); rewrite E; now left).
  rewrite (c3_single s I b) in M by lia. inv M. unfold cls_attr at 1. rewrite Em. reflexivity.
Qed.

Lemma etable_single s c b : einv s -> (c < clen s)%nat -> ec_bases (cget s c) = [b] ->
  etable s c = match ec_table (cget s c) with Some a => Some a | None => etable s b end.
Proof.
  intros I L E. destruct (v_mro s I c L) as (l & Em & M). rewrite E in M.
  assert (Lb : (b < c)%nat) by (apply (v_bases s I c b L); rewrite E; now left).
  rewrite (c3_single s I b) in M by lia. inv M. unfold etable at 1. rewrite Em. reflexivity.
Qed.

Lemma cls_attr_above s c n a : einv s -> (c < clen s)%nat -> cls_attr s c n = Some a -> exists x, esub s c x /\ In (n, a) (ec_attrs (cget s x)) /\ (x < clen s)%nat.
Proof.
  intros I L H. unfold cls_attr in H. apply first_some_In in H as (x & Hx & E). exists x. split; [now apply mro_sub|].
  split; [now apply assoc_In|]. pose proof (mro_le s I c x L Hx). lia.
Qed.

Lemma enum_attr s c n : einv s -> (c < clen s)%nat -> keeps s c n -> In n ["name"; "value"]%string -> cls_attr s c n = Some EProp.
Proof.
  intros I L K Hn. assert (Z0 : assoc n (ec_attrs (cget s 0)) = Some EProp).
  { rewrite (v_zero s I). destruct Hn as [<-|[<-|[]]]; reflexivity. }
  assert (H0 : In 0%nat (ec_mro (cget s c))) by (apply mro_sub; auto; now apply sub_enum).
  assert (Sub : forall x, In x (ec_mro (cget s c)) -> esub s c x) by (intros x; apply mro_sub; auto).
  unfold cls_attr. revert H0 Sub. generalize (ec_mro (cget s c)). induction l as [|x l IH]; intros H0 Sub; [destruct H0|].
  cbn [first_some]. destruct (assoc n (ec_attrs (cget s x))) as [a|] eqn:E.
  - assert (x = 0%nat) as ->. { apply (K x); [apply Sub; now left|]. exists a. now apply assoc_In. } congruence.
  - destruct H0 as [->|H0]; [congruence|]. apply IH; auto. intros y Hy. apply Sub. now right.
Qed.

Lemma elinear_up s c b : elinear s c -> In b (ec_bases (cget s c)) -> elinear s b.
Proof. intros H Hb x Hx. apply H. econstructor; eauto. Qed.

Lemma fields_some s c : einv s -> (c < clen s)%nat -> forall f, ec_fields (cget s c) = Some f -> exists m, In m f.
Proof.
  intros I. induction c as [c IH] using lt_wf_ind. intros L f E. destruct (ec_table (cget s c)) as [t|] eqn:T.
  - destruct (v_table s I c t L T) as (b & o & st & A1 & A2 & A3 & A4 & A5 & A6 & A7 & A8 & A9 & A10). rewrite E in A3. inv A3.
    destruct t as [|[n m] t]; [congruence|]. exists m. now left.
  - destruct (Nat.eq_dec c 0) as [->|N]; [rewrite (v_zero s I) in E; discriminate|].
    destruct (v_join s I c) as (r & J & R & _); [lia|auto|]. apply join_first in J. rewrite E in R. rewrite <- R in J. symmetry in J.
    apply first_some_In in J as (b & Hb & Eb). assert (Lb := v_bases s I c b L Hb). eapply IH; eauto; lia.
Qed.

Lemma other_eqb_spec a b : other_eqb a b = true <-> fst a = fst b /\ same_attr (snd a) (snd b).
Proof.
  unfold other_eqb. rewrite andb_true_iff, String.eqb_eq. destruct a as [n [v|i d h]], b as [m [w|j d' h']]; cbn [fst snd same_attr].
  - now rewrite val_eqb_spec.
  - intuition discriminate.
  - intuition discriminate.
  - now rewrite Nat.eqb_eq.
Qed.

Lemma same_attr_refl x : same_attr x x.
Proof. destruct x; cbn; [apply same_value_refl|reflexivity]. Qed.

Lemma same_attr_sym x y : same_attr x y -> same_attr y x.
Proof. destruct x, y; cbn; auto. apply same_value_sym. Qed.

Lemma split_rest l : forall fs o, split_body l = Ok (fs, o) -> forall n x, In (n, x) l -> ~ In n (declared l) -> In (n, x) o.
Proof.
  induction l as [|[m y] l IH]; intros fs o H n x Hin Hd; [destruct Hin|]. cbn [split_body] in H.
  destruct (str_mem m reserved_sunders); [discriminate|]. unfold declared in Hd. cbn [filter snd fst] in Hd.
  destruct (is_dunder m || is_sunder m || match y with NMember _ => false | NOther _ d _ => d end) eqn:Sp.
  - destruct (String.eqb m "_name_" && _); [discriminate|]. destruct (split_body l) as [[fs' o']|] eqn:E; [|discriminate]. cbn in H. inv H.
    destruct Hin as [Q|Q]; [inv Q; now left|right]. apply (IH _ _ eq_refl n x Q). intros K. apply Hd.
    match goal with |- In n (map fst (if ?b then _ else _)) => destruct b end; [cbn [map fst In]; right|]; exact K.
  - apply orb_false_iff in Sp as [Sp Sp3]. apply orb_false_iff in Sp as [Sp1 Sp2]. rewrite Sp1, Sp2 in Hd. cbn [negb andb] in Hd.
    destruct (str_mem m reserved_names); [discriminate|].
    destruct (split_body l) as [[fs' o']|] eqn:E; [|discriminate]. cbn in H. destruct y as [v|i d h]; inv H.
    + cbn [map fst In] in Hd. destruct Hin as [Q|Q]; [inv Q; exfalso; apply Hd; now left|]. apply (IH _ _ eq_refl n x Q). intros K. apply Hd. now right.
    + destruct Hin as [Q|Q]; [inv Q; now left|right]. apply (IH _ _ eq_refl n x Q). exact Hd.
Qed.

Lemma stmt_attrs s name bases cache fs o s' c : einv s -> bases <> [] -> (forall b, In b bases -> (b < clen s)%nat) -> NoDup (map fst fs) ->
  (forall n, In n (map fst fs) -> ~ In n (reserved_names ++ reserved_sunders)) -> fs <> [] ->
  handler s cache fs name bases o = (s', Ok c) ->
  exists t o', ec_table (cget s' c) = Some t /\ ec_attrs (cget s' c) = map to_attr t ++ other_attrs o' /\
    (forall n x, is_dunder n = false -> In (n, x) o -> exists y, In (n, y) o' /\ same_attr x y) /\
    (forall n y, is_dunder n = false -> In (n, y) o' -> exists x, In (n, x) o /\ same_attr x y).
Proof.
  intros I Hne Hb Nd Rs Hf H. destruct (handler_spec s cache fs name bases o s' c I Hne Hb Nd Rs H) as (I' & X & D).
  destruct D as [s' k E|k c Hf' _ Hin K|s' c b Hf' Eb M Ch]; [contradiction| |].
  - destruct (v_cache s I k c Hin) as (L & t & o' & E1 & E2 & E3 & E4 & E5 & E6). exists t, o'. do 2 (split; auto).
    unfold ekey_eqb in K. cbn [k_fields k_bases k_name k_others] in K. apply andb_true_iff in K as [_ K].
    unfold set_eqb in K. apply andb_true_iff in K as [K1 K2]. rewrite forallb_forall in K1, K2. rewrite <- E6 in K1, K2. unfold key_others in K1, K2.
    split; intros n x Dn Q.
    + assert (Q' : In (n, x) (filter (fun e => negb (is_dunder (fst e))) o)) by (apply filter_In; cbn [fst]; rewrite Dn; auto).
      apply K1 in Q'. apply existsb_exists in Q' as ([m y] & A & B). apply filter_In in A as [A _]. apply other_eqb_spec in B as [B1 B2].
      cbn [fst snd] in *. subst m. eauto.
    + assert (Q' : In (n, x) (filter (fun e => negb (is_dunder (fst e))) o')) by (apply filter_In; cbn [fst]; rewrite Dn; auto).
      apply K2 in Q'. apply existsb_exists in Q' as ([m y] & A & B). apply filter_In in A as [A _]. apply other_eqb_spec in B as [B1 B2].
      cbn [fst snd] in *. subst m. eauto using same_attr_sym.
  - destruct M as [M1 (k & M2 & N1 & N2 & N3 & N4 & N5 & N6 & N7) M3]. subst c. exists (from_table s fs), o.
    assert (G : cget s' (clen s) = k) by (unfold cget, clen; rewrite M2, app_nth2, Nat.sub_diag by lia; reflexivity).
    rewrite G. do 2 (split; auto). split; intros n x _ Q; eauto using same_attr_refl.
Qed.

Lemma C82_members_pf : forall s name bases l cache s' c, ereached s -> bases <> [] -> (forall b, In b bases -> is_class s b) -> NoDup (map fst l) ->
  declared l <> [] -> enum_stmt s name bases l cache = (s', Ok c) ->
  estep s (EClass name bases l cache) = s' /\ forall h, let now := erun s' h in
  (forall n v, declares l n v -> exists m w, class_attr now c n = Ok (OMem m) /\ is_member now m /\ type_of now m = c /\ made_as now m n w /\ same_value v w) /\
  (forall m, is_member now m -> type_of now m = c -> exists n v w, declares l n v /\ made_as now m n w /\ same_value v w).
Proof.
  intros s name bases l cache s' c R Hne Hb Nd Hd H. pose proof (reached_inv s R) as I. split; [eapply stmt_step; eauto|].
  intros h now. unfold enum_stmt in H. destruct (split_body l) as [[fs o]|e] eqn:Sp; [|discriminate].
  destruct (split_spec l fs o Sp) as (A & B & C & D).
  assert (Hf : fs <> []) by (intros ->; apply Hd; now rewrite <- B).
  destruct (stmt_members s name bases cache fs o s' c I Hne Hb) as (I' & L & t & b & E1 & E2 & E3 & E4 & E5 & E6); auto.
  { rewrite B. now apply declared_NoDup. }
  destruct (seen_members s' c fs t I' L E1 E4 E5 h) as [P Q]. fold now in P, Q. split.
  - intros n v Hv. apply P. now apply A.
  - intros m Hm T. destruct (Q m Hm T) as (n & v & w & Q1 & Q2). exists n, v, w. split; auto. now apply A.
Qed.

Lemma C82_attributes_partial_pf : forall s name bases l cache s' c, ereached s -> bases <> [] -> (forall b, In b bases -> is_class s b) -> NoDup (map fst l) ->
  declared l <> [] -> enum_stmt s name bases l cache = (s', Ok c) -> forall h, let now := erun s' h in
  forall n, is_dunder n = false -> ~ In n meta_props ->
  (forall x, In (n, x) l -> ~ In n (declared l) -> exists y, class_attr now c n = Ok (OOther y) /\ same_attr x y) /\
  (~ In n (map fst l) -> exists b, bases = [b] /\ class_attr now c n = class_attr now b n).
Proof.
  intros s name bases l cache s' c R Hne Hb Nd Hd H h now n Dn Mn. pose proof (reached_inv s R) as I.
  unfold enum_stmt in H. destruct (split_body l) as [[fs o]|e] eqn:Sp; [|discriminate].
  destruct (split_spec l fs o Sp) as (A & B & C & D). assert (Hf : fs <> []) by (intros ->; apply Hd; now rewrite <- B).
  assert (Nf : NoDup (map fst fs)) by (rewrite B; now apply declared_NoDup).
  destruct (stmt_members s name bases cache fs o s' c I Hne Hb) as (I' & L & t & b & E1 & E2 & E3 & E4 & E5 & E6); auto.
  destruct (stmt_attrs s name bases cache fs o s' c I Hne Hb Nf C Hf H) as (t2 & o' & F1 & F2 & F3 & F4).
  rewrite E1 in F1. inv F1. destruct (run_inv h s' I') as [I2 X]. fold now in I2, X.
  assert (L2 : (c < clen now)%nat) by (pose proof (ext_clen _ _ X); lia).
  assert (Mf : str_mem n meta_props = false) by now apply str_mem_false.
  assert (Nt : ~ In n (map fst t2) -> assoc n (ec_attrs (cget now c)) = assoc n (other_attrs o')).
  { intros Q. rewrite (ext_cget s' now) by auto. rewrite F2, assoc_app. destruct (assoc n (map to_attr t2)) as [a|] eqn:Q2; [|reflexivity].
    exfalso. apply Q. apply assoc_In in Q2. apply in_map_iff in Q2 as ([n' m] & Q3 & Q4). unfold to_attr in Q3. cbn [fst snd] in Q3. inv Q3.
    apply in_map_iff. now exists (n, m). }
  assert (Tn : ~ In n (declared l) -> ~ In n (map fst t2)).
  { intros Q K. apply Q. apply in_map_iff in K as ([n' m] & K1 & K2). cbn [fst] in K1. subst n'. destruct (E5 n m K2) as (v & K3 & _).
    rewrite <- B. apply in_map_iff. now exists (n, v). }
  split.
  - intros x Hx Hn. specialize (Nt (Tn Hn)). assert (Ho := split_rest l fs o Sp n x Hx Hn). destruct (F3 n x Dn Ho) as (y & Y1 & Y2).
    destruct (assoc n (other_attrs o')) as [a|] eqn:As.
    + assert (As' := As). apply assoc_In in As'. unfold other_attrs in As'. apply in_map_iff in As' as ([n' z] & Z1 & Z2). cbn [fst snd] in Z1. inv Z1.
      exists z. split.
      * unfold class_attr. rewrite Mf. unfold cls_attr. now rewrite (first_here (fun x => assoc n (ec_attrs (cget now x))) now c (EOther z) I2 L2 Nt).
      * destruct (F4 n z Dn Z2) as (x' & X1 & X2). apply D in X1. replace x with x'; auto. clear - Nd Hx X1. induction l as [|[m w] l IH]; [destruct Hx|].
        cbn [map fst] in Nd. inversion Nd as [|? ? N1 N2]; subst.
        assert (P : forall u, In (n, u) l -> m = n -> False) by (intros u Q ->; apply N1; apply in_map_iff; now exists (n, u)).
        destruct Hx as [Hx|Hx], X1 as [X1|X1]; [congruence| | |auto]; exfalso; [inv Hx|inv X1]; eauto.
    + exfalso. apply assoc_None in As. apply As. unfold other_attrs. rewrite map_map. apply in_map_iff. now exists (n, y).
  - intros Hn. exists b. split; auto. assert (Hdn : ~ In n (declared l)) by (intros K; apply Hn; now apply declared_In). specialize (Nt (Tn Hdn)).
    assert (As : assoc n (other_attrs o') = None).
    { apply assoc_None. intros K. unfold other_attrs in K. rewrite map_map in K. apply in_map_iff in K as ([n' z] & Z1 & Z2). cbn [fst] in Z1. subst n'.
      destruct (F4 n z Dn Z2) as (x & X1 & _). apply Hn. apply D in X1. apply in_map_iff. now exists (n, x). }
    unfold class_attr. rewrite Mf. replace (cls_attr now c n) with (cls_attr now b n); auto. unfold cls_attr.
    assert (Eb : ec_bases (cget now c) = [b]) by (rewrite (ext_cget s' now); auto).
    destruct (v_mro now I2 c L2) as (q & M1 & M2). rewrite Eb in M2. rewrite (c3_single now I2 b) in M2.
    + inv M2. rewrite M1. cbn [first_some]. now rewrite Nt, As.
    + assert (Lb : (b < c)%nat) by (apply (v_bases now I2 c b L2); rewrite Eb; now left). lia.
Qed.

Lemma C82_attributes_refuted_pf : exists s l s' c, ereached s /\ NoDup (map fst l) /\ declared l <> [] /\ enum_stmt s "E" [c_Enum] l true = (s', Ok c) /\
  In ("__str__"%string, NOther 2 true true) l /\ class_attr s' c "__str__" = Ok (OOther (NOther 1 true true)).
Proof.
  exists (erun est0 [EClass "E" [0%nat] [("a"%string, NMember (VInt 0)); ("__str__"%string, NOther 1 true true)] true]).
  exists [("a"%string, NMember (VInt 0)); ("__str__"%string, NOther 2 true true)]. eexists. exists 1%nat.
  split; [eexists; reflexivity|]. split; [repeat constructor; cbn; intuition discriminate|]. split; [discriminate|]. split; [vm_compute; reflexivity|].
  split; [right; now left|]. vm_compute. reflexivity.
Qed.

Lemma C82_attributes_uncached_pf : forall s name bases l s' c, ereached s -> bases <> [] -> (forall b, In b bases -> is_class s b) -> NoDup (map fst l) ->
  declared l <> [] -> enum_stmt s name bases l false = (s', Ok c) -> forall h, let now := erun s' h in
  forall n x, ~ In n meta_props -> In (n, x) l -> ~ In n (declared l) -> class_attr now c n = Ok (OOther x).
Proof.
  intros s name bases l s' c R Hne Hb Nd Hd H h now n x Mn Hx Hn. pose proof (reached_inv s R) as I.
  unfold enum_stmt in H. destruct (split_body l) as [[fs o]|e] eqn:Sp; [|discriminate].
  destruct (split_spec l fs o Sp) as (A & B & C & D). assert (Hf : fs <> []) by (intros ->; apply Hd; now rewrite <- B).
  assert (Nf : NoDup (map fst fs)) by (rewrite B; now apply declared_NoDup).
  destruct (handler_spec s false fs name bases o s' c I Hne Hb Nf C H) as (I' & X & K).
  destruct K as [s' k E|k c Hf' Z _ _|s' c b Hf' Eb M Ch]; [contradiction|discriminate|].
  destruct M as [M1 (k & M2 & N1 & N2 & N3 & N4 & N5 & N6 & N7) M3].
  assert (G : cget s' c = k) by (subst c; unfold cget, clen; rewrite M2, app_nth2, Nat.sub_diag by lia; reflexivity).
  assert (L : (c < clen s')%nat) by (subst c; unfold clen; rewrite M2, app_length; cbn; lia).
  destruct (run_inv h s' I') as [I2 X2]. fold now in I2, X2. assert (L2 : (c < clen now)%nat) by (pose proof (ext_clen _ _ X2); lia).
  assert (As : assoc n (ec_attrs (cget now c)) = Some (EOther x)).
  { rewrite (ext_cget s' now) by auto. rewrite G, N7, assoc_app. destruct (assoc n (map to_attr (from_table s fs))) as [a|] eqn:Q2.
    - exfalso. apply assoc_In in Q2. apply in_map_iff in Q2 as ([n' m] & Q3 & Q4). unfold to_attr in Q3. cbn [fst snd] in Q3. inv Q3.
      apply Hn. rewrite <- B, <- (table_fst s). apply in_map_iff. now exists (n, m).
    - destruct (assoc n (other_attrs o)) as [a|] eqn:Q.
      + apply assoc_In in Q. unfold other_attrs in Q. apply in_map_iff in Q as ([n' z] & Z1 & Z2). cbn [fst snd] in Z1. inv Z1. apply D in Z2.
        replace z with x; auto. clear - Nd Hx Z2. induction l as [|[m w] l IH]; [destruct Hx|].
        cbn [map fst] in Nd. inversion Nd as [|? ? N1 N2]; subst.
        assert (P : forall u, In (n, u) l -> m = n -> False) by (intros u Q ->; apply N1; apply in_map_iff; now exists (n, u)).
        destruct Hx as [Hx|Hx], Z2 as [X1|X1]; [congruence| | |auto]; exfalso; [inv Hx|inv X1]; eauto.
      + exfalso. apply assoc_None in Q. apply Q. unfold other_attrs. rewrite map_map. apply in_map_iff. exists (n, x). split; [reflexivity|].
        eapply split_rest; eauto. }
  unfold class_attr. replace (str_mem n meta_props) with false by (symmetry; now apply str_mem_false). unfold cls_attr.
  now rewrite (first_here (fun x => assoc n (ec_attrs (cget now x))) now c (EOther x) I2 L2 As).
Qed.

Lemma C83_no_field_dict_pf : forall s c, ereached s -> is_class s c -> (forall m, is_member s m -> ~ esub s c (type_of s m)) ->
  efield_dict s c = Raise EAttributeError /\ eenumerate s c = Raise ETypeError.
Proof.
  intros s c R L N. pose proof (reached_inv s R) as I. split.
  - unfold efield_dict. destruct (etable s c) as [t|] eqn:E; auto. exfalso. unfold etable in E. apply first_some_In in E as (x & Hx & T).
    apply (mro_sub s I) in Hx; auto. assert (Lx := sub_le s I c x L Hx). assert (Lx' : (x < clen s)%nat) by (unfold is_class in L; unfold clen; lia).
    destruct (v_table s I x t Lx' T) as (b & o & st & A1 & A2 & A3 & A4 & A5 & A6 & A7 & A8 & A9 & A10).
    destruct t as [|[n m] t]; [congruence|]. destruct (A10 n m) as (B1 & B2 & B3); [now left|]. apply (N m B1). unfold type_of. now rewrite B2.
  - unfold eenumerate, efields_of. destruct (ec_fields (cget s c)) as [f|] eqn:E; auto. exfalso.
    destruct (fields_some s c I L f E) as (m & Hm). apply (N m).
    + exact (v_valid s I c f m L E Hm).
    + exact (fields_above s c I L f m E Hm).
Qed.

Lemma C82_from_fields_pf : forall s u name fs cache s' c, ereached s -> is_class s u -> NoDup (map fst fs) ->
  fs <> [] -> enum_from_fields s u name fs cache = (s', Ok c) ->
  estep s (EFromFields u name fs cache) = s' /\ forall h, let now := erun s' h in
  (forall n v, In (n, v) fs -> exists m w, class_attr now c n = Ok (OMem m) /\ is_member now m /\ type_of now m = c /\ made_as now m n w /\ same_value v w) /\
  (forall m, is_member now m -> type_of now m = c -> exists n v w, In (n, v) fs /\ made_as now m n w /\ same_value v w).
Proof.
  intros s u name fs cache s' c R Hu Nd Hf H. pose proof (reached_inv s R) as I. split.
  { unfold estep. cbn [eok]. assert (Nd' := Nd). apply distinct_spec in Nd'. assert (Hu' := Hu). unfold is_class in Hu'. apply Nat.ltb_lt in Hu'. rewrite Nd', Hu'. cbn [andb negb].
    now rewrite H. }
  intros h now. unfold enum_from_fields in H. destruct (ec_fields (cget s u)); [discriminate|].
  destruct (existsb (fun f => str_mem (fst f) (reserved_names ++ reserved_sunders)) fs) eqn:Rs; [discriminate|].
  destruct (existsb (fun f => is_dunder (fst f)) fs); [discriminate|].
  destruct (stmt_members s name [u] cache fs [] s' c I) as (I' & L & t & b & E1 & E2 & E3 & E4 & E5 & E6); auto; [discriminate| | |].
  { intros b [<-|[]]. exact Hu. }
  { intros n Hn Hr. apply in_map_iff in Hn as (f & <- & Hf'). apply not_true_iff_false in Rs. apply Rs. apply existsb_exists. exists f. split; auto.
    now apply str_mem_In. }
  destruct (seen_members s' c fs t I' L E1 E4 E5 h) as [P Q]. fold now in P, Q. split; auto.
Qed.

Lemma C82_enumerate_pf : forall s c, ereached s -> (exists m, is_member s m /\ type_of s m = c) ->
  exists l t, eenumerate s c = Ok l /\ NoDup l /\ (forall m, In m l <-> is_member s m /\ type_of s m = c) /\
    efield_dict s c = Ok t /\ map snd t = l /\ NoDup (map fst t) /\ (forall n m, In (n, m) t -> em_name (mget s m) = n).
Proof.
  intros s c R (m0 & Hm & T). pose proof (reached_inv s R) as I. destruct (member_table s m0 I Hm) as (t & E & F & G & L). rewrite T in *.
  destruct (v_table s I c t L E) as (b & o & st & A1 & A2 & A3 & A4 & A5 & A6 & A7 & A8 & A9 & A10).
  exists (map snd t), t. split; [unfold eenumerate, efields_of; now rewrite A3|]. split; [rewrite A6; apply seq_NoDup|]. split.
  - intros m. rewrite in_map_iff. split.
    + intros ([n m'] & Q & H). cbn in Q. subst. destruct (A10 n m H) as (B1 & B2 & B3). auto.
    + intros [H1 H2]. destruct (member_table s m I H1) as (t' & E' & F' & _). rewrite H2, E in E'. inv E'. eexists. split; [|exact F']. reflexivity.
  - split; [unfold efield_dict; now rewrite G|]. split; auto. split; auto. intros n m H. now destruct (A10 n m H) as (_ & _ & B).
Qed.

Lemma C82_order_partial_pf : forall s name bases l cache s' c, ereached s -> bases <> [] -> (forall b, In b bases -> is_class s b) -> NoDup (map fst l) ->
  declared l <> [] -> enum_stmt s name bases l cache = (s', Ok c) ->
  (cache = false -> ~ is_class s c) /\
  (~ is_class s c -> forall h, let now := erun s' h in exists ms, eenumerate now c = Ok ms /\ map (fun m => em_name (mget now m)) ms = declared l /\
     forall n v, declares l n v -> exists m, In m ms /\ made_as now m n v).
Proof.
  intros s name bases l cache s' c R Hne Hb Nd Hd H. pose proof (reached_inv s R) as I.
  unfold enum_stmt in H. destruct (split_body l) as [[fs o]|e] eqn:Sp; [|discriminate].
  destruct (split_spec l fs o Sp) as (A & B & C & D). assert (Hf : fs <> []) by (intros ->; apply Hd; now rewrite <- B).
  assert (Nf : NoDup (map fst fs)) by (rewrite B; now apply declared_NoDup). split.
  { intros ->. destruct (handler_spec s false fs name bases o s' c I Hne Hb Nf C H) as (_ & _ & K). destruct K as [s' k Z| |s' c b _ _ [M _ _] _]; [contradiction|discriminate|].
    subst c. unfold is_class, clen. lia. }
  intros Nc h now. destruct (stmt_members s name bases cache fs o s' c I Hne Hb) as (I' & L & t & b & E1 & E2 & E3 & E4 & E5 & E6 & E7); auto.
  destruct E7 as [E7|E7]; [contradiction|]. destruct (E6 E7) as [F1 F2].
  destruct (v_table s' I' c t L E1) as (b' & o2 & st & A1 & A2 & A3 & A4 & A5 & A6 & A7 & A8 & A9 & A10).
  destruct (run_inv h s' I') as [I2 X]. fold now in I2, X. exists (map snd t).
  split; [unfold eenumerate, efields_of; now rewrite (ext_cget s' now), A3|]. split.
  - rewrite <- B, <- F1, map_map. apply map_ext_in. intros [n m] Q. cbn [fst snd]. destruct (A10 n m Q) as (B1 & B2 & B3). now rewrite (ext_mget s' now).
  - intros n v Q. apply A in Q. rewrite <- F2 in Q. unfold values_of in Q. apply in_map_iff in Q as ([n' m] & Q1 & Q2). cbn [fst snd] in Q1. inv Q1.
    exists m. split; [apply in_map_iff; now exists (n, m)|]. destruct (A10 n m Q2) as (B1 & B2 & B3). unfold made_as. now rewrite (ext_mget s' now).
Qed.

Lemma C82_order_refuted_pf : exists s l s' c, ereached s /\ NoDup (map fst l) /\ enum_stmt s "E" [c_Enum] l true = (s', Ok c) /\
  declared l = ["b"; "a"]%string /\ declares l "b" (VInt 1) /\
  exists ms m, eenumerate s' c = Ok ms /\ map (fun m => em_name (mget s' m)) ms = ["a"; "b"]%string /\
    class_attr s' c "b" = Ok (OMem m) /\ inst_attr s' m "value" = Ok (OVal (VBool true)).
Proof.
  exists (erun est0 [EClass "E" [0%nat] [("a"%string, NMember (VInt 0)); ("b"%string, NMember (VBool true))] true]).
  exists [("b"%string, NMember (VInt 1)); ("a"%string, NMember (VInt 0))]. eexists. exists 1%nat.
  split; [eexists; reflexivity|]. split; [repeat constructor; cbn; intuition discriminate|]. split; [vm_compute; reflexivity|].
  split; [reflexivity|]. split; [split; [now left|split; reflexivity]|]. exists [0; 1]%nat, 1%nat. split; [vm_compute; reflexivity|]. split; [vm_compute; reflexivity|].
  split; vm_compute; reflexivity.
Qed.

Lemma C82_call_pf : forall s c x, ereached s -> (forall m, x = OMem m -> is_member s m) ->
  ((exists m, x = OMem m /\ esub s (type_of s m) c) /\ ecall s c x = Ok x) \/
  (~ (exists m, x = OMem m /\ esub s (type_of s m) c) /\ ecall s c x = Raise ETypeError).
Proof.
  intros s c x R H. pose proof (reached_inv s R) as I. destruct x as [m| | | |]; try (right; split; [intros (m & E & _); discriminate|reflexivity]).
  cbn [ecall]. assert (Q := einst_sub s m c I (H m eq_refl)). destruct (einst s m c).
  - left. split; auto. exists m. split; auto. now apply Q.
  - right. split; auto. intros (m' & E & K). inv E. apply Q in K. discriminate.
Qed.

Lemma C82_name_partial_pf : forall s m n v, ereached s -> is_member s m -> made_as s m n v -> keeps s (type_of s m) "name" ->
  (forall m', is_member s m' -> type_of s m' = type_of s m -> em_name (mget s m') <> "_name_"%string) ->
  inst_attr s m "name" = Ok (OStr n) /\ erepr s m = Ok (ec_name (cget s (type_of s m)) ++ "." ++ n)%string.
Proof.
  intros s m n v R Hm [E1 E2] K Kn. pose proof (reached_inv s R) as I. destruct (member_table s m I Hm) as (t & E & F & G & L).
  assert (Q : inst_attr s m "name" = Ok (OStr n)).
  { unfold inst_attr. unfold type_of in G. rewrite G. fold (type_of s m).
    destruct (v_table s I _ t L E) as (b & o & st & A1 & A2 & A3 & A4 & A5 & A6 & A7 & A8 & A9 & A10).
    assert (N1 : str_mem "name" (map fst t) = false).
    { apply str_mem_false. intros Q. apply in_map_iff in Q as ([n' m'] & Q1 & Q2). cbn in Q1. subst n'.
      assert (Z : type_of s m = c_Enum).
      { apply (K (type_of s m)); [constructor|]. exists (EMem m'). rewrite A7. apply in_app_iff. left. apply in_map_iff. now exists ("name"%string, m'). }
      rewrite Z in E. unfold c_Enum in E. rewrite (v_zero s I) in E. discriminate. }
    assert (N2 : str_mem "_name_" (map fst t) = false).
    { apply str_mem_false. intros Q. apply in_map_iff in Q as ([n' m'] & Q1 & Q2). cbn in Q1. subst n'. destruct (A10 _ _ Q2) as (B1 & B2 & B3).
      exact (Kn m' B1 B2 B3). }
    rewrite N1. rewrite (enum_attr s (type_of s m) "name" I L K) by (cbn; auto). cbn [String.eqb Ascii.eqb Bool.eqb]. rewrite N2. now rewrite E1. }
  split; auto. unfold erepr. rewrite Q. reflexivity.
Qed.

Lemma C82_value_partial_pf : forall s m n v, ereached s -> is_member s m -> made_as s m n v -> keeps s (type_of s m) "value" ->
  inst_attr s m "value" = Ok (OVal v).
Proof.
  intros s m n v R Hm [E1 E2] K. pose proof (reached_inv s R) as I. destruct (member_table s m I Hm) as (t & E & F & G & L).
  unfold inst_attr. unfold type_of in G. rewrite G. fold (type_of s m).
  destruct (v_table s I _ t L E) as (b & o & st & A1 & A2 & A3 & A4 & A5 & A6 & A7 & A8 & A9 & A10).
  assert (N1 : str_mem "value" (map fst t) = false).
  { apply str_mem_false. intros Q. apply in_map_iff in Q as ([n' m'] & Q1 & Q2). cbn in Q1. subst n'.
    assert (Z : type_of s m = c_Enum).
    { apply (K (type_of s m)); [constructor|]. exists (EMem m'). rewrite A7. apply in_app_iff. left. apply in_map_iff. now exists ("value"%string, m'). }
    rewrite Z in E. unfold c_Enum in E. rewrite (v_zero s I) in E. discriminate. }
  rewrite N1. rewrite (enum_attr s (type_of s m) "value" I L K) by (cbn; auto). cbn [String.eqb Ascii.eqb Bool.eqb]. now rewrite E2.
Qed.

Lemma C82_names_refuted_pf : exists s l s' c m, ereached s /\ NoDup (map fst l) /\ enum_stmt s "E" [c_Enum] l true = (s', Ok c) /\
  class_attr s' c "a" = Ok (OMem m) /\ inst_attr s' m "name" = Raise EAttributeError /\ erepr s' m = Raise EAttributeError /\
  inst_attr s' m "value" = Raise EAttributeError /\
  snd (enum_stmt s "F" [c_Enum] [("unbound_t"%string, NMember (VInt 0))] true) = Raise EAttributeError.
Proof.
  exists est0, [("a"%string, NMember (VInt 0)); ("name"%string, NMember (VInt 1)); ("value"%string, NMember (VInt 2))]. eexists. exists 1%nat, 0%nat.
  split; [exists []; reflexivity|]. split; [repeat constructor; cbn; intuition discriminate|]. split; [vm_compute; reflexivity|].
  split; [vm_compute; reflexivity|]. split; [vm_compute; reflexivity|]. split; [vm_compute; reflexivity|]. split; vm_compute; reflexivity.
Qed.

Lemma C82_hidden_partial_pf : forall s m, ereached s -> is_member s m ->
  (forall k, is_member s k -> type_of s k = type_of s m -> inst_attr s m (em_name (mget s k)) = Raise EAttributeError) /\
  (top_enum s (type_of s m) -> forall n k, inst_attr s m n <> Ok (OMem k)).
Proof.
  intros s m R Hm. pose proof (reached_inv s R) as I. destruct (member_table s m I Hm) as (t & E & F & G & L). split.
  - intros k Hk T. destruct (member_table s k I Hk) as (t' & E' & F' & _). rewrite T, E in E'. inv E'. unfold inst_attr. unfold type_of in G. rewrite G.
    replace (str_mem (em_name (mget s k)) (map fst t')) with true; auto. symmetry. apply str_mem_In. apply in_map_iff. now exists (em_name (mget s k), k).
  - intros Top n k H. unfold inst_attr in H. unfold type_of in G. rewrite G in H. fold (type_of s m) in H.
    destruct (str_mem n (map fst t)) eqn:N; [discriminate|]. apply str_mem_false in N.
    assert (CA : cls_attr s (type_of s m) n = Some (EMem k)).
    { destruct (cls_attr s (type_of s m) n) as [[k'| |x]|]; try discriminate.
      - destruct (String.eqb n "_name_"); [discriminate|]. destruct (String.eqb n "_value_"); [discriminate|]. now inv H.
      - destruct (String.eqb n "value"); [discriminate|]. destruct (str_mem "_name_" (map fst t)); discriminate.
      - destruct (String.eqb n "_name_"); [discriminate|]. destruct (String.eqb n "_value_"); discriminate.
      - destruct (String.eqb n "_name_"); [discriminate|]. destruct (String.eqb n "_value_"); discriminate. }
    apply (cls_attr_above s _ n _ I L) in CA as (x & Sx & Ax & Lx).
    destruct (Nat.eq_dec x 0) as [->|Nx]. { rewrite (v_zero s I) in Ax. cbn in Ax. destruct Ax as [Ax|[Ax|[]]]; discriminate. }
    destruct (ec_table (cget s x)) as [tx|] eqn:Tx.
    + destruct (v_table s I x tx Lx Tx) as (b & o & st & A1 & A2 & A3 & A4 & A5 & A6 & A7 & A8 & A9 & A10). rewrite A7 in Ax.
      apply in_app_iff in Ax as [Ax|Ax].
      * apply in_map_iff in Ax as ([n' k'] & Q1 & Q2). unfold to_attr in Q1. cbn [fst snd] in Q1. inv Q1. destruct (A10 _ _ Q2) as (B1 & B2 & B3).
        destruct (Nat.eq_dec x (type_of s m)) as [Ex|Nex].
        -- rewrite Ex, E in Tx. inv Tx. apply N. apply in_map_iff. eexists. split; [|exact Q2]. reflexivity.
        -- apply (Top x k); auto.
      * unfold other_attrs in Ax. apply in_map_iff in Ax as (e & Q & _). discriminate.
    + destruct (v_plain s I x n (EMem k)) as (y & Q); auto; [lia|]. discriminate.
Qed.

Lemma C82_hidden_refuted_pf : exists s m n k, ereached s /\ is_member s m /\ is_member s k /\ inst_attr s m n = Ok (OMem k).
Proof.
  exists (erun est0 [EClass "E" [0%nat] [("a"%string, NMember (VInt 0))] true; EClass "F" [1%nat] [("b"%string, NMember (VInt 1))] true]), 1%nat, "a"%string, 0%nat.
  split; [eexists; reflexivity|]. split; [vm_compute; repeat constructor|]. split; [vm_compute; repeat constructor|]. vm_compute. reflexivity.
Qed.

Lemma C83_equal_pf : forall s x y vx vy nx ny, ereached s -> is_member s x -> is_member s y -> made_as s x nx vx -> made_as s y ny vy ->
  (mem_eqb s x y = true <-> (esub s (type_of s x) (type_of s y) \/ esub s (type_of s y) (type_of s x)) /\ same_value vx vy) /\
  mem_neb s x y = negb (mem_eqb s x y).
Proof.
  intros s x y vx vy nx ny R Hx Hy [_ <-] [_ <-]. pose proof (reached_inv s R) as I. split; auto. now apply mem_eqb_spec.
Qed.

Lemma C83_equivalence_partial_pf : forall s, ereached s ->
  (forall x, is_member s x -> mem_eqb s x x = true) /\
  (forall x y, is_member s x -> is_member s y -> mem_eqb s x y = mem_eqb s y x) /\
  (forall x y z, is_member s x -> is_member s y -> is_member s z -> esub s (type_of s x) (type_of s z) \/ esub s (type_of s z) (type_of s x) ->
     mem_eqb s x y = true -> mem_eqb s y z = true -> mem_eqb s x z = true) /\
  (forall hint haddr x y, is_member s x -> is_member s y -> mem_eqb s x y = true -> mem_hash hint haddr s x = mem_hash hint haddr s y).
Proof.
  intros s R. pose proof (reached_inv s R) as I. split; [|split; [|split]].
  - intros x Hx. apply mem_eqb_spec; auto. split; [left; constructor|apply same_value_refl].
  - intros x y Hx Hy. assert (A := mem_eqb_spec s x y I Hx Hy). assert (B := mem_eqb_spec s y x I Hy Hx).
    assert (S1 := same_value_sym (em_val (mget s x)) (em_val (mget s y))). assert (S2 := same_value_sym (em_val (mget s y)) (em_val (mget s x))).
    destruct (mem_eqb s x y), (mem_eqb s y x); auto; exfalso.
    + assert (false = true) by tauto. discriminate.
    + assert (false = true) by tauto. discriminate.
  - intros x y z Hx Hy Hz K H1 H2. apply (mem_eqb_spec s x y I Hx Hy) in H1 as [_ H1]. apply (mem_eqb_spec s y z I Hy Hz) in H2 as [_ H2].
    apply mem_eqb_spec; auto. split; auto. eapply same_value_trans; eauto.
  - intros hint haddr x y Hx Hy H. apply (mem_eqb_spec s x y I Hx Hy) in H as [_ H]. unfold mem_hash.
    destruct (em_val (mget s x)) as [z|b|i], (em_val (mget s y)) as [z'|b'|j]; cbn in H |- *; try contradiction; try destruct b; try destruct b'; congruence.
Qed.

Lemma C83_equivalence_refuted_pf : exists s x y z a b, ereached s /\ is_member s x /\ is_member s y /\ is_member s z /\
  mem_eqb s x y = true /\ mem_eqb s y z = true /\ mem_eqb s x z = false /\
  is_member s a /\ is_member s b /\ a <> b /\ type_of s a = type_of s b /\ mem_eqb s a b = true.
Proof.
  exists (erun est0 [EClass "E" [0%nat] [("a"%string, NMember (VInt 0)); ("b"%string, NMember (VInt 0))] true; EClass "F" [1%nat] [("c"%string, NMember (VInt 0))] true;
                     EClass "G" [1%nat] [("c"%string, NMember (VInt 0))] true]), 2%nat, 0%nat, 3%nat, 0%nat, 1%nat.
  split; [eexists; reflexivity|]. split; [vm_compute; repeat constructor|]. split; [vm_compute; repeat constructor|]. split; [vm_compute; repeat constructor|].
  split; [vm_compute; reflexivity|]. split; [vm_compute; reflexivity|]. split; [vm_compute; reflexivity|].
  split; [vm_compute; repeat constructor|]. split; [vm_compute; repeat constructor|]. split; [discriminate|]. split; vm_compute; reflexivity.
Qed.

Lemma C83_sub_enum_pf : forall s name b l cache s' c, ereached s -> is_class s b -> NoDup (map fst l) -> declared l <> [] ->
  enum_stmt s name [b] l cache = (s', Ok c) -> forall h, let now := erun s' h in
  eunbound_t now c = Ok b /\ (forall x, eissub now c x = true <-> x = c \/ esub now b x) /\
  (~ is_class s c -> forall n, ~ In n (map fst l) -> class_attr now c n = class_attr now b n).
Proof.
  intros s name b l cache s' c R Hb Nd Hd H h now. pose proof (reached_inv s R) as I.
  unfold enum_stmt in H. destruct (split_body l) as [[fs o]|e] eqn:Sp; [|discriminate].
  destruct (split_spec l fs o Sp) as (A & B & C & D). assert (Hf : fs <> []) by (intros ->; apply Hd; now rewrite <- B).
  assert (Nf : NoDup (map fst fs)) by (rewrite B; now apply declared_NoDup).
  assert (Hbs : forall x, In x [b] -> (x < clen s)%nat) by (intros x [<-|[]]; exact Hb).
  destruct (stmt_members s name [b] cache fs o s' c I ltac:(discriminate) Hbs) as (I' & L & t & b' & E1 & E2 & E3 & E4 & E5 & E6 & E7); auto. inv E2. rename b' into b.
  destruct (run_inv h s' I') as [I2 X]. fold now in I2, X. assert (L2 : (c < clen now)%nat) by (pose proof (ext_clen _ _ X); lia).
  assert (G : cget now c = cget s' c) by now apply ext_cget.
  destruct (v_table s' I' c t L E1) as (b2 & o2 & st & A1 & A2 & A3 & A4 & A5 & A6 & A7 & A8 & A9 & A10). rewrite E3 in A1. inv A1.
  split; [unfold eunbound_t; now rewrite G, A2|]. split.
  - intros x. rewrite (issub_sub now I2) by auto. split.
    + intros K. inversion K as [|u w z Hw Hs]; subst; [now left|]. rewrite G, E3 in Hw. destruct Hw as [<-|[]]. now right.
    + intros [->|K]; [constructor|]. econstructor; [rewrite G, E3; now left|exact K].
  - intros Nc n Hn. unfold class_attr. rewrite (cls_attr_single now c b2 n I2 L2) by (now rewrite G, E3).
    replace (assoc n (ec_attrs (cget now c))) with (@None eattr); auto. symmetry. apply assoc_None. rewrite G.
    destruct (handler_spec s cache fs name [b2] o s' c I ltac:(discriminate) Hbs Nf C H) as (_ & _ & K).
    destruct K as [s' k Z|k c _ _ Hin _|s' c b3 _ _ M _]; [contradiction|exfalso; apply Nc; now apply (v_cache s I k c)|].
    destruct M as [M1 (k & M2 & N1 & N2 & N3 & N4 & N5 & N6 & N7) M3]. subst c.
    replace (cget s' (clen s)) with k by (unfold cget, clen; rewrite M2, app_nth2, Nat.sub_diag by lia; reflexivity).
    rewrite N7, map_app, attr_names, table_fst. intros Q. apply in_app_iff in Q as [Q|Q].
    + apply Hn. rewrite B in Q. now apply declared_In.
    + apply Hn. unfold other_attrs in Q. rewrite map_map in Q. apply in_map_iff in Q as ([n' x] & Q1 & Q2). cbn in Q1. subst. apply in_map_iff.
      exists (n, x). split; auto.
Qed.

Lemma C83_no_members_pf : forall s name bases l cache s' c, ereached s -> bases <> [] -> (forall b, In b bases -> is_class s b) -> NoDup (map fst l) ->
  declared l = [] -> enum_stmt s name bases l cache = (s', Ok c) -> forall h, let now := erun s' h in
  efields_of now c = first_some (efields_of s) bases /\
  (forall ms m, eenumerate now c = Ok ms -> In m ms -> is_member now m /\ einst now m c = false /\ ecall now c (OMem m) = Raise ETypeError) /\
  (forall m, is_member now m -> type_of now m <> c).
Proof.
  intros s name bases l cache s' c R Hne Hb Nd Hd H h now. pose proof (reached_inv s R) as I.
  unfold enum_stmt in H. destruct (split_body l) as [[fs o]|e] eqn:Sp; [|discriminate].
  destruct (split_spec l fs o Sp) as (A & B & C & D). assert (Hf : fs = []) by (rewrite Hd in B; now destruct fs).
  assert (Nf : NoDup (map fst fs)) by (rewrite B; now apply declared_NoDup).
  destruct (handler_spec s cache fs name bases o s' c I Hne Hb Nf C H) as (I' & X' & K).
  destruct K as [s' k _ K ->|k c Z|s' c b Z]; [|congruence|congruence].
  apply new_cls_spec in K as (r & q & J & M & ->). set (k := EC name bases (clen s :: q) (fst r) None (unb_of (clen s) (fst r) (snd r)) (other_attrs o)) in *.
  destruct (run_inv h (put_cls s k) I') as [I2 X]. fold now in I2, X.
  assert (L1 : (clen s < clen (put_cls s k))%nat) by (unfold clen, put_cls; cbn; rewrite app_length; cbn; lia).
  assert (L2 : (clen s < clen now)%nat) by (pose proof (ext_clen _ _ X); lia).
  assert (G : cget now (clen s) = k).
  { rewrite (ext_cget (put_cls s k) now) by auto. unfold cget, put_cls, clen. cbn [eclasses]. now rewrite app_nth2, Nat.sub_diag by lia. }
  assert (T : forall m, is_member now m -> type_of now m <> clen s).
  { intros m Hm Q. destruct (member_table now m I2 Hm) as (t & E & _). rewrite Q, G in E. discriminate. }
  split; [|split; auto].
  - unfold efields_of at 1. rewrite G. cbn [ec_fields k]. apply join_first in J. exact J.
  - intros ms m E Hm. assert (F : ec_fields (cget now (clen s)) = Some ms) by (unfold eenumerate, efields_of in E; destruct (ec_fields (cget now (clen s))); now inv E).
    assert (V : (m < mlen now)%nat) by (eapply v_valid; eauto). split; [exact V|].
    assert (N : einst now m (clen s) = false).
    { destruct (einst now m (clen s)) eqn:Q; auto. apply einst_sub in Q; auto. exfalso. apply (T m V). apply (antisym now); auto.
      - apply (v_mem now I2 m V).
      - eapply fields_above; eauto. }
    split; auto. cbn [ecall]. now rewrite N.
Qed.

Lemma split_ok l : plain_body l -> exists fs o, split_body l = Ok (fs, o).
Proof.
  intros [Rs Dn]. induction l as [|[n x] l IH]; cbn [split_body]; [eauto|]. assert (Rn := Rs n x (or_introl eq_refl)). rewrite in_app_iff in Rn.
  assert (R1 : str_mem n reserved_sunders = false) by (apply str_mem_false; tauto). assert (R2 : str_mem n reserved_names = false) by (apply str_mem_false; tauto).
  rewrite R1, R2. destruct IH as (fs & o & E); [intros n' x' Q; apply (Rs n' x'); now right|intros n' d x' Q; apply (Dn n' d x'); now right|].
  destruct (is_dunder n || is_sunder n || match x with NMember _ => false | NOther _ d _ => d end).
  - assert (Q : String.eqb n "_name_" && match x with NMember _ => false | NOther _ d _ => d end = false).
    { destruct x as [v|i d hh]; [now rewrite andb_false_r|]. destruct d; [|now rewrite andb_false_r]. rewrite andb_true_r. apply String.eqb_neq.
      eapply Dn; now left. }
    rewrite Q, E. cbn. eauto.
  - rewrite E. cbn. destruct x; eauto.
Qed.

Lemma split_others l : forall fs o, split_body l = Ok (fs, o) -> forall n i d h, In (n, NOther i d h) l -> In (n, NOther i d h) o.
Proof.
  induction l as [|[n x] l IH]; intros fs o H; cbn [split_body] in H; [intros ? ? ? ? []|].
  destruct (str_mem n reserved_sunders); [discriminate|].
  destruct (is_dunder n || is_sunder n || match x with NMember _ => false | NOther _ d _ => d end).
  - destruct (String.eqb n "_name_" && _); [discriminate|]. destruct (split_body l) as [[fs' o']|] eqn:E; [|discriminate]. cbn in H. inv H.
    intros m i d h [Q|Q]; [left; exact Q|right; eapply IH; eauto].
  - destruct (str_mem n reserved_names); [discriminate|]. destruct (split_body l) as [[fs' o']|] eqn:E; [|discriminate]. cbn in H. destruct x; inv H.
    + intros m i d h [Q|Q]; [discriminate|eapply IH; eauto].
    + intros m i d h [Q|Q]; [left; exact Q|right; eapply IH; eauto].
Qed.

Lemma tuple_eqb_spec s : einv s -> forall a b, (forall x, In x a -> (x < mlen s)%nat) ->
  (tuple_eqb s a b = true <-> Forall2 (fun x y => mem_eqb s x y = true) a b).
Proof.
  intros I. induction a as [|x a IH]; intros [|y b] V; cbn [tuple_eqb].
  - split; constructor.
  - split; [discriminate|]. intros H. inversion H.
  - split; [discriminate|]. intros H. inversion H.
  - rewrite andb_true_iff, IH by (intros z Hz; apply V; now right). rewrite orb_true_iff.
    assert (Rf : mem_eqb s x x = true).
    { apply mem_eqb_spec; auto; try (apply V; now left). split; [left; constructor|apply same_value_refl]. }
    split.
    + intros [Q1 Q2]. constructor; auto. destruct Q1 as [Q1|Q1]; auto. apply Nat.eqb_eq in Q1. now subst.
    + intros H. inversion H; subst. auto.
Qed.

Lemma join_agree s bs : forall bt r, join_fields s bt bs = Ok r ->
  forall b fb f0, In b bs -> efields_of s b = Some fb -> (match bt with Some f => Some f | None => first_some (efields_of s) bs end) = Some f0 ->
  f0 = fb \/ tuple_eqb s f0 fb = true.
Proof.
  induction bs as [|a bs IH]; intros bt r H b fb f0 Hb Ef E0; [destruct Hb|]. cbn [join_fields first_some] in *.
  unfold efields_of at 1 in E0. destruct (ec_fields (cget s a)) as [f|] eqn:Ea.
  - destruct bt as [f'|].
    + destruct (tuple_eqb s f' f) eqn:T; [|discriminate]. inv E0. destruct Hb as [->|Hb]; [|eapply IH; eauto].
      unfold efields_of in Ef. rewrite Ea in Ef. inv Ef. auto.
    + inv E0. destruct Hb as [->|Hb]; [|eapply (IH (Some f0)); eauto]. unfold efields_of in Ef. rewrite Ea in Ef. inv Ef. auto.
  - destruct (join_fields s bt bs) as [q|] eqn:J; [|discriminate]. destruct Hb as [->|Hb]; [unfold efields_of in Ef; congruence|]. eapply IH; eauto.
Qed.

Lemma join_clash s bs : forall bt f0, (match bt with Some f => Some f | None => first_some (efields_of s) bs end) = Some f0 ->
  forall b fb, In b bs -> efields_of s b = Some fb -> f0 <> fb -> tuple_eqb s f0 fb = false -> join_fields s bt bs = Raise ETypeError.
Proof.
  induction bs as [|a bs IH]; intros bt f0 E0 b fb Hb Ef Nf T; [destruct Hb|]. cbn [join_fields first_some] in *.
  unfold efields_of at 1 in E0. destruct (ec_fields (cget s a)) as [f|] eqn:Ea.
  - destruct bt as [f'|].
    + inv E0. destruct Hb as [->|Hb].
      * unfold efields_of in Ef. rewrite Ea in Ef. inv Ef. now rewrite T.
      * destruct (tuple_eqb s f0 f); [|reflexivity]. eapply IH; eauto.
    + inv E0. destruct Hb as [->|Hb]; [unfold efields_of in Ef; rewrite Ea in Ef; inv Ef; contradiction|]. eapply (IH (Some f0)); eauto.
  - destruct Hb as [->|Hb]; [unfold efields_of in Ef; congruence|]. rewrite (IH bt f0 E0 b fb); auto.
Qed.

Lemma C83_two_bases_pf : forall s name bases l cache f0 b fb, ereached s -> bases <> [] -> (forall b, In b bases -> is_class s b) ->
  NoDup (map fst l) -> plain_body l -> declared l = [] -> first_some (efields_of s) bases = Some f0 -> In b bases -> efields_of s b = Some fb ->
  (forall s' c, enum_stmt s name bases l cache = (s', Ok c) -> Forall2 (fun x y => mem_eqb s x y = true) f0 fb) /\
  (~ Forall2 (fun x y => mem_eqb s x y = true) f0 fb -> enum_stmt s name bases l cache = (s, Raise ETypeError)).
Proof.
  intros s name bases l cache f0 b fb R Hne Hb Nd Pl Hd F0 Ib Fb. pose proof (reached_inv s R) as I. unfold enum_stmt.
  destruct (split_ok l Pl) as (fs & o & Sp). rewrite Sp. destruct (split_spec l fs o Sp) as (_ & B & _).
  assert (Hf : fs = []) by (rewrite Hd in B; now destruct fs). subst fs. cbn [handler].
  assert (V : forall c f m, is_class s c -> efields_of s c = Some f -> In m f -> (m < mlen s)%nat) by (intros c f m Hc Ef Hm; eapply v_valid; eauto).
  assert (exists c, In c bases /\ efields_of s c = Some f0) as (c0 & Ic & Ec) by now apply first_some_In in F0.
  assert (V0 : forall x, In x f0 -> (x < mlen s)%nat) by (intros x Hx; eapply V; eauto).
  assert (Same : f0 = fb -> Forall2 (fun x y => mem_eqb s x y = true) f0 fb).
  { intros <-. clear -I V0. induction f0 as [|x f IH]; constructor; [|apply IH; intros y Hy; apply V0; now right].
    apply mem_eqb_spec; auto; try (apply V0; now left). split; [left; constructor|apply same_value_refl]. }
  split.
  - intros s' c H. destruct (new_cls s name bases (other_attrs o)) as [k|] eqn:K; [|discriminate]. apply new_cls_spec in K as (r & q & J & _ & _).
    destruct (join_agree s bases None r J b fb f0 Ib Fb F0) as [Q|Q]; [auto|]. now apply (tuple_eqb_spec s I f0 fb V0).
  - intros N. unfold new_cls. rewrite (join_clash s bases None f0 F0 b fb); auto. destruct (tuple_eqb s f0 fb) eqn:T; auto.
    exfalso. apply N. now apply (tuple_eqb_spec s I f0 fb V0).
Qed.

Lemma C83_one_base_pf : forall s name b1 b2 bs l, ereached s -> declared l <> [] -> plain_body l -> enum_stmt s name (b1 :: b2 :: bs) l false = (s, Raise ETypeError).
Proof.
  intros s name b1 b2 bs l R Hd Pl. unfold enum_stmt. destruct (split_ok l Pl) as (fs & o & E). rewrite E.
  destruct (split_spec l fs o E) as (_ & B & _). destruct fs as [|f fs]; [exfalso; apply Hd; now rewrite <- B|]. reflexivity.
Qed.

Lemma C82_accepted_pf : forall s name b l cache, ereached s -> is_class s b -> declared l <> [] -> plain_body l -> ~ In "unbound_t"%string (declared l) ->
  (cache = true -> forall n i d h, In (n, NOther i d h) l -> is_dunder n = false -> h = true) ->
  exists s' c, enum_stmt s name [b] l cache = (s', Ok c).
Proof.
  intros s name b l cache R Hb Hd Pl Hu Hh. pose proof (reached_inv s R) as I. unfold enum_stmt.
  destruct (split_ok l Pl) as (fs & o & Sp). rewrite Sp. destruct (split_spec l fs o Sp) as (_ & B & _ & D).
  assert (Ne : exists s' c, new_enum s fs name [b] (other_attrs o) = (s', Ok c)).
  { unfold new_enum, new_cls. rewrite (c3_single s I b Hb). cbn [join_fields].
    assert (Ju : exists r, (match ec_fields (cget s b) with Some f => Ok (Some f, []) | None => Ok (None, [b]) end) = Ok r) by (destruct (ec_fields (cget s b)); eauto).
    rewrite B. rewrite (proj2 (str_mem_false _ _) Hu). destruct (ec_fields (cget s b)); cbn; eauto. }
  destruct Ne as (s1 & c1 & Ne). destruct fs as [|f fs]; [exfalso; apply Hd; now rewrite <- B|]. cbn [handler]. destruct cache; [|eauto].
  destruct (existsb _ o) eqn:Ex.
  - exfalso. apply existsb_exists in Ex as ([n x] & Io & Q). cbn [fst snd] in Q. apply andb_true_iff in Q as [Q1 Q2]. apply negb_true_iff in Q1, Q2.
    destruct x as [v|i d h]; [discriminate|]. cbn in Q2. rewrite (Hh eq_refl n i d h (D _ _ Io) Q1) in Q2. discriminate.
  - destruct (elookup s _); [eauto|]. rewrite Ne. eauto.
Qed.

Lemma C82_unhashable_pf : forall s name bases l n i d, declared l <> [] -> plain_body l -> In (n, NOther i d false) l -> is_dunder n = false ->
  enum_stmt s name bases l true = (s, Raise ETypeError).
Proof.
  intros s name bases l n i d Hd Pl Hn Du. unfold enum_stmt. destruct (split_ok l Pl) as (fs & o & Sp). rewrite Sp.
  destruct (split_spec l fs o Sp) as (_ & B & _). destruct fs as [|f fs]; [exfalso; apply Hd; now rewrite <- B|]. cbn [handler].
  replace (existsb _ o) with true; [reflexivity|]. symmetry. apply existsb_exists. exists (n, NOther i d false). split; [eapply split_others; eauto|].
  cbn. now rewrite Du.
Qed.

Lemma C82_reserved_pf : forall s name bases l cache n x, (forall i h, ~ In ("_name_"%string, NOther i true h) l) -> In (n, x) l ->
  In n reserved_sunders \/ (In n reserved_names /\ is_dunder n = false /\ is_sunder n = false /\ forall i h, x <> NOther i true h) ->
  enum_stmt s name bases l cache = (s, Raise EReservedName).
Proof.
  intros s name bases l cache n x Nn Hn Hr. unfold enum_stmt. replace (split_body l) with (@Raise (efields * body) EReservedName); [reflexivity|]. symmetry.
  induction l as [|[m y] l IH]; [destruct Hn|]. cbn [split_body]. destruct (str_mem m reserved_sunders) eqn:R1; auto.
  assert (IH' : In (n, x) l -> split_body l = Raise EReservedName) by (intros Q; apply IH; auto; intros i h Q'; apply (Nn i h); now right).
  assert (Here : (m, y) = (n, x) -> In m reserved_names /\ is_dunder m = false /\ is_sunder m = false /\ forall i h, y <> NOther i true h).
  { intros Q. inv Q. destruct Hr as [Hr|Hr]; auto. apply str_mem_In in Hr. congruence. }
  destruct (is_dunder m || is_sunder m || match y with NMember _ => false | NOther _ d _ => d end) eqn:Sp.
  - replace (String.eqb m "_name_" && _) with false.
    2:{ symmetry. destruct y as [v|i d h]; [apply andb_false_r|]. destruct d; [|apply andb_false_r]. rewrite andb_true_r. apply String.eqb_neq.
        intros ->. apply (Nn i h). now left. }
    destruct Hn as [Hn|Hn]; [|now rewrite (IH' Hn)]. exfalso. destruct (Here Hn) as (_ & Q1 & Q2 & Q3). rewrite Q1, Q2 in Sp. cbn in Sp.
    destruct y as [v|i d h]; [discriminate|]. subst d. now apply (Q3 i h).
  - destruct (str_mem m reserved_names) eqn:R2; auto. destruct Hn as [Hn|Hn]; [|now rewrite (IH' Hn)].
    exfalso. destruct (Here Hn) as (Q & _). apply str_mem_In in Q. congruence.
Qed.

Lemma C83_fields_partial_pf : forall s c l, ereached s -> is_class s c -> elinear s c -> eenumerate s c = Ok l ->
  exists t, efield_dict s c = Ok t /\ map snd t = l.
Proof.
  intros s c l R Hc Lin H. pose proof (reached_inv s R) as I. assert (E : ec_fields (cget s c) = Some l).
  { unfold eenumerate, efields_of in H. destruct (ec_fields (cget s c)); now inv H. }
  clear H. enough (Q : exists t, etable s c = Some t /\ map snd t = l) by (destruct Q as (t & Q1 & Q2); exists t; unfold efield_dict; now rewrite Q1).
  induction c as [c IH] using lt_wf_ind. destruct (ec_table (cget s c)) as [t|] eqn:T.
  - destruct (v_table s I c t Hc T) as (b & o & st & A1 & A2 & A3 & _). exists t. split; [now apply (first_here (fun x => ec_table (cget s x)) s)|]. congruence.
  - destruct (Nat.eq_dec c 0) as [->|N]; [rewrite (v_zero s I) in E; discriminate|].
    assert (L1 := Lin c (esub_refl s c)). assert (Hn := v_nonempty s I c ltac:(unfold is_class in Hc; unfold clen; lia)).
    destruct (v_join s I c) as (r & J & F & _); [unfold is_class in Hc; unfold clen; lia|auto|].
    destruct (ec_bases (cget s c)) as [|b [|b2 bs]] eqn:Eb; [congruence| |cbn in L1; lia].
    assert (Lb : (b < c)%nat) by (apply (v_bases s I c b Hc); rewrite Eb; now left).
    rewrite (etable_single s c b I Hc Eb), T. apply join_first in J. cbn [first_some] in J. apply (IH b Lb).
    + unfold is_class in *. lia.
    + eapply elinear_up; eauto. rewrite Eb. now left.
    + destruct (ec_fields (cget s b)); congruence.
Qed.

Lemma C83_fields_refuted_pf : exists s c, ereached s /\ is_class s c /\ eenumerate s c = Ok [0%nat] /\ efield_dict s c = Ok [("b"%string, 1%nat)] /\
  made_as s 0 "a" (VInt 0) /\ made_as s 1 "b" (VInt 0).
Proof.
  exists (erun est0 [EClass "E" [0%nat] [("a"%string, NMember (VInt 0))] true; EClass "F" [1%nat] [("b"%string, NMember (VInt 0))] true;
                     EClass "G" [1%nat] [] true; EClass "H" [3; 2]%nat [] true]), 4%nat.
  split; [eexists; reflexivity|]. split; [vm_compute; repeat constructor|]. split; [vm_compute; reflexivity|]. split; [vm_compute; reflexivity|].
  split; split; vm_compute; reflexivity.
Qed.
