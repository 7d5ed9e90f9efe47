(** Facts about the class cache: field comparison, names, and the invariant of the cache. *)
From Coq Require Import Lia.
From Verif Require Import PyBase InternModel InternSpec.

(* ---------- comparison ---------- *)
Lemma nval_eqb_iff : forall v w, nval_eqb v w = true <-> same_value v w.
Proof.
  intros v w. unfold same_value, nval_eqb. split.
  - destruct v as [c|z|b|i|i d], w as [c'|z'|b'|i'|i' d']; cbn; intros H; try discriminate;
      try (right; eexists; split; [reflexivity|f_equal; lia]);
      [left; f_equal; now apply Nat.eqb_eq | left; f_equal; lia |].
    apply andb_true_iff in H as [H1 H2]. left. apply Bool.eqb_prop in H2. apply Z.eqb_eq in H1. now subst.
  - intros [->|(z & H1 & H2)].
    + destruct w as [c|z|b|i|i d]; cbn; try apply Z.eqb_refl; [apply Nat.eqb_refl|].
      now rewrite Z.eqb_refl, Bool.eqb_reflx.
    + destruct v, w; cbn in *; try discriminate; injection H1 as <-; injection H2 as H2; lia.
Qed.
Lemma field_eqb_iff : forall f g, field_eqb f g = true <-> same_field f g.
Proof.
  intros f g. unfold field_eqb, same_field. rewrite andb_true_iff, nval_eqb_iff, String.eqb_eq. tauto.
Qed.
Lemma seq_eqb_iff : forall a b, seq_eqb a b = true <-> Forall2 same_field a b.
Proof.
  induction a as [|x a IH]; intros [|y b]; cbn; split; intros H; try discriminate; try constructor; try (now inversion H).
  - apply andb_true_iff in H as [H1 H2]. now apply field_eqb_iff.
  - apply andb_true_iff in H as [H1 H2]. now apply IH.
  - inversion_clear H. apply andb_true_iff. split; [now apply field_eqb_iff|now apply IH].
Qed.
Lemma subset_eqb_iff : forall a b, subset_eqb a b = true <-> forall f, In f a -> exists g, In g b /\ same_field f g.
Proof.
  intros a b. unfold subset_eqb. rewrite forallb_forall. split.
  - intros H f Hf. apply H in Hf. apply existsb_exists in Hf as (g & Hg & E). exists g. split; [easy|now apply field_eqb_iff].
  - intros H f Hf. apply H in Hf as (g & Hg & E). apply existsb_exists. exists g. split; [easy|now apply field_eqb_iff].
Qed.
Lemma same_value_refl : forall v, same_value v v. Proof. now left. Qed.
Lemma same_value_sym : forall v w, same_value v w -> same_value w v.
Proof. intros v w [->|(z & H)]; [now left|right; exists z; tauto]. Qed.
Lemma same_value_trans : forall u v w, same_value u v -> same_value v w -> same_value u w.
Proof.
  intros u v w [->|(z & H1 & H2)] [->|(z' & H3 & H4)]; [now left|right; now exists z'|right; now exists z|].
  right. exists z. split; congruence.
Qed.
Lemma same_field_refl : forall f, same_field f f. Proof. intros f; split; [easy|apply same_value_refl]. Qed.
Lemma same_field_sym : forall f g, same_field f g -> same_field g f.
Proof. intros f g [H1 H2]; split; [easy|now apply same_value_sym]. Qed.
Lemma same_field_trans : forall f g h, same_field f g -> same_field g h -> same_field f h.
Proof. intros f g h [H1 H2] [H3 H4]; split; [congruence|eapply same_value_trans; eassumption]. Qed.
Lemma fields_eqb_iff : forall o a b, fields_eqb o a b = true <-> same_fields o a b.
Proof.
  intros [|] a b; unfold fields_eqb, same_fields; [apply seq_eqb_iff|].
  rewrite andb_true_iff, !subset_eqb_iff. split; intros [H1 H2]; (split; [exact H1|]); intros g Hg;
    apply H2 in Hg as (f & Hf & E); exists f; (split; [easy|now apply same_field_sym]).
Qed.
Lemma same_fields_refl : forall o a, same_fields o a a.
Proof.
  intros [|] a; cbn.
  - induction a; constructor; [apply same_field_refl|easy].
  - split; intros f Hf; exists f; (split; [easy|apply same_field_refl]).
Qed.
Lemma same_fields_sym : forall o a b, same_fields o a b -> same_fields o b a.
Proof.
  intros [|] a b; cbn.
  - induction 1; constructor; [now apply same_field_sym|easy].
  - intros [H1 H2]. split; intros f Hf; [apply H2 in Hf|apply H1 in Hf]; destruct Hf as (g & Hg & E); exists g;
      (split; [easy|now apply same_field_sym]).
Qed.
Lemma same_fields_trans : forall o a b c, same_fields o a b -> same_fields o b c -> same_fields o a c.
Proof.
  intros [|] a b c; cbn.
  - intros H; revert c. induction H as [|x y a b Hxy H IH]; intros c Hc; inversion_clear Hc; constructor; [|now apply IH].
    eapply same_field_trans; eassumption.
  - intros [H1 H2] [H3 H4]. split.
    + intros f Hf. apply H1 in Hf as (g & Hg & E). apply H3 in Hg as (h & Hh & E'). exists h. split; [easy|].
      eapply same_field_trans; eassumption.
    + intros h Hh. apply H4 in Hh as (g & Hg & E). apply H2 in Hg as (f & Hf & E'). exists f. split; [easy|].
      eapply same_field_trans; eassumption.
Qed.

Local Opaque same_fields.
(** Key equality is an equivalence. *)
Definition same_key (a b : ckey) : Prop :=
  match a, b with
  | KGet u o fs, KGet u' o' fs' => u = u' /\ o = o' /\ same_fields o fs fs'
  | KAttr u o n fs ns, KAttr u' o' n' fs' ns' =>
      u = u' /\ o = o' /\ n = n' /\ same_fields o fs fs' /\ same_fields false ns ns'
  | _, _ => False
  end.
Lemma key_eqb_iff : forall a b, key_eqb a b = true <-> same_key a b.
Proof.
  intros [u o fs|u o n fs ns] [u' o' fs'|u' o' n' fs' ns']; cbn [key_eqb same_key]; try easy;
    rewrite ?andb_true_iff, !fields_eqb_iff, Nat.eqb_eq, Bool.eqb_true_iff, ?String.eqb_eq; tauto.
Qed.
Lemma same_key_refl : forall a, same_key a a.
Proof.
  intros [u o fs|u o n fs ns]; cbn.
  - do 2 (split; [reflexivity|]). apply same_fields_refl.
  - do 3 (split; [reflexivity|]). split; apply same_fields_refl.
Qed.
Lemma same_key_sym : forall a b, same_key a b -> same_key b a.
Proof.
  intros [u o fs|u o n fs ns] [u' o' fs'|u' o' n' fs' ns']; cbn; try easy.
  - intros (-> & -> & H). do 2 (split; [reflexivity|]). now apply same_fields_sym.
  - intros (-> & -> & -> & H & H'). do 3 (split; [reflexivity|]). split; now apply same_fields_sym.
Qed.
Lemma same_key_trans : forall a b c, same_key a b -> same_key b c -> same_key a c.
Proof.
  intros [u o fs|u o n fs ns] [u' o' fs'|u' o' n' fs' ns'] [u2 o2 fs2|u2 o2 n2 fs2 ns2]; cbn; try easy.
  - intros (-> & -> & H) (-> & -> & H'). do 2 (split; [reflexivity|]). eapply same_fields_trans; eassumption.
  - intros (-> & -> & -> & H & H') (-> & -> & -> & H2 & H3). do 3 (split; [reflexivity|]).
    split; eapply same_fields_trans; eassumption.
Qed.

(* ---------- names ---------- *)
Lemma last2_app : forall p a b c, last2 (p ++ String a (String b (String c EmptyString))) = Some (c, b, a).
Proof.
  induction p as [|x p IH]; intros a b c; [reflexivity|].
  cbn [String.append]. specialize (IH a b c).
  destruct p as [|x1 [|x2 [|x3 p]]]; cbn [String.append] in *; [reflexivity|reflexivity|reflexivity|]. exact IH.
Qed.
Lemma last2_inv : forall s z y x, last2 s = Some (z, y, x) -> exists p, s = (p ++ String x (String y (String z EmptyString)))%string.
Proof.
  induction s as [|c s IH]; intros z y x H; [discriminate|].
  destruct s as [|c1 s]; [discriminate|]. destruct s as [|c2 s]; [discriminate|].
  destruct s as [|c3 s].
  - cbn in H. injection H as -> -> ->. now exists EmptyString.
  - change (last2 (String c1 (String c2 (String c3 s))) = Some (z, y, x)) in H.
    apply IH in H as (p & ->). now exists (String c p).
Qed.
Lemma is_us_iff : forall a, is_us a = true <-> a = "_"%char.
Proof. intros a. apply Ascii.eqb_eq. Qed.
Lemma append_assoc : forall a b c : string, ((a ++ b) ++ c = a ++ b ++ c)%string.
Proof. induction a as [|x a IH]; intros b c; [reflexivity|]. cbn. now rewrite IH. Qed.
Lemma append_length : forall a b : string, String.length (a ++ b) = (String.length a + String.length b)%nat.
Proof. induction a as [|x a IH]; intros b; [reflexivity|]. cbn. now rewrite IH. Qed.
(** The last character. *)
Lemma last_char : forall s, s <> EmptyString -> exists p a, s = (p ++ String a EmptyString)%string.
Proof.
  induction s as [|c s IH]; intros H; [easy|]. destruct s as [|c1 s]; [now exists EmptyString, c|].
  destruct IH as (p & a & E); [discriminate|]. exists (String c p), a. cbn. now rewrite <- E.
Qed.
Lemma app_last_inj : forall p q a b, (p ++ String a EmptyString = q ++ String b EmptyString)%string -> p = q /\ a = b.
Proof.
  induction p as [|x p IH]; intros [|y q] a b H; cbn in H.
  - now injection H as ->.
  - destruct q; discriminate.
  - destruct p; discriminate.
  - injection H as -> H. apply IH in H as [-> ->]. easy.
Qed.
Lemma inner_ends : forall m, inner m <-> exists a r p z, m = String a r /\ m = (p ++ String z EmptyString)%string /\ a <> "_"%char /\ z <> "_"%char.
Proof.
  intros m. split.
  - intros (H0 & H1 & H2). destruct m as [|a r]; [easy|].
    destruct (last_char (String a r) H0) as (p & z & E). exists a, r, p, z.
    do 2 (split; [easy|]). split; intros ->; [now apply (H1 r)|now apply (H2 p)].
  - intros (a & r & p & z & -> & E & Ha & Hz). split; [discriminate|]. split.
    + intros r' H. injection H as -> _. easy.
    + intros r' H. rewrite E in H. apply app_last_inj in H as [_ ->]. easy.
Qed.
Lemma is_sunder_iff : forall n, is_sunder n = true <-> sunder_name n.
Proof.
  intros n. unfold is_sunder, sunder_name. split.
  - intros H. apply andb_true_iff in H as [HL H]. apply Nat.ltb_lt in HL.
    destruct n as [|a [|b n]]; try discriminate. destruct (last2 _) as [[[z y] x]|] eqn:E; [|discriminate].
    apply last2_inv in E as (p & E). apply andb_true_iff in H as [H Hy]. apply andb_true_iff in H as [H Hb].
    apply andb_true_iff in H as [Ha Hz]. apply is_us_iff in Ha, Hz. apply negb_true_iff in Hy, Hb. subst a z.
    assert (Hy' : y <> "_"%char) by (intros ->; discriminate).
    assert (Hb' : b <> "_"%char) by (intros ->; discriminate).
    destruct p as [|a p].
    + injection E as <- -> ->. exists (String y EmptyString). split; [|reflexivity].
      apply inner_ends. exists y, EmptyString, EmptyString, y. easy.
    + injection E as <- E. exists (p ++ String x (String y EmptyString))%string. split.
      * apply inner_ends. destruct p as [|b' p]; cbn in E; injection E as <- E.
        -- now exists b, (String y EmptyString), (String b EmptyString), y.
        -- exists b, (p ++ String x (String y EmptyString))%string, (String b p ++ String x EmptyString)%string, y.
           split; [reflexivity|]. split; [now rewrite append_assoc|easy].
      * unfold us. cbn. f_equal. rewrite E. rewrite append_assoc. reflexivity.
  - intros (m & Hm & ->). apply inner_ends in Hm as (a & r & p & z & E & E' & Ha & Hz).
    unfold us. rewrite E' at 1. rewrite append_length, !append_length. cbn [String.length].
    apply andb_true_iff. split; [apply Nat.ltb_lt; lia|].
    assert (H : exists q x, ("_" ++ m ++ "_")%string = (q ++ String x (String z (String "_" EmptyString)))%string).
    { rewrite E'. clear E' E. destruct p as [|b p].
      - exists EmptyString, "_"%char. reflexivity.
      - destruct (last_char (String b p)) as (q & x & ->); [discriminate|].
        exists ("_" ++ q)%string, x. rewrite !append_assoc. reflexivity. }
    destruct H as (q & x & H). pose proof (last2_app q x z "_") as L. rewrite <- H, E in L. cbn [String.append] in L.
    rewrite E. cbn [String.append]. rewrite L. cbn.
    apply andb_true_iff. split; apply negb_true_iff; apply Ascii.eqb_neq; easy.
Qed.
Lemma is_dunder_iff : forall n, is_dunder n = true <-> dunder_name n.
Proof.
  intros n. unfold is_dunder, dunder_name. split.
  - intros H. apply andb_true_iff in H as [HL H]. apply Nat.ltb_lt in HL.
    destruct n as [|a [|b [|c n]]]; try discriminate. destruct (last2 _) as [[[z y] x]|] eqn:E; [|discriminate].
    apply last2_inv in E as (p & E).
    repeat (apply andb_true_iff in H as [H ?]). repeat match goal with H : is_us _ = true |- _ => apply is_us_iff in H end.
    subst a b z y.
    assert (Hx' : x <> "_"%char) by (intros ->; discriminate).
    assert (Hc' : c <> "_"%char) by (intros ->; discriminate).
    destruct p as [|a p]; [injection E; intros; subst; cbn in HL; lia|]. injection E as <- E.
    destruct p as [|b p]; [injection E; intros; subst; cbn in HL; lia|]. injection E as <- E.
    exists (p ++ String x EmptyString)%string. split.
    + apply inner_ends. destruct p as [|b' p]; cbn in E; injection E as <- E.
      * now exists c, EmptyString, EmptyString, c.
      * now exists c, (p ++ String x EmptyString)%string, (String c p), x.
    + unfold us. cbn. do 2 f_equal. rewrite E. now rewrite !append_assoc.
  - intros (m & Hm & ->). apply inner_ends in Hm as (a & r & p & z & E & E' & Ha & Hz).
    unfold us. rewrite E' at 1. rewrite !append_length. cbn [String.length].
    apply andb_true_iff. split; [apply Nat.ltb_lt; lia|].
    assert (H : ("_" ++ ("_" ++ m ++ "_") ++ "_")%string = (("__" ++ p) ++ String z (String "_" (String "_" EmptyString)))%string).
    { rewrite E'. rewrite !append_assoc. reflexivity. }
    pose proof (last2_app ("__" ++ p) z "_" "_") as L. rewrite <- H, E in L. cbn [String.append] in L.
    rewrite E. cbn [String.append]. rewrite L. cbn.
    apply andb_true_iff. split; apply negb_true_iff; apply Ascii.eqb_neq; easy.
Qed.
Lemma str_mem_iff : forall n l, str_mem n l = true <-> In n l.
Proof.
  intros n l. unfold str_mem. rewrite existsb_exists. split.
  - intros (m & H & E). apply String.eqb_eq in E. now subst.
  - intros H. exists n. split; [easy|apply String.eqb_refl].
Qed.

(* ---------- the namespace of a class statement ---------- *)
Lemma field_type_iff : forall m v, field_type m v = true <-> value_of_kind m v.
Proof.
  intros m v. unfold value_of_kind. destruct m, v; cbn; split; intros H; try discriminate; try easy;
    try (now destruct H as (c & H)); try (now eexists); try (now left; eexists); try (now right; left; eexists);
    try (now right; right; eexists);
    destruct H as [(? & H)|[(? & H)|(? & H)]]; discriminate.
Qed.
Lemma kind_not_descr : forall m v, value_of_kind m v -> is_descriptor v = false.
Proof.
  intros m v. destruct m; cbn; try easy; try (intros (c & ->); reflexivity).
  intros [(z & ->)|[(b & ->)|(i & ->)]]; reflexivity.
Qed.
Lemma dunder_dec : forall n, {dunder_name n} + {~ dunder_name n}.
Proof.
  intros n. destruct (is_dunder n) eqn:E; [left; now apply is_dunder_iff|right].
  rewrite <- is_dunder_iff. now rewrite E.
Qed.
Lemma is_field_iff : forall m f,
  is_field m f <-> is_dunder (fst f) = false /\ is_sunder (fst f) = false /\ field_type m (snd f) = true.
Proof.
  intros m f. unfold is_field. rewrite <- is_dunder_iff, <- is_sunder_iff, <- field_type_iff.
  rewrite !Bool.not_true_iff_false. tauto.
Qed.
Lemma reserved_word_plain : forall n, reserved_word n -> is_dunder n || is_sunder n = false.
Proof. intros n H. unfold reserved_word in H. cbn in H. repeat destruct H as [<-|H]; try reflexivity. easy. Qed.
(** split_ns fails exactly on a forbidden entry, and otherwise selects the fields. *)
Lemma split_ns_spec : forall m l,
  match split_ns m l with
  | None => exists f, In f l /\ forbidden f
  | Some (fs, ns) =>
      (forall f, In f l -> ~ forbidden f) /\
      selects (is_field m) l fs /\ selects (fun f => ~ is_field m f) l ns
  end.
Proof.
  intros m. induction l as [|f l IH]; cbn [split_ns].
  { split; [now intros f []|]. split; constructor. }
  destruct (str_mem (fst f) reserved_sunders) eqn:E1.
  { exists f. split; [now left|]. left. now apply str_mem_iff. }
  assert (N1 : ~ reserved_private (fst f)).
  { unfold reserved_private. fold reserved_sunders. rewrite <- str_mem_iff. now rewrite E1. }
  destruct (is_dunder (fst f) || is_sunder (fst f) || is_descriptor (snd f)) eqn:E2.
  { assert (N2 : ~ is_field m f).
    { intros H. pose proof (kind_not_descr _ _ (proj2 (proj2 H))) as Hd. apply is_field_iff in H as (Hu & Hs & _).
      rewrite Hu, Hs, Hd in E2. discriminate. }
    destruct (split_ns m l) as [[fs ns]|]; cbn [option_map fst snd app].
    - destruct IH as (I1 & I2 & I3). split; [|split; constructor; auto].
      intros g [<-|Hg]; [|now apply I1]. intros [H|[H H']]; [now apply N1|].
      rewrite H', orb_false_r in E2. rewrite (reserved_word_plain _ H) in E2. discriminate.
    - destruct IH as (g & Hg & Hf). exists g. split; [now right|easy]. }
  apply orb_false_iff in E2 as [E2 Ed]. apply orb_false_iff in E2 as [Eu Es].
  destruct (str_mem (fst f) reserved_names) eqn:E3.
  { exists f. split; [now left|]. right. split; [now apply str_mem_iff|easy]. }
  assert (N3 : ~ reserved_word (fst f)).
  { unfold reserved_word. fold reserved_names. rewrite <- str_mem_iff. now rewrite E3. }
  assert (NF : ~ forbidden f) by (intros [H|[H _]]; auto).
  destruct (field_type m (snd f)) eqn:E4.
  - assert (Y : is_field m f) by (apply is_field_iff; auto).
    destruct (split_ns m l) as [[fs ns]|]; cbn [option_map fst snd app].
    + destruct IH as (I1 & I2 & I3). split; [|split; constructor; auto].
      intros g [<-|Hg]; [easy|now apply I1].
    + destruct IH as (g & Hg & Hf). exists g. split; [now right|easy].
  - assert (Y : ~ is_field m f) by (rewrite is_field_iff, E4; now intros (_ & _ & H)).
    destruct (split_ns m l) as [[fs ns]|]; cbn [option_map fst snd app].
    + destruct IH as (I1 & I2 & I3). split; [|split; constructor; auto].
      intros g [<-|Hg]; [easy|now apply I1].
    + destruct IH as (g & Hg & Hf). exists g. split; [now right|easy].
Qed.
