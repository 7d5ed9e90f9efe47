(** Lemmas on equality and hashing of instances (C45, C40). *)
From Coq Require Import Lia Sorted.
From Verif Require Import PyBase BVModel ADTTy ADTTyFacts ADTModel ADTSpec ADTFacts ADTValFacts.

Lemma all_eq_true {A B} (f : A -> B -> res bool) l m : all_eq f l m = Ok true <-> Forall2 (fun x y => f x y = Ok true) l m.
Proof.
  revert m. induction l as [|x l IH]; intros [|y m]; cbn [all_eq].
  - split; auto.
  - split; [discriminate|]. intros F. inversion F.
  - split; [discriminate|]. intros F. inversion F.
  - fold (all_eq f). destruct (f x y) as [[|]|e] eqn:E; cbn [bind].
    + rewrite IH. split; intros F. { constructor; auto. } now inversion F.
    + split; [discriminate|]. intros F. inversion F; subst. congruence.
    + split; [discriminate|]. intros F. inversion F; subst. congruence.
Qed.
Lemma all_eq_ext {A B C D} (f : A -> B -> res bool) (g : C -> D -> res bool) l m l' m' :
  length l = length l' -> length m = length m' ->
  (forall i x y x' y', nth_error l i = Some x -> nth_error m i = Some y -> nth_error l' i = Some x' -> nth_error m' i = Some y' -> f x y = g x' y') ->
  all_eq f l m = all_eq g l' m'.
Proof.
  revert m l' m'. induction l as [|x l IH]; intros [|y m] [|x' l'] [|y' m'] E1 E2 Q; cbn in E1, E2; try discriminate; auto.
  cbn [all_eq]. fold (all_eq f) (all_eq g). rewrite (Q 0%nat x y x' y' eq_refl eq_refl eq_refl eq_refl). destruct (g x' y') as [[|]|]; cbn [bind]; auto.
  apply IH; auto. intros i. exact (Q (S i)).
Qed.

Section Eq.
Context (H : Z -> Z -> bool) (L : ty -> Z -> ty -> Z -> res bool).

Lemma ty_eqb_sym a b : ty_eqb a b = ty_eqb b a.
Proof. destruct (ty_eqb_spec a b), (ty_eqb_spec b a); congruence. Qed.
Lemma evalue_eqb_eq a b : evalue_eqb a b = true <-> a = b.
Proof. destruct a, b; cbn; try rewrite Z.eqb_eq; split; congruence. Qed.
Lemma evalue_eqb_sym a b : evalue_eqb a b = evalue_eqb b a.
Proof. destruct a, b; cbn; auto; apply Z.eqb_sym. Qed.
Lemma atom_eq_sym t x u y : leaf_sym L -> atom_eq L t x u y = atom_eq L u y t x.
Proof.
  intros Hs. destruct t, u; cbn [atom_eq]; auto. now rewrite ty_eqb_sym, evalue_eqb_sym.
Qed.
Lemma atom_eq_refl t x : leaf_refl L -> atom_eq L t x t x = Ok true.
Proof.
  intros Hr. destruct t; cbn [atom_eq]; auto. rewrite ty_eqb_refl. cbn [andb]. f_equal. now apply evalue_eqb_eq.
Qed.

(** The direction in which components are compared does not matter when == on leaves is symmetric. *)
Lemma eq_any_sw : leaf_sym L -> forall a b s1 s2, eq_sw H L s1 a b = eq_sw H L s2 a b.
Proof.
  intros Hs. induction a as [t z|t f vs IH|t v IH|t k v IH] using val_ind'; intros [t' z'|t' f' vs'|t' v'|t' k' v'] s1 s2; cbn [eq_sw vtype];
    try (destruct s1, s2; try reflexivity; destruct (sub H t t'), (sub H t' t); reflexivity).
  - destruct s1, s2; auto; apply atom_eq_sym; auto.
  - destruct s1, s2; auto; rewrite (orb_comm (sub H t' t)); destruct (sub H t t' || sub H t' t); auto; destruct (Bool.eqb f f'); auto;
      apply all_eq_ext; auto; intros i x y x' y' E1 E2 E3 E4; assert (x' = x) by congruence; assert (y' = y) by congruence; subst;
      rewrite Forall_forall in IH; apply IH; eapply nth_error_In; eauto.
  - destruct s1, s2; auto; rewrite (orb_comm (sub H t' t)); destruct (sub H t t' || sub H t' t); auto.
  - destruct s1, s2; auto; rewrite (orb_comm (sub H t' t)); destruct (sub H t t' || sub H t' t); auto.
  - destruct s1, s2; auto; rewrite (orb_comm (sub H t' t)); destruct (sub H t t' || sub H t' t); auto.
  - destruct s1, s2; auto; rewrite (orb_comm (sub H t' t)); destruct (sub H t t' || sub H t' t); auto; destruct (Nat.eqb k k'); auto.
Qed.
(** Comparing with the operands and the direction exchanged is the same comparison. *)
Lemma eq_flip : forall a b s, eq_sw H L s a b = eq_sw H L (negb s) b a.
Proof.
  induction a as [t z|t f vs IH|t v IH|t k v IH] using val_ind'; intros [t' z'|t' f' vs'|t' v'|t' k' v'] s; cbn [eq_sw vtype];
    try (destruct s; try reflexivity; destruct (sub H t t'), (sub H t' t); reflexivity).
  - assert (Ef : Bool.eqb f' f = Bool.eqb f f') by now destruct f, f'. rewrite Ef.
    destruct s; cbn [negb].
    + destruct (sub H t t'), (sub H t' t); cbn [orb]; auto; destruct (Bool.eqb f f'); auto.
      all: revert vs'; induction IH as [|x vs Hx F IHf]; intros [|y vs']; cbn [all_eq]; auto; rewrite Hx; cbn [negb]; destruct (eq_sw H L _ y x) as [[|]|]; cbn [bind]; auto.
    + destruct (sub H t t'), (sub H t' t); cbn [orb]; auto; destruct (Bool.eqb f f'); auto.
      all: revert vs'; induction IH as [|x vs Hx F IHf]; intros [|y vs']; cbn [all_eq]; auto; rewrite Hx; cbn [negb]; destruct (eq_sw H L _ y x) as [[|]|]; cbn [bind]; auto.
  - destruct s; cbn [negb]; destruct (sub H t t'), (sub H t' t); cbn [orb]; auto; apply IH.
  - destruct s; cbn [negb]; destruct (sub H t t'), (sub H t' t); cbn [orb]; auto; apply IH.
  - destruct s; cbn [negb]; destruct (sub H t t'), (sub H t' t); cbn [orb]; auto; apply IH.
  - rewrite (Nat.eqb_sym k' k). destruct s; cbn [negb]; destruct (sub H t t'), (sub H t' t); cbn [orb]; auto; destruct (Nat.eqb k k'); auto; apply IH.
Qed.
Lemma eq_sym_pf : leaf_sym L -> forall a b, py_eq H L a b = py_eq H L b a.
Proof. intros Hs a b. unfold py_eq. rewrite eq_flip. apply eq_any_sw, Hs. Qed.
Lemma eq_refl_pf : leaf_refl L -> forall a s, eq_sw H L s a a = Ok true.
Proof.
  intros Hr. induction a as [t z|t f vs IH|t v IH|t k v IH] using val_ind'; intros s; cbn [eq_sw vtype].
  - destruct s; now apply atom_eq_refl.
  - destruct s; rewrite sub_refl; cbn [orb]; rewrite eqb_reflx; apply all_eq_true; clear -IH; induction IH; constructor; auto.
  - destruct s; rewrite sub_refl; cbn [orb]; apply IH.
  - destruct s; rewrite sub_refl; cbn [orb]; rewrite Nat.eqb_refl; apply IH.
Qed.

(** Equality on exact values of one class, read off their contents. *)
Lemma eq_exact_tup t b1 b2 xs ys s : eq_sw H L s (VTup t b1 xs) (VTup t b2 ys) = if Bool.eqb b1 b2 then all_eq (eq_sw H L s) xs ys else Ok false.
Proof. cbn [eq_sw vtype]. destruct s; rewrite sub_refl; reflexivity. Qed.
Lemma eq_exact_sum t x y s : eq_sw H L s (VSum t x) (VSum t y) = eq_sw H L s x y.
Proof. cbn [eq_sw vtype]. destruct s; rewrite sub_refl; reflexivity. Qed.
Lemma eq_exact_tag t i j x y s : eq_sw H L s (VTag t i x) (VTag t j y) = if Nat.eqb i j then eq_sw H L s x y else Ok false.
Proof. cbn [eq_sw vtype]. destruct s; rewrite sub_refl; reflexivity. Qed.
Lemma is_adt_dec_node t : is_adt t = true -> node_of t = None -> exists n ms, (exists us, t = fold_right TMod (TEnum n ms) us).
Proof.
  induction t as [l|n ms|k u fs _|m t IH] using ty_ind'; cbn; try discriminate.
  - intros _ _. exists n, ms, []. reflexivity.
  - intros A B. destruct (IH A B) as (n & ms & us & ->). exists n, ms, (m :: us). reflexivity.
Qed.
(** Equal exact values in separate alternatives belong to the same alternative. *)
Lemma eq_same_alt fs f g x y s : separate H L fs -> In f fs -> In g fs -> exact (snd f) x -> exact (snd g) y ->
  eq_sw H L s x y = Ok true -> snd f = snd g.
Proof.
  intros Sp Hf Hg Ex Ey E. destruct (ty_dec (snd f) (snd g)) as [|N]; auto. exfalso.
  destruct (Sp f g Hf Hg N) as [S1 S2]. destruct (Sp g f Hg Hf (not_eq_sym N)) as [S3 S4].
  pose proof (exact_type _ _ Ex) as Tx. pose proof (exact_type _ _ Ey) as Ty.
  destruct x as [t z|t b xs|t x|t i x], y as [t' z'|t' b' ys|t' y|t' j y]; cbn [vtype] in Tx, Ty; subst t t'; cbn [eq_sw vtype] in E; try (now destruct s);
    try (destruct s; rewrite S1, S3 in E; discriminate E).
  assert (C : eq_sw H L s (VAtom (snd f) z) (VAtom (snd g) z') = Ok true) by exact E. clear E.
  assert (Q : atom_eq L (snd f) z (snd g) z' = Ok true \/ atom_eq L (snd g) z' (snd f) z = Ok true) by (destruct s; auto).
  destruct (snd f) eqn:E1, (snd g) eqn:E2; cbn [atom_eq] in Q; destruct Q as [Q|Q]; try discriminate; try (eapply S2; exact Q); try (eapply S4; exact Q).
  - injection Q as Q. apply andb_true_iff in Q as [Q _]. apply ty_eqb_eq in Q. congruence.
  - injection Q as Q. apply andb_true_iff in Q as [Q _]. apply ty_eqb_eq in Q. congruence.
Qed.
Lemma atom_trans t x y z : leaf_trans L -> atom_eq L t x t y = Ok true -> atom_eq L t y t z = Ok true -> atom_eq L t x t z = Ok true.
Proof.
  intros Ht. destruct t; cbn [atom_eq]; try apply Ht. rewrite !ty_eqb_refl. cbn [andb]. intros A B. injection A as A. injection B as B.
  apply evalue_eqb_eq in A, B. f_equal. apply evalue_eqb_eq. congruence.
Qed.
Lemma exact_inv_atom t z v : exact t (VAtom t z) -> exact t v -> exists z', v = VAtom t z'.
Proof.
  intros E1 E2. assert (Nn : node_of t = None).
  { inversion E1; subst; auto. destruct (node_of t) as [[k fs]|] eqn:E; auto. apply node_is_adt in E. congruence. }
  inversion E2; subst; eauto; congruence.
Qed.
Lemma exact_tup_inv t k fs v : node_of t = Some (k, fs) -> tuple_like k -> exact t v -> exists ys, v = VTup t true ys /\ Forall2 (fun f v => exact (snd f) v) fs ys.
Proof.
  intros En Hk E. inversion E as [t1 z A|n ms i|t1 k1 fs1 ys En1 _ F1|t1 fs1 f1 w En1|t1 n x fs1 i f1 w En1]; subst; try discriminate; try congruence.
  - apply node_is_adt in En. congruence.
  - exists ys. rewrite En in En1. injection En1 as <- <-. auto.
  - rewrite En in En1. injection En1 as -> _. destruct Hk.
  - rewrite En in En1. injection En1 as -> _. destruct Hk.
Qed.
Lemma exact_sum_inv t fs v : node_of t = Some (KSum, fs) -> exact t v -> exists f w, v = VSum t w /\ In f fs /\ exact (snd f) w.
Proof.
  intros En E. inversion E as [t1 z A|n ms i|t1 k1 fs1 ys En1 Hk F1|t1 fs1 f1 w En1|t1 n x fs1 i f1 w En1]; subst; try discriminate; try congruence.
  - apply node_is_adt in En. congruence.
  - rewrite En in En1. injection En1 as <- _. destruct Hk.
  - rewrite En in En1. injection En1 as <-. eauto.
Qed.
Lemma exact_tag_inv t n x fs v : node_of t = Some (KTag n x, fs) -> exact t v -> exists i f w, v = VTag t i w /\ nth_error fs i = Some f /\ exact (snd f) w.
Proof.
  intros En E. inversion E as [t1 z A|n0 ms i|t1 k1 fs1 ys En1 Hk F1|t1 fs1 f1 w En1|t1 n0 x0 fs1 i f1 w En1]; subst; try discriminate; try congruence.
  - apply node_is_adt in En. congruence.
  - rewrite En in En1. injection En1 as <- _. destruct Hk.
  - rewrite En in En1. injection En1 as _ _ <-. eauto 7.
Qed.
Lemma flat_node_inv t k fs : flat H L t -> node_of t = Some (k, fs) -> (k = KSum -> separate H L fs) /\ Forall (fun f => flat H L (snd f)) fs.
Proof. intros F E. inversion F as [t' E'|t' k' fs' E' S Fs]; subst; [congruence|]. rewrite E in E'. injection E' as <- <-. auto. Qed.

Lemma eq_trans_pf : leaf_trans L -> forall a t, flat H L t -> exact t a -> forall b c s, exact t b -> exact t c ->
  eq_sw H L s a b = Ok true -> eq_sw H L s b c = Ok true -> eq_sw H L s a c = Ok true.
Proof.
  intros Ht. induction a as [t0 z|t0 f vs IH|t0 v IH|t0 k v IH] using val_ind'; intros t Fl Ea b c s Eb Ec E1 E2;
    pose proof (exact_type _ _ Ea) as Ta; cbn [vtype] in Ta; subst t0.
  - destruct (exact_inv_atom _ _ _ Ea Eb) as [zb ->], (exact_inv_atom _ _ _ Ea Ec) as [zc ->]. cbn [eq_sw vtype] in *.
    destruct s; eapply atom_trans; eauto.
  - inversion Ea as [| |t1 k fs vs' En Hk F| |]; subst. destruct (flat_node_inv _ _ _ Fl En) as [_ Fs].
    destruct (exact_tup_inv _ _ _ _ En Hk Eb) as (ys & -> & F1).
    destruct (exact_tup_inv _ _ _ _ En Hk Ec) as (zs & -> & F2).
    rewrite eq_exact_tup in *. cbn [Bool.eqb] in *. rewrite all_eq_true in *. clear Ea Eb Ec Fl En Hk.
    revert fs ys zs F F1 F2 Fs E1 E2. induction IH as [|x vs Hx IHv IHl]; intros fs ys zs F F1 F2 Fs E1 E2.
    + inversion E1; subst. inversion E2; subst. constructor.
    + inversion E1 as [|? y ? ys' Q1 R1]; subst. inversion E2 as [|? z ? zs' Q2 R2]; subst.
      inversion F as [|f0 ? fs' ? G1 G2]; subst. inversion F1; subst. inversion F2; subst. inversion Fs; subst.
      constructor; [apply Hx with (t := snd f0) (b := y); auto|apply IHl with (fs := fs') (ys := ys'); auto].
  - inversion Ea as [| | |t1 fs f x En Hf Ex|]; subst. destruct (flat_node_inv _ _ _ Fl En) as [Sp Fs]. specialize (Sp eq_refl). rewrite Forall_forall in Fs.
    destruct (exact_sum_inv _ _ _ En Eb) as (f1 & w & -> & Hf1 & Ex1).
    destruct (exact_sum_inv _ _ _ En Ec) as (f2 & w2 & -> & Hf2 & Ex2).
    rewrite eq_exact_sum in *.
    pose proof (eq_same_alt fs f f1 v w s Sp Hf Hf1 Ex Ex1 E1) as S1. pose proof (eq_same_alt fs f1 f2 w w2 s Sp Hf1 Hf2 Ex1 Ex2 E2) as S2.
    eapply IH with (t := snd f) (b := w); eauto; congruence.
  - inversion Ea as [| | | |t1 n x fs i f w En Hf Ex]; subst. destruct (flat_node_inv _ _ _ Fl En) as [_ Fs]. rewrite Forall_forall in Fs.
    destruct (exact_tag_inv _ _ _ _ _ En Eb) as (i1 & f1 & w1 & -> & Hf1 & Ex1).
    destruct (exact_tag_inv _ _ _ _ _ En Ec) as (i2 & f2 & w2 & -> & Hf2 & Ex2).
    rewrite eq_exact_tag in *.
    destruct (Nat.eqb_spec k i1) as [<-|]; [|discriminate]. destruct (Nat.eqb_spec k i2) as [<-|]; [|discriminate].
    assert (f1 = f) by congruence. assert (f2 = f) by congruence. subst f1 f2. apply nth_error_In in Hf.
    eapply IH with (t := snd f) (b := w1); eauto.
Qed.

Lemma hash_enum (K : hashing) t x y : leaf_hash L K -> atom_eq L t x t y = Ok true -> py_hash K (VAtom t x) = py_hash K (VAtom t y).
Proof.
  intros Hh E. destruct t; cbn [atom_eq py_hash] in *; try now apply Hh. rewrite ty_eqb_refl in E. cbn [andb] in E. injection E as E. apply evalue_eqb_eq in E. now rewrite E.
Qed.
Lemma eq_hash_pf (K : hashing) : leaf_hash L K -> leaf_sym L -> forall a t, flat H L t -> exact t a -> forall b s, exact t b ->
  eq_sw H L s a b = Ok true -> py_hash K a = py_hash K b.
Proof.
  intros Hh Hs. induction a as [t0 z|t0 f vs IH|t0 v IH|t0 k v IH] using val_ind'; intros t Fl Ea b s Eb E1;
    pose proof (exact_type _ _ Ea) as Ta; cbn [vtype] in Ta; subst t0.
  - destruct (exact_inv_atom _ _ _ Ea Eb) as [zb ->]. cbn [eq_sw vtype] in *. destruct s; [symmetry|]; apply hash_enum; auto.
  - inversion Ea as [| |t1 k fs vs' En Hk F| |]; subst. destruct (flat_node_inv _ _ _ Fl En) as [_ Fs].
    destruct (exact_tup_inv _ _ _ _ En Hk Eb) as (ys & -> & F1).
    rewrite eq_exact_tup in *. cbn [Bool.eqb] in *. rewrite all_eq_true in *. clear Ea Eb Fl En Hk.
    cbn [py_hash]. rewrite !sequence_map. assert (G : mapM (py_hash K) vs = mapM (py_hash K) ys); [|now rewrite G].
    revert fs ys F F1 Fs E1. induction IH as [|x vs Hx IHv IHl]; intros fs ys F F1 Fs E1.
    + inversion E1; subst. reflexivity.
    + inversion E1 as [|? y ? ys' Q1 R1]; subst. inversion F as [|f0 ? fs' ? G1 G2]; subst. inversion F1; subst. inversion Fs; subst.
      cbn [mapM]. rewrite (Hx (snd f0)) with (b := y) (s := s) by auto. rewrite (IHl fs' ys') by auto. reflexivity.
  - inversion Ea as [| | |t1 fs f x En Hf Ex|]; subst. destruct (flat_node_inv _ _ _ Fl En) as [Sp Fs]. specialize (Sp eq_refl). rewrite Forall_forall in Fs.
    destruct (exact_sum_inv _ _ _ En Eb) as (f1 & w & -> & Hf1 & Ex1).
    rewrite eq_exact_sum in *.
    pose proof (eq_same_alt fs f f1 v w s Sp Hf Hf1 Ex Ex1 E1) as S1. cbn [py_hash]. f_equal. eapply IH with (t := snd f); eauto; congruence.
  - inversion Ea as [| | | |t1 n x fs i f w En Hf Ex]; subst. destruct (flat_node_inv _ _ _ Fl En) as [_ Fs]. rewrite Forall_forall in Fs.
    destruct (exact_tag_inv _ _ _ _ _ En Eb) as (i1 & f1 & w1 & -> & Hf1 & Ex1).
    rewrite eq_exact_tag in *. destruct (Nat.eqb_spec k i1) as [<-|]; [|discriminate].
    assert (f1 = f) by congruence. subst f1. apply nth_error_In in Hf. cbn [py_hash]. f_equal. eapply IH with (t := snd f); eauto.
Qed.
End Eq.
