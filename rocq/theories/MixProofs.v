(** Proofs of the theorems stated in MixProps.v. *)
From Coq Require Import Lia ZifyBool.
From Verif Require Import PyBase BVModel BVSpec BVFacts BVOps OpModel OpFacts SMTTerm SMTModel SMTSpec SMTFacts SMTOps SMTProofs Z3Model Z3Spec Z3Proofs MixModel MixSpec.

Section InstInd.
Variable P : inst -> Prop.
Hypothesis HL : forall i v, P (ILeaf i v).
Hypothesis HT : forall i c l, Forall P l -> P (ITup i c l).
Hypothesis HS : forall i c x, P x -> P (ISum i c x).
Hypothesis HG : forall i c k x, P x -> P (ITag i c k x).
Fixpoint inst_ind' (a : inst) : P a :=
  match a with
  | ILeaf i v => HL i v
  | ITup i c l => HT i c l ((fix go l := match l as l return Forall P l with [] => Forall_nil _ | x :: l => Forall_cons _ (inst_ind' x) (go l) end) l)
  | ISum i c x => HS i c x (inst_ind' x)
  | ITag i c k x => HG i c k x (inst_ind' x)
  end.
End InstInd.

Lemma C90_concrete_pf : forall x b, wf x -> 1 <= bsize x -> truth (VBit b) = Ok b /\ truth (VBV x) = Ok (negb (bval x =? 0)).
Proof.
  intros x b [Hc Hr] Hn. split; [reflexivity|]. unfold truth, bv_bool, bv_int. destruct (bkind x) eqn:Hk; try reflexivity.
  unfold as_sint, getitem_int. cbn [Z.ltb Z.compare]. unfold bsize in *.
  replace (0 <=? csize (bcls x) + -1) with true by lia. replace (csize (bcls x) + -1 <? csize (bcls x)) with true by lia.
  cbn [andb bind rmap]. rewrite Z.shiftl_mul_pow2 by lia.
  destruct (Z.eq_dec (bval x) 0) as [->|Hz]; [rewrite Z.shiftr_0_l; reflexivity|].
  destruct (negb (Z.land _ _ =? 0)); f_equal; lia.
Qed.

Lemma C90_smt_bit_pf : forall t, s_truth FSmt (SBit t) = Raise ETypeError.
Proof. reflexivity. Qed.

Lemma C90_truth_refuted_pf : forall f x t, swf x -> s_truth f (SVec x) = Ok true /\ s_truth FZ3 (SBit t) = Ok true.
Proof. intros f x t [H _]. split; [|reflexivity]. unfold s_truth, ssize. replace (csize (scls x) =? 0) with false by lia. reflexivity. Qed.

Lemma same_refl le e (R : forall c, le c c = true) : forall a, same le e a a.
Proof.
  induction a using inst_ind'; constructor; auto.
  induction H; constructor; auto.
Qed.

Lemma same_sym le e : forall a b, same le e a b -> same le e b a.
Proof.
  induction a using inst_ind'; intros b Hb; inversion Hb; subst; constructor; auto; try tauto.
  clear Hb H4. revert m H5. induction H; intros m Hm; inversion Hm; subst; constructor; auto.
Qed.

Lemma answer_sym le a b r : answer_right le a b r -> answer_right le b a r.
Proof.
  destruct r; cbn; auto.
  - destruct b0; intros H e; [now apply same_sym|]. intro Hc. now apply (H e), same_sym.
  - intros [H1 H2]. split; [exact H1|]. intro e. rewrite H2. split; apply same_sym.
Qed.

Lemma VBV_eq_num x y : bsize x = bsize y -> py_cmp CEq (VBV x) (VBV y) = Ok (ONew (VBit (bval x =? bval y))).
Proof.
  intro H. unfold bsize in H. unfold py_cmp, cmp_first_of, cmp_forward, cmp_method, cmp_swap, bveq, bv_cast, coerce, as_uint, bsize.
  rewrite H, Z.eqb_refl. cbn. rewrite (Z.eqb_sym (bval y)). destruct (_ && _); reflexivity.
Qed.

Lemma b2z_small b n : 1 <= n -> b2z b mod 2 ^ n = b2z b.
Proof. intro H. apply Z.mod_small. assert (2 ^ 1 <= 2 ^ n) by (apply Z.pow_le_mono_r; lia). destruct b; cbn; lia. Qed.

Lemma VBV_eq_bit x b : 1 <= bsize x -> py_cmp CEq (VBV x) (VBit b) = Ok (ONew (VBit (bval x =? b2z b))).
Proof.
  intro H. unfold py_cmp, cmp_first_of, cmp_forward, cmp_method, bveq, bv_cast, coerce, bv_init, as_uint. unfold bsize in H.
  cbn [bind]. rewrite mk_val by lia. rewrite b2z_small by exact H. reflexivity.
Qed.

Lemma VBit_eq a b : py_cmp CEq (VBit a) (VBit b) = Ok (ONew (VBit (Bool.eqb a b))).
Proof. reflexivity. Qed.

Lemma leaf_eq f S x y r : faithful S -> leaf_ok x -> leaf_ok y -> sym_compare S f CEq x y = Ok r ->
  exists t, r = SBit t /\ bwf t = true /\ forall e, evalb e t = (leaf_num e x =? leaf_num e y).
Proof.
  intros F Hx Hy H.
  destruct x as [| |p|x| | | |], y as [| |q|y| | | |]; cbn in Hx, Hy; try contradiction.
  - assert (G : exists t, sym_compare S f CEq (SBit p) (SBit q) = Ok (SBit t) /\ bwf t = true /\
        forall e, py_cmp CEq (VBit (evalb e p)) (VBit (evalb e q)) = Ok (ONew (VBit (evalb e t)))).
    { destruct f.
      - destruct (C30_bits_pf S F p (SBit q) Hx (R_bit q Hy)) as (_ & _ & G & _). apply G. now left.
      - destruct (C38_bits_pf S F p (SBit q) Hx (ZB_same _ (R_bit q Hy))) as (_ & _ & G & _).
        destruct (G CEq (or_introl eq_refl)) as [G1 _]. exact G1. }
    destruct G as (t & E & Ht & V). rewrite E in H. inv H. exists t. repeat split; auto. intro e. specialize (V e).
    rewrite VBit_eq in V. injection V as V. rewrite <- V. cbn [leaf_num]. destruct (evalb e p), (evalb e q); reflexivity.
  - destruct f; cbn [sym_compare] in H; [|discriminate H].
    destruct (C30_infix_comparisons_pf S F CEq y (SBit p) Hy (conj (V_bit _ p Hx) I)) as [(t & E & Ht & V) _].
    unfold s_compare in H, E. cbn [s_cmp_first_of sbit_cmp cmp_swap] in H, E. cbn [sbit_cast sbit_init is_type_error] in H, E.
    destruct (s_cmp_forward S CEq y (SBit p)) as [[|v]|]; try discriminate.
    inv E. inv H. exists t. repeat split; auto. intro e. specialize (V e). cbn [vmeaning] in V. destruct Hy as [Hy _].
    rewrite VBV_eq_bit in V by exact Hy. injection V as V. rewrite <- V, Z.eqb_sym. cbn [leaf_num]. now destruct (evalb e p).
  - assert (G : exists t, sym_compare S f CEq (SVec x) (SBit q) = Ok (SBit t) /\ bwf t = true /\
        forall e, py_cmp CEq (VBV (meaning e x)) (VBit (evalb e q)) = Ok (ONew (VBit (evalb e t)))).
    { destruct f.
      - destruct (C30_infix_comparisons_pf S F CEq x (SBit q) Hx (conj (V_bit _ q Hy) I)) as [G _]. exact G.
      - destruct (C38_infix_comparisons_pf S F CEq x (SBit q) Hx (conj (Z_same _ _ (V_bit _ q Hy)) I)) as [G _]. exact G. }
    destruct G as (t & E & Ht & V). rewrite E in H. inv H. exists t. repeat split; auto. intro e. specialize (V e). destruct Hx as [Hx _].
    rewrite VBV_eq_bit in V by exact Hx. injection V as V. rewrite <- V. cbn [leaf_num]. now destruct (evalb e q).
  - assert (Hs : csize (scls x) = csize (scls y)).
    { destruct (csize (scls x) =? csize (scls y)) eqn:N; [lia|]. exfalso.
      assert (N' : (csize (scls y) =? csize (scls x)) = false) by lia.
      destruct f; cbn [sym_compare] in H; unfold s_compare, z_compare in H;
        cbn [s_cmp_first_of cmp_swap] in H; unfold s_cmp_forward, s_cmp_method, z_cmp_method, s_bveq, s_rel, s_cast, s_coerce, ssize, z_bveq, z_rel, z_cast, z_coerce in H;
        unfold ssize in H; rewrite ?N, ?N' in H; cbn in H; destruct (_ && _) in H; discriminate. }
    assert (G : exists t, sym_compare S f CEq (SVec x) (SVec y) = Ok (SBit t) /\ bwf t = true /\
        forall e, py_cmp CEq (VBV (meaning e x)) (VBV (meaning e y)) = Ok (ONew (VBit (evalb e t)))).
    { destruct f.
      - destruct (C30_infix_comparisons_pf S F CEq x (SVec y) Hx (conj (V_vec _ y Hy) (eq_sym Hs))) as [G _]. exact G.
      - destruct (C38_infix_comparisons_pf S F CEq x (SVec y) Hx (conj (Z_same _ _ (V_vec _ y Hy)) (eq_sym Hs))) as [G _]. exact G. }
    destruct G as (t & E & Ht & V). rewrite E in H. inv H. exists t. repeat split; auto. intro e. specialize (V e).
    rewrite VBV_eq_num in V by exact Hs. injection V as V. now rewrite <- V.
Qed.

Lemma Forall2_len {A B} (R : A -> B -> Prop) l m : Forall2 R l m -> length l = length m.
Proof. induction 1; cbn; auto. Qed.

Lemma in_inside_self a : In a (inside a).
Proof. destruct a; now left. Qed.

Lemma inside_tup i c l x y : In x l -> In y (inside x) -> In y (inside (ITup i c l)).
Proof. intros H1 H2. cbn [inside]. right. apply in_flat_map. eauto. Qed.

Lemma tuple_answer S f le sw l m r : faithful S -> (forall c, le c c = true) -> f = FSmt ->
  Forall (fun x => forall y r, leaves_ok x -> leaves_ok y -> coherent x y -> i_eq S f le sw x y = Ok r -> answer_right le x y r) l ->
  (forall x, In x l -> leaves_ok x) -> (forall y, In y m -> leaves_ok y) -> (forall x y, In x l -> In y m -> coherent x y) ->
  tuple_eq f (i_eq S f le sw) l m = Ok r ->
  exists b, r = SBool b /\ forall e, if b then Forall2 (same le e) l m else ~ Forall2 (same le e) l m.
Proof.
  intros F R Hf IH. revert m. induction IH as [|x l Hx IH IHl]; intros [|y m] A B C H; cbn [tuple_eq] in H.
  - inv H. exists true. split; [reflexivity|]. constructor.
  - inv H. exists false. split; [reflexivity|]. intros e X. inversion X.
  - inv H. exists false. split; [reflexivity|]. intros e X. inversion X.
  - assert (T : tuple_eq f (i_eq S f le sw) l m = Ok r -> (forall e, same le e x y) ->
        exists b, r = SBool b /\ forall e, if b then Forall2 (same le e) (x :: l) (y :: m) else ~ Forall2 (same le e) (x :: l) (y :: m)).
    { intros Ht Hs. destruct (IHl m) as (b & E & G); auto.
      - intros z Hz. apply A. now right.
      - intros z Hz. apply B. now right.
      - intros z w Hz Hw. apply C; now right.
      - exists b. split; [exact E|]. intro e. specialize (G e). destruct b; [constructor; auto|]. intro X. inversion X. auto. }
    destruct (Nat.eqb (iid x) (iid y)) eqn:E.
    + apply T; [exact H|]. intro e. apply Nat.eqb_eq in E.
      rewrite (C x y (or_introl eq_refl) (or_introl eq_refl) x y (in_inside_self x) (in_inside_self y) E). now apply same_refl.
    + destruct (i_eq S f le sw x y) as [v|] eqn:Ev; [|discriminate]. cbn [bind] in H.
      specialize (Hx y v (A x (or_introl eq_refl)) (B y (or_introl eq_refl)) (C x y (or_introl eq_refl) (or_introl eq_refl)) Ev).
      subst f. destruct v as [|b| | | | | |]; cbn in Hx; try contradiction; cbn [s_truth bind] in H; [|discriminate].
      destruct b.
      * apply T; [exact H|exact Hx].
      * inv H. exists false. split; [reflexivity|]. intros e X. inversion X. now apply (Hx e).
Qed.

Lemma answer_all S f le (F : faithful S) (R : forall c, le c c = true) : forall a sw b r, f = FSmt \/ no_tuples a ->
  leaves_ok a -> leaves_ok b -> coherent a b -> i_eq S f le sw a b = Ok r -> answer_right le a b r.
Proof.
  assert (NoS : forall a b, (forall e, ~ same le e a b) -> answer_right le a b (SBool false)) by (intros a b H; exact H).
  assert (Cls : forall (sw : bool) c d, (let '(p, q) := if sw then (d, c) else (c, d) in le q p || le p q) = false -> ~ (le c d = true \/ le d c = true)).
  { intros [|] c d H [G|G]; rewrite G in H; rewrite ?orb_true_r in H; discriminate. }
  assert (Cls' : forall (sw : bool) c d, (let '(p, q) := if sw then (d, c) else (c, d) in le q p || le p q) = true -> le c d = true \/ le d c = true).
  { intros [|] c d H; cbn in H; apply orb_true_iff in H; tauto. }
  assert (Wrap : forall a b a' b' r, (forall e, same le e a b <-> same le e a' b') -> answer_right le a b r -> answer_right le a' b' r).
  { intros a b a' b' [|[|]| | | | | |] H G; cbn in *; try contradiction.
    - intro e. now apply H.
    - intros e X. now apply (G e), H.
    - destruct G as [G1 G2]. split; [exact G1|]. intro e. now rewrite G2, H. }
  induction a as [i v|i c l IH|i c x IH|i c k x IH] using inst_ind'; intros sw b r Hf A B C H; destruct b as [j w|j d m|j d y|j d n y]; cbn [i_eq] in H;
    try (destruct f; inv H; apply NoS; intros e X; now inversion X);
    try (inv H; apply NoS; intros e X; now inversion X).
  - assert (G : sym_compare S f CEq (if sw then w else v) (if sw then v else w) = Ok r) by (destruct sw; exact H). clear H.
    assert (Av : leaf_ok v) by (apply (A i); now left). assert (Bw : leaf_ok w) by (apply (B j); now left).
    apply leaf_eq in G; auto; [|destruct sw; assumption|destruct sw; assumption].
    destruct G as (t & -> & Ht & V). cbn. split; [exact Ht|]. intro e. rewrite V, Z.eqb_eq.
    split; [intro E; constructor; destruct sw; auto|]. intro X. inversion X; subst. destruct sw; auto.
  - destruct Hf as [Hf|Hf]; [|exfalso; apply (Hf i c l); now left].
    destruct (let '(p, q) := if sw then (d, c) else (c, d) in le q p || le p q) eqn:E.
    + assert (G : exists sw', tuple_eq f (i_eq S f le sw') l m = Ok r) by (destruct sw; cbn [fst snd] in H, E; rewrite E in H; eauto).
      destruct G as [sw' G]. apply tuple_answer in G; auto.
      * destruct G as (t & -> & G). cbn. destruct t; intro e; [constructor; [now apply (Cls' sw)|apply (G e)]|].
        intro X. inversion X; subst. now apply (G e).
      * rewrite Forall_forall in *. intros x Hx y r' Ax By Cxy Hxy. now apply (IH x Hx sw' y r' (or_introl Hf)).
      * intros x Hx i' v' Hv. apply (A i'). eapply inside_tup; eauto.
      * intros x Hx i' v' Hv. apply (B i'). eapply inside_tup; eauto.
      * intros x y Hx Hy u w Hu Hw. apply C; eapply inside_tup; eauto.
    + assert (r = SBool false) as -> by (destruct sw; cbn [fst snd] in H, E; rewrite E in H; now inv H).
      apply NoS. intros e X. inversion X; subst. now apply (Cls sw c d E).
  - destruct (let '(p, q) := if sw then (d, c) else (c, d) in le q p || le p q) eqn:E.
    + assert (G : exists sw', i_eq S f le sw' x y = Ok r) by (destruct sw; cbn [fst snd] in H, E; rewrite E in H; eauto).
      destruct G as [sw' G]. 
      apply IH in G; [| | | |].
      * revert G. apply Wrap. intro e. split; intro X; [constructor; [now apply (Cls' sw)|exact X]|now inversion X].
      * destruct Hf as [Hf|Hf]; [now left|right]. intros i' c' l' Hi. apply (Hf i' c' l'). now right.
      * intros i' v' Hv. apply (A i'). now right.
      * intros i' v' Hv. apply (B i'). now right.
      * intros u w Hu Hw. apply C; now right.
    + assert (r = SBool false) as -> by (destruct sw; cbn [fst snd] in H, E; rewrite E in H; now inv H).
      apply NoS. intros e X. inversion X; subst. now apply (Cls sw c d E).
  - destruct (let '(p, q) := if sw then (d, c) else (c, d) in le q p || le p q) eqn:E.
    + assert (G : exists sw', i_eq S f le sw' x y = Ok r) by (destruct sw; cbn [fst snd] in H, E; rewrite E in H; eauto).
      destruct G as [sw' G]. 
      apply IH in G; [| | | |].
      * revert G. apply Wrap. intro e. split; intro X; [constructor; [now apply (Cls' sw)|exact X]|now inversion X].
      * destruct Hf as [Hf|Hf]; [now left|right]. intros i' c' l' Hi. apply (Hf i' c' l'). now right.
      * intros i' v' Hv. apply (A i'). now right.
      * intros i' v' Hv. apply (B i'). now right.
      * intros u w Hu Hw. apply C; now right.
    + assert (r = SBool false) as -> by (destruct sw; cbn [fst snd] in H, E; rewrite E in H; now inv H).
      apply NoS. intros e X. inversion X; subst. now apply (Cls sw c d E).
  - destruct (let '(p, q) := if sw then (d, c) else (c, d) in le q p || le p q) eqn:E.
    + assert (G : exists sw', i_eq S f le sw' x y = Ok r) by (destruct sw; cbn [fst snd] in H, E; rewrite E in H; eauto).
      destruct G as [sw' G]. 
      apply IH in G; [| | | |].
      * revert G. apply Wrap. intro e. split; intro X; [constructor; [now apply (Cls' sw)|exact X]|now inversion X].
      * destruct Hf as [Hf|Hf]; [now left|right]. intros i' c' l' Hi. apply (Hf i' c' l'). now right.
      * intros i' v' Hv. apply (A i'). now right.
      * intros i' v' Hv. apply (B i'). now right.
      * intros u w Hu Hw. apply C; now right.
    + assert (r = SBool false) as -> by (destruct sw; cbn [fst snd] in H, E; rewrite E in H; now inv H).
      apply NoS. intros e X. inversion X; subst. now apply (Cls sw c d E).
  - destruct (let '(p, q) := if sw then (d, c) else (c, d) in le q p || le p q) eqn:E.
    + assert (G : exists sw', (if Nat.eqb k n then i_eq S f le sw' x y else Ok (SBool false)) = Ok r) by (destruct sw; cbn [fst snd] in H, E; rewrite E in H; eauto).
      destruct G as [sw' G]. destruct (Nat.eqb k n) eqn:K; [apply Nat.eqb_eq in K; subst n|inv G; apply NoS; intros e X; inversion X; subst; now rewrite Nat.eqb_refl in K].
      apply IH in G; [| | | |].
      * revert G. apply Wrap. intro e. split; intro X; [constructor; [now apply (Cls' sw)|exact X]|now inversion X].
      * destruct Hf as [Hf|Hf]; [now left|right]. intros i' c' l' Hi. apply (Hf i' c' l'). now right.
      * intros i' v' Hv. apply (A i'). now right.
      * intros i' v' Hv. apply (B i'). now right.
      * intros u w Hu Hw. apply C; now right.
    + assert (r = SBool false) as -> by (destruct sw; cbn [fst snd] in H, E; rewrite E in H; now inv H).
      apply NoS. intros e X. inversion X; subst. now apply (Cls sw c d E).
Qed.

Lemma C90_smt_answer_pf : forall S le a b r, faithful S -> (forall c, le c c = true) -> leaves_ok a -> leaves_ok b -> coherent a b ->
  i_eq S FSmt le false a b = Ok r -> answer_right le a b r.
Proof. intros S le a b r F R A B C. apply answer_all; auto. Qed.

Lemma C90_smt_ne_pf : forall S le a b r, faithful S -> (forall c, le c c = true) -> leaves_ok a -> leaves_ok b -> coherent a b ->
  i_ne S FSmt le a b = Ok r -> (r = SBool true /\ forall e, ~ same le e a b) \/ (r = SBool false /\ forall e, same le e a b).
Proof.
  intros S le a b r F R A B C H. unfold i_ne in H. destruct (i_eq S FSmt le false a b) as [v|] eqn:E; [|discriminate].
  apply answer_all in E; auto. destruct v as [|t| | | | | |]; cbn in E; try contradiction; cbn in H; [|discriminate].
  inv H. destruct t; [right|left]; auto.
Qed.

Lemma C90_z3_answer_partial_pf : forall S le a b r, faithful S -> (forall c, le c c = true) -> leaves_ok a -> leaves_ok b -> coherent a b ->
  no_tuples a -> i_eq S FZ3 le false a b = Ok r -> answer_right le a b r.
Proof. intros S le a b r F R A B C N. apply answer_all; auto. Qed.

Lemma z_leaf_total S i j x y : faithful S -> swf x -> swf y -> csize (scls x) = csize (scls y) ->
  exists t, sym_compare S FZ3 CEq (SVec x) (SVec y) = Ok (SBit t) /\ i_eq S FZ3 Nat.eqb false (ILeaf i (SVec x)) (ILeaf j (SVec y)) = Ok (SBit t).
Proof.
  intros F Hx Hy Hs. destruct (C38_infix_comparisons_pf S F CEq x (SVec y) Hx (conj (Z_same _ _ (V_vec _ y Hy)) (eq_sym Hs))) as [(t & E & _) _].
  exists t. split; exact E.
Qed.

Lemma C90_z3_tuple_refuted_pf : forall S le i j c l m, faithful S -> le c c = true ->
  Forall2 (fun a b => exists i j x y, a = ILeaf i (SVec x) /\ b = ILeaf j (SVec y) /\ swf x /\ swf y /\ csize (scls x) = csize (scls y)) l m ->
  i_eq S FZ3 le false (ITup i c l) (ITup j c m) = Ok (SBool true) /\ i_ne S FZ3 le (ITup i c l) (ITup j c m) = Ok (SBool false).
Proof.
  intros S le i j c l m F R H.
  assert (E : i_eq S FZ3 le false (ITup i c l) (ITup j c m) = Ok (SBool true)).
  { cbn [i_eq]. rewrite R. cbn [orb]. induction H as [|a b l m (i' & j' & x & y & -> & -> & Hx & Hy & Hs) H IH]; [reflexivity|].
    cbn [tuple_eq]. destruct (Nat.eqb _ _); [exact IH|]. destruct (z_leaf_total S i' j' x y F Hx Hy Hs) as (t & _ & E).
    cbn [i_eq] in E |- *. rewrite E. cbn [bind s_truth]. exact IH. }
  split; [exact E|]. unfold i_ne. rewrite E. reflexivity.
Qed.

Lemma C90_ne_refuted_pf : forall S f le i j c d a b t, i_eq S f le false (ISum i c a) (ISum j d b) = Ok (SBit t) ->
  i_ne S f le (ISum i c a) (ISum j d b) = match f with FSmt => Raise ETypeError | FZ3 => Ok (SBool false) end.
Proof. intros S f le i j c d a b t H. unfold i_ne. rewrite H. now destruct f. Qed.

Lemma op_coerce op k x v w : coerce (bcls x) v = coerce (bcls x) w -> op_method op k x v = op_method op k x w.
Proof.
  intro H. destruct op; cbn [op_method]; try destruct k;
    unfold bvand, bvor, bvxor, bvshl, bvlshr, bvashr, bvadd, bvsub, bvmul, bvudiv, bvurem, bvsdiv, bvsrem, bv_cast; rewrite H; reflexivity.
Qed.

Lemma cmp_coerce c k x v w : coerce (bcls x) v = coerce (bcls x) w -> cmp_method c k x v = cmp_method c k x w.
Proof.
  intro H. destruct c, k; cbn [cmp_method];
    unfold bvsge, bvsgt, bvsle, bveq, bvne, bvuge, bvugt, bvule, bvult, bvslt, bv_cast; rewrite H; reflexivity.
Qed.

Lemma op_coerce_raise op k x v e : coerce (bcls x) v = Raise e -> op_method op k x v = Raise e.
Proof.
  intro H. destruct op; cbn [op_method]; try destruct k;
    unfold bvand, bvor, bvxor, bvshl, bvlshr, bvashr, bvadd, bvsub, bvmul, bvudiv, bvurem, bvsdiv, bvsrem, bv_cast; rewrite H; reflexivity.
Qed.

Lemma cmp_coerce_raise c k x v e : coerce (bcls x) v = Raise e -> cmp_method c k x v = Raise e.
Proof.
  intro H. destruct c, k; cbn [cmp_method];
    unfold bvsge, bvsgt, bvsle, bveq, bvne, bvuge, bvugt, bvule, bvult, bvslt, bv_cast; rewrite H; reflexivity.
Qed.

Lemma forward_foreign op c f x : forward op c (foreign f (SVec x)) = Ok NotImpl.
Proof. unfold forward, dispatch_oper. rewrite (op_coerce_raise op (bkind c) c _ ETypeError); [reflexivity|]. now destruct f. Qed.

Lemma cmp_foreign cm c f x : cmp_forward cm c (foreign f (SVec x)) = Ok NotImpl.
Proof. unfold cmp_forward. rewrite (cmp_coerce_raise cm (bkind c) c _ ETypeError); [reflexivity|]. now destruct f. Qed.

Lemma coerce_obj X z b t : 0 <= csize (bcls X) ->
  coerce (bcls X) (VOther (Some (Ok z)) b t) = coerce (bcls X) (VBV (BV (bcls X) (z mod 2 ^ csize (bcls X)))).
Proof. intro H. cbn [coerce bv_init bind]. unfold bsize. cbn [bcls]. rewrite Z.eqb_refl. cbn [negb]. now rewrite mk_eq. Qed.

Lemma obj_right op X z b t : 0 <= csize (bcls X) ->
  py_binop_val op (VBV X) (VOther (Some (Ok z)) b t) = py_binop_val op (VBV X) (VBV (BV (bcls X) (z mod 2 ^ csize (bcls X)))).
Proof.
  intro H. unfold py_binop_val, py_binop. cbn [bcls]. rewrite cls_eqb_refl. cbn [negb andb first_of]. unfold forward, dispatch_oper.
  rewrite (op_coerce op (bkind X) X _ _ (coerce_obj X z b t H)). destruct (op_method _ _ _ _) as [[|]|[]]; reflexivity.
Qed.

Lemma obj_left op X z b t : 0 <= csize (bcls X) -> (op = OShr -> bkind X = KSInt) ->
  py_binop_val op (VOther (Some (Ok z)) b t) (VBV X) = py_binop_val op (VBV (BV (bcls X) (z mod 2 ^ csize (bcls X)))) (VBV X).
Proof.
  intros H Hop. set (C := BV (bcls X) (z mod 2 ^ csize (bcls X))).
  assert (E : coerce (bcls X) (VOther (Some (Ok z)) b t) = Ok C) by (cbn [coerce bv_init bind]; now rewrite mk_eq).
  assert (K : bkind C = bkind X) by reflexivity.
  assert (G : forall defk, op_method op defk = op_method op (bkind X) -> dispatch_roper op defk X (VOther (Some (Ok z)) b t) =
     match dispatch_oper (op_method op (bkind X)) C (VBV X) with Ok OLeft => Ok (ONew (VBV C)) | r => r end).
  { intros defk Hd. unfold dispatch_roper. rewrite E, Hd. destruct (dispatch_oper _ _ _) as [[]|]; reflexivity. }
  assert (R : reflected op X (VOther (Some (Ok z)) b t) =
     match dispatch_oper (op_method op (bkind X)) C (VBV X) with Ok OLeft => Ok (ONew (VBV C)) | r => r end).
  { unfold reflected. destruct op, (bkind X) eqn:KX; try (now apply G); specialize (Hop eq_refl); discriminate. }
  unfold py_binop_val. cbn [py_binop first_of]. change (bcls C) with (bcls X). rewrite cls_eqb_refl. cbn [negb andb]. rewrite R. unfold forward. rewrite K.
  destruct (dispatch_oper _ _ _) as [[]|]; reflexivity.
Qed.

Lemma obj_operand n z b t : operand n (VOther (Some (Ok z)) b t) (z mod 2 ^ n).
Proof. apply Op_conv; [discriminate|constructor]. Qed.

Lemma conv_wf X z : 1 <= bsize X -> wf (BV (bcls X) (z mod 2 ^ csize (bcls X))).
Proof. unfold bsize. intro H. split; cbn [bcls bval]; [lia|]. apply Z.mod_pos_bound. apply Z.pow_pos_nonneg; lia. Qed.

Lemma obj_cmp cm X z b t : wf X -> 1 <= bsize X ->
  py_cmp cm (VBV X) (VOther (Some (Ok z)) b t) = py_cmp cm (VBV X) (VBV (BV (bcls X) (z mod 2 ^ csize (bcls X)))) /\
  py_cmp cm (VOther (Some (Ok z)) b t) (VBV X) = py_cmp cm (VBV (BV (bcls X) (z mod 2 ^ csize (bcls X)))) (VBV X).
Proof.
  intros Hw Hn. pose proof (conv_wf X z Hn) as Hc. set (C := BV (bcls X) _) in *.
  assert (Hs : bsize C = bsize X) by reflexivity. assert (Hk : bkind C = bkind X) by reflexivity.
  assert (Hv : bval C = z mod 2 ^ bsize X) by reflexivity.
  rewrite (py_cmp_right_other cm X _ _ Hw (obj_operand _ z b t) I Hn), (py_cmp_left_other cm X _ _ Hw (obj_operand _ z b t) I Hn).
  rewrite (py_cmp_spec cm X C), (py_cmp_spec cm C X) by (auto; lia). rewrite Hs, Hk, Hv.
  assert (Hg : cmp_signed (bkind X) (bkind X) = kind_eqb (bkind X) KSInt) by now destruct (bkind X).
  rewrite Hg. split; reflexivity.
Qed.

Lemma int_signed c : wf c -> 1 <= bsize c -> bv_int c = Ok (match bkind c with KSInt => signed (bsize c) (bval c) | _ => bval c end).
Proof. intros Hw Hn. unfold bv_int. destruct (bkind c); try reflexivity. now apply as_sint_spec. Qed.

Lemma int_bval c : wf c -> 1 <= bsize c -> not_negative c -> bv_int c = Ok (bval c).
Proof.
  intros Hw Hn H. rewrite int_signed by auto. unfold not_negative in H. destruct (bkind c); try reflexivity. unfold signed. f_equal.
  specialize (H eq_refl). destruct (_ <? _) eqn:E; lia.
Qed.

Lemma int_mod c : wf c -> 1 <= bsize c -> exists z, bv_int c = Ok z /\ z mod 2 ^ bsize c = bval c.
Proof.
  intros Hw Hn. rewrite int_signed by auto. destruct Hw as [_ Hr]. unfold bsize in *.
  eexists. split; [reflexivity|]. assert (M : bval c mod 2 ^ csize (bcls c) = bval c) by (apply Z.mod_small; exact Hr).
  destruct (bkind c); try exact M. unfold signed. destruct (_ <? _); [exact M|].
  replace (bval c - 2 ^ csize (bcls c)) with (bval c + (-1) * 2 ^ csize (bcls c)) by lia. rewrite Z.mod_add; [exact M|].
  pose proof (Z.pow_pos_nonneg 2 (csize (bcls c)) ltac:(lia) ltac:(lia)). lia.
Qed.

Lemma conv_eq e x c z : z mod 2 ^ csize (scls x) = bval c -> BV (bcls (meaning e x)) (z mod 2 ^ csize (bcls (meaning e x))) = converted x c.
Proof. intro H. cbn [meaning bcls]. unfold converted. now rewrite H. Qed.

Lemma wf_self_mod x c : wf c -> bval c < 2 ^ csize (scls x) -> bval c mod 2 ^ csize (scls x) = bval c.
Proof. intros [_ H] G. apply Z.mod_small. lia. Qed.

Lemma same_width x c : wf c -> bsize c = csize (scls x) -> bval c < 2 ^ csize (scls x).
Proof. unfold bsize. intros [_ H] E. rewrite <- E. lia. Qed.

Lemma smt_right S op x c : faithful S -> swf x -> wf c -> 1 <= bsize c -> bval c < 2 ^ csize (scls x) -> not_negative c ->
  signed_division op (skind x) = false ->
  exists r, mixed_right S FSmt op (SVec x) (VBV c) = Ok (SVec r) /\ swf r /\
    forall e, py_binop_val op (VBV (meaning e x)) (VBV (converted x c)) = Ok (VBV (meaning e r)).
Proof.
  intros F Hx Hc Hn Hf Hp Hd. unfold mixed_right. cbn [lift sym_binop].
  rewrite (int_bval c Hc Hn Hp). destruct (C30_infix_pf S F op x (SOther (Some (Ok (bval c))) (Some (bv_bool c))) Hx) as (r & E & W & V); auto.
  - split; [|exact I]. apply V_obj. split; [|exact Hf]. apply (proj1 (proj2 Hc)).
  - discriminate.
  - exists r. split; [exact E|]. split; [exact W|]. intro e. rewrite <- V. cbn [vmeaning].
    rewrite obj_right by (cbn [meaning bcls]; destruct Hx as [Hx _]; lia). now rewrite (conv_eq e x c) by now apply wf_self_mod.
Qed.

Lemma C91_smt_right_partial_pf : forall S op x c, faithful S -> swf x -> wf c -> bsize c = csize (scls x) -> not_negative c ->
  signed_division op (skind x) = false ->
  exists r, mixed_right S FSmt op (SVec x) (VBV c) = Ok (SVec r) /\ swf r /\
    forall e, py_binop_val op (VBV (meaning e x)) (VBV (converted x c)) = Ok (VBV (meaning e r)).
Proof. intros S op x c F Hx Hc Hs Hp Hd. apply smt_right; auto; [rewrite Hs; apply Hx|now apply same_width]. Qed.

Lemma C91_smt_left_partial_pf : forall S op x c, faithful S -> swf x -> wf c -> bsize c = csize (scls x) -> not_negative c ->
  signed_division op (skind x) = false -> (op = OShr -> skind x = KSInt) ->
  exists r, mixed_left S FSmt op (VBV c) (SVec x) = Ok (inr (SVec r)) /\ swf r /\
    forall e, py_binop_val op (VBV (converted x c)) (VBV (meaning e x)) = Ok (VBV (meaning e r)).
Proof.
  intros S op x c F Hx Hc Hs Hp Hd Hop. unfold mixed_left. cbn [conc_method]. rewrite forward_foreign. cbn [bind lift sym_binop].
  rewrite (int_bval c Hc (eq_ind_r (fun n => 1 <= n) (proj1 Hx) Hs) Hp). pose proof (same_width x c Hc Hs) as Hf.
  destruct (C30_infix_reflected_pf S F op (SOther (Some (Ok (bval c))) (Some (bv_bool c))) x Hx) as (r & E & W & V); auto; try exact I.
  - split; [|exact I]. apply V_obj. split; [|exact Hf]. apply (proj1 (proj2 Hc)).
  - exists r. rewrite E. split; [reflexivity|]. split; [exact W|]. intro e. rewrite <- V. cbn [vmeaning].
    rewrite obj_left; [|cbn [meaning bcls]; destruct Hx as [Hx _]; lia|exact Hop]. now rewrite (conv_eq e x c) by now apply wf_self_mod.
Qed.

Lemma C91_smt_shr_refuted_pf : (forall S x c, faithful S -> swf x -> wf c -> bsize c = csize (scls x) -> not_negative c -> skind x <> KSInt ->
  exists r, mixed_left S FSmt OShr (VBV c) (SVec x) = Ok (inr (SVec r)) /\
    forall e, py_binop_val OShr (VBV (meaning e x)) (VBV (converted x c)) = Ok (VBV (meaning e r))) /\
  exists x c r, swf x /\ mixed_left no_simp FSmt OShr (VBV c) (SVec x) = Ok (inr (SVec r)) /\ bval (meaning env0 r) = 2 /\
    py_binop_val OShr (VBV (converted x c)) (VBV (meaning env0 x)) = Ok (VBV (BV (scls x) 0)).
Proof.
  split.
  - intros S x c F Hx Hc Hs Hp Hk.
    destruct (smt_right S OShr x c F Hx Hc) as (r & E & W & V); auto; [rewrite Hs; apply Hx|now apply same_width|].
    unfold mixed_left. cbn [conc_method]. rewrite forward_foreign. cbn [bind].
    unfold mixed_right in E. cbn [lift sym_binop] in E |- *. exists r. split; [|exact V].
    unfold s_binop in E |- *. cbn [s_first_of] in E |- *. unfold s_forward, s_reflected, s_op_method in *.
    destruct (skind x); try contradiction; cbv beta iota in E |- *; destruct (s_dispatch _) as [[|v]|] in E |- *; try discriminate; inv E; reflexivity.
  - exists (sx KUInt 4), (BV (BVC KUInt 4) 2). eexists. split; [unfold swf; cbn; lia|]. split; [reflexivity|]. split; vm_compute; reflexivity.
Qed.

Lemma C91_smt_compare_partial_pf : forall S cm x c, faithful S -> swf x -> wf c -> bsize c = csize (scls x) -> not_negative c ->
  (exists r, mixed_cmp_right S FSmt cm (SVec x) (VBV c) = Ok (SBit r) /\ bwf r = true /\
    forall e, py_cmp cm (VBV (meaning e x)) (VBV (converted x c)) = Ok (ONew (VBit (evalb e r)))) /\
  (exists r, mixed_cmp_left S FSmt cm (VBV c) (SVec x) = Ok (inr (SBit r)) /\ bwf r = true /\
    forall e, py_cmp cm (VBV (converted x c)) (VBV (meaning e x)) = Ok (ONew (VBit (evalb e r)))).
Proof.
  intros S cm x c F Hx Hc Hs Hp. pose proof (same_width x c Hc Hs) as Hf. unfold mixed_cmp_right, mixed_cmp_left. cbn [conc_cmp]. rewrite cmp_foreign. cbn [bind lift sym_compare].
  rewrite (int_bval c Hc (eq_ind_r (fun n => 1 <= n) (proj1 Hx) Hs) Hp).
  destruct (C30_infix_comparisons_pf S F cm x (SOther (Some (Ok (bval c))) (Some (bv_bool c))) Hx) as ((r & E & W & V) & G).
  { split; [|exact I]. apply V_obj. split; [|exact Hf]. apply (proj1 (proj2 Hc)). }
  destruct (G I) as (q & E' & W' & V').
  assert (O : forall e, _) by (intro e; exact (obj_cmp cm (meaning e x) (bval c) (Some (bv_bool c)) true (swf_meaning e x Hx) (proj1 Hx))).
  assert (M := wf_self_mod x c Hc Hf).
  split; [exists r|exists q].
  - split; [exact E|]. split; [exact W|]. intro e. rewrite <- V. destruct (O e) as [O1 _]. rewrite (conv_eq e x c _ M) in O1. symmetry. exact O1.
  - rewrite E'. split; [reflexivity|]. split; [exact W'|]. intro e. rewrite <- V'. destruct (O e) as [_ O1]. rewrite (conv_eq e x c _ M) in O1. symmetry. exact O1.
Qed.

Lemma C91_smt_negative_refuted_pf : forall S op cm x c, wf c -> bsize c = csize (scls x) -> 1 <= bsize c -> ~ not_negative c ->
  mixed_right S FSmt op (SVec x) (VBV c) = Raise EValueError /\ mixed_cmp_right S FSmt cm (SVec x) (VBV c) = Raise EValueError /\
  mixed_cmp_left S FSmt cm (VBV c) (SVec x) = Raise EValueError /\
  mixed_left S FSmt op (VBV c) (SVec x) = Raise (match op, skind x with OShr, KSInt => ENameError | OShr, _ => EValueError | _, _ => ENameError end).
Proof.
  intros S op cm x c Hc Hs Hn Hp. unfold mixed_right, mixed_cmp_right, mixed_cmp_left, mixed_left. cbn [conc_cmp conc_method]. rewrite cmp_foreign, forward_foreign.
  cbn [bind lift sym_compare sym_binop]. rewrite int_signed by auto.
  assert (Hk : bkind c = KSInt) by (destruct (bkind c) eqn:K; auto; exfalso; apply Hp; intro; congruence).
  assert (Hz : signed (bsize c) (bval c) < 0).
  { unfold signed. destruct (_ <? _) eqn:E; [exfalso; apply Hp; intro; lia|]. destruct Hc as [_ Hc]. unfold bsize in *. lia. }
  rewrite Hk. set (v := SOther _ _).
  assert (Co : s_coerce S (scls x) v = Raise EValueError).
  { unfold v. cbn [s_coerce s_init bind]. unfold vec_const. replace (0 <=? _) with false by lia. reflexivity. }
  assert (Op : forall o k, s_op_method S o k x v = Raise EValueError).
  { intros o k. destruct o; cbn [s_op_method]; try destruct k;
     unfold s_bvand, s_bvor, s_bvxor, s_bvshl, s_bvlshr, s_bvashr, s_bvadd, s_bvsub, s_bvmul, s_bvudiv, s_bvurem, s_bvsdiv, s_bvsrem, s_bin, s_cast; rewrite Co; reflexivity. }
  assert (Cm : forall o k, s_cmp_method S o k x v = Raise EValueError).
  { intros o k. destruct o, k; cbn [s_cmp_method];
     unfold s_bveq, s_bvne, s_bvult, s_bvule, s_bvugt, s_bvuge, s_bvslt, s_bvsle, s_bvsgt, s_bvsge, s_rel, s_cast; rewrite Co; reflexivity. }
  assert (Rf : s_reflected S op x v = Raise (match op, skind x with OShr, KSInt => ENameError | OShr, _ => EValueError | _, _ => ENameError end)).
  { pose proof (Op OShr KBV) as L. cbn [s_op_method] in L.
    unfold s_reflected, s_dispatch_roper. rewrite Co, L. destruct op, (skind x); reflexivity. }
  unfold v in *. cbn [s_binop s_compare s_first_of s_cmp_first_of]. unfold s_forward, s_cmp_forward. rewrite Op, !Cm, Rf. repeat split; try reflexivity.
Qed.

Lemma C91_width_refuted_pf : forall S op x c, faithful S -> swf x -> wf c -> 1 <= bsize c -> bsize c <> csize (scls x) ->
  bval c < 2 ^ csize (scls x) -> not_negative c -> signed_division op (skind x) = false ->
  (exists r, mixed_right S FSmt op (SVec x) (VBV c) = Ok (SVec r)) /\
  forall e, py_binop_val op (VBV (meaning e x)) (VBV c) = Raise EInconsistentSize.
Proof.
  intros S op x c F Hx Hc Hn Hs Hf Hp Hd. split.
  - destruct (smt_right S op x c F Hx Hc Hn Hf Hp Hd) as (r & E & _). eauto.
  - intro e. assert (Co : coerce (bcls (meaning e x)) (VBV c) = Raise EInconsistentSize).
    { cbn [coerce meaning bcls]. replace (bsize c =? csize (scls x)) with false by lia. reflexivity. }
    unfold py_binop_val, py_binop, cls_eqb, cls_le. cbn [meaning bcls]. unfold bsize in Hs.
    replace (csize (scls x) =? csize (bcls c)) with false by lia. replace (csize (bcls c) =? csize (scls x)) with false by lia.
    rewrite !andb_false_r. cbn [andb first_of]. unfold forward, dispatch_oper. now rewrite (op_coerce_raise _ _ _ _ _ Co).
Qed.

Lemma C91_smt_bits_partial_pf : forall S p b, faithful S -> bwf p = true ->
  (forall op, op = OAnd \/ op = OOr \/ op = OXor -> exists r, mixed_right S FSmt op (SBit p) (VBit b) = Ok (SBit r) /\ bwf r = true /\
     forall e, py_binop_val op (VBit (evalb e p)) (VBit b) = Ok (VBit (evalb e r))) /\
  (forall op, op = OAnd \/ op = OOr -> exists r, mixed_left S FSmt op (VBit b) (SBit p) = Ok (inr (SBit r)) /\ bwf r = true /\
     forall e, py_binop_val op (VBit b) (VBit (evalb e p)) = Ok (VBit (evalb e r))) /\
  (forall cm, cm = CEq \/ cm = CNe ->
     (exists r, mixed_cmp_right S FSmt cm (SBit p) (VBit b) = Ok (SBit r) /\ bwf r = true /\
        forall e, py_cmp cm (VBit (evalb e p)) (VBit b) = Ok (ONew (VBit (evalb e r)))) /\
     (exists r, mixed_cmp_left S FSmt cm (VBit b) (SBit p) = Ok (inr (SBit r)) /\ bwf r = true /\
        forall e, py_cmp cm (VBit b) (VBit (evalb e p)) = Ok (ONew (VBit (evalb e r))))).
Proof.
  intros S p b F Hp. destruct (C30_bits_pf S F p (SOther (Some (Ok (b2z b))) (Some (Ok b))) Hp (R_obj _ b)) as (A & B & C & D & _).
  split; [|split].
  - intros op Ho. destruct (A op Ho) as (r & E & W & V). exists r. split; [exact E|]. split; [exact W|]. intro e. rewrite <- V. destruct Ho as [->|[->| ->]]; reflexivity.
  - intros op Ho. destruct (B op I Ho) as (r & E & W & V). exists r. unfold mixed_left. cbn [lift sym_binop] in *. rewrite E.
    split; [destruct Ho as [->| ->]; reflexivity|]. split; [exact W|]. intro e. rewrite <- V. destruct Ho as [->| ->]; reflexivity.
  - intros cm Ho. destruct (C cm Ho) as (r & E & W & V), (D cm I Ho) as (q & E' & W' & V'). split.
    + exists r. split; [exact E|]. split; [exact W|]. intro e. rewrite <- V. destruct Ho as [->| ->]; reflexivity.
    + exists q. unfold mixed_cmp_left. cbn [lift sym_compare] in *. rewrite E'.
      split; [destruct Ho as [->| ->]; reflexivity|]. split; [exact W'|]. intro e. rewrite <- V'. destruct Ho as [->| ->]; cbn; now destruct b, (evalb e p).
Qed.

Lemma C91_smt_xor_refuted_pf : forall S b p, mixed_left S FSmt OXor (VBit b) (SBit p) = Raise ETypeError.
Proof. reflexivity. Qed.

Lemma C91_z3_right_partial_pf : forall S op x c, faithful S -> swf x -> wf c -> bsize c = csize (scls x) -> signed_floordiv op (skind x) = false ->
  exists r, mixed_right S FZ3 op (SVec x) (VBV c) = Ok (SVec r) /\ scls r = scls x /\ swf r /\
    forall e, py_binop_val op (VBV (meaning e x)) (VBV (converted x c)) = Ok (VBV (meaning e r)).
Proof.
  intros S op x c F Hx Hc Hs Hd. unfold mixed_right. cbn [lift sym_binop].
  destruct (int_mod c Hc (eq_ind_r (fun n => 1 <= n) (proj1 Hx) Hs)) as (z & Ez & Hz). rewrite Ez. rewrite Hs in Hz.
  destruct (C38_infix_partial_pf S F op x (SOther (Some (Ok z)) (Some (bv_bool c))) Hx) as (r & E & K & W & V); auto.
  - split; [apply Z_obj|exact I].
  - discriminate.
  - exists r. split; [exact E|]. split; [exact K|]. split; [exact W|]. intro e. rewrite <- V. cbn [vmeaning].
    rewrite obj_right by (cbn [meaning bcls]; destruct Hx as [Hx _]; lia). now rewrite (conv_eq e x c).
Qed.

Lemma C91_z3_left_refuted_pf : forall S op x c p b, mixed_left S FZ3 op (VBV c) (SVec x) = Raise ETypeError /\
  mixed_left S FZ3 op (VBit b) (SBit p) = Raise ETypeError.
Proof.
  intros S op x c p b. split; [|destruct op; reflexivity]. unfold mixed_left. cbn [conc_method]. rewrite forward_foreign. reflexivity.
Qed.

Lemma C91_z3_compare_pf : forall S cm x c, faithful S -> swf x -> wf c -> bsize c = csize (scls x) ->
  (exists r, mixed_cmp_right S FZ3 cm (SVec x) (VBV c) = Ok (SBit r) /\ bwf r = true /\
    forall e, py_cmp cm (VBV (meaning e x)) (VBV (converted x c)) = Ok (ONew (VBit (evalb e r)))) /\
  (exists r, mixed_cmp_left S FZ3 cm (VBV c) (SVec x) = Ok (inr (SBit r)) /\ bwf r = true /\
    forall e, py_cmp cm (VBV (converted x c)) (VBV (meaning e x)) = Ok (ONew (VBit (evalb e r)))).
Proof.
  intros S cm x c F Hx Hc Hs. unfold mixed_cmp_right, mixed_cmp_left. cbn [conc_cmp]. rewrite cmp_foreign. cbn [bind lift sym_compare].
  destruct (int_mod c Hc (eq_ind_r (fun n => 1 <= n) (proj1 Hx) Hs)) as (z & Ez & Hz). rewrite Ez. rewrite Hs in Hz.
  destruct (C38_infix_comparisons_pf S F cm x (SOther (Some (Ok z)) (Some (bv_bool c))) Hx) as ((r & E & W & V) & G).
  { split; [apply Z_obj|exact I]. }
  destruct (G I) as (q & E' & W' & V').
  assert (O : forall e, _) by (intro e; exact (obj_cmp cm (meaning e x) z (Some (bv_bool c)) true (swf_meaning e x Hx) (proj1 Hx))).
  split; [exists r|exists q].
  - split; [exact E|]. split; [exact W|]. intro e. rewrite <- V. destruct (O e) as [O1 _]. rewrite (conv_eq e x c _ Hz) in O1. symmetry. exact O1.
  - rewrite E'. split; [reflexivity|]. split; [exact W'|]. intro e. rewrite <- V'. destruct (O e) as [_ O1]. rewrite (conv_eq e x c _ Hz) in O1. symmetry. exact O1.
Qed.

Lemma C91_z3_bits_pf : forall S p b, faithful S -> bwf p = true ->
  (forall op, op = OAnd \/ op = OOr \/ op = OXor -> exists r, mixed_right S FZ3 op (SBit p) (VBit b) = Ok (SBit r) /\ bwf r = true /\
     forall e, py_binop_val op (VBit (evalb e p)) (VBit b) = Ok (VBit (evalb e r))) /\
  (forall cm, cm = CEq \/ cm = CNe ->
     (exists r, mixed_cmp_right S FZ3 cm (SBit p) (VBit b) = Ok (SBit r) /\ bwf r = true /\
        forall e, py_cmp cm (VBit (evalb e p)) (VBit b) = Ok (ONew (VBit (evalb e r)))) /\
     (exists r, mixed_cmp_left S FZ3 cm (VBit b) (SBit p) = Ok (inr (SBit r)) /\ bwf r = true /\
        forall e, py_cmp cm (VBit b) (VBit (evalb e p)) = Ok (ONew (VBit (evalb e r))))).
Proof.
  intros S p b F Hp. destruct (C38_bits_pf S F p (SOther (Some (Ok (b2z b))) (Some (Ok b))) Hp (ZB_same _ (R_obj _ b))) as (_ & A & C & _).
  split.
  - intros op Ho. destruct (A op Ho) as (r & E & W & V). exists r. split; [exact E|]. split; [exact W|]. intro e. rewrite <- V. destruct Ho as [->|[->| ->]]; reflexivity.
  - intros cm Ho. destruct (C cm Ho) as [(r & E & W & V) D]. destruct (D I) as (q & E' & W' & V'). split.
    + exists r. split; [exact E|]. split; [exact W|]. intro e. rewrite <- V. destruct Ho as [->| ->]; reflexivity.
    + exists q. unfold mixed_cmp_left. cbn [lift sym_compare] in *. rewrite E'.
      split; [destruct Ho as [->| ->]; reflexivity|]. split; [exact W'|]. intro e. rewrite <- V'. destruct Ho as [->| ->]; cbn; now destruct b, (evalb e p).
Qed.
