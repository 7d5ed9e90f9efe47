(** Lemmas about BVModel.v. *)
From Coq Require Import Lia ZifyBool.
From Verif Require Import PyBase BVModel BVSpec.

Ltac inv H := inversion H; subst; clear H.

Lemma pow2_pos n : 0 <= n -> 0 < 2 ^ n.
Proof. intros H; apply Z.pow_pos_nonneg; lia. Qed.

Lemma shiftl1 n : 0 <= n -> Z.shiftl 1 n = 2 ^ n.
Proof. intros H; rewrite Z.shiftl_1_l; reflexivity. Qed.

Lemma land_mask n z : 0 <= n -> Z.land z (Z.shiftl 1 n - 1) = z mod 2 ^ n.
Proof.
  intros H. replace (Z.shiftl 1 n - 1) with (Z.ones n).
  - apply Z.land_ones; lia.
  - unfold Z.ones. lia.
Qed.

Lemma mk_val c z : 0 <= csize c -> bval (mk c z) = z mod 2 ^ csize c.
Proof. intros H; unfold mk; cbn [bval]; now rewrite land_mask. Qed.

Lemma mk_eq c z : 0 <= csize c -> mk c z = BV c (z mod 2 ^ csize c).
Proof. intros H; unfold mk; now rewrite land_mask. Qed.

Lemma mk_cls c z : bcls (mk c z) = c.
Proof. reflexivity. Qed.

Lemma mk_wf c z : 0 <= csize c -> wf (mk c z).
Proof.
  intros H; rewrite mk_eq by lia; unfold wf; cbn [bcls bval].
  pose proof (pow2_pos (csize c) H).
  pose proof (Z.mod_pos_bound z (2 ^ csize c)); lia.
Qed.

Lemma mk_id x : wf x -> mk (bcls x) (bval x) = x.
Proof.
  destruct x as [c u]; intros [H1 H2]; cbn [bcls bval] in *.
  rewrite mk_eq by lia. f_equal. apply Z.mod_small; lia.
Qed.

Lemma bv_ext (x y : bv) : bcls x = bcls y -> bval x = bval y -> x = y.
Proof. destruct x, y; cbn; intros; congruence. Qed.

(** ** zrange *)
Lemma zrange_length n : length (zrange n) = Z.to_nat n.
Proof. unfold zrange. now rewrite map_length, seq_length. Qed.

Lemma zrange_nth n i d : 0 <= i < n -> nth (Z.to_nat i) (zrange n) d = i.
Proof.
  intros H. unfold zrange.
  rewrite nth_indep with (d' := Z.of_nat 0) by (rewrite map_length, seq_length; lia).
  rewrite map_nth, seq_nth by lia. lia.
Qed.

Lemma zrange_In n i : In i (zrange n) <-> 0 <= i < n.
Proof.
  unfold zrange. rewrite in_map_iff. split.
  - intros (k & <- & Hk). apply in_seq in Hk. lia.
  - intros H. exists (Z.to_nat i). split; [lia|]. apply in_seq. lia.
Qed.

(** ** bits *)
Lemma land1_testbit u i : 0 <= i -> Z.land (Z.shiftr u i) 1 = b2z (Z.testbit u i).
Proof.
  intros H. change 1 with (Z.ones 1). rewrite Z.land_ones by lia.
  rewrite Z.shiftr_div_pow2 by lia. change (2 ^ 1) with 2.
  pose proof (Z.testbit_spec' u i H) as E. rewrite <- E.
  now destruct (Z.testbit u i).
Qed.

Lemma int2seq_length u n : length (int2seq u n) = Z.to_nat n.
Proof. unfold int2seq. now rewrite map_length, zrange_length. Qed.

Lemma int2seq_nth u n i d : 0 <= i < n -> nth (Z.to_nat i) (int2seq u n) d = b2z (Z.testbit u i).
Proof.
  intros H. unfold int2seq.
  set (f := fun i => Z.land (Z.shiftr u i) 1).
  rewrite nth_indep with (d' := f 0) by (rewrite map_length, zrange_length; lia).
  rewrite map_nth, zrange_nth by lia. apply land1_testbit; lia.
Qed.

Lemma seq2int_from_testbit l : forall idx v i, 0 <= idx -> 0 <= i ->
  Z.testbit (seq2int_from idx v l) i =
  orb (Z.testbit v i)
      (if idx <=? i then nth (Z.to_nat (i - idx)) l false else false).
Proof.
  induction l as [|b l IH]; intros idx v i Hidx Hi.
  - cbn [seq2int_from]. destruct (idx <=? i); [destruct (Z.to_nat (i-idx))|]; cbn [nth]; now rewrite orb_false_r.
  - cbn [seq2int_from]. rewrite IH by lia. rewrite Z.lor_spec, Z.shiftl_spec by lia.
    destruct (Z.leb_spec idx i) as [Hle|Hlt].
    + destruct (Z.leb_spec (idx + 1) i) as [Hle1|Hgt].
      * replace (Z.to_nat (i - idx)) with (S (Z.to_nat (i - (idx + 1)))) by lia.
        cbn [nth]. replace (Z.testbit (b2z b) (i - idx)) with false; [now rewrite orb_false_r|].
        symmetry. destruct b; cbn [b2z]; [|apply Z.testbit_0_l].
        change 1 with (2^0). rewrite Z.pow2_bits_eqb by lia. lia.
      * assert (i = idx) by lia. subst i. rewrite Z.sub_diag. cbn [Z.to_nat nth].
        rewrite orb_false_r. f_equal. now destruct b.
    + destruct (Z.leb_spec (idx + 1) i); [lia|].
      rewrite (Z.testbit_neg_r _ (i - idx)) by lia. now rewrite !orb_false_r.
Qed.

Lemma seq2int_testbit l i : 0 <= i -> Z.testbit (seq2int l) i = nth (Z.to_nat i) l false.
Proof.
  intros H. unfold seq2int. rewrite seq2int_from_testbit by lia.
  rewrite Z.testbit_0_l. cbn [orb].
  replace (0 <=? i) with true by lia. now rewrite Z.sub_0_r.
Qed.

Lemma bits_value_testbit l : forall i, 0 <= i -> Z.testbit (bits_value l) i = nth (Z.to_nat i) l false.
Proof.
  induction l as [|b l IH]; intros i Hi; cbn [bits_value].
  - rewrite Z.testbit_0_l. now destruct (Z.to_nat i).
  - destruct (Z.eq_dec i 0) as [->|Hne].
    + cbn [Z.to_nat nth]. destruct b.
      * rewrite Z.add_comm. apply Z.testbit_odd_0.
      * rewrite Z.add_0_l. apply Z.testbit_even_0.
    + replace i with (Z.succ (i - 1)) at 1 by lia.
      replace (Z.to_nat i) with (S (Z.to_nat (i - 1))) by lia. cbn [nth].
      rewrite <- IH by lia. destruct b.
      * rewrite Z.add_comm. apply Z.testbit_odd_succ; lia.
      * rewrite Z.add_0_l. apply Z.testbit_even_succ; lia.
Qed.

Lemma seq2int_value l : seq2int l = bits_value l.
Proof.
  apply Z.bits_inj'. intros i Hi. now rewrite seq2int_testbit, bits_value_testbit.
Qed.

Lemma bits_value_range l : 0 <= bits_value l < 2 ^ Z.of_nat (length l).
Proof.
  induction l as [|b l IH]; cbn [bits_value length].
  - change (2 ^ Z.of_nat 0) with 1. lia.
  - replace (Z.of_nat (S (length l))) with (Z.succ (Z.of_nat (length l))) by lia.
    rewrite Z.pow_succ_r by lia. destruct b; lia.
Qed.

Lemma testbit_high u n i : 0 <= u < 2 ^ n -> n <= i -> Z.testbit u i = false.
Proof.
  intros H Hi. destruct (Z.eq_dec u 0) as [->|]; [apply Z.testbit_0_l|].
  apply Z.bits_above_log2; [lia|].
  assert (Hn : 0 <= n). { destruct (Z.lt_ge_cases n 0); [rewrite Z.pow_neg_r in H by lia; lia|lia]. }
  enough (Z.log2 u < n) by lia. apply Z.log2_lt_pow2; lia.
Qed.

Lemma bits_ext n u v : 0 <= u < 2 ^ n -> 0 <= v < 2 ^ n ->
  (forall i, 0 <= i < n -> Z.testbit u i = Z.testbit v i) -> u = v.
Proof.
  intros Hu Hv H. apply Z.bits_inj'. intros i Hi.
  destruct (Z.lt_ge_cases i n); [apply H; lia|].
  now rewrite !(testbit_high _ n) by lia.
Qed.

(** ** truth, conversion, coercion *)
Lemma getitem_int_spec x i : wf x -> - bsize x <= i < bsize x ->
  getitem_int x i = Ok (Z.testbit (bval x) (i mod bsize x)).
Proof.
  intros [H1 H2] Hi. unfold getitem_int, bsize in *.
  set (n := csize (bcls x)) in *.
  assert (E : (if i <? 0 then n + i else i) = i mod n).
  { destruct (Z.ltb_spec i 0).
    - apply Zmod_unique with (-1); lia.
    - symmetry. apply Z.mod_small; lia. }
  rewrite E. pose proof (Z.mod_pos_bound i n).
  replace ((0 <=? i mod n) && (i mod n <? n)) with true by lia.
  rewrite land1_testbit by lia. now destruct (Z.testbit _ _).
Qed.

Lemma getitem_int_out x i : ~ (- bsize x <= i < bsize x) -> getitem_int x i = Raise EIndexError.
Proof.
  intros H. unfold getitem_int. destruct (Z.ltb_spec i 0).
  - replace ((0 <=? bsize x + i) && (bsize x + i <? bsize x)) with false by lia. reflexivity.
  - replace ((0 <=? i) && (i <? bsize x)) with false by lia. reflexivity.
Qed.

Lemma msb_spec n u : 1 <= n -> 0 <= u < 2 ^ n -> Z.testbit u (n - 1) = negb (2 * u <? 2 ^ n).
Proof.
  intros Hn Hu. assert (E : 2 ^ n = 2 * 2 ^ (n - 1)).
  { rewrite <- Z.pow_succ_r by lia. f_equal. lia. }
  pose proof (pow2_pos (n - 1)) as Hp.
  destruct (Z.ltb_spec (2 * u) (2 ^ n)).
  - cbn [negb]. apply testbit_high with (n := n - 1); lia.
  - cbn [negb]. apply Z.testbit_true; [lia|].
    replace (u / 2 ^ (n - 1)) with 1; [reflexivity|].
    apply Z.div_unique with (u - 2 ^ (n - 1)); lia.
Qed.

Lemma as_sint_spec x : wf x -> 1 <= bsize x -> as_sint x = Ok (signed (bsize x) (bval x)).
Proof.
  intros Hw Hn. unfold as_sint. rewrite getitem_int_spec by (auto; lia).
  cbn [bind]. replace ((-1) mod bsize x) with (bsize x - 1).
  2:{ apply Zmod_unique with (-1); lia. }
  destruct Hw as [H1 H2]. fold (bsize x) in *.
  rewrite msb_spec by lia. unfold signed. rewrite shiftl1 by lia.
  now destruct (2 * bval x <? 2 ^ bsize x).
Qed.

Lemma as_sint_zero x : bsize x = 0 -> as_sint x = Raise EIndexError.
Proof. intros H. unfold as_sint. rewrite getitem_int_out by lia. reflexivity. Qed.

Lemma signed_range n u : 1 <= n -> 0 <= u < 2 ^ n -> - 2 ^ (n - 1) <= signed n u < 2 ^ (n - 1).
Proof.
  intros Hn Hu. unfold signed. assert (E : 2 ^ n = 2 * 2 ^ (n - 1)).
  { rewrite <- Z.pow_succ_r by lia. f_equal. lia. }
  destruct (Z.ltb_spec (2 * u) (2 ^ n)); lia.
Qed.

Lemma signed_mod n u : 0 <= n -> 0 <= u < 2 ^ n -> signed n u mod 2 ^ n = u.
Proof.
  intros Hn Hu. unfold signed. destruct (Z.ltb_spec (2 * u) (2 ^ n)).
  - apply Z.mod_small; lia.
  - symmetry. apply Zmod_unique with (-1); lia.
Qed.

Lemma signed_zero n u : 0 <= u < 2 ^ n -> signed n u = 0 <-> u = 0.
Proof. intros Hu. unfold signed. destruct (Z.ltb_spec (2 * u) (2 ^ n)); lia. Qed.

Lemma signed_inj n u v : 0 <= u < 2 ^ n -> 0 <= v < 2 ^ n -> signed n u = signed n v -> u = v.
Proof.
  intros Hu Hv. unfold signed.
  destruct (Z.ltb_spec (2 * u) (2 ^ n)), (Z.ltb_spec (2 * v) (2 ^ n)); lia.
Qed.

Lemma truth_truthy v b : truthy v b -> truth v = Ok b.
Proof.
  intros H; destruct H; try reflexivity.
  cbn [truth]. unfold bv_bool, bv_int. destruct H as [H1 H2].
  destruct (bkind x) eqn:Hk; cbn [rmap]; try reflexivity.
  assert (Hn : 1 <= csize (bcls x)) by (destruct H0; [assumption|unfold bkind in Hk; congruence]).
  rewrite as_sint_spec by (unfold wf, bsize; auto). cbn [rmap]. f_equal. f_equal.
  pose proof (signed_zero (bsize x) (bval x)) as Hs. unfold bsize in *. lia.
Qed.

Lemma truthy_truth v b : arg_wf v -> truth v = Ok b -> truthy v b.
Proof.
  intros Hw. destruct v as [z|b0|b0|x|l|n|i o t]; cbn [truth]; intros H; try (inv H; constructor; fail).
  - unfold bv_bool, bv_int in H. assert (N : bkind x <> KSInt -> truthy (VBV x) (negb (bval x =? 0)))
      by (intros; constructor; auto).
    destruct (bkind x) eqn:Hk; cbn [rmap] in H; try (inv H; apply N; discriminate).
    destruct (Z.eq_dec (bsize x) 0) as [E|E]; [rewrite as_sint_zero in H by auto; discriminate|].
    assert (Hn : 1 <= csize (bcls x)) by (destruct Hw; unfold bsize in *; lia).
    rewrite as_sint_spec in H by auto. cbn [rmap] in H. inv H.
    replace (signed (bsize x) (bval x) =? 0) with (bval x =? 0); [constructor; auto|].
    pose proof (signed_zero (bsize x) (bval x)) as Hs. destruct Hw. unfold bsize in *. lia.
  - destruct l; inv H; constructor.
  - destruct n; inv H; constructor.
  - destruct o as [r|]; [subst r; constructor|inv H; constructor].
Qed.

Lemma mapM_truthy l bs : Forall2 truthy l bs -> mapM truth l = Ok bs.
Proof.
  intros H; induction H; cbn [mapM]; [reflexivity|].
  rewrite (truth_truthy _ _ H), IHForall2. reflexivity.
Qed.

Lemma truthy_mapM l : Forall arg_wf l -> forall bs, mapM truth l = Ok bs -> Forall2 truthy l bs.
Proof.
  induction 1 as [|v l Hv Hl IH]; intros bs H; cbn [mapM] in H; [inv H; constructor|].
  destruct (truth v) eqn:E; cbn [bind] in H; [|discriminate].
  destruct (mapM truth l); cbn [bind] in H; [|discriminate]. inv H.
  constructor; auto using truthy_truth.
Qed.

Lemma bv_init_converts c v u : 0 <= csize c -> converts (csize c) v u -> bv_init c v = Ok (BV c u).
Proof.
  intros Hc H; destruct H; cbn [bv_init]; rewrite ?mk_eq by auto; try reflexivity.
  - rewrite (mapM_truthy _ _ H). cbn [bind]. now rewrite mk_eq, seq2int_value by auto.
  - now rewrite seq2int_value.
  - cbn [bind]. now rewrite mk_eq by auto.
Qed.

Lemma bv_init_cls c v x : bv_init c v = Ok x -> bcls x = c.
Proof.
  destruct v as [| | | | l |n| [i|] b t]; cbn [bv_init]; intros H; try (inv H; reflexivity).
  - destruct (mapM truth l); cbn [bind] in H; inv H; reflexivity.
  - destruct i; cbn [bind] in H; inv H; reflexivity.
Qed.

Lemma bv_init_converts_inv c v x : 0 <= csize c -> arg_wf v -> bv_init c v = Ok x ->
  converts (csize c) v (bval x).
Proof.
  intros Hc Hw H. destruct v as [z|b|b|y| l |n| [i|] b t]; cbn [bv_init] in H;
    try (inv H; rewrite mk_eq by auto; constructor; fail); try discriminate.
  - destruct (mapM truth l) as [bs|] eqn:E; cbn [bind] in H; inv H. rewrite mk_eq, seq2int_value by auto.
    constructor. apply truthy_mapM; auto. clear -Hw.
    induction l; cbn in *; constructor; [apply Hw|apply IHl, Hw].
  - inv H. rewrite mk_eq, seq2int_value by auto. constructor.
  - destruct i; cbn [bind] in H; inv H. rewrite mk_eq by auto. constructor.
Qed.

Lemma bv_init_wf c v x : 0 <= csize c -> bv_init c v = Ok x -> wf x.
Proof.
  intros Hc H. destruct v as [| | | | l |n| [i|] b t]; cbn [bv_init] in H;
    try (inv H; now apply mk_wf); try discriminate.
  - destruct (mapM truth l); cbn [bind] in H; inv H; now apply mk_wf.
  - destruct i; cbn [bind] in H; inv H; now apply mk_wf.
Qed.

Lemma sized_ok k n : 0 <= n -> sized k n = Ok (BVC k n).
Proof. intros H. unfold sized. now replace (n <? 0) with false by lia. Qed.

Lemma sized_inv k n c : sized k n = Ok c -> 0 <= n /\ c = BVC k n.
Proof. unfold sized. destruct (Z.ltb_spec n 0) as [Hn|Hn]; intros E; inv E. auto. Qed.

Lemma construct_wf k n v x : construct k n v = Ok x -> wf x /\ bcls x = BVC k n.
Proof.
  unfold construct. destruct (sized k n) as [c|] eqn:E; cbn [bind]; [|discriminate].
  apply sized_inv in E as [Hn ->]. intros H. split.
  - eapply bv_init_wf; [|exact H]. exact Hn.
  - eapply bv_init_cls; eauto.
Qed.

Lemma coerce_wf c v y : 0 <= csize c -> arg_wf v -> coerce c v = Ok y -> wf y /\ bsize y = csize c.
Proof.
  intros Hc Hv H. destruct v as [| | | z | | |]; cbn [coerce] in H;
    try (split; [eapply bv_init_wf; eauto | unfold bsize; erewrite bv_init_cls; eauto]; fail).
  destruct (Z.eqb_spec (bsize z) (csize c)); cbn [negb] in H; inv H. now split.
Qed.

Lemma coerce_operand c v u : 0 <= csize c -> operand (csize c) v u ->
  exists y, coerce c v = Ok y /\ bval y = u /\ bsize y = csize c /\ wf y.
Proof.
  intros Hc H. destruct H as [y Hy Hn | v u Hv Hcv].
  - exists y. unfold coerce, bsize. rewrite Hn, Z.eqb_refl. cbn [negb]. auto.
  - exists (BV c u). pose proof (bv_init_converts c v u Hc Hcv) as E.
    assert (E' : coerce c v = Ok (BV c u)).
    { destruct v; try exact E. exfalso. eapply Hv; reflexivity. }
    repeat split; auto; cbn [bcls bval].
    + pose proof (bv_init_wf c v _ Hc E) as [_ W]. cbn [bcls bval] in W. lia.
    + pose proof (bv_init_wf c v _ Hc E) as [_ W]. cbn [bcls bval] in W. lia.
Qed.

Lemma operand_range n v u : 0 <= n -> operand n v u -> 0 <= u < 2 ^ n.
Proof.
  intros Hn H. destruct (coerce_operand (BVC KBV n) v u Hn H) as (y & _ & <- & Hs & [W1 W2]).
  unfold bsize in Hs. rewrite Hs in W2. exact W2.
Qed.

(** [bv_cast] on an acceptable operand. *)
Lemma bv_cast_operand {A} (fn : bv -> bv -> res A) x v u :
  wf x -> operand (bsize x) v u ->
  exists y, bv_cast fn x v = fn x y /\ bval y = u /\ bsize y = bsize x /\ wf y.
Proof.
  intros [H1 H2] Ho. destruct (coerce_operand (bcls x) v u H1 Ho) as (y & E & Hy).
  exists y. unfold bv_cast. rewrite E. cbn [bind]. split; [reflexivity|exact Hy].
Qed.
