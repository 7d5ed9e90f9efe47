(** Proofs of the statements in BVProps.v and OpProps.v. *)
From Coq Require Import Lia ZifyBool.
From Verif Require Import PyBase BVModel BVSpec BVFacts BVOps SliceFacts OpModel OpFacts.

Lemma unsupported_init c v : unsupported v -> bv_init c v = Raise ETypeError.
Proof.
  intros H; destruct H; try reflexivity. cbn [bv_init].
  replace (mapM truth _) with (@Raise (list bool) ETypeError); [reflexivity|].
  induction H; cbn [app mapM]; [reflexivity|].
  rewrite (truth_truthy _ _ H). cbn [bind]. rewrite <- IHForall2. reflexivity.
Qed.
Lemma unsupported_other v : unsupported v -> not_bit_or_bv v /\ not_str v.
Proof. intros H; destruct H; cbn; auto. Qed.

Lemma bit_init_operand v b : bit_operand v b -> bit_init v = Ok b.
Proof.
  intros H; destruct H; try reflexivity. cbn [bit_init].
  change (bv_bool x) with (truth (VBV x)). apply truth_truthy. now constructor.
Qed.

Lemma bits_roundtrip x : wf x ->
  construct (bkind x) (bsize x) (VSeq (map VInt (bits x))) = Ok x.
Proof.
  intros [W1 W2]. fold (bsize x) in *. rewrite bits_tbits.
  change (VSeq (map VInt ?l)) with (bits_arg l).
  rewrite construct_bits by (rewrite tbits_length; lia).
  rewrite bits_value_tbits, Z.mod_small by lia.
  destruct x as [[k n] u]. reflexivity.
Qed.

Lemma tbits_bits_value bs n : n = Z.of_nat (length bs) -> tbits (bits_value bs) n = bs.
Proof.
  intros ->. unfold tbits, zrange. rewrite Nat2Z.id, map_map.
  apply nth_ext with (d := false) (d' := false).
  { now rewrite map_length, seq_length. }
  intros i Hi. rewrite map_length, seq_length in Hi.
  rewrite nth_indep with (d' := (fun x => Z.testbit (bits_value bs) (Z.of_nat x)) 0%nat)
    by (rewrite map_length, seq_length; lia).
  rewrite (map_nth (fun x => Z.testbit (bits_value bs) (Z.of_nat x))).
  rewrite seq_nth, bits_value_testbit by lia. f_equal. lia.
Qed.

Lemma Forall2_length {A B} (R : A -> B -> Prop) l m : Forall2 R l m -> length l = length m.
Proof. induction 1; cbn; congruence. Qed.

Lemma seq_roundtrip k l bs : Forall2 truthy l bs ->
  exists y, construct k (Z.of_nat (length l)) (VSeq l) = Ok y /\
    bits y = map b2z bs /\ as_bool_list y = bs.
Proof.
  intros H. pose proof (Forall2_length _ _ _ H) as Hl. rewrite Hl.
  rewrite construct_converts with (u := bits_value bs mod 2 ^ Z.of_nat (length bs));
    [|lia|now constructor].
  rewrite Z.mod_small by apply bits_value_range.
  eexists; split; [reflexivity|].
  assert (E : bits (BV (BVC k (Z.of_nat (length bs))) (bits_value bs)) = map b2z bs).
  { rewrite bits_tbits. sbv. now rewrite tbits_bits_value. }
  split; [exact E|]. unfold as_bool_list. rewrite E, map_map.
  rewrite <- (map_id bs) at 2. apply map_ext. now intros [].
Qed.

Lemma slice_general x a b s : wf x -> s <> Some 0 ->
  exists y, getitem x (ISlice a b s) = Ok (VBV y) /\ wf y /\
    bcls y = BVC (bkind x) (Z.of_nat (length (slice_positions (bsize x) a b s))) /\
    bits y = map (fun p => if Z.testbit (bval x) p then 1 else 0) (slice_positions (bsize x) a b s).
Proof.
  intros Hw Hs. assert (Hn : 0 <= bsize x) by (destruct Hw; auto).
  pose proof (slice_indices_correct (bsize x) a b s Hn Hs) as E.
  cbn [getitem]. rewrite (getitem_slice_gen _ _ _ _ _ Hw E). cbn [rmap].
  eexists. split; [reflexivity|].
  pose proof (bits_value_range (map (Z.testbit (bval x)) (slice_positions (bsize x) a b s))) as R.
  rewrite map_length in R.
  split; [split; cbn [bcls csize bval]; [lia|exact R]|]. split; [reflexivity|].
  rewrite bits_tbits. sbv. rewrite tbits_bits_value by now rewrite map_length.
  now rewrite map_map.
Qed.

Lemma slice_concat_id x k : wf x -> 0 <= k <= bsize x ->
  exists lo hi, getitem_slice x None (Some k) None = Ok lo /\
    getitem_slice x (Some k) None None = Ok hi /\ concat lo (VBV hi) = Ok x.
Proof.
  intros Hw Hk. rewrite !getitem_slice_plain by auto. cbv zeta.
  replace (k <? 0) with false by lia.
  replace (Z.max 0 (Z.min (bsize x) k)) with k by lia.
  replace (Z.max 0 (k - 0)) with k by lia.
  replace (Z.max 0 (bsize x - k)) with (bsize x - k) by lia.
  destruct Hw as [W1 W2]. fold (bsize x) in *. change (2 ^ 0) with 1. rewrite Z.div_1_r.
  assert (0 < 2 ^ k) by (apply pow2_pos; lia).
  assert (0 < 2 ^ (bsize x - k)) by (apply pow2_pos; lia).
  do 2 eexists. split; [reflexivity|]. split; [reflexivity|].
  rewrite concat_spec; try apply kind_le_refl.
  2, 3: split; cbn [bcls csize bval]; [lia|apply Z.mod_pos_bound; lia].
  sbv. replace (k + (bsize x - k)) with (bsize x) by lia.
  f_equal. apply bv_ext; cbn [bcls bval]; [now destruct x as [[? ?] ?]|].
  rewrite (Z.mod_small (bval x / 2 ^ k)).
  - pose proof (Z.div_mod (bval x) (2 ^ k)). lia.
  - split; [apply Z.div_pos; lia|]. apply Z.div_lt_upper_bound; [lia|].
    rewrite <- Z.pow_add_r by lia. now replace (k + (bsize x - k)) with (bsize x) by lia.
Qed.

Lemma concat_bad x v : (forall y, v = VBV y -> kind_le (bkind y) (bkind x) = false) ->
  concat x v = Raise ETypeError.
Proof. intros H. destruct v; try reflexivity. cbn [concat]. now rewrite H. Qed.

Lemma rol_ror x v u : wf x -> 1 <= bsize x -> operand (bsize x) v u ->
  exists y, bvrol x v = Ok (New y) /\ bvror y v = Ok (New x).
Proof.
  intros Hw Hn Ho. destruct (bvrol_spec x v u Hw Hn Ho) as (y & E & Hc & Hy & Hb).
  exists y. split; [exact E|].
  assert (Hs : bsize y = bsize x) by (unfold bsize; now rewrite Hc).
  rewrite <- Hs in Hn, Ho. destruct (bvror_spec y v u Hy Hn Ho) as (z & E2 & Hc2 & Hz & Hb2).
  rewrite E2. do 2 f_equal. apply bv_ext; [congruence|].
  destruct Hz as [_ Z2]. destruct Hw as [_ X2]. rewrite Hc2, Hc in Z2. fold (bsize x) in *.
  apply bits_ext with (n := bsize x); auto. intros i Hi. rewrite Hb2 by lia. rewrite Hs in *.
  rewrite Hb by (apply Z.mod_pos_bound; lia). f_equal.
  rewrite Zminus_mod_idemp_l. replace (i + u - u) with i by lia. apply Z.mod_small; lia.
Qed.
Lemma ror_rol x v u : wf x -> 1 <= bsize x -> operand (bsize x) v u ->
  exists y, bvror x v = Ok (New y) /\ bvrol y v = Ok (New x).
Proof.
  intros Hw Hn Ho. destruct (bvror_spec x v u Hw Hn Ho) as (y & E & Hc & Hy & Hb).
  exists y. split; [exact E|].
  assert (Hs : bsize y = bsize x) by (unfold bsize; now rewrite Hc).
  rewrite <- Hs in Hn, Ho. destruct (bvrol_spec y v u Hy Hn Ho) as (z & E2 & Hc2 & Hz & Hb2).
  rewrite E2. do 2 f_equal. apply bv_ext; [congruence|].
  destruct Hz as [_ Z2]. destruct Hw as [_ X2]. rewrite Hc2, Hc in Z2. fold (bsize x) in *.
  apply bits_ext with (n := bsize x); auto. intros i Hi. rewrite Hb2 by lia. rewrite Hs in *.
  rewrite Hb by (apply Z.mod_pos_bound; lia). f_equal.
  rewrite Zplus_mod_idemp_l. replace (i - u + u) with i by lia. apply Z.mod_small; lia.
Qed.

(** ** implicit sizing *)
Lemma bit_length_spec z : 0 <= z -> 0 <= bit_length z /\ z < 2 ^ bit_length z /\ (0 < z -> 2 ^ (bit_length z - 1) <= z).
Proof.
  intros H. unfold bit_length. destruct (Z.eqb_spec z 0) as [->|Hz].
  - change (2 ^ 0) with 1. lia.
  - rewrite Z.abs_eq by lia. pose proof (Z.log2_spec z ltac:(lia)). pose proof (Z.log2_nonneg z).
    replace (Z.log2 z + 1 - 1) with (Z.log2 z) by lia.
    replace (Z.log2 z + 1) with (Z.succ (Z.log2 z)) by lia. lia.
Qed.

Lemma implicit_nonneg k z : 0 <= z ->
  construct_implicit k (VInt z) = Ok (BV (BVC k (Z.max (bit_length z) 1)) z).
Proof.
  intros Hz. unfold construct_implicit. cbn [implicit_size bind].
  destruct (bit_length_spec z Hz) as (H1 & H2 & _).
  rewrite construct_converts with (u := z mod 2 ^ Z.max (bit_length z) 1); [|lia|apply Cv_int].
  do 2 f_equal. apply Z.mod_small. split; [lia|].
  apply Z.lt_le_trans with (2 ^ bit_length z); [lia|]. apply Z.pow_le_mono_r; lia.
Qed.

Lemma implicit_signed z : 0 < z -> exists y,
  construct_implicit KSInt (VInt z) = Ok y /\ as_sint y = Ok (z - 2 ^ bit_length z) /\
  z - 2 ^ bit_length z < 0.
Proof.
  intros Hz. rewrite implicit_nonneg by lia.
  destruct (bit_length_spec z ltac:(lia)) as (H1 & H2 & H3). specialize (H3 Hz).
  assert (Hb : 1 <= bit_length z).
  { destruct (Z.eq_dec (bit_length z) 0) as [E|]; [|lia]. rewrite E in H2. change (2 ^ 0) with 1 in H2. lia. }
  replace (Z.max (bit_length z) 1) with (bit_length z) by lia.
  eexists. split; [reflexivity|]. split; [|lia].
  rewrite as_sint_spec; [|split; cbn [bcls csize bval]; lia|sbv; lia]. sbv. f_equal.
  unfold signed. replace (2 * z <? 2 ^ bit_length z) with false; [reflexivity|].
  replace (2 ^ bit_length z) with (2 * 2 ^ (bit_length z - 1)) by (rewrite <- Z.pow_succ_r by lia; f_equal; lia).
  lia.
Qed.

Lemma implicit_bv k x : wf x -> construct_implicit k (VBV x) = Ok (BV (BVC k (bsize x)) (bval x)).
Proof.
  intros [W1 W2]. unfold construct_implicit. cbn [implicit_size bind]. fold (bsize x) in *.
  rewrite construct_converts with (u := bval x mod 2 ^ bsize x); [|lia|apply Cv_bv].
  now rewrite Z.mod_small by lia.
Qed.

(** ** signed division facts *)
Lemma sdiv_srem_identity x v u q r : wf x -> 1 <= bsize x -> operand (bsize x) v u -> u <> 0 ->
  bvsdiv x v = Ok (New q) -> bvsrem x v = Ok (New r) ->
  (bval q * u + bval r) mod 2 ^ bsize x = bval x.
Proof.
  intros Hw Hn Ho Hu Hq Hr. rewrite (bvsdiv_spec x v u) in Hq by auto.
  rewrite (bvsrem_spec x v u) in Hr by auto.
  destruct (Z.eqb_spec u 0) as [|_]; [lia|]. injection Hq as <-. injection Hr as <-. cbn [bval].
  destruct Hw as [W1 W2]. fold (bsize x) in *. set (n := bsize x) in *.
  assert (Hur : 0 <= u < 2 ^ n) by (apply operand_range with v; auto).
  pose proof (signed_zero n u Hur) as HZ.
  set (sx := signed n (bval x)) in *. set (su := signed n u) in *.
  assert (E : ((sx / su) mod 2 ^ n * u + (sx mod su) mod 2 ^ n) mod 2 ^ n
              = (su * (sx / su) + sx mod su) mod 2 ^ n).
  { rewrite <- (signed_mod n u) at 1 by auto. fold su. rewrite Zplus_mod_idemp_r.
    rewrite <- Zplus_mod_idemp_l, Zmult_mod_idemp_l, Zmult_mod_idemp_r, Zplus_mod_idemp_l.
    f_equal. lia. }
  rewrite E, <- Z.div_mod by lia.
  now apply signed_mod.
Qed.

(** ** Bit operators *)
Lemma bit_binop_left op f a v b : bit_fn op = Some f -> bit_operand v b ->
  py_binop op (VBit a) v = Ok (ONew (VBit (f a b))).
Proof.
  intros Hf Hv. assert (E : bit_method op a v = Ok (ONew (VBit (f a b)))).
  { unfold bit_method. now rewrite Hf, (bit_init_operand _ _ Hv). }
  destruct Hv; cbn [py_binop first_of]; rewrite E; reflexivity.
Qed.
Lemma bit_binop_right op f a v b : bit_fn op = Some f -> bit_operand v b -> (forall x, v <> VBV x) ->
  py_binop op v (VBit a) = Ok (ONew (VBit (f b a))).
Proof.
  intros Hf Hv Hn. destruct Hv; try (exfalso; eapply Hn; reflexivity); cbn [py_binop first_of].
  { unfold bit_method. rewrite Hf. reflexivity. }
  all: unfold bit_rmethod; rewrite Hf; reflexivity.
Qed.
Lemma bit_cmp_left c f a v b : (c = CEq /\ f = Bool.eqb) \/ (c = CNe /\ f = xorb) -> bit_operand v b ->
  py_cmp c (VBit a) v = Ok (ONew (VBit (f a b))).
Proof.
  intros Hc Hv. assert (E : bit_cmp c a v = Ok (ONew (VBit (f a b)))).
  { unfold bit_cmp. rewrite (bit_init_operand _ _ Hv). destruct Hc as [[-> ->]|[-> ->]]; reflexivity. }
  destruct Hv; cbn [py_cmp cmp_first_of]; rewrite E; reflexivity.
Qed.
Lemma bit_cmp_right c f a v b : (c = CEq /\ f = Bool.eqb) \/ (c = CNe /\ f = xorb) -> bit_operand v b ->
  (forall x, v <> VBV x) -> py_cmp c v (VBit a) = Ok (ONew (VBit (f b a))).
Proof.
  intros Hc Hv Hn. destruct Hv; try (exfalso; eapply Hn; reflexivity);
    destruct Hc as [[-> ->]|[-> ->]]; cbn; try reflexivity; destruct a; try destruct b; reflexivity.
Qed.
Lemma bit_bad_int op f a z : bit_fn op = Some f -> z <> 0 -> z <> 1 ->
  py_binop op (VBit a) (VInt z) = Raise EValueError /\ py_binop op (VInt z) (VBit a) = Raise EValueError.
Proof.
  intros Hf H0 H1. cbn [py_binop first_of]. unfold bit_method, bit_rmethod. rewrite Hf. cbn [bit_init].
  replace ((z =? 0) || (z =? 1)) with false by lia. auto.
Qed.
