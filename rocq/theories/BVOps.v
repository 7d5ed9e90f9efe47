(** Lemmas characterising each bit-vector method of BVModel.v. *)
From Coq Require Import Lia ZifyBool.
From Verif Require Import PyBase BVModel BVSpec BVFacts.

Ltac sbv :=
  repeat match goal with
  | |- context[bsize (BV ?c ?v)] => change (bsize (BV c v)) with (csize c)
  | |- context[bkind (BV ?c ?v)] => change (bkind (BV c v)) with (ck c)
  end; cbn [csize ck bcls bval].

Definition tbits (u n : Z) : list bool := map (Z.testbit u) (zrange n).

Lemma bits_tbits x : bits x = map b2z (tbits (bval x) (bsize x)).
Proof.
  unfold bits, int2seq, tbits. rewrite map_map. apply map_ext_in.
  intros i Hi. apply zrange_In in Hi. apply land1_testbit. lia.
Qed.

Lemma tbits_length u n : length (tbits u n) = Z.to_nat n.
Proof. unfold tbits. now rewrite map_length, zrange_length. Qed.

Lemma tbits_nth u n i d : 0 <= i < n -> nth (Z.to_nat i) (tbits u n) d = Z.testbit u i.
Proof.
  intros H. unfold tbits.
  rewrite nth_indep with (d' := Z.testbit u 0) by (rewrite map_length, zrange_length; lia).
  now rewrite map_nth, zrange_nth by lia.
Qed.

Lemma bits_value_tbits u n : 0 <= n -> bits_value (tbits u n) = u mod 2 ^ n.
Proof.
  intros Hn. pose proof (bits_value_range (tbits u n)) as R.
  rewrite tbits_length, Z2Nat.id in R by lia.
  apply bits_ext with (n := n); [exact R | |].
  - pose proof (pow2_pos n Hn). apply Z.mod_pos_bound; lia.
  - intros i Hi. rewrite bits_value_testbit, tbits_nth by lia.
    rewrite Z.mod_pow2_bits_low by lia. reflexivity.
Qed.

Lemma Forall2_truthy_b2z bs : Forall2 truthy (map VInt (map b2z bs)) bs.
Proof.
  induction bs as [|b bs IH]; cbn [map]; constructor; auto.
  destruct b; [apply (T_int 1)|apply (T_int 0)].
Qed.

Lemma construct_converts k n v u : 0 <= n -> converts n v u ->
  construct k n v = Ok (BV (BVC k n) u).
Proof.
  intros Hn H. unfold construct. rewrite sized_ok by lia. cbn [bind].
  now apply bv_init_converts.
Qed.

Lemma construct_bits k n bs : n = Z.of_nat (length bs) ->
  construct k n (bits_arg (map b2z bs)) = Ok (BV (BVC k n) (bits_value bs)).
Proof.
  intros ->. rewrite construct_converts with (u := bits_value bs mod 2 ^ Z.of_nat (length bs)); try lia.
  - do 2 f_equal. apply Z.mod_small, bits_value_range.
  - constructor. apply Forall2_truthy_b2z.
Qed.

Lemma construct_bits_trunc k n bs : 0 <= n ->
  construct k n (bits_arg (map b2z bs)) = Ok (BV (BVC k n) (bits_value bs mod 2 ^ n)).
Proof.
  intros H. apply construct_converts; auto. constructor. apply Forall2_truthy_b2z.
Qed.

(** ** slices *)
Lemma list_slice_map {A B} (f : A -> B) d l a b s :
  (forall idx, slice_indices (Z.of_nat (length l)) a b s = Ok idx ->
     forall i, In i idx -> 0 <= i < Z.of_nat (length l)) ->
  list_slice (f d) (map f l) a b s = rmap (map f) (list_slice d l a b s).
Proof.
  intros H. unfold list_slice. rewrite map_length.
  destruct (slice_indices _ a b s) as [idx|e]; cbn [rmap]; [|reflexivity].
  rewrite map_map. f_equal. apply map_ext. intros i. apply map_nth.
Qed.

Lemma clamp_index_range n step i : 0 <= n ->
  (step < 0 -> -1 <= clamp_index n step i <= n - 1) /\
  (0 < step -> 0 <= clamp_index n step i <= n).
Proof.
  intros Hn. unfold clamp_index.
  destruct (Z.ltb_spec i 0), (Z.ltb_spec step 0);
    repeat match goal with |- context[if ?b then _ else _] => destruct b eqn:? end; lia.
Qed.

Lemma slice_indices_range n a b s idx : 0 <= n ->
  slice_indices n a b s = Ok idx -> forall i, In i idx -> 0 <= i < n.
Proof.
  intros Hn H i Hi. unfold slice_indices in H.
  set (step := match s with None => 1 | Some s => s end) in *.
  destruct (Z.eqb_spec step 0) as [|Hs]; [discriminate|].
  set (start := match a with None => _ | Some i => _ end) in *.
  set (stop := match b with None => _ | Some i => _ end) in *.
  assert (Hstart : (step < 0 -> -1 <= start <= n - 1) /\ (0 < step -> 0 <= start <= n)).
  { subst start. destruct a; [now apply clamp_index_range|].
    destruct (Z.ltb_spec step 0); lia. }
  assert (Hstop : (step < 0 -> -1 <= stop <= n - 1) /\ (0 < step -> 0 <= stop <= n)).
  { subst stop. destruct b; [now apply clamp_index_range|].
    destruct (Z.ltb_spec step 0); lia. }
  injection H as <-. apply in_map_iff in Hi as (j & <- & Hj). apply zrange_In in Hj.
  destruct (Z.ltb_spec step 0) as [Hneg|Hpos].
  - destruct (Z.ltb_spec stop start) as [Hlt|]; [|lia].
    assert (j * (- step) <= start - stop - 1).
    { assert (j <= (start - stop - 1) / (- step)) by lia.
      pose proof (Z.mul_div_le (start - stop - 1) (- step)). nia. }
    nia.
  - destruct (Z.ltb_spec start stop) as [Hlt|]; [|lia].
    assert (j * step <= stop - start - 1).
    { assert (j <= (stop - start - 1) / step) by lia.
      pose proof (Z.mul_div_le (stop - start - 1) step). nia. }
    nia.
Qed.

Lemma bits_length x : length (bits x) = Z.to_nat (bsize x).
Proof. now rewrite bits_tbits, map_length, tbits_length. Qed.

(** Any slice: the result's bits are the bits of x at the positions of the list slice. *)
Lemma getitem_slice_gen x a b s idx : wf x ->
  slice_indices (bsize x) a b s = Ok idx ->
  getitem_slice x a b s =
    Ok (BV (BVC (bkind x) (Z.of_nat (length idx))) (bits_value (map (Z.testbit (bval x)) idx))).
Proof.
  intros [W1 W2] Hidx. fold (bsize x) in *. unfold getitem_slice.
  rewrite bits_tbits. change 0 with (b2z false).
  assert (Hl : Z.of_nat (length (tbits (bval x) (bsize x))) = bsize x)
    by (rewrite tbits_length; lia).
  rewrite list_slice_map.
  2:{ intros idx' E. eapply slice_indices_range; [lia|exact E]. }
  unfold list_slice. rewrite Hl, Hidx. cbn [rmap bind].
  assert (E : map (fun i => nth (Z.to_nat i) (tbits (bval x) (bsize x)) false) idx
              = map (Z.testbit (bval x)) idx).
  { apply map_ext_in. intros i Hi. apply tbits_nth.
    eapply slice_indices_range; eauto. }
  rewrite E. rewrite !map_length. apply construct_bits. now rewrite map_length.
Qed.

Lemma getitem_slice_err x a b s e : wf x ->
  slice_indices (bsize x) a b s = Raise e -> getitem_slice x a b s = Raise e.
Proof.
  intros [W1 W2] H. unfold getitem_slice, list_slice. rewrite bits_length.
  fold (bsize x) in W1. rewrite Z2Nat.id, H by lia. reflexivity.
Qed.

Lemma map_testbit_shift u a m : 0 <= a -> 0 <= m ->
  bits_value (map (Z.testbit u) (map (fun i => a + i * 1) (zrange m))) = (u / 2 ^ a) mod 2 ^ m.
Proof.
  intros Ha Hm. rewrite <- Z.shiftr_div_pow2 by lia. rewrite <- bits_value_tbits by lia.
  f_equal. unfold tbits. rewrite map_map. apply map_ext_in. intros i Hi. apply zrange_In in Hi.
  rewrite Z.shiftr_spec by lia. f_equal. lia.
Qed.

(** Plain slices [a:b], after clamping. *)
Lemma slice_indices_step1 n a b s : 0 <= n -> s = None \/ s = Some 1 ->
  let lo := match a with None => 0 | Some i => Z.max 0 (Z.min n (if i <? 0 then i + n else i)) end in
  let hi := match b with None => n | Some i => Z.max 0 (Z.min n (if i <? 0 then i + n else i)) end in
  slice_indices n a b s = Ok (map (fun i => lo + i * 1) (zrange (Z.max 0 (hi - lo)))).
Proof.
  intros Hn Hs lo hi. unfold slice_indices.
  replace (match s with None => 1 | Some s => s end) with 1 by (destruct Hs; subst; reflexivity).
  cbn [Z.eqb Z.ltb Z.compare].
  replace (match a with None => 0 | Some i => clamp_index n 1 i end) with lo.
  2:{ subst lo. destruct a as [i|]; [|reflexivity]. unfold clamp_index. cbn [Z.ltb Z.compare].
      destruct (Z.ltb_spec i 0);
      repeat match goal with |- context[if ?b then _ else _] => destruct b eqn:? end; lia. }
  replace (match b with None => n | Some i => clamp_index n 1 i end) with hi.
  2:{ subst hi. destruct b as [i|]; [|reflexivity]. unfold clamp_index. cbn [Z.ltb Z.compare].
      destruct (Z.ltb_spec i 0);
      repeat match goal with |- context[if ?b then _ else _] => destruct b eqn:? end; lia. }
  do 3 f_equal. rewrite Z.div_1_r. destruct (Z.ltb_spec lo hi); lia.
Qed.

Lemma getitem_slice_plain x a b s : wf x -> s = None \/ s = Some 1 ->
  let n := bsize x in
  let lo := match a with None => 0 | Some i => Z.max 0 (Z.min n (if i <? 0 then i + n else i)) end in
  let hi := match b with None => n | Some i => Z.max 0 (Z.min n (if i <? 0 then i + n else i)) end in
  let m := Z.max 0 (hi - lo) in
  getitem_slice x a b s = Ok (BV (BVC (bkind x) m) ((bval x / 2 ^ lo) mod 2 ^ m)).
Proof.
  intros Hw Hs n lo hi m. assert (Hn : 0 <= n) by (destruct Hw; auto).
  pose proof (slice_indices_step1 n a b s Hn Hs) as E. cbv zeta in E.
  fold lo in E. fold hi in E. fold m in E.
  rewrite (getitem_slice_gen _ _ _ _ _ Hw E).
  assert (0 <= lo) by (subst lo; destruct a; lia).
  rewrite map_testbit_shift by lia. rewrite map_length, zrange_length, Z2Nat.id by lia. reflexivity.
Qed.

Lemma getitem_slice_ab x a b : wf x -> 0 <= a -> a <= b -> b <= bsize x ->
  getitem_slice x (Some a) (Some b) None =
    Ok (BV (BVC (bkind x) (b - a)) ((bval x / 2 ^ a) mod 2 ^ (b - a))).
Proof.
  intros Hw Ha Hab Hb. rewrite getitem_slice_plain by auto. cbv zeta.
  replace (a <? 0) with false by lia. replace (b <? 0) with false by lia.
  replace (Z.max 0 (Z.min (bsize x) a)) with a by lia.
  replace (Z.max 0 (Z.min (bsize x) b)) with b by lia.
  now replace (Z.max 0 (b - a)) with (b - a) by lia.
Qed.

(** ** concat *)
Lemma lor_shift_add n u v : 0 <= n -> 0 <= u < 2 ^ n -> Z.lor u (Z.shiftl v n) = u + v * 2 ^ n.
Proof.
  intros Hn Hu. rewrite <- Z.shiftl_mul_pow2 by lia.
  enough (Z.land u (Z.shiftl v n) = 0) as H0 by now rewrite Z.add_nocarry_lxor, Z.lxor_lor.
  apply Z.bits_inj'. intros i Hi. rewrite Z.land_spec, Z.testbit_0_l, Z.shiftl_spec by lia.
  destruct (Z.lt_ge_cases i n).
  - rewrite (Z.testbit_neg_r v) by lia. apply andb_false_r.
  - rewrite (testbit_high u n) by lia. reflexivity.
Qed.

Lemma lor_shift_range n m u v : 0 <= n -> 0 <= m -> 0 <= u < 2 ^ n -> 0 <= v < 2 ^ m ->
  0 <= u + v * 2 ^ n < 2 ^ (n + m).
Proof. intros. rewrite Z.pow_add_r by lia. pose proof (pow2_pos n). nia. Qed.

Lemma concat_spec x y : wf x -> wf y -> kind_le (bkind y) (bkind x) = true ->
  concat x (VBV y) =
    Ok (BV (BVC (bkind x) (bsize x + bsize y)) (bval x + bval y * 2 ^ bsize x)).
Proof.
  intros [X1 X2] [Y1 Y2] Hk. fold (bsize x) (bsize y) in *. unfold concat. rewrite Hk.
  rewrite construct_converts with (u := (bval x + bval y * 2 ^ bsize x) mod 2 ^ (bsize x + bsize y)).
  - rewrite Z.mod_small by (apply lor_shift_range; auto). reflexivity.
  - lia.
  - rewrite lor_shift_add by auto. apply Cv_int.
Qed.

Lemma kind_le_refl k : kind_le k k = true.
Proof. now destruct k. Qed.

(** ** unary and binary methods *)
Ltac use_operand Ho :=
  let y := fresh "y" in let E := fresh "E" in let Hv := fresh "Hv" in
  let Hs := fresh "Hs" in let Hy := fresh "Hy" in
  match goal with
  | |- context[bv_cast ?fn ?x ?v] =>
      destruct (bv_cast_operand fn x v _ ltac:(assumption) Ho) as (y & E & Hv & Hs & Hy);
      rewrite E; clear E
  end.

Lemma renew_eq x z : wf x -> renew x z = New (BV (bcls x) (z mod 2 ^ bsize x)).
Proof. intros [W _]. unfold renew. now rewrite mk_eq. Qed.

Lemma bvnot_spec x : wf x -> bvnot x = BV (bcls x) (2 ^ bsize x - 1 - bval x).
Proof.
  intros [W1 W2]. unfold bvnot. rewrite mk_eq by auto. f_equal. unfold as_uint, Z.lnot.
  symmetry. apply Zmod_unique with (-1); unfold bsize; lia.
Qed.

Lemma bvneg_spec x : wf x -> bvneg x = BV (bcls x) ((- bval x) mod 2 ^ bsize x).
Proof.
  intros [W1 W2]. unfold bvneg. rewrite mk_eq by auto. do 2 f_equal. unfold as_uint, Z.lnot. lia.
Qed.

Section Binary.
  Context (x : bv) (v : pyval) (u : Z).
  Hypothesis Hx : wf x.
  Hypothesis Ho : operand (bsize x) v u.
  Let n := bsize x.

  Lemma n_nonneg : 0 <= n.
  Proof. now destruct Hx. Qed.
  Lemma x_range : 0 <= bval x < 2 ^ n.
  Proof. now destruct Hx. Qed.
  Lemma u_range : 0 <= u < 2 ^ n.
  Proof. apply (operand_range n v u n_nonneg Ho). Qed.

  Lemma bvadd_spec : bvadd x v = Ok (New (BV (bcls x) ((bval x + u) mod 2 ^ n))).
  Proof. unfold bvadd. use_operand Ho. rewrite renew_eq by auto. unfold as_uint. now rewrite Hv. Qed.
  Lemma bvsub_spec : bvsub x v = Ok (New (BV (bcls x) ((bval x - u) mod 2 ^ n))).
  Proof. unfold bvsub. use_operand Ho. rewrite renew_eq by auto. unfold as_uint. now rewrite Hv. Qed.
  Lemma bvmul_spec : bvmul x v = Ok (New (BV (bcls x) ((bval x * u) mod 2 ^ n))).
  Proof. unfold bvmul. use_operand Ho. rewrite renew_eq by auto. unfold as_uint. now rewrite Hv. Qed.

  Lemma bitop_range (f : Z -> Z -> Z) (g : bool -> bool -> bool) :
    (forall a b i, Z.testbit (f a b) i = g (Z.testbit a i) (Z.testbit b i)) ->
    g false false = false -> (f (bval x) u) mod 2 ^ n = f (bval x) u.
  Proof.
    intros Hf Hg. pose proof n_nonneg. pose proof x_range as HX. pose proof u_range as HU.
    apply Z.bits_inj'. intros i Hi. destruct (Z.lt_ge_cases i n).
    - now rewrite Z.mod_pow2_bits_low by lia.
    - rewrite Z.mod_pow2_bits_high by lia. rewrite Hf.
      now rewrite !(testbit_high _ n) by lia.
  Qed.

  Lemma bvand_spec : bvand x v = Ok (New (BV (bcls x) (Z.land (bval x) u))).
  Proof.
    unfold bvand. use_operand Ho. rewrite renew_eq by auto. unfold as_uint. rewrite Hv.
    fold n. rewrite (bitop_range Z.land andb); auto using Z.land_spec.
  Qed.
  Lemma bvor_spec : bvor x v = Ok (New (BV (bcls x) (Z.lor (bval x) u))).
  Proof.
    unfold bvor. use_operand Ho. rewrite renew_eq by auto. unfold as_uint. rewrite Hv.
    fold n. rewrite (bitop_range Z.lor orb); auto using Z.lor_spec.
  Qed.
  Lemma bvxor_spec : bvxor x v = Ok (New (BV (bcls x) (Z.lxor (bval x) u))).
  Proof.
    unfold bvxor. use_operand Ho. rewrite renew_eq by auto. unfold as_uint. rewrite Hv.
    fold n. rewrite (bitop_range Z.lxor xorb); auto using Z.lxor_spec.
  Qed.

  Lemma bvshl_spec : bvshl x v = Ok (New (BV (bcls x) ((bval x * 2 ^ u) mod 2 ^ n))).
  Proof.
    unfold bvshl. use_operand Ho. rewrite renew_eq by auto. unfold as_uint. rewrite Hv.
    rewrite Z.shiftl_mul_pow2 by (pose proof u_range; lia). reflexivity.
  Qed.
  Lemma bvlshr_spec : bvlshr x v = Ok (New (BV (bcls x) (bval x / 2 ^ u))).
  Proof.
    unfold bvlshr. use_operand Ho. rewrite renew_eq by auto. unfold as_uint. rewrite Hv.
    pose proof u_range. pose proof x_range. pose proof (pow2_pos u).
    rewrite Z.shiftr_div_pow2 by lia.
    rewrite Z.mod_small; [reflexivity|]. fold n. split.
    - apply Z.div_pos; lia.
    - apply Z.div_lt_upper_bound; [lia|]. nia.
  Qed.
  Lemma bvashr_spec : 1 <= n ->
    bvashr x v = Ok (New (BV (bcls x) ((signed n (bval x) / 2 ^ u) mod 2 ^ n))).
  Proof.
    intros Hn. unfold bvashr. use_operand Ho. rewrite as_sint_spec by auto. cbn [bind].
    rewrite renew_eq by auto. unfold as_uint. rewrite Hv. pose proof u_range.
    rewrite Z.shiftr_div_pow2 by lia. reflexivity.
  Qed.

  Lemma bvudiv_spec : bvudiv x v =
    Ok (New (BV (bcls x) (if u =? 0 then 2 ^ n - 1 else bval x / u))).
  Proof.
    unfold bvudiv. use_operand Ho. cbv zeta. unfold as_uint. rewrite Hv.
    pose proof u_range. pose proof x_range. pose proof n_nonneg.
    destruct (Z.eqb_spec u 0).
    - rewrite renew_eq by auto. rewrite shiftl1 by auto. do 3 f_equal.
      fold n. apply Z.mod_small. lia.
    - rewrite renew_eq by auto. do 3 f_equal. fold n. apply Z.mod_small. split.
      + apply Z.div_pos; lia.
      + apply Z.div_lt_upper_bound; [lia|]. nia.
  Qed.
  Lemma bvurem_spec : bvurem x v =
    Ok (if u =? 0 then Self else New (BV (bcls x) (bval x mod u))).
  Proof.
    unfold bvurem. use_operand Ho. cbv zeta. unfold as_uint. rewrite Hv.
    pose proof u_range. pose proof x_range. pose proof n_nonneg.
    destruct (Z.eqb_spec u 0); [reflexivity|].
    rewrite renew_eq by auto. do 3 f_equal. fold n. apply Z.mod_small.
    pose proof (Z.mod_pos_bound (bval x) u). pose proof (Z.mod_le (bval x) u). lia.
  Qed.
  Lemma bvsdiv_spec : 1 <= n -> bvsdiv x v =
    Ok (New (BV (bcls x) (if u =? 0 then 2 ^ n - 1
                          else (signed n (bval x) / signed n u) mod 2 ^ n))).
  Proof.
    intros Hn. unfold bvsdiv. use_operand Ho.
    rewrite as_sint_spec by (auto; rewrite Hs; auto). cbn [bind]. rewrite Hv, Hs. fold n.
    pose proof u_range as HU. pose proof (signed_zero n u HU) as HZ. pose proof n_nonneg.
    destruct (Z.eqb_spec u 0), (Z.eqb_spec (signed n u) 0); try lia.
    - rewrite renew_eq, shiftl1 by auto. do 3 f_equal. fold n. apply Z.mod_small. lia.
    - rewrite as_sint_spec by auto. cbn [bind]. now rewrite renew_eq by auto.
  Qed.
  Lemma bvsrem_spec : 1 <= n -> bvsrem x v =
    Ok (if u =? 0 then Self
        else New (BV (bcls x) ((signed n (bval x) mod signed n u) mod 2 ^ n))).
  Proof.
    intros Hn. unfold bvsrem. use_operand Ho.
    rewrite as_sint_spec by (auto; rewrite Hs; auto). cbn [bind]. rewrite Hv, Hs. fold n.
    pose proof u_range as HU. pose proof (signed_zero n u HU) as HZ.
    destruct (Z.eqb_spec u 0), (Z.eqb_spec (signed n u) 0); try lia.
    - reflexivity.
    - rewrite as_sint_spec by auto. cbn [bind]. now rewrite renew_eq by auto.
  Qed.

  Lemma bveq_spec : bveq x v = Ok (bval x =? u).
  Proof. unfold bveq. use_operand Ho. unfold as_uint. now rewrite Hv. Qed.
  Lemma bvne_spec : bvne x v = Ok (negb (bval x =? u)).
  Proof. unfold bvne. use_operand Ho. unfold as_uint. now rewrite Hv. Qed.
  Lemma bvult_spec : bvult x v = Ok (bval x <? u).
  Proof. unfold bvult. use_operand Ho. unfold as_uint. now rewrite Hv. Qed.
  Lemma bvule_spec : bvule x v = Ok (bval x <=? u).
  Proof. unfold bvule. use_operand Ho. unfold as_uint. now rewrite Hv. Qed.
  Lemma bvugt_spec : bvugt x v = Ok (u <? bval x).
  Proof. unfold bvugt. use_operand Ho. unfold as_uint. now rewrite Hv. Qed.
  Lemma bvuge_spec : bvuge x v = Ok (u <=? bval x).
  Proof. unfold bvuge. use_operand Ho. unfold as_uint. now rewrite Hv. Qed.
  Lemma bvslt_spec : 1 <= n -> bvslt x v = Ok (signed n (bval x) <? signed n u).
  Proof.
    intros Hn. unfold bvslt. use_operand Ho. rewrite as_sint_spec by auto. cbn [bind].
    rewrite as_sint_spec by (auto; rewrite Hs; auto). cbn [bind]. now rewrite Hv, Hs.
  Qed.
  Lemma bvsle_spec : 1 <= n -> bvsle x v = Ok (signed n (bval x) <=? signed n u).
  Proof.
    intros Hn. unfold bvsle. rewrite bvslt_spec, bveq_spec by auto. cbn [bind]. f_equal.
    pose proof (signed_inj n (bval x) u x_range u_range).
    destruct (Z.eqb_spec (bval x) u) as [->|]; lia.
  Qed.
  Lemma bvsgt_spec : 1 <= n -> bvsgt x v = Ok (signed n u <? signed n (bval x)).
  Proof. intros Hn. unfold bvsgt. rewrite bvsle_spec by auto. cbn [rmap]. f_equal. lia. Qed.
  Lemma bvsge_spec : 1 <= n -> bvsge x v = Ok (signed n u <=? signed n (bval x)).
  Proof. intros Hn. unfold bvsge. rewrite bvslt_spec by auto. cbn [rmap]. f_equal. lia. Qed.
  Lemma bvcomp_spec : bvcomp x v = Ok (New (BV (BVC (bkind x) 1) (if bval x =? u then 1 else 0))).
  Proof.
    unfold bvcomp. use_operand Ho. unfold as_uint. rewrite Hv.
    rewrite construct_converts with (u := (if bval x =? u then 1 else 0) mod 2 ^ 1);
      [|lia|apply Cv_bool]. cbn [rmap]. now destruct (bval x =? u).
  Qed.

  Lemma bvnand_spec : bvnand x v = Ok (New (BV (bcls x) (2 ^ n - 1 - Z.land (bval x) u))).
  Proof.
    unfold bvnand. rewrite bvand_spec. cbn [bind rv_val]. rewrite bvnot_spec; [reflexivity|].
    pose proof n_nonneg. split; [assumption|]. cbn [bval bcls]. fold (bsize x). fold n.
    rewrite <- (bitop_range Z.land andb); auto using Z.land_spec.
    apply Z.mod_pos_bound. now apply pow2_pos.
  Qed.
  Lemma bvnor_spec : bvnor x v = Ok (New (BV (bcls x) (2 ^ n - 1 - Z.lor (bval x) u))).
  Proof.
    unfold bvnor. rewrite bvor_spec. cbn [bind rv_val]. rewrite bvnot_spec; [reflexivity|].
    pose proof n_nonneg. split; [assumption|]. cbn [bval bcls]. fold (bsize x). fold n.
    rewrite <- (bitop_range Z.lor orb); auto using Z.lor_spec.
    apply Z.mod_pos_bound. now apply pow2_pos.
  Qed.
  Lemma bvxnor_spec : bvxnor x v = Ok (New (BV (bcls x) (2 ^ n - 1 - Z.lxor (bval x) u))).
  Proof.
    unfold bvxnor. rewrite bvxor_spec. cbn [bind rv_val]. rewrite bvnot_spec; [reflexivity|].
    pose proof n_nonneg. split; [assumption|]. cbn [bval bcls]. fold (bsize x). fold n.
    rewrite <- (bitop_range Z.lxor xorb); auto using Z.lxor_spec.
    apply Z.mod_pos_bound. now apply pow2_pos.
  Qed.
End Binary.

Lemma compl_testbit n u i : 0 <= n -> 0 <= u < 2 ^ n -> 0 <= i < n ->
  Z.testbit (2 ^ n - 1 - u) i = negb (Z.testbit u i).
Proof.
  intros Hn Hu Hi. replace (2 ^ n - 1 - u) with ((Z.lnot u) mod 2 ^ n).
  - rewrite Z.mod_pow2_bits_low by lia. apply Z.lnot_spec. lia.
  - symmetry. apply Zmod_unique with (-1); unfold Z.lnot; lia.
Qed.

(** ** repeat and extension *)
Lemma nth_concat_repeat {A} (l : list A) (r : nat) (i : nat) d :
  l <> [] -> (i < r * length l)%nat ->
  nth i (List.concat (repeat l r)) d = nth (i mod length l) l d.
Proof.
  intros Hl. assert (Hlen : (0 < length l)%nat) by (destruct l; [congruence|cbn; lia]).
  revert i. induction r as [|r IH]; intros i Hi; [cbn in Hi; lia|].
  cbn [repeat List.concat]. destruct (Nat.lt_ge_cases i (length l)).
  - rewrite app_nth1 by lia. now rewrite Nat.mod_small by lia.
  - rewrite app_nth2 by lia. rewrite IH by (cbn in Hi; lia). f_equal.
    replace i with ((i - length l) + 1 * length l)%nat at 2 by lia.
    now rewrite Nat.mod_add by lia.
Qed.

Lemma concat_repeat_map {A B} (f : A -> B) l r :
  List.concat (repeat (map f l) r) = map f (List.concat (repeat l r)).
Proof.
  induction r as [|r IH]; cbn [repeat List.concat map]; [reflexivity|].
  now rewrite map_app, IH.
Qed.

Lemma concat_repeat_length {A} (l : list A) r :
  length (List.concat (repeat l r)) = (r * length l)%nat.
Proof.
  induction r as [|r IH]; cbn [repeat List.concat]; [reflexivity|].
  rewrite app_length, IH. cbn. lia.
Qed.

Lemma repeat_spec x r : wf x -> 1 <= r ->
  exists y, bv_repeat x r = Ok y /\ bcls y = BVC (bkind x) (r * bsize x) /\ wf y /\
    forall i, 0 <= i < r * bsize x -> Z.testbit (bval y) i = Z.testbit (bval x) (i mod bsize x).
Proof.
  intros [W1 W2] Hr. fold (bsize x) in *. unfold bv_repeat.
  replace (r <=? 0) with false by lia.
  rewrite bits_tbits, concat_repeat_map. rewrite construct_bits.
  2:{ rewrite concat_repeat_length, tbits_length. lia. }
  eexists. split; [reflexivity|]. cbn [bcls bval]. split; [reflexivity|].
  pose proof (bits_value_range (List.concat (repeat (tbits (bval x) (bsize x)) (Z.to_nat r)))) as R.
  rewrite concat_repeat_length, tbits_length in R.
  replace (Z.of_nat (Z.to_nat r * Z.to_nat (bsize x))) with (r * bsize x) in R by lia.
  split; [split; cbn [bcls bval csize]; [nia|exact R]|].
  intros i Hi. rewrite bits_value_testbit by lia.
  assert (0 < bsize x) by nia.
  rewrite nth_concat_repeat.
  - rewrite tbits_length. rewrite <- (tbits_nth (bval x) (bsize x) (i mod bsize x) false)
      by (apply Z.mod_pos_bound; lia).
    f_equal. apply Nat2Z.inj. rewrite Nat2Z.inj_mod, !Z2Nat.id; try lia.
    apply Z.mod_pos_bound; lia.
  - intros E. apply (f_equal (@length bool)) in E. rewrite tbits_length in E. cbn in E. lia.
  - rewrite tbits_length. nia.
Qed.

Lemma repeat_bad x r : r <= 0 -> bv_repeat x r = Raise EValueError.
Proof. intros H. unfold bv_repeat. now replace (r <=? 0) with true by lia. Qed.

Lemma zext_spec x e : wf x -> 0 <= e ->
  zext x e = Ok (BV (BVC (bkind x) (bsize x + e)) (bval x)).
Proof.
  intros Hw He. unfold zext. replace (e <? 0) with false by lia.
  rewrite construct_converts with (u := 0 mod 2 ^ e) by (auto using Cv_int; lia).
  cbn [bind]. rewrite Z.mod_0_l by (pose proof (pow2_pos e He); lia).
  rewrite concat_spec.
  - unfold bsize at 2; cbn [bcls csize bval]. do 2 f_equal. lia.
  - exact Hw.
  - split; cbn [bcls csize bval]; [lia|]. pose proof (pow2_pos e He). lia.
  - apply kind_le_refl.
Qed.

Lemma zext_neg x e : e < 0 -> zext x e = Raise EValueError.
Proof. intros H. unfold zext. now replace (e <? 0) with true by lia. Qed.
Lemma sext_neg x e : e < 0 -> sext x e = Raise EValueError.
Proof. intros H. unfold sext. now replace (e <? 0) with true by lia. Qed.

Lemma repeat_bit k b e : 1 <= e ->
  bv_repeat (BV (BVC k 1) (b2z b)) e = Ok (BV (BVC k e) (if b then 2 ^ e - 1 else 0)).
Proof.
  intros He. destruct (repeat_spec (BV (BVC k 1) (b2z b)) e) as (y & E & Hc & Hw & Hb); auto.
  - split; cbn [bcls csize bval]; [lia|]. change (2 ^ 1) with 2. destruct b; cbn; lia.
  - rewrite E. f_equal. apply bv_ext; [cbn [bcls]; rewrite Hc; cbn; f_equal; unfold bsize; cbn; lia|].
    cbn [bval]. destruct Hw as [W1 W2]. rewrite Hc in W2. unfold bsize in *. cbn [csize bcls] in *.
    rewrite Z.mul_1_r in *. pose proof (pow2_pos e).
    apply bits_ext with (n := e); [lia | destruct b; lia|].
    intros i Hi. rewrite Hb by lia. rewrite Z.mod_1_r. cbn [bval].
    destruct b; cbn [b2z].
    + replace (2 ^ e - 1) with (Z.ones e) by (rewrite Z.ones_equiv; lia).
      now rewrite Z.ones_spec_low by lia.
    + now rewrite !Z.testbit_0_l.
Qed.

Lemma sext_val x e : wf x -> 1 <= bsize x -> 1 <= e ->
  sext x e = Ok (BV (BVC (bkind x) (bsize x + e)) (signed (bsize x) (bval x) mod 2 ^ (bsize x + e))).
Proof.
  intros Hw Hn He. unfold sext. replace (e <? 0) with false by lia.
  rewrite getitem_int_spec by (auto; lia). cbn [bind].
  replace ((-1) mod bsize x) with (bsize x - 1) by (apply Zmod_unique with (-1); lia).
  destruct Hw as [W1 W2]. fold (bsize x) in *. rewrite msb_spec by lia.
  set (b := negb _). rewrite construct_converts with (u := (if b then 1 else 0) mod 2 ^ 1)
    by (auto using Cv_bit; lia).
  cbn [bind]. replace ((if b then 1 else 0) mod 2 ^ 1) with (b2z b) by (now destruct b).
  rewrite repeat_bit by lia. cbn [bind]. pose proof (pow2_pos e).
  rewrite concat_spec; try apply kind_le_refl.
  - unfold bsize at 2 3. cbn [bcls csize bval]. do 2 f_equal. unfold signed. subst b.
    fold (bsize x).
    destruct (Z.ltb_spec (2 * bval x) (2 ^ bsize x)); cbn [negb].
    + rewrite Z.mod_small; [lia|]. rewrite Z.pow_add_r by lia. nia.
    + apply Zmod_unique with (-1); rewrite Z.pow_add_r by lia; nia.
  - split; auto.
  - split; cbn [bcls csize bval]; [lia|]. destruct b; lia.
Qed.

Lemma signed_wider n e s : 1 <= n -> 0 <= e -> - 2 ^ (n - 1) <= s < 2 ^ (n - 1) ->
  signed (n + e) (s mod 2 ^ (n + e)) = s.
Proof.
  intros Hn He Hs. assert (E : 2 ^ (n + e) = 2 * 2 ^ (n + e - 1)).
  { rewrite <- Z.pow_succ_r by lia. f_equal. lia. }
  assert (2 ^ (n - 1) <= 2 ^ (n + e - 1)) by (apply Z.pow_le_mono_r; lia).
  unfold signed. destruct (Z.lt_ge_cases s 0).
  - replace (s mod 2 ^ (n + e)) with (s + 2 ^ (n + e)) by (apply Zmod_unique with (-1); lia).
    replace (2 * (s + 2 ^ (n + e)) <? 2 ^ (n + e)) with false by lia. lia.
  - rewrite Z.mod_small by lia. replace (2 * s <? 2 ^ (n + e)) with true by lia. reflexivity.
Qed.

(** ** rotation *)
Lemma rot_split_spec x k : wf x -> 0 <= k < bsize x ->
  exists y, rot_split x k = Ok (New y) /\ bcls y = bcls x /\ wf y /\
    forall i, 0 <= i < bsize x -> Z.testbit (bval y) i = Z.testbit (bval x) ((i + k) mod bsize x).
Proof.
  intros Hw Hk. unfold rot_split. rewrite getitem_slice_plain by auto. cbv zeta.
  replace (k <? 0) with false by lia.
  replace (Z.max 0 (Z.min (bsize x) k)) with k by lia.
  replace (Z.max 0 (bsize x - k)) with (bsize x - k) by lia.
  cbn [bind]. rewrite getitem_slice_plain by auto. cbv zeta.
  replace (k <? 0) with false by lia.
  replace (Z.max 0 (Z.min (bsize x) k)) with k by lia.
  replace (Z.max 0 (k - 0)) with k by lia. cbn [bind].
  destruct Hw as [W1 W2]. fold (bsize x) in *.
  assert (0 < 2 ^ (bsize x - k)) by (apply pow2_pos; lia).
  assert (0 < 2 ^ k) by (apply pow2_pos; lia).
  change (2 ^ 0) with 1. rewrite Z.div_1_r.
  rewrite concat_spec; try apply kind_le_refl.
  2:{ split; cbn [bcls csize bval]; [lia|]. apply Z.mod_pos_bound; lia. }
  2:{ split; cbn [bcls csize bval]; [lia|]. apply Z.mod_pos_bound; lia. }
  cbn [rmap]. sbv.
  replace (bsize x - k + k) with (bsize x) by lia.
  eexists. split; [reflexivity|]. cbn [bcls bval].
  split; [now destruct x as [[? ?] ?]|].
  set (a := (bval x / 2 ^ k) mod 2 ^ (bsize x - k)). set (b := bval x mod 2 ^ k).
  assert (Ha : 0 <= a < 2 ^ (bsize x - k)) by (apply Z.mod_pos_bound; lia).
  assert (Hb : 0 <= b < 2 ^ k) by (apply Z.mod_pos_bound; lia).
  assert (R : 0 <= a + b * 2 ^ (bsize x - k) < 2 ^ bsize x).
  { replace (bsize x) with ((bsize x - k) + k) at 3 by lia. apply lor_shift_range; lia. }
  split; [split; auto|].
  intros i Hi. rewrite <- lor_shift_add by lia. rewrite Z.lor_spec, Z.shiftl_spec by lia.
  destruct (Z.lt_ge_cases i (bsize x - k)).
  - rewrite (Z.testbit_neg_r b) by lia. rewrite orb_false_r. subst a.
    rewrite Z.mod_pow2_bits_low, <- Z.shiftr_div_pow2, Z.shiftr_spec by lia.
    rewrite Z.mod_small by lia. reflexivity.
  - rewrite (testbit_high a (bsize x - k)) by lia. cbn [orb]. subst b.
    rewrite Z.mod_pow2_bits_low by lia. f_equal.
    apply Zmod_unique with 1; lia.
Qed.

Lemma bvror_spec x v u : wf x -> 1 <= bsize x -> operand (bsize x) v u ->
  exists y, bvror x v = Ok (New y) /\ bcls y = bcls x /\ wf y /\
    forall i, 0 <= i < bsize x -> Z.testbit (bval y) i = Z.testbit (bval x) ((i + u) mod bsize x).
Proof.
  intros Hw Hn Ho. unfold bvror. use_operand Ho.
  replace (bsize x =? 0) with false by lia. unfold as_uint. rewrite Hv.
  destruct (rot_split_spec x (u mod bsize x)) as (z & E & Hc & Hz & Hb); auto.
  { apply Z.mod_pos_bound; lia. }
  exists z. repeat split; auto; try (destruct Hz; lia).
  intros i Hi. rewrite Hb by lia. f_equal. now rewrite Z.add_mod_idemp_r by lia.
Qed.

Lemma bvrol_spec x v u : wf x -> 1 <= bsize x -> operand (bsize x) v u ->
  exists y, bvrol x v = Ok (New y) /\ bcls y = bcls x /\ wf y /\
    forall i, 0 <= i < bsize x -> Z.testbit (bval y) i = Z.testbit (bval x) ((i - u) mod bsize x).
Proof.
  intros Hw Hn Ho. unfold bvrol. use_operand Ho.
  replace (bsize x =? 0) with false by lia. unfold as_uint. rewrite Hv.
  destruct (rot_split_spec x ((bsize x - u) mod bsize x)) as (z & E & Hc & Hz & Hb); auto.
  { apply Z.mod_pos_bound; lia. }
  exists z. repeat split; auto; try (destruct Hz; lia).
  intros i Hi. rewrite Hb by lia. f_equal. rewrite Z.add_mod_idemp_r by lia.
  replace (i + (bsize x - u)) with ((i - u) + 1 * bsize x) by lia.
  now rewrite Z.mod_add by lia.
Qed.

(** ** adc *)
Lemma operand_self y : wf y -> operand (bsize y) (VBV y) (bval y).
Proof. intros H. now apply Op_bv. Qed.

Lemma adc_spec x v u cv c : wf x -> operand (bsize x) v u -> operand 1 cv c ->
  exists s co, adc x v cv = Ok (s, co) /\ bcls s = bcls x /\ wf s /\
    bval s + 2 ^ bsize x * b2z co = bval x + u + c.
Proof.
  intros Hw Ho Hc. pose proof Hw as [W1 W2]. fold (bsize x) in *.
  unfold adc. destruct (coerce_operand (bcls x) v u W1 Ho) as (o & E & Hov & Hos & How).
  rewrite E. cbn [bind]. clear E. rewrite sized_ok by lia. cbn [bind].
  destruct (coerce_operand (BVC (bkind x) 1) cv c ltac:(cbn; lia) Hc) as (k & E & Hkv & Hks & Hkw).
  rewrite E. cbn [bind]. clear E. cbn [csize] in Hks. fold (bsize x) in Hos.
  rewrite zext_spec by (auto; lia). cbn [bind].
  rewrite zext_spec by (auto; lia). cbn [bind].
  rewrite zext_spec by (auto; lia). cbn [bind].
  rewrite Hos, Hks, Hov, Hkv. set (n := bsize x) in *.
  assert (Hp : 2 ^ (n + 1) = 2 * 2 ^ n) by (rewrite Z.pow_add_r by lia; change (2 ^ 1) with 2; lia).
  pose proof (pow2_pos n W1) as Hpn.
  assert (Hu : 0 <= u < 2 ^ n) by (apply operand_range with v; auto).
  assert (Hcr : 0 <= c < 2) by (change 2 with (2 ^ 1); apply operand_range with cv; auto; lia).
  assert (Wa : wf (BV (BVC (bkind x) (n + 1)) (bval x)))
    by (split; cbn [bcls csize bval]; lia).
  assert (Wo : wf (BV (BVC (bkind o) (n + 1)) u)) by (split; cbn [bcls csize bval]; lia).
  assert (Wk : wf (BV (BVC (bkind k) (1 + n)) c)).
  { split; cbn [bcls csize bval]; [lia|]. replace (1 + n) with (n + 1) by lia. lia. }
  rewrite bvadd_spec with (u := u); [|exact Wa|].
  2:{ apply (Op_bv _ _ Wo). reflexivity. }
  cbn [bind rv_val bcls bval]. change (bsize (BV _ _)) with (n + 1).
  rewrite (Z.mod_small (bval x + u)) by lia.
  rewrite bvadd_spec with (u := c).
  2:{ split; cbn [bcls csize bval]; lia. }
  2:{ apply (Op_bv _ _ Wk). sbv. lia. }
  cbn [bind rv_val bcls bval]. change (bsize (BV _ _)) with (n + 1).
  rewrite (Z.mod_small (bval x + u + c)) by lia.
  set (t := bval x + u + c). 
  assert (Wt : wf (BV (BVC (bkind x) (n + 1)) t)) by (split; cbn [bcls csize bval]; lia).
  rewrite getitem_slice_plain by auto. cbv zeta. change (bsize (BV _ _)) with (n + 1).
  replace (0 <? 0) with false by lia. replace (-1 <? 0) with true by lia.
  replace (Z.max 0 (Z.min (n + 1) 0)) with 0 by lia.
  replace (Z.max 0 (Z.min (n + 1) (-1 + (n + 1)))) with n by lia.
  replace (Z.max 0 (n - 0)) with n by lia.
  cbn [bind]. rewrite getitem_int_spec by (auto; unfold bsize; cbn [bcls csize]; lia).
  cbn [bind]. change (bsize (BV _ _)) with (n + 1). cbn [bval].
  replace ((-1) mod (n + 1)) with n by (apply Zmod_unique with (-1); lia).
  exists (BV (BVC (bkind x) n) ((t / 2 ^ 0) mod 2 ^ n)), (Z.testbit t n).
  split; [reflexivity|]. cbn [bcls bval].
  split; [now destruct x as [[? ?] ?]|].
  split; [split; cbn [bcls csize bval]; [lia|apply Z.mod_pos_bound; lia]|].
  change (2 ^ 0) with 1. rewrite Z.div_1_r.
  replace n with ((n + 1) - 1) at 3 by lia. rewrite msb_spec by lia.
  rewrite Hp. destruct (Z.ltb_spec (2 * t) (2 * 2 ^ n)); cbn [negb b2z].
  - rewrite Z.mod_small by lia. lia.
  - replace (t mod 2 ^ n) with (t - 2 ^ n) by (apply Zmod_unique with 1; lia). lia.
Qed.

(** ** setitem *)
Lemma setitem_int_spec x i b v : wf x -> - bsize x <= i < bsize x ->
  v = VBool b \/ v = VBit b \/ v = VInt (b2z b) ->
  exists y, setitem_int x i v = Ok y /\ bcls y = bcls x /\ wf y /\
    forall j, 0 <= j < bsize x ->
      Z.testbit (bval y) j = if j =? i mod bsize x then b else Z.testbit (bval x) j.
Proof.
  intros Hw Hi Hv. pose proof Hw as [W1 W2]. fold (bsize x) in *. unfold setitem_int.
  replace (bit_like v) with true by (destruct Hv as [->|[->| ->]]; destruct b; reflexivity).
  cbn [negb]. set (n := bsize x) in *.
  assert (E : (if i <? 0 then n + i else i) = i mod n).
  { destruct (Z.ltb_spec i 0).
    - apply Zmod_unique with (-1); lia.
    - symmetry. apply Z.mod_small; lia. }
  rewrite E. set (k := i mod n). assert (Hk : 0 <= k < n) by (apply Z.mod_pos_bound; lia).
  replace ((0 <=? k) && (k <? n)) with true by lia. cbn [negb].
  rewrite shiftl1 by lia. rewrite mk_eq by auto. fold (bsize x). fold n.
  assert (Hkp : 0 < 2 ^ k < 2 ^ n).
  { split; [apply pow2_pos; lia|]. apply Z.pow_lt_mono_r; lia. }
  rewrite (Z.mod_small (2 ^ k)) by lia.
  set (m := BV (bcls x) (2 ^ k)).
  assert (Wm : wf m) by (split; cbn [m bcls bval]; fold (bsize x); fold n; lia).
  rewrite bvor_spec with (u := 2 ^ k); auto. 2:{ apply (Op_bv _ m); auto. }
  cbn [bind]. rewrite bvnot_spec by auto. change (bsize m) with n. change (bcls m) with (bcls x).
  change (bval m) with (2 ^ k).
  rewrite bvand_spec with (u := 2 ^ n - 1 - 2 ^ k); auto.
  2:{ apply (Op_bv _ (BV (bcls x) (2 ^ n - 1 - 2 ^ k))); auto.
      split; cbn [bcls bval]; fold (bsize x); fold n; lia. }
  cbn [bind]. replace (bit_init v) with (@Ok bool b).
  2:{ destruct Hv as [->|[->| ->]]; try reflexivity. now destruct b. }
  cbn [bind]. eexists. split; [reflexivity|]. cbn [bcls]. split; [reflexivity|].
  assert (HT : forall j, 0 <= j < n -> Z.testbit (2 ^ k) j = (j =? k)).
  { intros j Hj. rewrite Z.pow2_bits_eqb by lia. lia. }
  split.
  - apply (mk_wf (bcls x)). exact W1.
  - intros j Hj. cbn [bval]. rewrite mk_val by exact W1. fold (bsize x). fold n.
    rewrite Z.mod_pow2_bits_low by lia.
    destruct b; cbn [rv_val bval].
    + rewrite Z.lor_spec, HT by lia. destruct (j =? k); [apply orb_true_r|apply orb_false_r].
    + rewrite Z.land_spec, compl_testbit, HT by lia.
      destruct (j =? k); cbn [negb]; [apply andb_false_r|apply andb_true_r].
Qed.

Lemma setitem_int_range x i v : bit_like v = true -> ~ (- bsize x <= i < bsize x) ->
  setitem_int x i v = Raise EIndexError.
Proof.
  intros Hv H. unfold setitem_int. rewrite Hv. cbn [negb].
  destruct (Z.ltb_spec i 0).
  - replace ((0 <=? bsize x + i) && (bsize x + i <? bsize x)) with false by lia. reflexivity.
  - replace ((0 <=? i) && (i <? bsize x)) with false by lia. reflexivity.
Qed.

Lemma setitem_int_bad x i v : bit_like v = false -> setitem_int x i v = Raise EValueError.
Proof. intros H. unfold setitem_int. now rewrite H. Qed.

(** ** overflow *)
Lemma overflow_spec n a b s : 1 <= n -> wf a -> wf b -> bsize a = n -> bsize b = n ->
  bvadd a (VBV b) = Ok (New s) ->
  overflow a b s = Ok (negb ((- 2 ^ (n - 1) <=? signed n (bval a) + signed n (bval b)) &&
                             (signed n (bval a) + signed n (bval b) <? 2 ^ (n - 1)))).
Proof.
  intros Hn Ha Hb Sa Sb Hs.
  rewrite bvadd_spec with (u := bval b) in Hs; auto.
  2:{ rewrite Sa, <- Sb. now apply operand_self. }
  injection Hs as <-. unfold overflow. pose proof Ha as [A1 A2]. pose proof Hb as [B1 B2].
  fold (bsize a) (bsize b) in *. rewrite Sa, Sb in *. pose proof (pow2_pos n A1).
  rewrite getitem_int_spec by (auto; lia). cbn [bind].
  rewrite getitem_int_spec by (auto; lia). cbn [bind].
  rewrite getitem_int_spec.
  2:{ split; cbn [bcls bval]; fold (bsize a); rewrite Sa; [lia|apply Z.mod_pos_bound; lia]. }
  2:{ change (bsize (BV (bcls a) _)) with (bsize a). lia. }
  cbn [bind bval]. change (bsize (BV (bcls a) _)) with (bsize a). rewrite Sa, Sb.
  replace ((-1) mod n) with (n - 1) by (apply Zmod_unique with (-1); lia).
  rewrite !msb_spec by (try apply Z.mod_pos_bound; lia).
  assert (E : 2 ^ n = 2 * 2 ^ (n - 1)).
  { rewrite <- Z.pow_succ_r by lia. f_equal. lia. }
  f_equal. unfold signed.
  assert (M : (bval a + bval b) mod 2 ^ n =
          if bval a + bval b <? 2 ^ n then bval a + bval b else bval a + bval b - 2 ^ n).
  { destruct (Z.ltb_spec (bval a + bval b) (2 ^ n)).
    - apply Z.mod_small; lia.
    - symmetry. apply Zmod_unique with 1; lia. }
  rewrite M, E in *. clear M E. set (p := 2 ^ (n - 1)) in *.
  destruct (Z.ltb_spec (2 * bval a) (2 * p)), (Z.ltb_spec (2 * bval b) (2 * p)),
    (Z.ltb_spec (bval a + bval b) (2 * p)); cbn [negb andb orb]; lia.
Qed.
