(** Proofs of the theorems stated in BVProps.v. *)
From Coq Require Import Lia ZifyBool.
From Verif Require Import PyBase BVModel BVSpec BVFacts BVOps SliceFacts BVPropFacts.



Lemma C02_construct_int_pf : forall k n z, 0 <= n ->
  construct k n (VInt z) = Ok (BV (BVC k n) (z mod 2 ^ n)).
Proof. intros k n z Hn. exact (construct_converts k n (VInt z) _ Hn (Cv_int n z)). Qed.

Lemma C02_construct_any_pf : forall k n v u, 0 <= n -> converts n v u ->
  construct k n v = Ok (BV (BVC k n) u).
Proof. exact construct_converts. Qed.

Lemma C02_construct_only_pf : forall k n v y, arg_wf v -> construct k n v = Ok y ->
  0 <= n /\ bcls y = BVC k n /\ converts n v (bval y).
Proof.
  intros k n v y Hv H. unfold construct in H. destruct (sized k n) as [c|] eqn:E; cbn [bind] in H; [|discriminate].
  apply sized_inv in E as [Hn ->]. split; [exact Hn|]. split; [exact (bv_init_cls _ _ _ H)|].
  exact (bv_init_converts_inv (BVC k n) v y Hn Hv H).
Qed.

Lemma C02_construct_reject_pf : forall k n v, 0 <= n -> unsupported v ->
  construct k n v = Raise ETypeError.
Proof.
  exact (fun k n v Hn Hv => eq_trans (f_equal (fun c => bind c (fun c => bv_init c v)) (sized_ok k n Hn))
           (unsupported_init _ v Hv)).
Qed.

Lemma C02_negative_size_pf : forall k n v, n < 0 -> construct k n v = Raise EValueError.
Proof. intros k n v H. unfold construct, sized. now replace (n <? 0) with true by lia. Qed.

Lemma C03_bits_pf : forall x, wf x ->
  length (bits x) = Z.to_nat (bsize x) /\
  forall i, 0 <= i < bsize x ->
    nth (Z.to_nat i) (bits x) 0 = (if Z.testbit (bval x) i then 1 else 0).
Proof. exact (fun x _ => conj (bits_length x) (fun i Hi => int2seq_nth (bval x) (bsize x) i 0 Hi)). Qed.

Lemma C03_from_bits_pf : forall x, wf x ->
  construct (bkind x) (bsize x) (VSeq (map VInt (bits x))) = Ok x.
Proof. exact bits_roundtrip. Qed.

Lemma C03_to_bits_pf : forall k l bs, Forall2 truthy l bs ->
  exists y, construct k (Z.of_nat (length l)) (VSeq l) = Ok y /\
    bits y = map (fun b : bool => if b then 1 else 0) bs /\ as_bool_list y = bs.
Proof. exact seq_roundtrip. Qed.

Lemma C03_binary_string_pf : forall x, wf x ->
  read_binary 0 (binary_string x) = Some (bval x) /\
  String.length (binary_string x) = Z.to_nat (bsize x) /\
  as_binary_string x = ("0b" ++ binary_string x)%string.
Proof. exact (fun x Hx => match binary_string_spec x Hx with conj a b => conj a (conj b eq_refl) end). Qed.

Lemma C04_as_sint_pf : forall x, wf x -> 1 <= bsize x ->
  exists s, as_sint x = Ok s /\ - 2 ^ (bsize x - 1) <= s < 2 ^ (bsize x - 1) /\
    s mod 2 ^ bsize x = as_uint x.
Proof.
  exact (fun x Hw Hn => ex_intro _ _ (conj (as_sint_spec x Hw Hn)
    (conj (signed_range _ _ Hn (proj2 Hw)) (signed_mod _ _ (proj1 Hw) (proj2 Hw))))).
Qed.

Lemma C04_as_sint_is_signed_pf : forall x, wf x -> 1 <= bsize x ->
  as_sint x = Ok (signed (bsize x) (as_uint x)).
Proof. exact as_sint_spec. Qed.

Lemma C04_signed_unique_pf : forall n u s, 1 <= n -> 0 <= u < 2 ^ n ->
  - 2 ^ (n - 1) <= s < 2 ^ (n - 1) -> s mod 2 ^ n = u -> s = signed n u.
Proof.
  intros n u s Hn Hu Hs <-. pose proof (signed_wider n 0 s Hn (Z.le_refl 0) Hs) as E.
  rewrite Z.add_0_r in E. now symmetry.
Qed.

Lemma C04_int_pf : forall x, wf x -> 1 <= bsize x ->
  bv_int x = Ok (match bkind x with KSInt => signed (bsize x) (bval x) | _ => bval x end).
Proof.
  intros x Hw Hn. unfold bv_int. rewrite (as_sint_spec x Hw Hn). now destruct (bkind x).
Qed.

Lemma C04_sint_roundtrip_pf : forall x, wf x -> 1 <= bsize x ->
  (s <- as_sint x ;; construct (bkind x) (bsize x) (VInt s)) = Ok x.
Proof.
  intros x Hw Hn. rewrite (as_sint_spec x Hw Hn). cbn [bind].
  rewrite C02_construct_int_pf by lia. destruct Hw as [W1 W2]. fold (bsize x) in *.
  rewrite signed_mod by lia. now destruct x as [[? ?] ?].
Qed.

Lemma C04_empty_pf : forall x, bsize x = 0 -> as_sint x = Raise EIndexError.
Proof. exact as_sint_zero. Qed.

Lemma C05_add_pf : forall x v u, wf x -> operand (bsize x) v u ->
  bvadd x v = Ok (New (BV (bcls x) ((bval x + u) mod 2 ^ bsize x))).
Proof. exact bvadd_spec. Qed.

Lemma C05_sub_pf : forall x v u, wf x -> operand (bsize x) v u ->
  bvsub x v = Ok (New (BV (bcls x) ((bval x - u) mod 2 ^ bsize x))).
Proof. exact bvsub_spec. Qed.

Lemma C05_mul_pf : forall x v u, wf x -> operand (bsize x) v u ->
  bvmul x v = Ok (New (BV (bcls x) ((bval x * u) mod 2 ^ bsize x))).
Proof. exact bvmul_spec. Qed.

Lemma C05_neg_pf : forall x, wf x -> bvneg x = BV (bcls x) ((- bval x) mod 2 ^ bsize x).
Proof. exact bvneg_spec. Qed.

Lemma C06_not_pf : forall x, wf x -> has_bits x (bvnot x) (fun i => negb (Z.testbit (bval x) i)).
Proof.
  intros x Hw. split; [reflexivity|]. split; [apply mk_wf; now destruct Hw|].
  intros i Hi. rewrite bvnot_spec by auto. destruct Hw. now apply compl_testbit.
Qed.

Lemma has_bits_binop x v u f g : wf x -> operand (bsize x) v u ->
  (forall a b i, Z.testbit (f a b) i = g (Z.testbit a i) (Z.testbit b i)) -> g false false = false ->
  has_bits x (BV (bcls x) (f (bval x) u)) (fun i => g (Z.testbit (bval x) i) (Z.testbit u i)).
Proof.
  intros Hw Ho Hf Hg. split; [reflexivity|]. split; [|intros; apply Hf].
  split; cbn [bcls bval]; [now destruct Hw|]. rewrite <- (bitop_range x v u Hw Ho f g Hf Hg).
  apply Z.mod_pos_bound, pow2_pos. now destruct Hw.
Qed.

Lemma C06_and_pf : forall x v u, wf x -> operand (bsize x) v u -> exists r, bvand x v = Ok (New r) /\
  has_bits x r (fun i => Z.testbit (bval x) i && Z.testbit u i).
Proof.
  intros x v u Hw Ho. eexists; split; [exact (bvand_spec x v u Hw Ho)|].
  exact (has_bits_binop x v u Z.land andb Hw Ho Z.land_spec eq_refl).
Qed.

Lemma C06_or_pf : forall x v u, wf x -> operand (bsize x) v u -> exists r, bvor x v = Ok (New r) /\
  has_bits x r (fun i => Z.testbit (bval x) i || Z.testbit u i).
Proof.
  intros x v u Hw Ho. eexists; split; [exact (bvor_spec x v u Hw Ho)|].
  exact (has_bits_binop x v u Z.lor orb Hw Ho Z.lor_spec eq_refl).
Qed.

Lemma C06_xor_pf : forall x v u, wf x -> operand (bsize x) v u -> exists r, bvxor x v = Ok (New r) /\
  has_bits x r (fun i => xorb (Z.testbit (bval x) i) (Z.testbit u i)).
Proof.
  intros x v u Hw Ho. eexists; split; [exact (bvxor_spec x v u Hw Ho)|].
  exact (has_bits_binop x v u Z.lxor xorb Hw Ho Z.lxor_spec eq_refl).
Qed.

Lemma has_bits_compl x r f : wf x -> has_bits x r f ->
  has_bits x (BV (bcls x) (2 ^ bsize x - 1 - bval r)) (fun i => negb (f i)).
Proof.
  intros Hw (Hc & [R1 R2] & Hb). rewrite Hc in R2. destruct Hw as [W1 W2].
  fold (bsize x) in *. split; [reflexivity|]. split; [split; cbn [bcls bval]; fold (bsize x); lia|].
  intros i Hi. cbn [bval]. rewrite compl_testbit by auto. now rewrite Hb.
Qed.

Lemma C06_nand_pf : forall x v u, wf x -> operand (bsize x) v u -> exists r, bvnand x v = Ok (New r) /\
  has_bits x r (fun i => negb (Z.testbit (bval x) i && Z.testbit u i)).
Proof.
  intros x v u Hw Ho. eexists; split; [exact (bvnand_spec x v u Hw Ho)|].
  exact (has_bits_compl x _ _ Hw (has_bits_binop x v u Z.land andb Hw Ho Z.land_spec eq_refl)).
Qed.

Lemma C06_nor_pf : forall x v u, wf x -> operand (bsize x) v u -> exists r, bvnor x v = Ok (New r) /\
  has_bits x r (fun i => negb (Z.testbit (bval x) i || Z.testbit u i)).
Proof.
  intros x v u Hw Ho. eexists; split; [exact (bvnor_spec x v u Hw Ho)|].
  exact (has_bits_compl x _ _ Hw (has_bits_binop x v u Z.lor orb Hw Ho Z.lor_spec eq_refl)).
Qed.

Lemma C06_xnor_pf : forall x v u, wf x -> operand (bsize x) v u -> exists r, bvxnor x v = Ok (New r) /\
  has_bits x r (fun i => negb (xorb (Z.testbit (bval x) i) (Z.testbit u i))).
Proof.
  intros x v u Hw Ho. eexists; split; [exact (bvxnor_spec x v u Hw Ho)|].
  exact (has_bits_compl x _ _ Hw (has_bits_binop x v u Z.lxor xorb Hw Ho Z.lxor_spec eq_refl)).
Qed.

Lemma C07_shl_pf : forall x v u, wf x -> operand (bsize x) v u ->
  bvshl x v = Ok (New (BV (bcls x) ((bval x * 2 ^ u) mod 2 ^ bsize x))).
Proof. exact bvshl_spec. Qed.

Lemma C07_lshr_pf : forall x v u, wf x -> operand (bsize x) v u ->
  bvlshr x v = Ok (New (BV (bcls x) (bval x / 2 ^ u))).
Proof. exact bvlshr_spec. Qed.

Lemma C07_ashr_pf : forall x v u, wf x -> operand (bsize x) v u -> 1 <= bsize x ->
  bvashr x v = Ok (New (BV (bcls x) ((signed (bsize x) (bval x) / 2 ^ u) mod 2 ^ bsize x))).
Proof. exact bvashr_spec. Qed.

Lemma C07_saturate_pf : forall x v u, wf x -> operand (bsize x) v u -> bsize x <= u ->
  bvshl x v = Ok (New (BV (bcls x) 0)) /\ bvlshr x v = Ok (New (BV (bcls x) 0)) /\
  (1 <= bsize x -> bvashr x v =
     Ok (New (BV (bcls x) (if Z.testbit (bval x) (bsize x - 1) then 2 ^ bsize x - 1 else 0)))).
Proof.
  intros x v u Hw Ho Hu. rewrite (bvshl_spec x v u), (bvlshr_spec x v u) by auto.
  pose proof Hw as [W1 W2]. fold (bsize x) in *. set (n := bsize x) in *.
  assert (Hp : 2 ^ n <= 2 ^ u) by (apply Z.pow_le_mono_r; lia).
  pose proof (pow2_pos n W1). split; [|split].
  - do 3 f_equal. apply Z.mod_divide; [lia|]. exists (bval x * 2 ^ (u - n)).
    rewrite <- Z.mul_assoc, <- Z.pow_add_r by lia. do 2 f_equal. lia.
  - do 3 f_equal. apply Z.div_small. lia.
  - intros Hn. rewrite (bvashr_spec x v u) by auto. do 3 f_equal. fold n.
    rewrite msb_spec by lia. unfold signed.
    destruct (Z.ltb_spec (2 * bval x) (2 ^ n)); cbn [negb].
    + rewrite Z.div_small by lia. now rewrite Z.mod_0_l by lia.
    + replace ((bval x - 2 ^ n) / 2 ^ u) with (-1) by (apply Z.div_unique with (bval x - 2 ^ n + 2 ^ u); lia).
      symmetry. apply Zmod_unique with (-1); lia.
Qed.

Lemma C08_udiv_urem_pf : forall x v u, wf x -> operand (bsize x) v u ->
  exists q r, bvudiv x v = Ok q /\ bvurem x v = Ok r /\
    bcls (rv_val x q) = bcls x /\ bcls (rv_val x r) = bcls x /\
    (u <> 0 -> bval x = bval (rv_val x q) * u + bval (rv_val x r) /\ 0 <= bval (rv_val x r) < u) /\
    (u = 0 -> bval (rv_val x q) = 2 ^ bsize x - 1 /\ bval (rv_val x r) = bval x).
Proof.
  intros x v u Hw Ho. rewrite (bvudiv_spec x v u), (bvurem_spec x v u) by auto.
  pose proof (u_range x v u Hw Ho) as Hu.
  do 2 eexists. split; [reflexivity|]. split; [reflexivity|].
  destruct (Z.eqb_spec u 0) as [E|E]; cbn [rv_val bcls bval]; repeat split; intros; try lia.
  - pose proof (Z.div_mod (bval x) u). lia.
  - apply Z.mod_pos_bound. lia.
  - apply Z.mod_pos_bound. lia.
Qed.

Lemma C09_sdiv_pf : forall x v u, wf x -> operand (bsize x) v u -> 1 <= bsize x ->
  bvsdiv x v = Ok (New (BV (bcls x)
    (if u =? 0 then 2 ^ bsize x - 1
     else (signed (bsize x) (bval x) / signed (bsize x) u) mod 2 ^ bsize x))).
Proof. exact bvsdiv_spec. Qed.

Lemma C09_srem_pf : forall x v u, wf x -> operand (bsize x) v u -> 1 <= bsize x ->
  exists r, bvsrem x v = Ok r /\ rv_val x r = BV (bcls x)
    (if u =? 0 then bval x
     else (signed (bsize x) (bval x) mod signed (bsize x) u) mod 2 ^ bsize x).
Proof.
  intros x v u Hw Ho Hn. eexists. split; [exact (bvsrem_spec x v u Hw Ho Hn)|].
  destruct (u =? 0); [now destruct x|reflexivity].
Qed.

Lemma C09_identity_pf : forall x v u q r, wf x -> 1 <= bsize x -> operand (bsize x) v u -> u <> 0 ->
  bvsdiv x v = Ok (New q) -> bvsrem x v = Ok (New r) ->
  (bval q * u + bval r) mod 2 ^ bsize x = bval x.
Proof. exact sdiv_srem_identity. Qed.

Lemma C10_unsigned_pf : forall x v u, wf x -> operand (bsize x) v u ->
  bveq x v = Ok (bval x =? u) /\ bvne x v = Ok (negb (bval x =? u)) /\
  bvult x v = Ok (bval x <? u) /\ bvule x v = Ok (bval x <=? u) /\
  bvugt x v = Ok (u <? bval x) /\ bvuge x v = Ok (u <=? bval x) /\
  bvcomp x v = Ok (New (BV (BVC (bkind x) 1) (if bval x =? u then 1 else 0))).
Proof.
  exact (fun x v u Hw Ho => conj (bveq_spec x v u Hw Ho) (conj (bvne_spec x v u Hw Ho)
    (conj (bvult_spec x v u Hw Ho) (conj (bvule_spec x v u Hw Ho) (conj (bvugt_spec x v u Hw Ho)
    (conj (bvuge_spec x v u Hw Ho) (bvcomp_spec x v u Hw Ho))))))).
Qed.

Lemma C10_signed_pf : forall x v u, wf x -> operand (bsize x) v u -> 1 <= bsize x ->
  let a := signed (bsize x) (bval x) in let b := signed (bsize x) u in
  bvslt x v = Ok (a <? b) /\ bvsle x v = Ok (a <=? b) /\
  bvsgt x v = Ok (b <? a) /\ bvsge x v = Ok (b <=? a).
Proof.
  exact (fun x v u Hw Ho Hn => conj (bvslt_spec x v u Hw Ho Hn) (conj (bvsle_spec x v u Hw Ho Hn)
    (conj (bvsgt_spec x v u Hw Ho Hn) (bvsge_spec x v u Hw Ho Hn)))).
Qed.

Lemma C11_concat_pf : forall x y, wf x -> wf y -> kind_le (bkind y) (bkind x) = true ->
  concat x (VBV y) =
    Ok (BV (BVC (bkind x) (bsize x + bsize y)) (bval x + bval y * 2 ^ bsize x)).
Proof. exact concat_spec. Qed.

Lemma C11_concat_reject_pf : forall x v,
  (forall y, v = VBV y -> kind_le (bkind y) (bkind x) = false) -> concat x v = Raise ETypeError.
Proof. exact concat_bad. Qed.

Lemma C11_slice_range_pf : forall x a b, wf x -> 0 <= a -> a <= b -> b <= bsize x ->
  getitem_slice x (Some a) (Some b) None =
    Ok (BV (BVC (bkind x) (b - a)) ((bval x / 2 ^ a) mod 2 ^ (b - a))).
Proof. exact getitem_slice_ab. Qed.

Lemma C11_slice_any_pf : forall x a b s, wf x -> s <> Some 0 ->
  exists y, getitem x (ISlice a b s) = Ok (VBV y) /\ wf y /\
    bcls y = BVC (bkind x) (Z.of_nat (length (slice_positions (bsize x) a b s))) /\
    bits y = map (fun p => if Z.testbit (bval x) p then 1 else 0) (slice_positions (bsize x) a b s).
Proof. exact slice_general. Qed.

Lemma C11_slice_step0_pf : forall x a b, wf x -> getitem x (ISlice a b (Some 0)) = Raise EValueError.
Proof. exact (fun x a b Hw => f_equal (rmap VBV) (getitem_slice_err x a b (Some 0) EValueError Hw eq_refl)). Qed.

Lemma C11_split_join_pf : forall x k, wf x -> 0 <= k <= bsize x ->
  exists lo hi, getitem_slice x None (Some k) None = Ok lo /\
    getitem_slice x (Some k) None None = Ok hi /\ concat lo (VBV hi) = Ok x.
Proof. exact slice_concat_id. Qed.

Lemma C12_zext_pf : forall x e, wf x -> 0 <= e ->
  zext x e = Ok (BV (BVC (bkind x) (bsize x + e)) (bval x)).
Proof. exact zext_spec. Qed.

Lemma C12_negative_pf : forall x e, e < 0 -> zext x e = Raise EValueError.
Proof. exact zext_neg. Qed.

Lemma C12_ext_unsigned_pf : forall x e, wf x -> 0 <= e -> bkind x <> KSInt ->
  ext x e = Ok (BV (BVC (bkind x) (bsize x + e)) (bval x)).
Proof.
  intros x e Hw He Hk. unfold ext. rewrite zext_spec by auto. destruct (bkind x); congruence.
Qed.

Lemma C66_sext_partial_pf : forall x e, wf x -> 1 <= bsize x -> 1 <= e ->
  exists y, sext x e = Ok y /\ wf y /\ bcls y = BVC (bkind x) (bsize x + e) /\
    signed (bsize x + e) (bval y) = signed (bsize x) (bval x).
Proof.
  intros x e Hw Hn He. eexists. split; [exact (sext_val x e Hw Hn He)|].
  split; [|split; [reflexivity|]].
  - split; cbn [bcls csize bval]; [lia|]. apply Z.mod_pos_bound, pow2_pos. lia.
  - cbn [bval]. apply signed_wider; try lia. destruct Hw. now apply signed_range.
Qed.

Lemma C66_ext_signed_partial_pf : forall x e, wf x -> 1 <= bsize x -> 1 <= e -> bkind x = KSInt ->
  exists y, ext x e = Ok y /\ wf y /\ bcls y = BVC KSInt (bsize x + e) /\
    signed (bsize x + e) (bval y) = signed (bsize x) (bval x).
Proof.
  intros x e Hw Hn He Hk. unfold ext. destruct (C66_sext_partial_pf x e Hw Hn He) as (y & E).
  rewrite Hk in *. now exists y.
Qed.

Lemma C66_negative_pf : forall x e, e < 0 -> sext x e = Raise EValueError.
Proof. exact sext_neg. Qed.

Lemma C66_sext_zero_refuted_pf : exists x, wf x /\ 1 <= bsize x /\ sext x 0 = Raise EValueError.
Proof. exists (s4 13). split; [exact s4_wf|]. split; [cbn; lia|reflexivity]. Qed.

Lemma C66_sext_zero_always_pf : forall x, wf x -> 1 <= bsize x -> sext x 0 = Raise EValueError.
Proof.
  intros x Hw Hn. unfold sext. cbn [Z.ltb Z.compare].
  rewrite getitem_int_spec by (auto; lia). cbn [bind].
  rewrite (C02_construct_any_pf (bkind x) 1 (VBit _) _ (Z.le_0_1) (Cv_bit 1 _)). reflexivity.
Qed.

Lemma C13_repeat_pf : forall x r, wf x -> 1 <= r ->
  exists y, bv_repeat x r = Ok y /\ bcls y = BVC (bkind x) (r * bsize x) /\ wf y /\
    forall i, 0 <= i < r * bsize x -> Z.testbit (bval y) i = Z.testbit (bval x) (i mod bsize x).
Proof. exact repeat_spec. Qed.

Lemma C13_reject_pf : forall x r, r <= 0 -> bv_repeat x r = Raise EValueError.
Proof. exact repeat_bad. Qed.

Lemma C14_rol_pf : forall x v u, wf x -> 1 <= bsize x -> operand (bsize x) v u ->
  exists y, bvrol x v = Ok (New y) /\ bcls y = bcls x /\ wf y /\
    forall i, 0 <= i < bsize x -> Z.testbit (bval y) i = Z.testbit (bval x) ((i - u) mod bsize x).
Proof. exact bvrol_spec. Qed.

Lemma C14_ror_pf : forall x v u, wf x -> 1 <= bsize x -> operand (bsize x) v u ->
  exists y, bvror x v = Ok (New y) /\ bcls y = bcls x /\ wf y /\
    forall i, 0 <= i < bsize x -> Z.testbit (bval y) i = Z.testbit (bval x) ((i + u) mod bsize x).
Proof. exact bvror_spec. Qed.

Lemma C14_inverse_pf : forall x v u, wf x -> 1 <= bsize x -> operand (bsize x) v u ->
  (exists y, bvrol x v = Ok (New y) /\ bvror y v = Ok (New x)) /\
  (exists y, bvror x v = Ok (New y) /\ bvrol y v = Ok (New x)).
Proof. exact (fun x v u Hw Hn Ho => conj (rol_ror x v u Hw Hn Ho) (ror_rol x v u Hw Hn Ho)). Qed.

Lemma C15_adc_pf : forall x v u cv c, wf x -> operand (bsize x) v u -> operand 1 cv c ->
  exists s (co : bool), adc x v cv = Ok (s, co) /\ bcls s = bcls x /\ wf s /\
    bval s + 2 ^ bsize x * (if co then 1 else 0) = bval x + u + c.
Proof. exact adc_spec. Qed.

Lemma C16_overflow_pf : forall n a b s, 1 <= n -> wf a -> wf b -> bsize a = n -> bsize b = n ->
  bvadd a (VBV b) = Ok (New s) ->
  overflow a b s = Ok (negb ((- 2 ^ (n - 1) <=? signed n (bval a) + signed n (bval b)) &&
                             (signed n (bval a) + signed n (bval b) <? 2 ^ (n - 1)))).
Proof. exact overflow_spec. Qed.

Lemma C17_getitem_pf : forall x i, wf x -> - bsize x <= i < bsize x ->
  getitem x (IInt i) = Ok (VBit (Z.testbit (bval x) (i mod bsize x))).
Proof. exact (fun x i Hw Hi => f_equal (rmap VBit) (getitem_int_spec x i Hw Hi)). Qed.

Lemma C17_getitem_range_pf : forall x i, ~ (- bsize x <= i < bsize x) ->
  getitem x (IInt i) = Raise EIndexError.
Proof. exact (fun x i Hi => f_equal (rmap VBit) (getitem_int_out x i Hi)). Qed.

Lemma C17_setitem_pf : forall x i b v, wf x -> - bsize x <= i < bsize x ->
  v = VBool b \/ v = VBit b \/ v = VInt (if b then 1 else 0) ->
  exists y, setitem x (IInt i) v = Ok y /\ bcls y = bcls x /\ wf y /\
    forall j, 0 <= j < bsize x ->
      Z.testbit (bval y) j = if j =? i mod bsize x then b else Z.testbit (bval x) j.
Proof. exact setitem_int_spec. Qed.

Lemma C17_setitem_range_pf : forall x i b, ~ (- bsize x <= i < bsize x) ->
  setitem x (IInt i) (VBit b) = Raise EIndexError.
Proof. exact (fun x i b => setitem_int_range x i (VBit b) eq_refl). Qed.

Lemma C17_setitem_reject_pf : forall x i v,
  (forall b, v <> VBool b) -> (forall b, v <> VBit b) -> v <> VInt 0 -> v <> VInt 1 ->
  setitem x (IInt i) v = Raise EValueError.
Proof.
  intros x i v H1 H2 H3 H4. apply setitem_int_bad.
  destruct v as [z|b|b| | | |]; try reflexivity; [|congruence|congruence]. cbn [bit_like].
  destruct (Z.eqb_spec z 0); [congruence|]. destruct (Z.eqb_spec z 1); [congruence|reflexivity].
Qed.

Lemma C17_setitem_slice_pf : forall x a b s v, setitem x (ISlice a b s) v = Raise ENotImplementedErr.
Proof. reflexivity. Qed.

Lemma C17_setitem_other_pf : forall x v,
  (exists b, v = VBool b \/ v = VBit b \/ v = VInt (if b then 1 else 0)) -> setitem x IOther v = Raise ETypeError.
Proof. intros x v [b [->|[->| ->]]]; destruct b; reflexivity. Qed.

Lemma C17_setitem_other_reject_pf : forall x v,
  (forall b, v <> VBool b) -> (forall b, v <> VBit b) -> v <> VInt 0 -> v <> VInt 1 ->
  setitem x IOther v = Raise EValueError.
Proof.
  intros x v A B C D. cbn [setitem]. enough (bit_like v = false) as -> by reflexivity.
  destruct v; try reflexivity; cbn [bit_like]; [|exfalso; eapply A; reflexivity|exfalso; eapply B; reflexivity].
  destruct (Z.eqb_spec z 0) as [->|]; [now elim C|]. destruct (Z.eqb_spec z 1) as [->|]; [now elim D|]. reflexivity.
Qed.

Lemma C27_implicit_unsigned_partial_pf : forall k z, 0 <= z ->
  exists y, construct_implicit k (VInt z) = Ok y /\ as_uint y = z /\ bkind y = k.
Proof. exact (fun k z Hz => ex_intro _ _ (conj (implicit_nonneg k z Hz) (conj eq_refl eq_refl))). Qed.

Lemma least_width_unique z n m : least_width z n -> least_width z m -> n = m.
Proof.
  intros (A1 & A2 & A3) (B1 & B2 & B3). destruct (Z.lt_trichotomy n m) as [L|[L|L]]; auto.
  - specialize (B3 n ltac:(lia)). lia.
  - specialize (A3 m ltac:(lia)). lia.
Qed.

Lemma bit_length_least z : least_width z (Z.max (bit_length z) 1).
Proof.
  assert (E : bit_length z = bit_length (Z.abs z)).
  { unfold bit_length. rewrite Z.abs_involutive. destruct (Z.eqb_spec z 0), (Z.eqb_spec (Z.abs z) 0); lia. }
  rewrite E. destruct (bit_length_spec (Z.abs z) (Z.abs_nonneg z)) as (H1 & H2 & H3). set (n := bit_length (Z.abs z)) in *.
  split; [lia|]. split.
  - apply Z.lt_le_trans with (2 ^ n); auto. apply Z.pow_le_mono_r; lia.
  - intros m Hm. assert (0 < Z.abs z).
    { destruct (Z.eq_dec (Z.abs z) 0) as [X|X]; [|lia]. exfalso. subst n. rewrite X in Hm. cbn in Hm. lia. }
    apply Z.le_trans with (2 ^ (n - 1)); [apply Z.pow_le_mono_r; lia|auto].
Qed.

Lemma implicit_width v n : implied_width v n -> implicit_size v = Ok n.
Proof.
  intros H. destruct H; cbn [implicit_size bind]; auto.
  - now destruct b.
  - f_equal. eapply least_width_unique; [apply bit_length_least|auto].
  - f_equal. destruct l; [congruence|]. cbn [length]. lia.
  - f_equal. lia.
  - f_equal. eapply least_width_unique; [apply bit_length_least|auto].
Qed.

Lemma C27_width_pf : forall k v n, implied_width v n -> construct_implicit k v = construct k n v.
Proof. intros k v n H. unfold construct_implicit. rewrite (implicit_width v n H). reflexivity. Qed.

Lemma C27_arguments_pf : forall k v, (exists n, implied_width v n) \/ (exists e b t, v = VOther (Some (Raise e)) b t /\ construct_implicit k v = Raise e) \/
  (exists b t, v = VOther None b t /\ construct_implicit k v = Raise ETypeError).
Proof.
  intros k v. destruct v as [z|b|b|x|l|m|[[z|e]|] b t].
  - left. exists (Z.max (bit_length z) 1). constructor. apply bit_length_least.
  - left. exists 1. constructor.
  - left. exists 1. constructor.
  - left. eexists. constructor.
  - left. destruct l; [exists 1; constructor|eexists; constructor; discriminate].
  - left. destruct m; [exists 1; constructor|eexists; constructor; discriminate].
  - left. exists (Z.max (bit_length z) 1). constructor. apply bit_length_least.
  - right. left. exists e, b, t. split; reflexivity.
  - right. right. exists b, t. split; reflexivity.
Qed.

Lemma C27_implicit_copy_pf : forall k x, wf x ->
  construct_implicit k (VBV x) = Ok (BV (BVC k (bsize x)) (bval x)).
Proof. exact implicit_bv. Qed.

Lemma C27_implicit_signed_refuted_pf : forall z, 0 < z -> exists y,
  construct_implicit KSInt (VInt z) = Ok y /\ exists s, as_sint y = Ok s /\ s < 0.
Proof.
  exact (fun z Hz => match implicit_signed z Hz with
    ex_intro _ y (conj A (conj B C)) => ex_intro _ y (conj A (ex_intro _ _ (conj B C))) end).
Qed.
