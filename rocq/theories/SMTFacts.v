(** Lemmas relating SMTModel.v to the concrete model. *)
From Coq Require Import Lia ZifyBool.
From Verif Require Import PyBase BVModel BVSpec BVFacts BVOps OpModel OpSpec OpFacts SMTTerm SMTModel SMTSpec.

Lemma pow2_split w : 1 <= w -> 2 ^ w = 2 * 2 ^ (w - 1).
Proof. intros H. rewrite <- Z.pow_succ_r by lia. f_equal. lia. Qed.

Lemma to_int_signed w u : 1 <= w -> to_int w u = signed w u.
Proof.
  intros H. unfold to_int, signed, msb. rewrite (pow2_split w H).
  destruct (Z.leb_spec (2 ^ (w - 1)) u), (Z.ltb_spec (2 * u) (2 * 2 ^ (w - 1))); lia.
Qed.

Lemma mod_range z w : 0 <= w -> 0 <= z mod 2 ^ w < 2 ^ w.
Proof. intros H. apply Z.mod_pos_bound, pow2_pos; lia. Qed.

Lemma land_range n a b : 0 <= n -> 0 <= a < 2 ^ n -> 0 <= b < 2 ^ n -> 0 <= Z.land a b < 2 ^ n.
Proof.
  intros Hn Ha Hb. replace (Z.land a b) with (Z.land a b mod 2 ^ n); [apply mod_range; lia|].
  apply Z.bits_inj'. intros i Hi. destruct (Z.lt_ge_cases i n).
  - now rewrite Z.mod_pow2_bits_low by lia.
  - rewrite Z.mod_pow2_bits_high by lia. rewrite Z.land_spec, (testbit_high a n) by lia. reflexivity.
Qed.
Lemma lor_range n a b : 0 <= n -> 0 <= a < 2 ^ n -> 0 <= b < 2 ^ n -> 0 <= Z.lor a b < 2 ^ n.
Proof.
  intros Hn Ha Hb. replace (Z.lor a b) with (Z.lor a b mod 2 ^ n); [apply mod_range; lia|].
  apply Z.bits_inj'. intros i Hi. destruct (Z.lt_ge_cases i n).
  - now rewrite Z.mod_pow2_bits_low by lia.
  - rewrite Z.mod_pow2_bits_high by lia. rewrite Z.lor_spec, (testbit_high a n), (testbit_high b n) by lia. reflexivity.
Qed.
Lemma lxor_range n a b : 0 <= n -> 0 <= a < 2 ^ n -> 0 <= b < 2 ^ n -> 0 <= Z.lxor a b < 2 ^ n.
Proof.
  intros Hn Ha Hb. replace (Z.lxor a b) with (Z.lxor a b mod 2 ^ n); [apply mod_range; lia|].
  apply Z.bits_inj'. intros i Hi. destruct (Z.lt_ge_cases i n).
  - now rewrite Z.mod_pow2_bits_low by lia.
  - rewrite Z.mod_pow2_bits_high by lia. rewrite Z.lxor_spec, (testbit_high a n), (testbit_high b n) by lia. reflexivity.
Qed.
Lemma div_range n a p : 0 <= a < 2 ^ n -> 0 < p -> 0 <= a / p < 2 ^ n.
Proof.
  intros Ha Hp. split; [apply Z.div_pos; lia|].
  apply Z.le_lt_trans with a; [|lia]. apply Z.div_le_upper_bound; nia.
Qed.
Lemma neg_range w a : 0 <= w -> 0 <= neg w a < 2 ^ w.
Proof. apply mod_range. Qed.
Lemma udiv_range w a b : 0 <= w -> 0 <= a < 2 ^ w -> 0 <= b -> 0 <= udiv w a b < 2 ^ w.
Proof.
  intros Hw Ha Hb. unfold udiv. destruct (Z.eqb_spec b 0); [pose proof (pow2_pos w Hw); lia|].
  apply div_range; lia.
Qed.
Lemma urem_range w a b : 0 <= a < 2 ^ w -> 0 <= b -> 0 <= urem a b < 2 ^ w.
Proof.
  intros Ha Hb. unfold urem. destruct (Z.eqb_spec b 0); [lia|].
  pose proof (Z.mod_pos_bound a b). pose proof (Z.mod_le a b). lia.
Qed.
Lemma rol_range w k u : 0 <= k <= w -> 0 <= u < 2 ^ w -> 0 <= (u * 2 ^ k) mod 2 ^ w + u / 2 ^ (w - k) < 2 ^ w.
Proof.
  intros Hk Hu. assert (E : 2 ^ w = 2 ^ k * 2 ^ (w - k)) by (rewrite <- Z.pow_add_r by lia; f_equal; lia).
  pose proof (pow2_pos k ltac:(lia)). pose proof (pow2_pos (w - k) ltac:(lia)).
  rewrite E. rewrite (Z.mul_comm u), Z.mul_mod_distr_l by lia. rewrite E in Hu.
  set (p := 2 ^ k) in *. set (q := 2 ^ (w - k)) in *.
  pose proof (Z.mod_pos_bound u q). assert (0 <= u / q < p). { split; [apply Z.div_pos; lia|apply Z.div_lt_upper_bound; lia]. }
  nia.
Qed.
Lemma op_sem_range op w a b : 1 <= w -> 0 <= a < 2 ^ w -> 0 <= b < 2 ^ w -> 0 <= op_sem op w a b < 2 ^ w.
Proof.
  intros Hw Ha Hb.
  assert (W : 0 <= w) by lia.
  destruct op; cbn [op_sem]; try (apply mod_range; lia).
  - apply land_range; lia.
  - apply lor_range; lia.
  - apply lxor_range; lia.
  - apply udiv_range; lia.
  - apply urem_range; lia.
  - unfold sdiv. pose proof (neg_range w a W). pose proof (neg_range w b W).
    destruct (msb w a), (msb w b); try apply neg_range; try apply udiv_range; lia.
  - unfold srem. pose proof (neg_range w a W). pose proof (neg_range w b W).
    destruct (msb w a), (msb w b); try apply neg_range; try apply urem_range; lia.
  - unfold smod. pose proof (neg_range w a W). pose proof (neg_range w b W).
    set (aa := if msb w a then neg w a else a). set (ab := if msb w b then neg w b else b).
    assert (0 <= aa < 2 ^ w) by (unfold aa; destruct (msb w a); lia).
    assert (0 <= ab < 2 ^ w) by (unfold ab; destruct (msb w b); lia).
    pose proof (urem_range w aa ab).
    destruct (urem aa ab =? 0); [lia|].
    destruct (msb w a), (msb w b); auto using mod_range, neg_range; lia.
  - apply div_range; [lia|]. apply pow2_pos; lia.
  - cbv zeta. pose proof (Z.mod_pos_bound b w ltac:(lia)). apply rol_range; lia.
  - cbv zeta. pose proof (Z.mod_pos_bound b w ltac:(lia)). pose proof (rol_range w (w - b mod w) a) as R.
    replace (w - (w - b mod w)) with (b mod w) in R by lia. lia.
Qed.

Lemma vwf_range t : vwf t = true -> 1 <= width t /\ forall e, 0 <= evalv e t < 2 ^ width t.
Proof.
  induction t; cbn [vwf width evalv]; rewrite ?andb_true_iff; intros H;
    repeat match goal with H : _ /\ _ |- _ => destruct H end;
    repeat match goal with IH : vwf ?t = true -> _, H : vwf ?t = true |- _ => specialize (IH H); destruct IH as [? IH] end;
    (split; [lia|]); intros e;
    repeat match goal with IH : forall e, 0 <= evalv e ?t < _ |- _ => specialize (IH e) end.
  - lia.
  - apply mod_range; lia.
  - lia.
  - apply neg_range; lia.
  - apply op_sem_range; try lia. replace (width t1) with (width t2) by lia. lia.
  - rewrite Z.pow_add_r by lia. nia.
  - apply mod_range; lia.
  - rewrite Z.pow_add_r by lia. pose proof (pow2_pos k). nia.
  - apply mod_range; lia.
  - assert (E : 2 ^ width t = 2 ^ k * 2 ^ (width t - k)) by (rewrite <- Z.pow_add_r by lia; f_equal; lia).
    pose proof (pow2_pos k ltac:(lia)). pose proof (pow2_pos (width t - k) ltac:(lia)).
    rewrite E. rewrite (Z.mul_comm (evalv e t)), Z.mul_mod_distr_l by lia.
    set (p := 2 ^ k) in *. set (q := 2 ^ (width t - k)) in *. set (u := evalv e t) in *.
    pose proof (Z.mod_pos_bound u q). assert (0 <= u / q < p). { split; [apply Z.div_pos; lia|apply Z.div_lt_upper_bound; lia]. }
    nia.
  - assert (E : 2 ^ width t = 2 ^ (width t - k) * 2 ^ k) by (rewrite <- Z.pow_add_r by lia; f_equal; lia).
    pose proof (pow2_pos k ltac:(lia)). pose proof (pow2_pos (width t - k) ltac:(lia)).
    rewrite E. rewrite (Z.mul_comm (evalv e t)), Z.mul_mod_distr_l by lia.
    set (p := 2 ^ k) in *. set (q := 2 ^ (width t - k)) in *. set (u := evalv e t) in *.
    pose proof (Z.mod_pos_bound u p). assert (0 <= u / p < q). { split; [apply Z.div_pos; lia|apply Z.div_lt_upper_bound; lia]. }
    nia.
  - change (2 ^ 1) with 2. destruct (evalv e t1 =? evalv e t2); lia.
  - destruct (evalb e c); [lia|]. replace (width t1) with (width t2) by lia. lia.
Qed.

Lemma swf_meaning e x : swf x -> wf (meaning e x).
Proof.
  intros (H1 & H2 & H3). destruct (vwf_range _ H2) as [_ R]. specialize (R e).
  unfold wf, meaning. cbn [bcls bval]. rewrite H3 in R. lia.
Qed.

Lemma meaning_eq e x c u : scls x = c -> evalv e (sterm x) = u -> meaning e x = BV c u.
Proof. intros <- <-. reflexivity. Qed.
Lemma meaning_inv e x c u : BV c u = meaning e x -> evalv e (sterm x) = u.
Proof. intros H. symmetry. exact (f_equal bval H). Qed.

(** ** Nodes *)
Section F.
Variable S : simplifier.
Hypothesis FS : faithful S.

Lemma vec_node_ok c t : 1 <= csize c -> vwf t = true -> width t = csize c ->
  exists r, vec_node S c t = Ok r /\ scls r = c /\ swf r /\ forall e, evalv e (sterm r) = evalv e t.
Proof.
  intros Hc H1 H2. unfold vec_node. rewrite H1, H2, Z.eqb_refl. cbn [andb].
  destruct FS as (_ & F & _). destruct (F t H1) as (A & B & C).
  eexists; split; [reflexivity|]. cbn [scls sterm]. unfold swf. cbn [scls sterm]. repeat split; auto. congruence.
Qed.
Lemma bit_node_ok t : bwf t = true -> exists r, bit_node S t = Ok r /\ bwf r = true /\ forall e, evalb e r = evalb e t.
Proof.
  intros H. unfold bit_node. rewrite H. destruct FS as (F & _). destruct (F t H) as (A & B). eauto.
Qed.
Lemma int_node_ok t : iwf t = true -> exists r, int_node S t = Ok r /\ iwf r = true /\ forall e, evali e r = evali e t.
Proof.
  intros H. unfold int_node. rewrite H. destruct FS as (_ & _ & F). destruct (F t H) as (A & B). eauto.
Qed.
Lemma vec_const_ok c z : 1 <= csize c -> 0 <= z < 2 ^ csize c ->
  exists r, vec_const S c z = Ok r /\ scls r = c /\ swf r /\ forall e, evalv e (sterm r) = z.
Proof.
  intros Hc Hz. unfold vec_const. replace ((0 <=? z) && (z <? 2 ^ csize c)) with true by lia.
  destruct (vec_node_ok c (VConst z (csize c))) as (r & A & B & C & D); auto.
  { cbn [vwf]. lia. }
  eauto.
Qed.

Ltac node := match goal with
  | |- context[vec_node S ?c ?t] =>
      let r := fresh "r" in let E := fresh "E" in let C := fresh "C" in let W := fresh "W" in let V := fresh "V" in
      destruct (vec_node_ok c t) as (r & E & C & W & V); [..| rewrite E; cbn [bind rmap]]
  | |- context[bit_node S ?t] =>
      let r := fresh "r" in let E := fresh "E" in let W := fresh "W" in let V := fresh "V" in
      destruct (bit_node_ok t) as (r & E & W & V); [..| rewrite E; cbn [bind rmap]]
  | |- context[int_node S ?t] =>
      let r := fresh "r" in let E := fresh "E" in let W := fresh "W" in let V := fresh "V" in
      destruct (int_node_ok t) as (r & E & W & V); [..| rewrite E; cbn [bind rmap]]
  end.

(** ** slices *)
Lemma s_getitem_slice_ok x a b s : swf x -> s = None \/ s = Some 1 ->
  let n := ssize x in
  let lo := match a with None => 0 | Some i => if i <? 0 then n + i else i end in
  let hi := Z.min (match b with None => n | Some i => if i <? 0 then n + i else i end) n in
  0 <= lo < hi ->
  exists r, s_getitem_slice S x a b s = Ok r /\ scls r = BVC (skind x) (hi - lo) /\ swf r /\
    forall e, getitem_slice (meaning e x) a b s = Ok (meaning e r).
Proof.
  intros Hw Hs n lo hi H. pose proof Hw as (W1 & W2 & W3). fold (ssize x) in W1, W3.
  unfold s_getitem_slice. fold n. fold lo. fold hi.
  assert (Es : match s with None | Some 1 => extract (sterm x) lo (hi - 1) | Some _ => Raise EIndexError end
     = extract (sterm x) lo (hi - 1)) by (destruct Hs; subst; reflexivity).
  assert (hi <= n) by (unfold hi; lia).
  set (t := VExtract lo (hi - 1) (sterm x)).
  assert (Wt : vwf t = true) by (cbn [t vwf]; rewrite W2, W3; fold n; cbn [andb]; lia).
  assert (Wd : width t = hi - lo) by (cbn [t width]; lia).
  assert (Ex : extract (sterm x) lo (hi - 1) = Ok t).
  { unfold extract. fold t. rewrite Wt. now replace ((lo <=? hi - 1) && (0 <=? lo)) with true by lia. }
  assert (G : exists r, (v <- extract (sterm x) lo (hi - 1);; c <- sized (skind x) (width v);; vec_node S c v) = Ok r /\
     scls r = BVC (skind x) (hi - lo) /\ swf r /\ forall e, evalv e (sterm r) = evalv e t).
  { rewrite Ex. cbn [bind]. rewrite sized_ok by lia. cbn [bind]. rewrite Wd.
    node; cbn [csize]; try lia; auto. exists r. auto. }
  destruct G as (r & E & C & W & V). exists r. split; [destruct Hs; subst s; exact E|]. split; auto. split; auto.
  intros e. rewrite getitem_slice_plain; auto using swf_meaning. cbv zeta.
  change (bsize (meaning e x)) with n. change (bval (meaning e x)) with (evalv e (sterm x)).
  rewrite (meaning_eq e r _ _ C (V e)). cbn [t evalv].
  assert (E1 : match a with None => 0 | Some i => Z.max 0 (Z.min n (if i <? 0 then i + n else i)) end = lo).
  { unfold lo. destruct a as [i|]; [|reflexivity]. revert H. unfold lo, hi.
    destruct (i <? 0); destruct b as [j|]; try destruct (j <? 0); lia. }
  assert (E2 : match b with None => n | Some i => Z.max 0 (Z.min n (if i <? 0 then i + n else i)) end = hi).
  { clear E1. unfold hi in *. destruct b as [j|]; [|lia]. destruct (j <? 0); lia. }
  rewrite E1, E2. replace (Z.max 0 (hi - lo)) with (hi - lo) by lia. replace (hi - 1 - lo + 1) with (hi - lo) by lia.
  reflexivity.
Qed.

Lemma s_getitem_int_ok x i : swf x -> - ssize x <= i < ssize x ->
  exists r, s_getitem_int S x i = Ok r /\ bwf r = true /\ forall e, getitem_int (meaning e x) i = Ok (evalb e r).
Proof.
  intros Hw Hi. pose proof Hw as (W1 & W2 & W3). fold (ssize x) in W1, W3.
  unfold s_getitem_int. set (j := if i <? 0 then ssize x + i else i).
  assert (Hj : j = i mod ssize x).
  { unfold j. destruct (Z.ltb_spec i 0); [apply Zmod_unique with (-1); lia|symmetry; apply Z.mod_small; lia]. }
  assert (R : 0 <= j < ssize x) by (unfold j; destruct (Z.ltb_spec i 0); lia).
  replace ((0 <=? j) && (j <? ssize x)) with true by lia.
  unfold extract. replace ((j <=? j) && (0 <=? j)) with true by lia.
  assert (Wt : vwf (VExtract j j (sterm x)) = true) by (cbn [vwf]; rewrite W2, W3; lia).
  rewrite Wt. cbn [bind]. node.
  { cbn [bwf]. rewrite Wt. cbn [vwf width]. lia. }
  exists r. split; auto. split; auto. intros e. rewrite V. cbn [evalb evalv].
  rewrite getitem_int_spec by (auto using swf_meaning). change (bsize (meaning e x)) with (ssize x).
  rewrite <- Hj. change (bval (meaning e x)) with (evalv e (sterm x)). f_equal.
  replace (j - j + 1) with 1 by lia. change (2 ^ 1) with 2.
  rewrite <- Z.testbit_spec' by lia. destruct (Z.testbit (evalv e (sterm x)) j); reflexivity.
Qed.

Lemma s_getitem_int_out x i : ~ (- ssize x <= i < ssize x) -> s_getitem_int S x i = Raise EIndexError.
Proof.
  intros H. unfold s_getitem_int. destruct (Z.ltb_spec i 0).
  - now replace ((0 <=? ssize x + i) && (ssize x + i <? ssize x)) with false by lia.
  - now replace ((0 <=? i) && (i <? ssize x)) with false by lia.
Qed.

(** ** extension and concatenation *)
Lemma s_zext_ok x k : swf x -> 0 <= k ->
  exists r, s_zext S x k = Ok r /\ scls r = BVC (skind x) (ssize x + k) /\ swf r /\
    forall e, zext (meaning e x) k = Ok (meaning e r).
Proof.
  intros Hw Hk. pose proof Hw as (W1 & W2 & W3). fold (ssize x) in W1, W3.
  unfold s_zext. replace (k <? 0) with false by lia. rewrite sized_ok by lia. cbn [bind].
  node; cbn [csize vwf width]; try lia.
  exists r. split; auto. split; auto. split; auto. intros e.
  rewrite zext_spec by (auto using swf_meaning). now rewrite (meaning_eq e r _ _ C (V e)).
Qed.
Lemma s_sext_ok x k : swf x -> 1 <= k ->
  exists r, s_sext S x k = Ok r /\ scls r = BVC (skind x) (ssize x + k) /\ swf r /\
    forall e, sext (meaning e x) k = Ok (meaning e r).
Proof.
  intros Hw Hk. pose proof Hw as (W1 & W2 & W3). fold (ssize x) in W1, W3.
  unfold s_sext. replace (k <? 0) with false by lia. rewrite sized_ok by lia. cbn [bind].
  node; cbn [csize vwf width]; try lia.
  exists r. split; auto. split; auto. split; auto. intros e.
  rewrite sext_val by (auto using swf_meaning). rewrite (meaning_eq e r _ _ C (V e)). cbn [evalv]. rewrite W3.
  now rewrite to_int_signed by lia.
Qed.
Lemma s_sext_0 x : swf x ->
  exists r, s_sext S x 0 = Ok r /\ scls r = scls x /\ swf r /\ forall e, meaning e r = meaning e x.
Proof.
  intros Hw. pose proof Hw as (W1 & W2 & W3). fold (ssize x) in W1, W3.
  unfold s_sext. cbn [Z.ltb Z.compare]. rewrite sized_ok by lia. cbn [bind].
  node; cbn [csize vwf width]; try lia.
  assert (Ec : BVC (skind x) (ssize x + 0) = scls x) by (unfold skind, ssize; destruct (scls x); cbn; f_equal; lia).
  rewrite Ec in *. exists r. split; auto. split; auto. split; auto. intros e.
  unfold meaning. rewrite C, V. f_equal. cbn [evalv]. rewrite Z.add_0_r, W3, to_int_signed by lia.
  apply signed_mod; [lia|]. destruct (vwf_range _ W2) as [_ R]. rewrite <- W3. apply R.
Qed.
Lemma s_concat_ok x y : swf x -> swf y -> kind_le (skind y) (skind x) = true ->
  exists r, s_concat S x (SVec y) = Ok r /\ scls r = BVC (skind x) (ssize x + ssize y) /\ swf r /\
    forall e, concat (meaning e x) (VBV (meaning e y)) = Ok (meaning e r).
Proof.
  intros Hx Hy Hk. pose proof Hx as (W1 & W2 & W3). pose proof Hy as (Y1 & Y2 & Y3).
  fold (ssize x) in W1, W3. fold (ssize y) in Y1, Y3.
  unfold s_concat. rewrite Hk, sized_ok by lia. cbn [bind].
  node; cbn [csize vwf width]; try lia.
  exists r. split; auto. split; auto. split; auto. intros e.
  rewrite concat_spec by (auto using swf_meaning). rewrite (meaning_eq e r _ _ C (V e)). cbn [evalv]. rewrite W3.
  change (bsize (meaning e x)) with (ssize x). change (bval (meaning e x)) with (evalv e (sterm x)).
  change (bval (meaning e y)) with (evalv e (sterm y)). do 2 f_equal. lia.
Qed.

(** ** construction *)
Definition s_init_list (c : bvcls) : list sval -> res (list svec) :=
  fix go (l : list sval) : res (list svec) :=
    match l with
    | [] => Ok []
    | v :: l => x <- s_init S (BVC (ck c) 1) v ;; xs <- go l ;; Ok (x :: xs)
    end.

Definition elem_bit (e : env) (v : sval) : bool :=
  match vmeaning e v with
  | VInt z => negb (z =? 0)
  | VBool b => b
  | VBit b => b
  | VBV x => negb (bval x =? 0)
  | _ => false
  end.

Lemma elem_truthy e v : bit_elem v -> truthy (vmeaning e v) (elem_bit e v).
Proof.
  destruct 1; unfold elem_bit; cbn [vmeaning]; try constructor.
  - now apply swf_meaning.
  - left. cbn. lia.
Qed.

Lemma one_bit_val e x : swf x -> ssize x = 1 -> evalv e (sterm x) = b2z (negb (evalv e (sterm x) =? 0)).
Proof.
  intros (W1 & W2 & W3) H. fold (ssize x) in *. destruct (vwf_range _ W2) as [_ R]. specialize (R e).
  rewrite W3, H in R. change (2 ^ 1) with 2 in R. destruct (Z.eqb_spec (evalv e (sterm x)) 0); cbn; lia.
Qed.

Lemma s_init_elem k v : bit_elem v ->
  exists r, s_init S (BVC k 1) v = Ok r /\ scls r = BVC k 1 /\ swf r /\ forall e, evalv e (sterm r) = b2z (elem_bit e v).
Proof.
  intros H; destruct H as [ | |b|t Ht|x Hx Hs]; cbn [s_init csize].
  - destruct (vec_const_ok (BVC k 1) (0 mod 2 ^ 1)) as (r & A & B & C & D); [cbn; lia|cbn; lia|]. rewrite A. eauto.
  - destruct (vec_const_ok (BVC k 1) (1 mod 2 ^ 1)) as (r & A & B & C & D); [cbn; lia|cbn; lia|]. rewrite A. eauto.
  - destruct (vec_const_ok (BVC k 1) (b2z b mod 2 ^ 1)) as (r & A & B & C & D); [cbn; lia|destruct b; cbn; lia|].
    rewrite A. exists r. repeat (split; auto). intros e. rewrite D. destruct b; reflexivity.
  - node; cbn [csize vwf width]; try lia.
    exists r. repeat (split; auto).
  - unfold ssize. rewrite Hs. cbn [Z.sub Z.ltb Z.compare Z.add Z.opp Z.pos_sub].
    pose proof Hx as (W1 & W2 & W3). node; cbn [csize]; try lia; auto.
    exists r. repeat (split; auto). intros e. rewrite V. unfold elem_bit; cbn [vmeaning]. cbn [meaning bval].
    now apply one_bit_val.
Qed.

Lemma s_init_list_ok c l : Forall bit_elem l ->
  exists xs, s_init_list c l = Ok xs /\ length xs = length l /\
    Forall (fun r => scls r = BVC (ck c) 1 /\ swf r) xs /\
    forall e, map (fun r => evalv e (sterm r)) xs = map (fun v => b2z (elem_bit e v)) l.
Proof.
  induction 1 as [|v l Hv Hl IH]; cbn [s_init_list].
  - exists []. auto.
  - destruct (s_init_elem (ck c) v Hv) as (r & A & B & C & D). destruct IH as (xs & E & F & G & H).
    fold (s_init_list c). rewrite A, E. cbn [bind]. exists (r :: xs).
    split; [reflexivity|]. split; [cbn; lia|]. split; [constructor; auto|].
    intros e. cbn [map]. now rewrite D, H.
Qed.

Lemma concat_all_ok k l : Forall (fun r => scls r = BVC k 1 /\ swf r) l ->
  forall acc, swf acc -> skind acc = k ->
  exists r, concat_all S acc l = Ok r /\ scls r = BVC k (ssize acc + Z.of_nat (length l)) /\ swf r /\
    forall e bs, map (fun r => evalv e (sterm r)) l = map b2z bs ->
      evalv e (sterm r) = evalv e (sterm acc) + bits_value bs * 2 ^ ssize acc.
Proof.
  induction 1 as [|y l [Hy1 Hy2] Hl IH]; intros acc Ha Hk; cbn [concat_all].
  - exists acc. split; auto. split. { destruct acc as [[k0 n0] t0]. cbn in *. f_equal; [auto|lia]. }
    split; auto. intros e bs Hb. destruct bs; [|discriminate]. cbn [bits_value]. lia.
  - destruct (s_concat_ok acc y Ha Hy2) as (r & A & B & C & D).
    { unfold skind at 1. rewrite Hy1. cbn [ck]. rewrite <- Hk. apply kind_le_refl. }
    rewrite A. cbn [bind].
    destruct (IH r C) as (r2 & A2 & B2 & C2 & D2). { unfold skind. rewrite B. exact Hk. }
    exists r2. split; auto. assert (ssize y = 1) as Sy by (unfold ssize; now rewrite Hy1).
    assert (ssize r = ssize acc + 1) as Sr by (unfold ssize at 1; rewrite B; cbn [csize]; lia).
    split. { rewrite B2, Sr. cbn [length]. f_equal. lia. }
    split; auto. intros e bs Hb. destruct bs as [|b bs]; [discriminate|]. cbn [map] in Hb. inversion Hb as [[Hb1 Hb2]].
    rewrite (D2 e bs Hb2). rewrite Sr. specialize (D e). rewrite concat_spec in D by (auto using swf_meaning; 
      unfold bkind; cbn [meaning bcls]; fold (skind acc); rewrite Hk; rewrite Hy1; cbn; apply kind_le_refl).
    assert (D' := meaning_inv _ _ _ _ (f_equal (fun r => match r with Ok x => x | Raise _ => BV (BVC KBV 0) 0 end) D)).
    change (bval (meaning e acc)) with (evalv e (sterm acc)) in *.
    change (bval (meaning e y)) with (evalv e (sterm y)) in *.
    change (bsize (meaning e acc)) with (ssize acc) in *. rewrite Hb1 in *.
    cbn [bits_value]. destruct Ha as (Ha1 & _). fold (ssize acc) in Ha1. rewrite Z.pow_add_r by lia. change (2 ^ 1) with 2.
    rewrite D'. destruct b; cbn [b2z]; ring.
Qed.

Lemma s_init_ok c v : 1 <= csize c -> convertible (csize c) v ->
  exists r, s_init S c v = Ok r /\ scls r = c /\ swf r /\ forall e, bv_init c (vmeaning e v) = Ok (meaning e r).
Proof.
  intros Hc H. assert (Hn : 0 <= csize c) by lia. destruct H as [z|b|t Ht|x Hx|l Hl Hb|z b Hz].
  - cbn [s_init]. destruct (vec_const_ok c (z mod 2 ^ csize c)) as (r & A & B & C & D); auto using mod_range.
    exists r. split; auto. split; auto. split; auto. intros e. cbn [vmeaning bv_init]. rewrite mk_eq by lia.
    unfold meaning. now rewrite B, D.
  - cbn [s_init]. destruct (vec_const_ok c (b2z b mod 2 ^ csize c)) as (r & A & B & C & D); auto using mod_range.
    exists r. split; auto. split; auto. split; auto. intros e. cbn [vmeaning bv_init]. rewrite mk_eq by lia.
    unfold meaning. now rewrite B, D.
  - cbn [s_init]. assert (P : 2 <= 2 ^ csize c).
    { rewrite pow2_split by lia. pose proof (pow2_pos (csize c - 1)). lia. }
    node; [lia|cbn [vwf width]; rewrite Ht; cbn [andb]; lia|reflexivity|].
    exists r. split; auto. split; auto. split; auto. intros e. cbn [vmeaning bv_init]. rewrite mk_eq by lia.
    unfold meaning. rewrite C, V. cbn [evalv]. do 2 f_equal. rewrite Z.mod_small; destruct (evalb e t); cbn; lia.
  - cbn [s_init]. pose proof Hx as (W1 & W2 & W3). fold (ssize x) in W1, W3.
    assert (Hsm : forall e, 0 <= evalv e (sterm x) < 2 ^ ssize x) by (intros e; rewrite <- W3; now apply vwf_range).
    destruct (Z.ltb_spec (csize c - ssize x) 0); [|destruct (Z.ltb_spec 0 (csize c - ssize x))].
    + destruct (s_getitem_slice_ok x None (Some (csize c)) None Hx (or_introl eq_refl)) as (r & A & B & C & D).
      { replace (csize c <? 0) with false by lia. lia. }
      rewrite A. cbn [bind]. pose proof C as (C1 & C2 & C3). rewrite B in C3. cbn [csize] in C3.
      replace (csize c <? 0) with false in * by lia.
      node; auto; try lia. exists r0. split; auto. split; auto. split; auto. intros e.
      cbn [vmeaning bv_init]. rewrite mk_eq by lia. rewrite (meaning_eq e r0 _ _ C0 (V e)). specialize (D e).
      rewrite getitem_slice_plain in D by (auto using swf_meaning). cbv zeta in D.
      change (bsize (meaning e x)) with (ssize x) in D. change (bval (meaning e x)) with (evalv e (sterm x)) in D.
      assert (D' := meaning_inv _ _ _ _ (f_equal (fun r => match r with Ok x => x | Raise _ => BV (BVC KBV 0) 0 end) D)).
      rewrite D'. cbn [meaning bval]. do 2 f_equal.
      rewrite Z.pow_0_r, Z.div_1_r. replace (csize c <? 0) with false by lia. f_equal. f_equal. lia.
    + destruct (s_zext_ok x (csize c - ssize x) Hx) as (r & A & B & C & D); [lia|].
      rewrite A. cbn [bind]. pose proof C as (C1 & C2 & C3). rewrite B in C3. cbn [csize] in C3.
      node; auto; try lia. exists r0. split; auto. split; auto. split; auto. intros e.
      cbn [vmeaning bv_init]. rewrite mk_eq by lia. rewrite (meaning_eq e r0 _ _ C0 (V e)). specialize (D e).
      rewrite zext_spec in D by (auto using swf_meaning; lia). 
      assert (D' := meaning_inv _ _ _ _ (f_equal (fun r => match r with Ok x => x | Raise _ => BV (BVC KBV 0) 0 end) D)).
      rewrite D'. 
      do 2 f_equal. apply Z.mod_small. cbn [meaning bval]. split; [apply Hsm|].
      apply Z.lt_le_trans with (2 ^ ssize x); [apply Hsm|]. apply Z.pow_le_mono_r; lia.
    + node; auto; try lia. exists r. split; auto. split; auto. split; auto. intros e.
      cbn [vmeaning bv_init]. rewrite mk_eq by lia. rewrite (meaning_eq e r _ _ C (V e)). do 2 f_equal.
      cbn [meaning bval]. apply Z.mod_small. replace (csize c) with (ssize x) by lia. apply Hsm.
  - destruct (s_init_list_ok c l Hb) as (xs & A & B & C & D).
    change (s_init S c (SSeq l)) with (if negb (Z.of_nat (length l) =? csize c) then Raise EValueError else
      xs <- s_init_list c l ;; match xs with [] => Raise ETypeError | x :: xs => r <- concat_all S x xs ;; vec_node S c (sterm r) end).
    rewrite Hl, Z.eqb_refl. cbn [negb]. rewrite A. cbn [bind].
    destruct xs as [|x xs]; [cbn in B; lia|]. inversion C as [|? ? [Cx1 Cx2] Cxs]; subst.
    destruct (concat_all_ok (ck c) xs Cxs x Cx2) as (r & E & F & G & H). { unfold skind. now rewrite Cx1. }
    rewrite E. cbn [bind]. pose proof G as (G1 & G2 & G3).
    assert (Sx : ssize x = 1) by (unfold ssize; now rewrite Cx1).
    assert (Er : csize (scls r) = csize c). { rewrite F. cbn [csize]. cbn [length] in B. lia. }
    node; auto; try lia. exists r0. split; auto. split; auto. split; auto. intros e.
    cbn [vmeaning]. rewrite bv_init_converts with (u := bits_value (map (elem_bit e) l) mod 2 ^ csize c); auto.
    2:{ constructor. clear - Hb. induction Hb; cbn [map]; constructor; auto. now apply elem_truthy. }
    unfold meaning. rewrite C0, V. do 2 f_equal.
    rewrite Z.mod_small. 2:{ rewrite <- Hl. rewrite <- (map_length (elem_bit e)). apply bits_value_range. }
    destruct l as [|v0 l]; [discriminate|]. specialize (D e). cbn [map] in D. inversion D as [[D1 D2]].
    rewrite (H e (map (elem_bit e) l)). 2:{ now rewrite map_map. }
    cbn [map bits_value]. rewrite D1, Sx. change (2 ^ 1) with 2. destruct (elem_bit e v0); cbn [b2z]; lia.
  - cbn [s_init bind]. destruct (vec_const_ok c z) as (r & A & B & C & D); auto.
    exists r. split; auto. split; auto. split; auto. intros e. cbn [vmeaning bv_init bind]. rewrite mk_eq by lia.
    unfold meaning. rewrite B, D. now rewrite Z.mod_small by lia.
Qed.

Lemma s_coerce_ok c v : 1 <= csize c -> accepted (csize c) v ->
  exists y, s_coerce S c v = Ok y /\ ssize y = csize c /\ swf y /\ forall e, coerce c (vmeaning e v) = Ok (meaning e y).
Proof.
  intros Hc [Hv Hs]. destruct v as [z|b|t|x|t|t|l|i b];
    try (inversion Hv; fail);
    try (destruct (s_init_ok c _ Hc Hv) as (r & A & B & C & D); exists r; cbn [s_coerce];
         split; [exact A|]; split; [unfold ssize; now rewrite B|]; split; [exact C|]; intros e; specialize (D e); exact D).
  exists x. inversion Hv; subst. unfold s_coerce, ssize. rewrite Hs, Z.eqb_refl. cbn [negb].
  split; auto. split; auto. split; auto. intros e. cbn [vmeaning coerce]. unfold bsize. cbn [meaning bcls].
  now rewrite Hs, Z.eqb_refl.
Qed.
End F.
