(** Proofs of the theorems stated in IteProps.v. *)
From Coq Require Import Lia ZifyBool.
From Verif Require Import PyBase BVModel BVSpec BVFacts BVPropFacts OpModel OpSpec OpFacts OpProofs IteModel IteSpec IteFacts.

Lemma C23_same_types_pf : forall tab id c t f, branch_ok t -> branch_ok f -> total_protocols tab -> same_type t f ->
  ite tab id c t f = Ok (if c then t else f, id).
Proof. intros. now apply ite_same. Qed.

Lemma C23_compatible_pf : forall tab id c t f, branch_ok t -> branch_ok f -> total_protocols tab -> compatible t f ->
  exists r id', ite tab id c t f = Ok (r, id') /\ carries tab (if c then t else f) r.
Proof. intros. now apply ite_compatible. Qed.

Lemma C23_incompatible_pf : forall tab id c t f, ~ compatible t f ->
  exists e, ite tab id c t f = Raise e /\ (e = ETypeError \/ e = EInconsistentSize).
Proof.
  intros tab id c t f H. destruct (ite_incompatible tab c t f id H) as (e & E & T).
  exists e. split; auto. destruct e; cbn in T; try discriminate; auto.
Qed.

Lemma C25_protocol_pf : forall (tab : ptypes) id (c : bool) i p q, 0 <= csize (p_cls (tab i)) ->
  ite tab id c (BrProto i p) (BrProto i q) =
  match p_from (tab i) (BV (p_cls (tab i)) (bval (p_to (tab i) (if c then p else q)) mod 2 ^ csize (p_cls (tab i)))) with
  | Ok z => Ok (BrProto i z, id)
  | Raise e => Raise e
  end.
Proof.
  intros tab id c i p q Hs. unfold ite. cbn [return_type push_ite]. rewrite Nat.eqb_refl.
  cbn [negb bind fst snd coerce_branch pv]. rewrite mk_eq by auto. now destruct (p_from _ _).
Qed.

Lemma C25_exact_pf : forall (tab : ptypes) id (c : bool) i p q,
  wf (p_to (tab i) (if c then p else q)) -> bcls (p_to (tab i) (if c then p else q)) = p_cls (tab i) ->
  ite tab id c (BrProto i p) (BrProto i q) =
  match p_from (tab i) (p_to (tab i) (if c then p else q)) with
  | Ok z => Ok (BrProto i z, id)
  | Raise e => Raise e
  end.
Proof.
  intros tab id c i p q Hw Hc. rewrite C25_protocol_pf by (rewrite <- Hc; apply Hw).
  destruct Hw as [W1 W2]. rewrite <- Hc. rewrite Z.mod_small by auto.
  now destruct (p_to (tab i) (if c then p else q)).
Qed.

Lemma C25_round_trip_pf : forall (tab : ptypes) id (c : bool) i p q,
  (forall z, wf (p_to (tab i) z) /\ bcls (p_to (tab i) z) = p_cls (tab i) /\ p_from (tab i) (p_to (tab i) z) = Ok z) ->
  ite tab id c (BrProto i p) (BrProto i q) = Ok (BrProto i (if c then p else q), id).
Proof.
  intros tab id c i p q H. destruct (H (if c then p else q)) as (H1 & H2 & H3). rewrite C25_exact_pf by auto. now rewrite H3.
Qed.

Lemma C25_type_mismatch_pf : forall (tab : ptypes) id c i j p q, i <> j ->
  ite tab id c (BrProto i p) (BrProto j q) = Raise ETypeError.
Proof.
  intros tab id c i j p q H. unfold ite. cbn [return_type]. destruct (Nat.eqb_spec i j); [congruence|reflexivity].
Qed.

Lemma C24_operators_pf : forall h tab c i j a b v id' op w u n,
  nth_error (objs (hrun h)) i = Some a -> nth_error (objs (hrun h)) j = Some b ->
  ite tab (next_id (hrun h)) c (BrVec a) (BrVec b) = Ok (BrVec v, id') ->
  1 <= pn a -> plain_operand w -> converts (pn a) w u ->
  let s := if c then a else b in
  exists r r', p_binop op n v (AOther w) = Ok (PVec r, n) /\ p_binop op n s (AOther w) = Ok (PVec r', n) /\
    pn r = pn a /\ pn r' = pn a /\ pv r = pv r' /\
    pv r = op_value op (is_signed (selected_kind (pc s))) (pn s) (pv s) u.
Proof.
  intros h tab c i j a b v id' op w u n Ha Hb Hi Hn Hp Hc s.
  destruct (reachable_ite _ _ _ _ _ _ _ _ _ Ha Hb Hi) as (r & Er & Wa & Wb & Wr & En & Nr & Vr & Kr & _). inv Er.
  assert (Ws : pwf s) by (unfold s; now destruct c). assert (Ns : pn s = pn a) by (unfold s; now destruct c).
  assert (Ho : operand (pn a) w u) by (apply Op_conv; [intros y ->; exact Hp|exact Hc]).
  unfold p_binop. cbn [p_first].
  rewrite (p_forward_value op n r (AOther w) u), (p_forward_value op n s (AOther w) u); auto;
    try (rewrite ?Nr, ?Ns; cbn [arg_val]; auto; fail).
  do 2 eexists. split; [reflexivity|]. split; [reflexivity|]. cbn [pn pv]. unfold s in *.
  rewrite Nr, Ns, Vr, Kr. auto.
Qed.

Lemma C24_comparisons_pf : forall h tab c i j a b v id' op w u n,
  nth_error (objs (hrun h)) i = Some a -> nth_error (objs (hrun h)) j = Some b ->
  ite tab (next_id (hrun h)) c (BrVec a) (BrVec b) = Ok (BrVec v, id') ->
  1 <= pn a -> plain_operand w -> converts (pn a) w u ->
  let s := if c then a else b in
  p_compare op n v (AOther w) = p_compare op n s (AOther w) /\
  p_compare op n v (AOther w) = Ok (PBit (cmp_value op (is_signed (selected_kind (pc s))) (pn s) (pv s) u), n).
Proof.
  intros h tab c i j a b v id' op w u n Ha Hb Hi Hn Hp Hc s.
  destruct (reachable_ite _ _ _ _ _ _ _ _ _ Ha Hb Hi) as (r & Er & Wa & Wb & Wr & En & Nr & Vr & Kr & _). inv Er.
  assert (Ws : pwf s) by (unfold s; now destruct c). assert (Ns : pn s = pn a) by (unfold s; now destruct c).
  assert (Ho : operand (pn a) w u) by (apply Op_conv; [intros y ->; exact Hp|exact Hc]).
  unfold p_compare. cbn [p_cmp_first].
  rewrite (p_cmp_value op n r (AOther w) u), (p_cmp_value op n s (AOther w) u); auto;
    try (rewrite ?Nr, ?Ns; cbn [arg_val]; auto; fail).
  unfold s in *. rewrite Nr, Ns, Vr, Kr. auto.
Qed.

Lemma C24_unsupported_pf : forall h tab c i j a b v id' op w n,
  nth_error (objs (hrun h)) i = Some a -> nth_error (objs (hrun h)) j = Some b ->
  ite tab (next_id (hrun h)) c (BrVec a) (BrVec b) = Ok (BrVec v, id') -> unsupported w ->
  p_binop op n v (AOther w) = Raise ETypeError /\ p_binop op n (if c then a else b) (AOther w) = Raise ETypeError.
Proof.
  intros. unfold p_binop. cbn [p_first]. rewrite !p_forward_unsupported by auto. auto.
Qed.

Lemma p_binop_forward op id x y : pwf x -> pwf y -> pn x = pn y -> 1 <= pn x -> same_cls x y = true \/ sub_cls y x = false ->
  p_binop op id x (AVec y) =
    Ok (PVec (PObj (pc x) (pn x) (op_value op (is_signed (selected_kind (pc x))) (pn x) (pv x) (pv y))), id).
Proof.
  intros Wx Wy En Hn Hs. unfold p_binop.
  assert (Ho : operand (pn x) (arg_val (AVec y)) (pv y)) by (apply (Op_bv _ (as_bv y)); [now apply as_bv_wf|cbn; auto]).
  pose proof (p_forward_value op id x (AVec y) (pv y) Wx Hn Ho) as E.
  destruct Hs as [-> | ->]; [|destruct (same_cls x y)]; cbn [andb p_first]; rewrite E; reflexivity.
Qed.

Lemma poly_no_sub i t0 t1 s n v y : same_cls (PObj (PPoly i t0 t1 s) n v) y = true \/ sub_cls y (PObj (PPoly i t0 t1 s) n v) = false.
Proof.
  unfold same_cls, sub_cls. cbn [pc pn]. destruct (pc y); cbn [pcls_eqb]; rewrite ?orb_false_r; [right; lia|].
  rewrite (Nat.eqb_sym i), (Z.eqb_sym n). destruct (_ =? _); [|right; reflexivity]. destruct (Nat.eqb id i); auto.
Qed.

Lemma C24_vector_operand_partial_pf : forall h tab c i j k a b y v id' op n,
  nth_error (objs (hrun h)) i = Some a -> nth_error (objs (hrun h)) j = Some b ->
  nth_error (objs (hrun h)) k = Some y ->
  ite tab (next_id (hrun h)) c (BrVec a) (BrVec b) = Ok (BrVec v, id') ->
  1 <= pn a -> pn y = pn a ->
  let s := if c then a else b in
  same_cls s y = true \/ sub_cls y s = false ->
  exists r r', p_binop op n v (AVec y) = Ok (PVec r, n) /\ p_binop op n s (AVec y) = Ok (PVec r', n) /\
    pv r = pv r' /\ pv r = op_value op (is_signed (selected_kind (pc s))) (pn s) (pv s) (pv y).
Proof.
  intros h tab c i j k a b y v id' op n Ha Hb Hy Hi Hn Hny s Hs.
  assert (Wy : pwf y).
  { destruct (hrun_ok h) as [T HT]. rewrite Forall_forall in HT. apply nth_error_In in Hy. apply HT in Hy. apply Hy. }
  destruct (reachable_ite _ _ _ _ _ _ _ _ _ Ha Hb Hi) as (r & Er & Wa & Wb & Wr & En & Nr & Vr & Kr & Es & Ed). inv Er.
  assert (Ws : pwf s) by (unfold s; now destruct c). assert (Ns : pn s = pn a) by (unfold s; now destruct c).
  rewrite (p_binop_forward op n s y) by (auto; lia).
  assert (Hr : same_cls r y = true \/ sub_cls y r = false).
  { destruct (same_cls a b) eqn:E.
    - rewrite Es by auto. exact Hs.
    - destruct r as [cr nr vr]. cbn [pc] in *. rewrite Ed by auto. apply poly_no_sub. }
  rewrite (p_binop_forward op n r y) by (auto; lia).
  do 2 eexists. split; [reflexivity|]. split; [reflexivity|]. cbn [pv]. unfold s in *. rewrite Nr, Ns, Vr, Kr. auto.
Qed.

Lemma C24_builtin_agree_pf : forall op id k l n a b, 1 <= n -> 0 <= a < 2 ^ n -> 0 <= b < 2 ^ n ->
  p_binop op id (PObj (PBase k) n a) (AVec (PObj (PBase l) n b)) =
    Ok (PVec (PObj (PBase k) n (op_value op (signed_pair k l) n a b)), id) /\
  py_binop_val op (VBV (BV (BVC k n) a)) (VBV (BV (BVC l n) b)) =
    Ok (VBV (BV (BVC k n) (op_value op (signed_pair k l) n a b))).
Proof.
  intros op id k l n a b Hn Ha Hb. split.
  - assert (Wx : pwf (PObj (PBase k) n a)) by (split; cbn; lia). assert (Wy : pwf (PObj (PBase l) n b)) by (split; cbn; lia).
    set (x := PObj (PBase k) n a) in *. set (y := PObj (PBase l) n b) in *.
    assert (Ho : operand (pn x) (arg_val (AVec y)) (pv y)) by (apply (Op_bv _ (as_bv y)); [now apply as_bv_wf|cbn; auto]).
    unfold p_binop. pose proof (p_forward_value op id x (AVec y) (pv y) Wx Hn Ho) as E.
    destruct (same_cls x y) eqn:Es; [|destruct (sub_cls y x && r_overloaded op x y) eqn:Er].
    + cbn [p_first]. rewrite E. unfold same_cls in Es. cbn in Es. apply andb_prop in Es as [Es _].
      apply kind_eqb_eq in Es as ->. cbn. destruct l; reflexivity.
    + assert (R : forall o, op_overridden o = true -> p_reflected o id y (AVec x) = (r <- leaf_reflected o (kind_eqb l KSInt) y (AVec x) ;; Ok (r, id)))
        by (intros o Ho'; unfold p_reflected; cbn [pc y resolve]; rewrite Ho'; reflexivity).
      apply andb_prop in Er as [Er1 Er2]. unfold sub_cls in Er1. unfold r_overloaded in Er2. cbn in Er1, Er2.
      assert (L : l = KSInt /\ k <> KSInt /\ k <> KUInt /\ op_overridden op = true)
        by (clear -Er1 Er2; destruct l, k, op; cbn in *; try lia; repeat split; try discriminate; auto).
      destruct L as (-> & K1 & K2 & Ov). cbn [p_first]. rewrite R by auto. cbn [kind_eqb].
      assert (RR : leaf_reflected op true y (AVec x) = leaf_forward op true x (AVec y)).
      { unfold leaf_reflected. cbn [arg_val coerce].
        destruct op; try discriminate; cbn; rewrite Z.eqb_refl; reflexivity. }
      rewrite RR. destruct (leaf_forward_value op true x (AVec y) (pv y) Wx Hn Ho) as [-> _]. cbn [bind].
      destruct k; try congruence; reflexivity.
    + cbn [p_first]. rewrite E. cbn [x y pc pn pv selected_kind]. do 3 f_equal.
      unfold same_cls in Es. unfold sub_cls, r_overloaded in Er. cbn in Es, Er. rewrite Z.eqb_refl in *.
      rewrite andb_true_r in Es. destruct k, l, op; cbn in *; try discriminate; reflexivity.
  - apply C28_operators_pf; cbn; auto; split; cbn; auto; lia.
Qed.

Lemma C24_int_refuted_pf : exists h tab c a b v id',
  nth_error (objs (hrun h)) 0 = Some a /\ nth_error (objs (hrun h)) 1 = Some b /\
  ite tab (next_id (hrun h)) c (BrVec a) (BrVec b) = Ok (BrVec v, id') /\
  p_int v = Ok 15 /\ p_int (if c then a else b) = Ok (-1).
Proof.
  exists [HNew KBV 4 3; HNew KSInt 4 (-1)], no_protocols, false.
  do 4 eexists. vm_compute. repeat split.
Qed.

Lemma C24_right_shift_refuted_pf : exists h tab c x a b v id' r r',
  nth_error (objs (hrun h)) 0 = Some a /\ nth_error (objs (hrun h)) 1 = Some b /\
  nth_error (objs (hrun h)) 2 = Some x /\
  ite tab (next_id (hrun h)) c (BrVec a) (BrVec b) = Ok (BrVec v, id') /\
  p_binop OShr id' x (AVec v) = Ok (PVec r, S id') /\
  p_binop OShr id' x (AVec (if c then a else b)) = Ok (PVec r', id') /\
  pv r = 0 /\ pv r' = 4.
Proof.
  exists [HNew KBV 4 1; HNew KSInt 4 0; HNew KBV 4 8], no_protocols, true.
  do 7 eexists. repeat (split; [vm_compute; reflexivity|]). vm_compute; reflexivity.
Qed.

Lemma C24_mixed_right_refuted_pf : exists h tab c y a b v id' r r',
  nth_error (objs (hrun h)) 0 = Some a /\ nth_error (objs (hrun h)) 1 = Some b /\
  nth_error (objs (hrun h)) 2 = Some y /\
  ite tab (next_id (hrun h)) c (BrVec a) (BrVec b) = Ok (BrVec v, id') /\
  p_binop OShr id' v (AVec y) = Ok (PVec r, id') /\ p_binop OShr id' (if c then a else b) (AVec y) = Ok (PVec r', id') /\
  pv r = 4 /\ pv r' = 12.
Proof.
  exists [HNew KBV 4 8; HNew KUInt 4 0; HNew KSInt 4 1], no_protocols, true.
  do 7 eexists. repeat (split; [vm_compute; reflexivity|]). vm_compute; reflexivity.
Qed.
