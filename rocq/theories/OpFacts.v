(** Lemmas about operators and comparisons (OpModel.v). *)
From Coq Require Import Lia ZifyBool DecimalString DecimalN.
From Verif Require Import PyBase BVModel BVSpec BVFacts BVOps OpModel.

Lemma kind_eqb_eq a b : kind_eqb a b = true <-> a = b.
Proof. destruct a, b; cbn; split; congruence. Qed.
Lemma kind_eqb_refl a : kind_eqb a a = true.
Proof. now destruct a. Qed.
Lemma cls_eqb_refl c : cls_eqb c c = true.
Proof. unfold cls_eqb. rewrite kind_eqb_refl. lia. Qed.

(** ** Width mismatch *)
Lemma bv_cast_mismatch {A} (fn : bv -> bv -> res A) x y :
  bsize x <> bsize y -> bv_cast fn x (VBV y) = Raise EInconsistentSize.
Proof.
  intros H. unfold bv_cast, coerce, bsize in *.
  destruct (Z.eqb_spec (csize (bcls y)) (csize (bcls x))); [congruence|reflexivity].
Qed.

Lemma op_method_mismatch op k x y : bsize x <> bsize y ->
  op_method op k x (VBV y) = Raise EInconsistentSize.
Proof.
  intros H. destruct op, k; cbn [op_method]; now apply bv_cast_mismatch.
Qed.

Lemma cmp_method_mismatch c k x y : bsize x <> bsize y ->
  cmp_method c k x (VBV y) = Raise EInconsistentSize.
Proof.
  intros H. destruct c, k; cbn [cmp_method]; unfold bvsgt, bvsge, bvsle, bvslt;
    try (now apply bv_cast_mismatch); rewrite bv_cast_mismatch by auto; reflexivity.
Qed.

Lemma cls_differ_size x y : bsize x <> bsize y ->
  cls_eqb (bcls x) (bcls y) = false /\ cls_le (bcls y) (bcls x) = false.
Proof.
  unfold cls_eqb, cls_le, bsize. intros H. split; apply andb_false_iff; right; lia.
Qed.

Lemma binop_mismatch op x y : bsize x <> bsize y ->
  py_binop op (VBV x) (VBV y) = Raise EInconsistentSize.
Proof.
  intros H. destruct (cls_differ_size x y H) as [E1 E2]. unfold py_binop.
  rewrite E1, E2. cbn [negb andb first_of]. unfold forward, dispatch_oper.
  now rewrite op_method_mismatch.
Qed.

Lemma cmp_mismatch c x y : bsize x <> bsize y ->
  py_cmp c (VBV x) (VBV y) = Raise EInconsistentSize.
Proof.
  intros H. destruct (cls_differ_size x y H) as [E1 E2]. unfold py_cmp.
  rewrite E1, E2. cbn [negb andb cmp_first_of]. unfold cmp_forward.
  now rewrite cmp_method_mismatch.
Qed.

(** ** Forward operators *)
Lemma dispatch_oper_new m x v y : m x v = Ok (New y) -> dispatch_oper m x v = Ok (ONew (VBV y)).
Proof. intros H. unfold dispatch_oper. now rewrite H. Qed.

(** When the forward method succeeds and no reflected method takes priority, it is the result. *)
Lemma binop_forward op x v r :
  (forall y, v = VBV y -> reflected_overridden op (bkind x) (bkind y) = false
                          \/ cls_le (bcls y) (bcls x) = false) ->
  forward op x v = Ok r -> r <> NotImpl -> py_binop op (VBV x) v = Ok r.
Proof.
  intros Hp Hf Hr. assert (E : match r with NotImpl => False | _ => True end) by (destruct r; try exact I; congruence).
  destruct v as [| | | y | | |]; cbn [py_binop].
  4:{ replace (negb (cls_eqb (bcls x) (bcls y)) && cls_le (bcls y) (bcls x) &&
               reflected_overridden op (bkind x) (bkind y)) with false.
      2:{ destruct (Hp y eq_refl) as [-> | ->].
          - now rewrite andb_false_r.
          - rewrite andb_false_r. reflexivity. }
      destruct (cls_eqb (bcls x) (bcls y)); cbn [first_of]; rewrite Hf; destruct r; tauto. }
  all: cbn [first_of]; rewrite Hf; destruct r; tauto.
Qed.

Definition unsigned_op (op : binop) : bool :=
  match op with OShr | OFloorDiv | OMod => false | _ => true end.

Lemma reflected_overridden_unsigned op a b : unsigned_op op = true -> reflected_overridden op a b = false.
Proof. now destruct op. Qed.

Lemma op_method_unsigned op k : unsigned_op op = true -> op_method op k = op_method op KBV.
Proof. destruct op; cbn; congruence. Qed.

Lemma binop_unsigned op x v y : unsigned_op op = true ->
  op_method op KBV x v = Ok (New y) -> py_binop op (VBV x) v = Ok (ONew (VBV y)).
Proof.
  intros Hu Hm. apply binop_forward; [| |discriminate].
  - intros. left. now apply reflected_overridden_unsigned.
  - unfold forward. rewrite op_method_unsigned by auto. now apply dispatch_oper_new.
Qed.

(** ** Reflected operators with a convertible left operand *)
Definition not_bit_or_bv (v : pyval) : Prop :=
  match v with VBit _ | VBV _ => False | _ => True end.
Definition not_str (v : pyval) : Prop :=
  match v with VStr _ => False | _ => True end.

Lemma py_binop_left_other op v x : not_bit_or_bv v -> not_str v ->
  py_binop op v (VBV x) = first_of [fun _ => reflected op x v].
Proof. destruct v; cbn; tauto. Qed.

Lemma coerce_conv c v y : not_bit_or_bv v -> bv_init c v = Ok y -> coerce c v = Ok y.
Proof. destruct v; cbn [not_bit_or_bv]; tauto. Qed.

Lemma dispatch_roper_other op k x v y : not_bit_or_bv v -> bv_init (bcls x) v = Ok y ->
  dispatch_roper op k x v =
  match dispatch_oper (op_method op k) y (VBV x) with
  | Ok OLeft => Ok (ONew (VBV y)) | r => r end.
Proof.
  intros Hv Hi. unfold dispatch_roper. rewrite (coerce_conv _ _ _ Hv Hi).
  destruct v; cbn [not_bit_or_bv] in Hv; try tauto; destruct (dispatch_oper _ _ _) as [[]|]; reflexivity.
Qed.

Lemma reflected_left op x v y : not_bit_or_bv v -> not_str v ->
  bv_init (bcls x) v = Ok y -> (op <> OShr \/ bkind x = KSInt) ->
  py_binop_val op v (VBV x) = py_binop_val op (VBV y) (VBV x).
Proof.
  intros Hv Hs Hi Hc. pose proof (bv_init_cls _ _ _ Hi) as Hcls.
  assert (Hk : bkind y = bkind x) by (unfold bkind; now rewrite Hcls).
  unfold py_binop_val. rewrite py_binop_left_other by auto.
  assert (ER : reflected op x v =
     match dispatch_oper (op_method op (bkind x)) y (VBV x) with
     | Ok OLeft => Ok (ONew (VBV y)) | r => r end).
  { unfold reflected. destruct Hc as [Hc|Hc].
    - destruct op; try congruence; destruct (bkind x) eqn:K;
        rewrite (dispatch_roper_other _ _ _ _ _ Hv Hi); reflexivity.
    - rewrite Hc. destruct op; rewrite (dispatch_roper_other _ _ _ _ _ Hv Hi); reflexivity. }
  cbn [first_of]. rewrite ER. unfold py_binop. rewrite Hcls, cls_eqb_refl.
  cbn [negb andb first_of]. unfold forward. rewrite Hk.
  destruct (dispatch_oper (op_method op (bkind x)) y (VBV x)) as [[]|]; reflexivity.
Qed.

(** ** Comparisons *)
Lemma cmp_method_spec c k x v u : wf x -> operand (bsize x) v u -> (1 <= bsize x \/ k <> KSInt) ->
  cmp_method c k x v =
  Ok (let sg := kind_eqb k KSInt in
      let a := if sg then signed (bsize x) (bval x) else bval x in
      let b := if sg then signed (bsize x) u else u in
      match c with
      | CEq => bval x =? u | CNe => negb (bval x =? u)
      | CLt => a <? b | CLe => a <=? b | CGt => b <? a | CGe => b <=? a
      end).
Proof.
  intros Hw Ho Hn. cbv zeta.
  destruct c, k; cbn [cmp_method kind_eqb];
    first [ now apply bveq_spec | now apply bvne_spec | now apply bvult_spec | now apply bvule_spec
          | now apply bvugt_spec | now apply bvuge_spec | idtac ];
    (destruct Hn as [Hn|Hn]; [|congruence]);
    first [ now apply bvslt_spec | now apply bvsle_spec | now apply bvsgt_spec | now apply bvsge_spec ].
Qed.

Lemma cmp_forward_ok c x v b : cmp_method c (bkind x) x v = Ok b -> cmp_forward c x v = Ok (ONew (VBit b)).
Proof. intros H. unfold cmp_forward. now rewrite H. Qed.

(** Comparison of two bit-vectors of one size: signed iff the class whose method runs is SIntVector. *)
Definition cmp_signed (kx ky : kind) : bool :=
  match kx, ky with
  | KSInt, _ => true
  | KBV, KSInt | KNum, KSInt => true
  | _, _ => false
  end.

Lemma py_cmp_spec c x y : wf x -> wf y -> bsize x = bsize y -> 1 <= bsize x ->
  py_cmp c (VBV x) (VBV y) =
  Ok (ONew (VBit (let sg := cmp_signed (bkind x) (bkind y) in
      let a := if sg then signed (bsize x) (bval x) else bval x in
      let b := if sg then signed (bsize x) (bval y) else bval y in
      match c with
      | CEq => bval x =? bval y | CNe => negb (bval x =? bval y)
      | CLt => a <? b | CLe => a <=? b | CGt => b <? a | CGe => b <=? a
      end))).
Proof.
  intros Hx Hy Hs Hn.
  assert (Oy : operand (bsize x) (VBV y) (bval y)) by (rewrite Hs; now apply operand_self).
  assert (Ox : operand (bsize y) (VBV x) (bval x)) by (rewrite <- Hs; now apply operand_self).
  pose proof (cmp_method_spec c (bkind x) x _ _ Hx Oy (or_introl Hn)) as E1.
  pose proof (cmp_method_spec (cmp_swap c) (bkind y) y _ _ Hy Ox ltac:(left; lia)) as E2.
  unfold py_cmp, cmp_first_of.
  rewrite (cmp_forward_ok _ _ _ _ E1), (cmp_forward_ok _ _ _ _ E2). rewrite <- Hs in *.
  unfold cls_eqb, cls_le. fold (bkind x) (bkind y) (bsize x) (bsize y). rewrite <- Hs.
  rewrite Z.eqb_refl, !andb_true_r. cbv zeta.
  destruct (bkind x) eqn:Kx, (bkind y) eqn:Ky;
    cbn [kind_eqb kind_le negb andb cmp_signed]; try reflexivity;
    destruct c; cbn [cmp_swap]; try reflexivity; do 3 f_equal; lia.
Qed.

Lemma py_cmp_right_other c x v u : wf x -> operand (bsize x) v u -> not_bit_or_bv v -> 1 <= bsize x ->
  py_cmp c (VBV x) v =
  Ok (ONew (VBit (let sg := kind_eqb (bkind x) KSInt in
      let a := if sg then signed (bsize x) (bval x) else bval x in
      let b := if sg then signed (bsize x) u else u in
      match c with
      | CEq => bval x =? u | CNe => negb (bval x =? u)
      | CLt => a <? b | CLe => a <=? b | CGt => b <? a | CGe => b <=? a
      end))).
Proof.
  intros Hx Ho Hv Hn. pose proof (cmp_method_spec c (bkind x) x _ _ Hx Ho (or_introl Hn)) as E1.
  unfold py_cmp. destruct v; cbn [not_bit_or_bv] in Hv; try tauto; cbn [cmp_first_of];
    now rewrite (cmp_forward_ok _ _ _ _ E1).
Qed.

Lemma py_cmp_left_other c x v u : wf x -> operand (bsize x) v u -> not_bit_or_bv v -> 1 <= bsize x ->
  py_cmp c v (VBV x) =
  Ok (ONew (VBit (let sg := kind_eqb (bkind x) KSInt in
      let a := if sg then signed (bsize x) u else u in
      let b := if sg then signed (bsize x) (bval x) else bval x in
      match c with
      | CEq => u =? bval x | CNe => negb (u =? bval x)
      | CLt => a <? b | CLe => a <=? b | CGt => b <? a | CGe => b <=? a
      end))).
Proof.
  intros Hx Ho Hv Hn.
  pose proof (cmp_method_spec (cmp_swap c) (bkind x) x _ _ Hx Ho (or_introl Hn)) as E1.
  unfold py_cmp. destruct v; cbn [not_bit_or_bv] in Hv; try tauto; cbn [cmp_first_of];
    rewrite (cmp_forward_ok _ _ _ _ E1); cbv zeta; destruct c; cbn [cmp_swap]; do 3 f_equal; lia.
Qed.

(** ** Unsupported operands *)
Lemma bv_cast_unsupported {A} (fn : bv -> bv -> res A) x v :
  not_bit_or_bv v -> bv_init (bcls x) v = Raise ETypeError -> bv_cast fn x v = Raise ETypeError.
Proof.
  intros Hv Hi. unfold bv_cast. replace (coerce (bcls x) v) with (bv_init (bcls x) v).
  - now rewrite Hi.
  - destruct v; cbn [not_bit_or_bv] in Hv; tauto.
Qed.

Lemma forward_unsupported op x v : not_bit_or_bv v -> bv_init (bcls x) v = Raise ETypeError ->
  py_binop op (VBV x) v = Raise ETypeError.
Proof.
  intros Hv Hi. unfold py_binop.
  assert (E : forward op x v = Ok NotImpl).
  { unfold forward, dispatch_oper. destruct op, (bkind x); cbn [op_method];
      unfold bvand, bvor, bvxor, bvshl, bvlshr, bvashr, bvadd, bvsub, bvmul, bvudiv, bvurem, bvsdiv, bvsrem;
      rewrite bv_cast_unsupported by auto; reflexivity. }
  destruct v; cbn [not_bit_or_bv] in Hv; try tauto; cbn [first_of]; rewrite E; reflexivity.
Qed.

Lemma cmp_unsupported c x v : not_bit_or_bv v -> bv_init (bcls x) v = Raise ETypeError ->
  py_cmp c (VBV x) v = cmp_fallback c /\ py_cmp c v (VBV x) = cmp_fallback (c).
Proof.
  intros Hv Hi.
  assert (E : forall c, cmp_forward c x v = Ok NotImpl).
  { intros c'. unfold cmp_forward. destruct c', (bkind x); cbn [cmp_method];
      unfold bvsgt, bvsge, bvsle, bveq, bvne, bvult, bvule, bvugt, bvuge, bvslt;
      rewrite bv_cast_unsupported by auto; reflexivity. }
  unfold py_cmp. destruct v; cbn [not_bit_or_bv] in Hv; try tauto; cbn [cmp_first_of]; rewrite !E; auto.
Qed.

Lemma reflected_unsupported op x v : not_bit_or_bv v -> not_str v -> bv_init (bcls x) v = Raise ETypeError ->
  py_binop op v (VBV x) =
  match op, bkind x with
  | OShr, KSInt => Raise ENameError
  | OShr, _ => Raise ETypeError
  | _, _ => Raise ENameError
  end.
Proof.
  intros Hv Hs Hi. rewrite py_binop_left_other by auto. cbn [first_of].
  assert (E : forall op k, dispatch_roper op k x v = Raise ENameError).
  { intros. unfold dispatch_roper. replace (coerce (bcls x) v) with (bv_init (bcls x) v).
    - now rewrite Hi.
    - destruct v; cbn [not_bit_or_bv] in Hv; tauto. }
  unfold reflected. destruct op, (bkind x); rewrite ?E; try reflexivity.
  all: unfold dispatch_oper, bvlshr; rewrite bv_cast_unsupported by auto; reflexivity.
Qed.

(** ** Sign-sensitive operators on two bit-vectors of one size *)
Lemma roper_bv op k x y : bsize x = bsize y ->
  dispatch_roper op k y (VBV x) = dispatch_oper (op_method op k) x (VBV y).
Proof.
  intros Hs. unfold dispatch_roper, coerce. unfold bsize in *. rewrite Hs, Z.eqb_refl.
  cbn [negb]. destruct (dispatch_oper _ _ _) as [[]|]; reflexivity.
Qed.

Definition op_result_kind (op : binop) (kx ky : kind) : kind :=
  if unsigned_op op then KBV else if cmp_signed kx ky then KSInt else KBV.

Lemma py_binop_mixed op x y r : bsize x = bsize y ->
  dispatch_oper (op_method op (op_result_kind op (bkind x) (bkind y))) x (VBV y) = Ok r ->
  r <> NotImpl -> py_binop op (VBV x) (VBV y) = Ok r.
Proof.
  intros Hs Hr Hn. assert (E : match r with NotImpl => False | _ => True end) by (destruct r; try exact I; congruence).
  unfold op_result_kind in Hr. destruct (unsigned_op op) eqn:Hu.
  { apply binop_forward; auto.
    - intros y' [= <-]. left. now apply reflected_overridden_unsigned.
    - unfold forward. now rewrite op_method_unsigned. }
  unfold py_binop, cls_eqb, cls_le. fold (bkind x) (bkind y) (bsize x) (bsize y).
  rewrite <- Hs, Z.eqb_refl, !andb_true_r. unfold forward, reflected.
  assert (HR : forall k, dispatch_roper op k y (VBV x) = dispatch_oper (op_method op k) x (VBV y))
    by (intros; now apply roper_bv).
  destruct op; try discriminate Hu; destruct (bkind x) eqn:Kx, (bkind y) eqn:Ky;
    cbn [cmp_signed op_method] in Hr; cbn [kind_eqb kind_le negb andb reflected_overridden first_of op_method];
    rewrite ?HR; cbn [op_method]; rewrite Hr; destruct r; tauto.
Qed.

(** ** Hash text *)
Lemma digits_no_bracket d : forall c, In c (list_ascii_of_string (NilEmpty.string_of_uint d)) ->
  c <> "]"%char.
Proof.
  induction d; intros c H; cbn in H; try tauto;
    (destruct H as [<-|H]; [discriminate|auto]).
Qed.

Lemma append_bracket_inj s1 : forall s2 t1 t2,
  (forall c, In c (list_ascii_of_string s1) -> c <> "]"%char) ->
  (forall c, In c (list_ascii_of_string s2) -> c <> "]"%char) ->
  (s1 ++ "]" ++ t1)%string = (s2 ++ "]" ++ t2)%string -> s1 = s2 /\ t1 = t2.
Proof.
  induction s1 as [|c1 s1 IH]; intros [|c2 s2] t1 t2 H1 H2 E.
  - cbn in E. injection E as E. auto.
  - cbn in E. injection E as E _. exfalso. apply (H2 c2); [now left|auto].
  - cbn in E. injection E as E _. exfalso. apply (H1 c1); [now left|auto].
  - cbn in E. injection E as -> E.
    destruct (IH s2 t1 t2) as [-> ->]; auto.
    + intros c Hc. apply H1. now right.
    + intros c Hc. apply H2. now right.
Qed.

Lemma decimal_inj a b : 0 <= a -> 0 <= b -> decimal a = decimal b -> a = b.
Proof.
  unfold decimal. intros Ha Hb E.
  assert (N.to_uint (Z.to_N a) = N.to_uint (Z.to_N b)) as E'.
  { assert (Some (N.to_uint (Z.to_N a)) = Some (N.to_uint (Z.to_N b))) as E2
      by (rewrite <- !NilEmpty.usu; now rewrite E). congruence. }
  apply Unsigned.to_uint_inj in E'. lia.
Qed.

Lemma append_assoc (a b c : string) : ((a ++ b) ++ c)%string = (a ++ (b ++ c))%string.
Proof. induction a; cbn; congruence. Qed.

Lemma append_inv_head (a b c : string) : (a ++ b)%string = (a ++ c)%string -> b = c.
Proof. induction a; cbn; intros; [assumption|]. apply IHa. congruence. Qed.

Lemma hash_key_inj x y : wf x -> wf y -> hash_key x = hash_key y -> x = y.
Proof.
  destruct x as [[kx nx] vx], y as [[ky ny] vy]. unfold wf, hash_key, cls_name. cbn [bcls csize ck bval].
  intros [X1 X2] [Y1 Y2] E. rewrite !append_assoc in E.
  assert (kx = ky).
  { destruct kx, ky; try reflexivity; cbn in E; discriminate E. }
  subst ky. apply append_inv_head in E. cbn [append] in E. injection E as E.
  apply append_bracket_inj in E as [E1 E2]; try apply digits_no_bracket.
  apply decimal_inj in E1; try lia. apply decimal_inj in E2; try lia. now subst.
Qed.
