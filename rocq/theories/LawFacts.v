(** Lemmas for LawProofs.v. *)
From Coq Require Import Lia ZifyBool Znumtheory.
From Verif Require Import PyBase BVModel BVSpec BVFacts BVOps BVProofs OpModel OpSpec OpFacts OpProofs IteModel IteSpec IteProofs SMTTerm SMTModel SMTSpec SMTFacts Z3Model Z3Spec ProgModel ProgSpec ProgFacts ProgInputs ProgProofs LawSpec.

Section Ind.
  Variable P : expr -> Prop.
  Hypothesis HV : forall i, P (Var i).
  Hypothesis HA : forall k i l, Forall P l -> P (App k i l).
  Fixpoint expr_rec' (e : expr) : P e :=
    match e with
    | Var i => HV i
    | App k i l => HA k i l ((fix all (l : list expr) : Forall P l :=
        match l with [] => Forall_nil _ | e :: l => Forall_cons e (expr_rec' e) (all l) end) l)
    end.
End Ind.

Lemma ev_simulates call : simulates call -> forall e ts rs t, ety ts e = Some t -> Forall2 sym_has rs ts ->
  exists v, ev SInt call rs e = Ok v /\ sym_has v t /\ forall d, conc_ev (map (vmeaning d) rs) e = Ok (vmeaning d v).
Proof.
  intros HS e ts rs t H T. revert t H. induction e as [i|k i l IH] using expr_rec'; intros t H.
  - cbn [ety ev conc_ev] in *. destruct (Forall2_nth _ _ _ _ _ T H) as (v & N & Hv). exists v. unfold reg. rewrite N.
    split; auto. split; auto. intros d. unfold conc_ev. cbn [ev]. unfold reg. now rewrite nth_error_map, N.
  - cbn [ety] in H. destruct (oeach (ety ts) l) as [us|] eqn:EU; [|discriminate]. cbn [obind] in H.
    destruct (check1 us i) as [vs|] eqn:EC; [|discriminate]. cbn [obind] in H.
    assert (A : exists xs, each (ev SInt call rs) l = Ok xs /\ Forall2 sym_has xs us /\
      forall d, each (conc_ev (map (vmeaning d) rs)) l = Ok (map (vmeaning d) xs)).
    { clear EC. revert us EU. induction IH as [|e l HE _ IHl]; intros us EU; cbn [oeach each] in *.
      - inv EU. exists []. repeat split; auto.
      - destruct (ety ts e) as [u|] eqn:E1; [|discriminate]. cbn [obind] in EU. destruct (oeach (ety ts) l) as [ul|] eqn:E2; [|discriminate].
        cbn [obind] in EU. inv EU. destruct (HE u eq_refl) as (v & A1 & A2 & A3). destruct (IHl ul eq_refl) as (xs & B1 & B2 & B3).
        exists (v :: xs). rewrite A1. cbn [bind]. rewrite B1. cbn [bind]. split; auto. split; auto.
        intros d. rewrite A3. cbn [bind]. rewrite B3. reflexivity. }
    destruct A as (xs & A1 & A2 & A3). destruct (HS us xs i vs EC A2) as (ws & W1 & W2 & W3).
    destruct (Forall2_nth _ _ _ _ _ W2 H) as (v & N & Hv). exists v. cbn [ev]. rewrite A1. cbn [bind]. rewrite W1. cbn [bind].
    unfold reg at 1. rewrite N. split; auto. split; auto. intros d. unfold conc_ev. cbn [ev]. fold conc_ev. rewrite A3. cbn [bind]. rewrite W3. cbn [bind].
    unfold reg. now rewrite nth_error_map, N.
Qed.

(** An equation that holds of the concrete values holds in all families. *)
Lemma equation_intro ts l r t : ety ts l = Some t -> ety ts r = Some t ->
  (forall cs, Forall2 conc_has cs ts -> exists v, conc_ev cs l = Ok v /\ conc_ev cs r = Ok v) -> equation ts l r.
Proof.
  intros HL HR HC. exists t.
  assert (G : forall call rs, simulates call -> Forall2 sym_has rs ts -> exists v w,
     ev SInt call rs l = Ok v /\ ev SInt call rs r = Ok w /\ sym_has v t /\ sym_has w t /\ forall e, vmeaning e v = vmeaning e w).
  { intros call rs HS T. destruct (ev_simulates call HS l ts rs t HL T) as (v & A1 & A2 & A3). destruct (ev_simulates call HS r ts rs t HR T) as (w & B1 & B2 & B3).
    exists v, w. do 4 (split; auto). intros e. destruct (HC (map (vmeaning e) rs)) as (x & C1 & C2); [now apply (meanings_has e rs ts)|].
    rewrite A3 in C1. rewrite B3 in C2. congruence. }
  split; [|split].
  - intros cs T. destruct (HC cs T) as (v & C1 & C2). exists v. do 2 (split; auto).
    destruct (constants cs ts T) as (rs & R & E). destruct (ev_simulates _ (smt_call_simulates no_simp no_simp_faithful) l ts rs t HL R) as (w & _ & W2 & W3).
    specialize (W3 env0). rewrite E in W3. rewrite C1 in W3. injection W3 as ->.
    pose proof (meanings_has env0 [w] [t] (Forall2_cons _ _ W2 (Forall2_nil _))) as M. now inversion M.
  - intros S rs F T. apply (G (smt_call S) rs); auto. now apply smt_call_simulates.
  - intros S rs F T. apply (G (z3_call S) rs); auto. now apply z3_call_simulates.
Qed.

(** ** Values of concrete expressions *)
Definition val (cs : list pyval) (e : expr) (c : bvcls) (a : Z) : Prop :=
  conc_ev cs e = Ok (VBV (BV c a)) /\ 1 <= csize c /\ 0 <= a < 2 ^ csize c.
Definition bit (cs : list pyval) (e : expr) (b : bool) : Prop := conc_ev cs e = Ok (VBit b).

Lemma lop_range n f g a b : 0 <= n -> 0 <= a < 2 ^ n -> 0 <= b < 2 ^ n ->
  (forall a b i, Z.testbit (f a b) i = g (Z.testbit a i) (Z.testbit b i)) -> g false false = false -> 0 <= f a b -> 0 <= f a b < 2 ^ n.
Proof.
  intros N A B S G P. split; [exact P|]. destruct (Z.eq_dec (f a b) 0) as [E|E]; [rewrite E; now apply pow2_pos|].
  apply Z.log2_lt_pow2; [lia|]. destruct (Z.lt_ge_cases (Z.log2 (f a b)) n) as [L|L]; [exact L|exfalso].
  pose proof (Z.bit_log2 (f a b) ltac:(lia)) as T. rewrite S, !(testbit_high _ n) in T by assumption. congruence.
Qed.
Lemma op_value_range o sg n a b : 1 <= n -> 0 <= a < 2 ^ n -> 0 <= b < 2 ^ n -> 0 <= op_value o sg n a b < 2 ^ n.
Proof.
  intros N A B. pose proof (pow2_pos n ltac:(lia)) as P. assert (M : forall z, 0 <= z mod 2 ^ n < 2 ^ n) by (intros; apply Z.mod_pos_bound; lia).
  destruct o; cbn [op_value]; auto.
  - apply (lop_range n Z.land andb); auto; try lia; [apply Z.land_spec|apply Z.land_nonneg; lia].
  - apply (lop_range n Z.lor orb); auto; try lia; [apply Z.lor_spec|apply Z.lor_nonneg; lia].
  - apply (lop_range n Z.lxor xorb); auto; try lia; [apply Z.lxor_spec|apply Z.lxor_nonneg; lia].
  - destruct sg; auto. pose proof (pow2_pos b ltac:(lia)). split; [apply Z.div_pos; lia|]. apply Z.le_lt_trans with a; [|lia]. apply Z.div_le_upper_bound; nia.
  - destruct (b =? 0) eqn:E; [lia|]. destruct sg; auto. split; [apply Z.div_pos; lia|]. apply Z.le_lt_trans with a; [|lia]. apply Z.div_le_upper_bound; nia.
  - destruct (b =? 0) eqn:E; [lia|]. destruct sg; auto. pose proof (Z.mod_pos_bound a b ltac:(lia)). lia.
Qed.
Lemma pair_refl k : signed_pair k k = is_signed k. Proof. now destruct k. Qed.

Section Vals.
  Variable cs : list pyval.
  Ltac go := unfold conc_ev, op2, op2i, cmp2, cmp2i, methi, meth, rel, inv, neg, lit, true_, rol, ror, item, slice, cat, zxt, sxt, sum, carry, sel;
    cbn [ev each bind]; fold conc_ev.
  Ltac call := cbn [bind each conc_call reg opnd nth_error as_vec as_bit].
  Lemma wf_of c a : 1 <= csize c -> 0 <= a < 2 ^ csize c -> wf (BV c a).
  Proof. intros; split; cbn; lia. Qed.
  Lemma operand_of c a : 1 <= csize c -> 0 <= a < 2 ^ csize c -> BVSpec.operand (csize c) (VBV (BV c a)) a.
  Proof. intros. change a with (bval (BV c a)) at 2. apply Op_bv; [now apply wf_of|reflexivity]. Qed.
  Lemma operand_int n z : BVSpec.operand n (VInt z) (z mod 2 ^ n).
  Proof. apply Op_conv; [discriminate|constructor]. Qed.
  Lemma mod_range n z : 1 <= n -> 0 <= z mod 2 ^ n < 2 ^ n.
  Proof. intros. apply Z.mod_pos_bound, pow2_pos. lia. Qed.
  Lemma val_op o l r c a b : val cs l c a -> val cs r c b -> val cs (op2 o l r) c (op_value o (is_signed (ck c)) (csize c) a b).
  Proof.
    intros (EL & N & A) (ER & _ & B). split; [|split; [exact N|now apply op_value_range]]. go. rewrite EL. cbn [bind]. rewrite ER. call.
    rewrite C28_operators_pf; try (apply wf_of; auto); [|reflexivity|intros; exact N]. cbn [bcls bsize bkind bval one rmap bind ck csize]. now rewrite pair_refl.
  Qed.
  Lemma val_opi o l c a z : val cs l c a -> val cs (op2i o l z) c (op_value o (is_signed (ck c)) (csize c) a (z mod 2 ^ csize c)).
  Proof.
    intros (EL & N & A). split; [|split; [exact N|apply op_value_range; auto; now apply mod_range]]. go. rewrite EL. call.
    rewrite (C05_operators_pf o (BV c a) (VInt z) (z mod 2 ^ csize c)); [reflexivity|now apply wf_of|exact I|constructor|intros; exact N].
  Qed.
  Lemma bit_cmp o l r c a b : val cs l c a -> val cs r c b -> bit cs (cmp2 o l r) (cmp_value o (is_signed (ck c)) (csize c) a b).
  Proof.
    intros (EL & N & A) (ER & _ & B). unfold bit. go. rewrite EL. cbn [bind]. rewrite ER. call.
    rewrite C28_comparisons_pf; try (apply wf_of; auto); [|reflexivity|exact N]. cbn [bcls bsize bkind bval one rmap bind ck csize of_cmp]. now rewrite pair_refl.
  Qed.
  Lemma bit_cmpi o l c a z : val cs l c a -> bit cs (cmp2i o l z) (cmp_value o (is_signed (ck c)) (csize c) a (z mod 2 ^ csize c)).
  Proof.
    intros (EL & N & A). unfold bit. go. rewrite EL. call.
    rewrite (C10_operators_pf o (BV c a) (VInt z) (z mod 2 ^ csize c)); [reflexivity|now apply wf_of|exact I|constructor|exact N].
  Qed.
  Lemma bit_op l r a b : bit cs l a -> bit cs r b ->
    bit cs (op2 OAnd l r) (a && b) /\ bit cs (op2 OOr l r) (a || b) /\ bit cs (op2 OXor l r) (xorb a b).
  Proof.
    intros EL ER. unfold bit in *. go. rewrite EL. cbn [bind]. rewrite ER. call. unfold py_binop_val.
    destruct (C22_left_pf a (VBit b) b) as (H1 & H2 & H3 & _); [constructor|]. rewrite H1, H2, H3. auto.
  Qed.
  Lemma val_inv l c a : val cs l c a -> val cs (inv l) c (2 ^ csize c - 1 - a).
  Proof. intros (EL & N & A). split; [|split; [exact N|lia]]. go. rewrite EL. call. rewrite bvnot_spec by now apply wf_of. reflexivity. Qed.
  Lemma bit_inv l a : bit cs l a -> bit cs (inv l) (negb a).
  Proof. intros EL. unfold bit in *. go. rewrite EL. call. reflexivity. Qed.
  Lemma val_neg l c a : val cs l c a -> val cs (neg l) c ((- a) mod 2 ^ csize c).
  Proof. intros (EL & N & A). split; [|split; [exact N|now apply mod_range]]. go. rewrite EL. call. rewrite bvneg_spec by now apply wf_of. reflexivity. Qed.
  Lemma val_lit c z : 1 <= csize c -> val cs (lit c z) c (z mod 2 ^ csize c).
  Proof. intros N. split; [|split; [exact N|now apply mod_range]]. go. call. rewrite (bv_init_converts c (VInt z) (z mod 2 ^ csize c)); [reflexivity|lia|constructor]. Qed.
  Lemma bit_true : bit cs true_ true.
  Proof. reflexivity. Qed.
  Lemma val_lshr l c a z : val cs l c a -> val cs (methi MLshr l z) c (a / 2 ^ (z mod 2 ^ csize c)).
  Proof.
    intros (EL & N & A). split; [|split; [exact N|]].
    - go. rewrite EL. call. cbn [conc_meth]. rewrite (bvlshr_spec (BV c a) (VInt z) (z mod 2 ^ csize c)); [reflexivity|now apply wf_of|apply operand_int].
    - pose proof (mod_range (csize c) z N) as M. pose proof (pow2_pos _ (proj1 M)). split; [apply Z.div_pos; lia|]. apply Z.le_lt_trans with a; [|lia]. apply Z.div_le_upper_bound; nia.
  Qed.
  Lemma val_ashr l c a z : val cs l c a -> val cs (methi MAshr l z) c ((signed (csize c) a / 2 ^ (z mod 2 ^ csize c)) mod 2 ^ csize c).
  Proof.
    intros (EL & N & A). split; [|split; [exact N|now apply mod_range]].
    go. rewrite EL. call. cbn [conc_meth]. rewrite (bvashr_spec (BV c a) (VInt z) (z mod 2 ^ csize c)); [reflexivity|now apply wf_of|apply operand_int|exact N].
  Qed.
  Lemma val_udiv l c a z : val cs l c a ->
    val cs (methi MUdiv l z) c (if z mod 2 ^ csize c =? 0 then 2 ^ csize c - 1 else a / (z mod 2 ^ csize c)).
  Proof.
    intros (EL & N & A). pose proof (mod_range (csize c) z N) as M. split; [|split; [exact N|]].
    - go. rewrite EL. call. cbn [conc_meth]. rewrite (bvudiv_spec (BV c a) (VInt z) (z mod 2 ^ csize c)); [reflexivity|now apply wf_of|apply operand_int].
    - destruct (_ =? 0) eqn:E; [lia|]. split; [apply Z.div_pos; lia|]. apply Z.le_lt_trans with a; [|lia]. apply Z.div_le_upper_bound; nia.
  Qed.
  Lemma bit_ult l r c a b : val cs l c a -> val cs r c b -> bit cs (rel RUlt l r) (a <? b).
  Proof.
    intros (EL & N & A) (ER & _ & B). unfold bit. go. rewrite EL. cbn [bind]. rewrite ER. call. cbn [conc_rel].
    rewrite (bvult_spec (BV c a) (VBV (BV c b)) b); [reflexivity|now apply wf_of|now apply operand_of].
  Qed.
  Lemma bit_slt l r c a b : val cs l c a -> val cs r c b -> bit cs (rel RSlt l r) (signed (csize c) a <? signed (csize c) b).
  Proof.
    intros (EL & N & A) (ER & _ & B). unfold bit. go. rewrite EL. cbn [bind]. rewrite ER. call. cbn [conc_rel].
    rewrite (bvslt_spec (BV c a) (VBV (BV c b)) b); [reflexivity|now apply wf_of|now apply operand_of|exact N].
  Qed.
  Lemma small_mod n k : 1 <= n -> 0 <= k <= n -> k mod 2 ^ n = k.
  Proof. intros. apply Z.mod_small. pose proof (Z.pow_gt_lin_r 2 n). lia. Qed.
  Lemma val_rol l c a k : 0 <= k <= csize c -> val cs l c a -> exists r, val cs (rol l k) c r /\
    forall i, 0 <= i < csize c -> Z.testbit r i = Z.testbit a ((i - k) mod csize c).
  Proof.
    intros K (EL & N & A). destruct (bvrol_spec (BV c a) (VInt k) _ (wf_of c a N A) N (operand_int (csize c) k)) as (y & E & C & [W1 W2] & T).
    cbn [bsize bcls bval] in *. rewrite small_mod in T by lia. destruct y as [d r]. cbn in C, W2, T. subst d. exists r. split; [|exact T].
    split; [|split; auto]. go. rewrite EL. call. rewrite E. reflexivity.
  Qed.
  Lemma val_ror l c a k : 0 <= k <= csize c -> val cs l c a -> exists r, val cs (ror l k) c r /\
    forall i, 0 <= i < csize c -> Z.testbit r i = Z.testbit a ((i + k) mod csize c).
  Proof.
    intros K (EL & N & A). destruct (bvror_spec (BV c a) (VInt k) _ (wf_of c a N A) N (operand_int (csize c) k)) as (y & E & C & [W1 W2] & T).
    cbn [bsize bcls bval] in *. rewrite small_mod in T by lia. destruct y as [d r]. cbn in C, W2, T. subst d. exists r. split; [|exact T].
    split; [|split; auto]. go. rewrite EL. call. rewrite E. reflexivity.
  Qed.
  Lemma bit_item l c a i : 0 <= i < csize c -> val cs l c a -> bit cs (item l i) (Z.testbit a i).
  Proof.
    intros K (EL & N & A). unfold bit. go. rewrite EL. call. rewrite getitem_int_spec; [|now apply wf_of|unfold bsize; cbn [bcls]; lia].
    cbn [rmap one bind bval bsize bcls]. now rewrite Z.mod_small.
  Qed.
  Lemma val_slice l c a i j : 0 <= i -> i < j -> j <= csize c -> val cs l c a ->
    val cs (slice l i j) (BVC (ck c) (j - i)) ((a / 2 ^ i) mod 2 ^ (j - i)).
  Proof.
    intros I J K (EL & N & A). split; [|split; [cbn; lia|cbn; apply mod_range; lia]]. go. rewrite EL. call.
    rewrite C11_slice_range_pf; [reflexivity|now apply wf_of|lia|lia|exact K].
  Qed.
  Lemma val_cat l r c d a b : kind_le (ck d) (ck c) = true -> val cs l c a -> val cs r d b ->
    val cs (cat l r) (BVC (ck c) (csize c + csize d)) (a + b * 2 ^ csize c).
  Proof.
    intros K (EL & N & A) (ER & M & B). split; [|split; [cbn; lia|]].
    - go. rewrite EL. cbn [bind]. rewrite ER. call. rewrite concat_spec; [reflexivity|now apply wf_of|now apply wf_of|exact K].
    - cbn [csize]. rewrite Z.pow_add_r by lia. nia.
  Qed.
  Lemma val_zxt l c a k : 0 <= k -> val cs l c a -> val cs (zxt l k) (BVC (ck c) (csize c + k)) a.
  Proof.
    intros K (EL & N & A). split; [|split; [cbn; lia|]].
    - go. rewrite EL. call. rewrite zext_spec; [reflexivity|now apply wf_of|exact K].
    - cbn [csize]. rewrite Z.pow_add_r by lia. pose proof (pow2_pos k K). nia.
  Qed.
  Lemma val_sxt l c a k : 1 <= k -> val cs l c a -> val cs (sxt l k) (BVC (ck c) (csize c + k)) (signed (csize c) a mod 2 ^ (csize c + k)).
  Proof.
    intros K (EL & N & A). split; [|split; [cbn; lia|cbn; apply mod_range; lia]]. go. rewrite EL. call. rewrite sext_val; [reflexivity|now apply wf_of|exact N|exact K].
  Qed.
  Lemma val_adc l r c a b z : 0 <= z <= 1 -> val cs l c a -> val cs r c b ->
    val cs (sum l r z) c ((a + b + z) mod 2 ^ csize c) /\ bit cs (carry l r z) (2 ^ csize c <=? a + b + z).
  Proof.
    intros K (EL & N & A) (ER & _ & B). destruct (adc_spec (BV c a) (VBV (BV c b)) b (VInt z) (z mod 2 ^ 1) (wf_of c a N A) (operand_of c b N B) (operand_int 1 z)) as (s & co & E & C & [W1 W2] & Q).
    destruct s as [d v]. unfold bsize in Q. cbn [bcls bval] in *. subst d. rewrite (Z.mod_small z) in Q by (cbn; lia).
    assert (V : v = (a + b + z) mod 2 ^ csize c) by (apply Zmod_unique with (b2z co); lia).
    split; [split; [|split; [exact N|now apply mod_range]]|unfold bit]; go; rewrite EL; cbn [bind]; rewrite ER; call; rewrite E; cbn [rmap bind fst snd reg nth_error]; [now rewrite <- V|].
    do 2 f_equal. destruct co; cbn [b2z] in Q; lia.
  Qed.
  Lemma val_sel q l r c b a a' : bit cs q b -> val cs l c a -> val cs r c a' -> val cs (sel q l r) c (if b then a else a').
  Proof.
    intros Q (EL & N & A) (ER & _ & A'). split; [|split; [exact N|destruct b; auto]]. unfold bit in Q. go. rewrite Q. cbn [bind]. rewrite EL. cbn [bind]. rewrite ER. call.
    unfold vec_branch. cbn [bkind bcls bsize bval]. rewrite C23_same_types_pf; [|unfold branch_ok, pwf, bsize; cbn [pn pv bcls]; lia|unfold branch_ok, pwf, bsize; cbn [pn pv bcls]; lia|intros i; split; [cbn; lia|intros; eexists; reflexivity]|constructor]. destruct c as [k n]. destruct b; reflexivity.
  Qed.
End Vals.

(** ** Proving equations *)
Lemma inputs_vec cs c ts : Forall2 conc_has cs (TVec c :: ts) -> exists a cs', cs = VBV (BV c a) :: cs' /\ (1 <= csize c /\ 0 <= a < 2 ^ csize c) /\ Forall2 conc_has cs' ts.
Proof.
  intros H. inversion H as [|v t cs' ts' H1 H2]; subst. destruct v as [| | |[d a]| | |]; cbn in H1; try contradiction. destruct H1 as (-> & N & R). exists a, cs'. auto.
Qed.
Lemma inputs_bit cs ts : Forall2 conc_has cs (TBit :: ts) -> exists b cs', cs = VBit b :: cs' /\ Forall2 conc_has cs' ts.
Proof. intros H. inversion H as [|v t cs' ts' H1 H2]; subst. destruct v; cbn in H1; try contradiction. eauto. Qed.
Lemma vec_eq cs l r c A B : val cs l c A -> val cs r c B -> A = B -> exists v, conc_ev cs l = Ok v /\ conc_ev cs r = Ok v.
Proof. intros (E1 & _) (E2 & _) ->. eauto. Qed.
Lemma bit_eq cs l r A B : bit cs l A -> bit cs r B -> A = B -> exists v, conc_ev cs l = Ok v /\ conc_ev cs r = Ok v.
Proof. intros E1 E2 ->. eauto. Qed.

(** Typing. *)
Section Types.
  Variable ts : list ty.
  Ltac two H1 H2 := unfold op2, cmp2, meth, rel, cat; cbn [ety oeach]; rewrite H1; cbn [obind]; rewrite H2; cbn [obind check1 nth_error tvec fits].
  Ltac one_ H := unfold op2i, cmp2i, methi, inv, neg, rol, ror, item, slice, zxt, sxt; cbn [ety oeach]; rewrite H; cbn [obind check1 nth_error tvec fits].
  Lemma ty_op o l r c : ety ts l = Some (TVec c) -> ety ts r = Some (TVec c) -> signed_division o (ck c) = false -> ety ts (op2 o l r) = Some (TVec c).
  Proof.
    intros H1 H2 D. two H1 H2. unfold same_op. cbn [nth_error]. rewrite D, Z.eqb_refl. cbn [negb andb].
    replace (negb (redefined o && kind_eqb (ck c) KSInt && above_signed (ck c))) with true; [reflexivity|]. destruct (ck c), (redefined o); reflexivity.
  Qed.
  Lemma ty_opi o l c z : ety ts l = Some (TVec c) -> signed_division o (ck c) = false -> ety ts (op2i o l z) = Some (TVec c).
  Proof. intros H1 D. one_ H1. unfold same_op. rewrite D. reflexivity. Qed.
  Lemma ty_bop o l r : ety ts l = Some TBit -> ety ts r = Some TBit -> In o [OAnd; OOr; OXor] -> ety ts (op2 o l r) = Some TBit.
  Proof. intros H1 H2 D. two H1 H2. destruct D as [<-|[<-|[<-|[]]]]; reflexivity. Qed.
  Lemma ty_cmp o l r c : ety ts l = Some (TVec c) -> ety ts r = Some (TVec c) -> ety ts (cmp2 o l r) = Some TBit.
  Proof. intros H1 H2. two H1 H2. now rewrite Z.eqb_refl. Qed.
  Lemma ty_cmpi o l c z : ety ts l = Some (TVec c) -> ety ts (cmp2i o l z) = Some TBit.
  Proof. intros H1. one_ H1. reflexivity. Qed.
  Lemma ty_methi m l c z : ety ts l = Some (TVec c) -> m <> MComp -> ety ts (methi m l z) = Some (TVec c).
  Proof. intros H1 M. one_ H1. destruct m; congruence || reflexivity. Qed.
  Lemma ty_rel m l r c : ety ts l = Some (TVec c) -> ety ts r = Some (TVec c) -> ety ts (rel m l r) = Some TBit.
  Proof. intros H1 H2. two H1 H2. now rewrite Z.eqb_refl. Qed.
  Lemma ty_inv l t : ety ts l = Some t -> ety ts (inv l) = Some t.
  Proof. intros H1. one_ H1. reflexivity. Qed.
  Lemma ty_neg l c : ety ts l = Some (TVec c) -> ety ts (neg l) = Some (TVec c).
  Proof. intros H1. one_ H1. reflexivity. Qed.
  Lemma ty_lit c z : 1 <= csize c -> ety ts (lit c z) = Some (TVec c).
  Proof. intros N. unfold lit. cbn [ety oeach obind check1]. replace (1 <=? csize c) with true by lia. reflexivity. Qed.
  Lemma ty_true : ety ts true_ = Some TBit.
  Proof. reflexivity. Qed.
  Lemma ty_rol l c k : 0 <= k <= csize c -> ety ts l = Some (TVec c) -> ety ts (rol l k) = Some (TVec c).
  Proof. intros K H1. one_ H1. replace ((0 <=? k) && (k <=? csize c)) with true by lia. reflexivity. Qed.
  Lemma ty_ror l c k : 0 <= k <= csize c -> ety ts l = Some (TVec c) -> ety ts (ror l k) = Some (TVec c).
  Proof. intros K H1. one_ H1. replace ((0 <=? k) && (k <=? csize c)) with true by lia. reflexivity. Qed.
  Lemma ty_item l c i : 0 <= i < csize c -> ety ts l = Some (TVec c) -> ety ts (item l i) = Some TBit.
  Proof. intros K H1. one_ H1. replace ((- csize c <=? i) && (i <? csize c)) with true by lia. reflexivity. Qed.
  Lemma ty_slice l c i j : 0 <= i -> i < j -> j <= csize c -> ety ts l = Some (TVec c) -> ety ts (slice l i j) = Some (TVec (BVC (ck c) (j - i))).
  Proof.
    intros I J K H1. one_ H1. unfold lower, upper. replace (i <? 0) with false by lia. replace (j <? 0) with false by lia. rewrite Z.min_l by lia.
    replace ((0 <=? i) && (i <? j)) with true by lia. reflexivity.
  Qed.
  Lemma ty_cat l r c d : ety ts l = Some (TVec c) -> ety ts r = Some (TVec d) -> kind_le (ck d) (ck c) = true -> ety ts (cat l r) = Some (TVec (BVC (ck c) (csize c + csize d))).
  Proof. intros H1 H2 D. two H1 H2. rewrite D. reflexivity. Qed.
  Lemma ty_zxt l c k : 0 <= k -> ety ts l = Some (TVec c) -> ety ts (zxt l k) = Some (TVec (BVC (ck c) (csize c + k))).
  Proof. intros K H1. one_ H1. replace (0 <=? k) with true by lia. reflexivity. Qed.
  Lemma ty_sxt l c k : 1 <= k -> ety ts l = Some (TVec c) -> ety ts (sxt l k) = Some (TVec (BVC (ck c) (csize c + k))).
  Proof. intros K H1. one_ H1. replace (1 <=? k) with true by lia. reflexivity. Qed.
  Lemma ty_sum l r c z : ety ts l = Some (TVec c) -> ety ts r = Some (TVec c) -> ety ts (sum l r z) = Some (TVec c) /\ ety ts (carry l r z) = Some TBit.
  Proof. intros H1 H2. unfold sum, carry. cbn [ety oeach]. rewrite H1. cbn [obind]. rewrite H2. cbn [obind check1 nth_error tvec fits]. rewrite Z.eqb_refl. split; reflexivity. Qed.
  Lemma ty_sel q l r c : ety ts q = Some TBit -> ety ts l = Some (TVec c) -> ety ts r = Some (TVec c) -> ety ts (sel q l r) = Some (TVec c).
  Proof.
    intros H0 H1 H2. unfold sel. cbn [ety oeach]. rewrite H0. cbn [obind]. rewrite H1. cbn [obind]. rewrite H2. cbn [obind check1 nth_error tvec tbit]. rewrite cls_eqb_refl. reflexivity.
  Qed.
End Types.
Ltac side := first [assumption | reflexivity | discriminate | cbn; tauto | cbn [csize ck] in *; lia | cbn [csize ck]; match goal with |- context [ck ?c] => destruct (ck c) eqn:?; first [reflexivity | congruence | cbn in *; congruence] end].
Ltac tyt :=
  lazymatch goal with
  | |- ety _ (op2 _ _ _) = Some TBit => apply ty_bop; [tyt|tyt|side]
  | |- ety _ (op2 _ _ _) = _ => eapply ty_op; [tyt|tyt|side]
  | |- ety _ (op2i _ _ _) = _ => eapply ty_opi; [tyt|side]
  | |- ety _ (cmp2 _ _ _) = _ => eapply ty_cmp; [tyt|tyt]
  | |- ety _ (cmp2i _ _ _) = _ => eapply ty_cmpi; tyt
  | |- ety _ (methi _ _ _) = _ => eapply ty_methi; [tyt|side]
  | |- ety _ (rel _ _ _) = _ => eapply ty_rel; [tyt|tyt]
  | |- ety _ (inv _) = _ => eapply ty_inv; tyt
  | |- ety _ (neg _) = _ => eapply ty_neg; tyt
  | |- ety _ (lit _ _) = _ => eapply ty_lit; side
  | |- ety _ (rol _ _) = _ => eapply ty_rol; [|tyt]; side
  | |- ety _ (ror _ _) = _ => eapply ty_ror; [|tyt]; side
  | |- ety _ (item _ _) = _ => eapply ty_item; [|tyt]; side
  | |- ety _ (slice _ _ _) = _ => eapply ty_slice; [| | |tyt]; side
  | |- ety _ (cat _ _) = _ => eapply ty_cat; [tyt|tyt|side]
  | |- ety _ (zxt _ _) = _ => eapply ty_zxt; [|tyt]; side
  | |- ety _ (sxt _ _) = _ => eapply ty_sxt; [|tyt]; side
  | |- ety _ (sum _ _ _) = _ => eapply ty_sum; tyt
  | |- ety _ (carry _ _ _) = _ => eapply ty_sum; tyt
  | |- ety _ (sel _ _ _) = _ => eapply ty_sel; tyt
  | |- _ => reflexivity
  end.
(** ** Arithmetic *)
Definition rolv (n k a : Z) : Z := Z.lor ((a * 2 ^ k) mod 2 ^ n) (a / 2 ^ (n - k)).
Lemma land_r n a b : 0 <= n -> 0 <= a < 2 ^ n -> 0 <= b < 2 ^ n -> 0 <= Z.land a b < 2 ^ n.
Proof. intros. apply (lop_range n Z.land andb); auto; [apply Z.land_spec|apply Z.land_nonneg; lia]. Qed.
Lemma lor_r n a b : 0 <= n -> 0 <= a < 2 ^ n -> 0 <= b < 2 ^ n -> 0 <= Z.lor a b < 2 ^ n.
Proof. intros. apply (lop_range n Z.lor orb); auto; [apply Z.lor_spec|apply Z.lor_nonneg; lia]. Qed.
Lemma lxor_r n a b : 0 <= n -> 0 <= a < 2 ^ n -> 0 <= b < 2 ^ n -> 0 <= Z.lxor a b < 2 ^ n.
Proof. intros. apply (lop_range n Z.lxor xorb); auto; [apply Z.lxor_spec|apply Z.lxor_nonneg; lia]. Qed.
Lemma compl_r n a : 0 <= a < 2 ^ n -> 0 <= 2 ^ n - 1 - a < 2 ^ n.
Proof. lia. Qed.
Lemma zero_mod n : 0 mod 2 ^ n = 0.
Proof. destruct (Z.eq_dec (2 ^ n) 0) as [E|E]; [rewrite E; reflexivity|now apply Z.mod_0_l]. Qed.
Lemma ones_mod n : 0 <= n -> -1 mod 2 ^ n = 2 ^ n - 1 - 0.
Proof. intros N. pose proof (pow2_pos n N). symmetry. apply Zmod_unique with (-1); lia. Qed.
Lemma zero_r n : 0 <= n -> 0 <= 0 < 2 ^ n.
Proof. intros N. pose proof (pow2_pos n N). lia. Qed.
Lemma div_r n k a : 0 <= n -> 0 <= k -> 0 <= a < 2 ^ n -> 0 <= a / 2 ^ k < 2 ^ n.
Proof. intros N K A. pose proof (pow2_pos k K). split; [apply Z.div_pos; lia|]. apply Z.le_lt_trans with a; [|lia]. apply Z.div_le_upper_bound; nia. Qed.
Lemma modr n z : 0 <= n -> 0 <= z mod 2 ^ n < 2 ^ n.
Proof. intros. now apply Z.mod_pos_bound, pow2_pos. Qed.
Lemma rolv_r n k a : 0 <= k <= n -> 0 <= a < 2 ^ n -> 0 <= rolv n k a < 2 ^ n.
Proof. intros K A. apply lor_r; [lia|apply modr; lia|apply div_r; lia]. Qed.
Ltac ranges := repeat first [assumption | lia | match goal with
  | |- 0 <= Z.land _ _ < _ => apply land_r
  | |- 0 <= Z.lor _ _ < _ => apply lor_r
  | |- 0 <= Z.lxor _ _ < _ => apply lxor_r
  | |- 0 <= _ - 1 - _ < _ => apply compl_r
  | |- 0 <= 0 < _ => apply zero_r
  | |- 0 <= rolv _ _ _ < _ => apply rolv_r
  | |- 0 <= _ mod _ < 2 ^ _ => apply modr
  | |- 0 <= _ mod _ < _ => apply Z.mod_pos_bound
  | |- 0 <= _ / _ < _ => apply div_r
  | |- 0 < 2 ^ _ => apply pow2_pos
  | H : _ /\ ?P |- ?P => apply H end].
Ltac bitspec := repeat first [rewrite Z.land_spec | rewrite Z.lor_spec | rewrite Z.lxor_spec | rewrite Z.testbit_0_l | rewrite compl_testbit by ranges].
Ltac bitwise n := rewrite ?zero_mod, ?ones_mod by lia; apply (bits_ext n); [ranges|ranges|]; let i := fresh "i" in intros i ?; bitspec;
  repeat match goal with |- context [Z.testbit ?a i] => destruct (Z.testbit a i) end; reflexivity.

(** a + b from the two bitwise parts. *)
Lemma add_parts a b : a + b = Z.lxor a b + 2 * Z.land a b.
Proof.
  assert (D : forall a b, a = Z.ldiff a b + Z.land a b).
  { intros x y. rewrite Z.add_nocarry_lxor.
    - apply Z.bits_inj'. intros i _. rewrite Z.lxor_spec, Z.ldiff_spec, Z.land_spec. now destruct (Z.testbit x i), (Z.testbit y i).
    - apply Z.bits_inj'. intros i _. rewrite !Z.land_spec, Z.ldiff_spec, Z.testbit_0_l. now destruct (Z.testbit x i), (Z.testbit y i). }
  assert (E : Z.lxor a b = Z.ldiff a b + Z.ldiff b a).
  { rewrite Z.add_nocarry_lxor.
    - apply Z.bits_inj'. intros i _. rewrite !Z.lxor_spec, !Z.ldiff_spec. now destruct (Z.testbit a i), (Z.testbit b i).
    - apply Z.bits_inj'. intros i _. rewrite !Z.land_spec, !Z.ldiff_spec, Z.testbit_0_l. now destruct (Z.testbit a i), (Z.testbit b i). }
  pose proof (D a b). pose proof (D b a) as H2. rewrite (Z.land_comm b a) in H2. lia.
Qed.
Lemma lor_parts a b : Z.lor a b = Z.lxor a b + Z.land a b.
Proof.
  rewrite Z.add_nocarry_lxor.
  - apply Z.bits_inj'. intros i _. rewrite !Z.lxor_spec, Z.lor_spec, Z.land_spec. now destruct (Z.testbit a i), (Z.testbit b i).
  - apply Z.bits_inj'. intros i _. rewrite !Z.land_spec, Z.lxor_spec, Z.testbit_0_l. now destruct (Z.testbit a i), (Z.testbit b i).
Qed.

Lemma sub_parts n a b : 0 <= n -> 0 <= a < 2 ^ n -> 0 <= b < 2 ^ n -> a - b = Z.lxor a b - 2 * Z.land (2 ^ n - 1 - a) b.
Proof.
  intros N A B. assert (L : Z.land (2 ^ n - 1 - a) b = Z.ldiff b a).
  { apply Z.bits_inj'. intros i I. rewrite Z.land_spec, Z.ldiff_spec. destruct (Z.lt_ge_cases i n) as [H|H].
    - rewrite compl_testbit by lia. now destruct (Z.testbit a i), (Z.testbit b i).
    - rewrite !(testbit_high _ n) by lia. reflexivity. }
  rewrite L. pose proof (add_parts a b) as H1. pose proof (add_parts (Z.ldiff b a) (Z.land a b)) as H2.
  assert (E1 : Z.lxor (Z.ldiff b a) (Z.land a b) = b) by (apply Z.bits_inj'; intros i _; rewrite Z.lxor_spec, Z.ldiff_spec, Z.land_spec; now destruct (Z.testbit a i), (Z.testbit b i)).
  assert (E2 : Z.land (Z.ldiff b a) (Z.land a b) = 0) by (apply Z.bits_inj'; intros i _; rewrite !Z.land_spec, Z.ldiff_spec, Z.testbit_0_l; now destruct (Z.testbit a i), (Z.testbit b i)).
  rewrite E1, E2 in H2. lia.
Qed.
Lemma eqm k M u v : u = v + k * M -> u mod M = v mod M.
Proof. intros ->. destruct (Z.eq_dec M 0) as [->|H]; [now rewrite !Zmod_0_r, Z.mul_0_r, Z.add_0_r|apply Z_mod_plus_full]. Qed.

Lemma lxor_msb n a : 1 <= n -> 0 <= a < 2 ^ n ->
  Z.lxor a (2 ^ (n - 1)) = if 2 * a <? 2 ^ n then a + 2 ^ (n - 1) else a - 2 ^ (n - 1).
Proof.
  intros N A. assert (H : 2 ^ n = 2 * 2 ^ (n - 1)) by (rewrite <- Z.pow_succ_r by lia; f_equal; lia).
  assert (G : forall b, 0 <= b < 2 ^ (n - 1) -> Z.lxor b (2 ^ (n - 1)) = b + 2 ^ (n - 1)).
  { intros b B. symmetry. apply Z.add_nocarry_lxor. apply Z.bits_inj'. intros i I. rewrite Z.land_spec, Z.testbit_0_l.
    destruct (Z.lt_ge_cases i (n - 1)) as [L|L]; [rewrite Z.pow2_bits_false by lia; apply andb_false_r|rewrite (testbit_high b (n - 1)) by lia; reflexivity]. }
  destruct (2 * a <? 2 ^ n) eqn:E; [apply G; lia|]. pose proof (G (a - 2 ^ (n - 1)) ltac:(lia)) as Q. replace (a - 2 ^ (n - 1) + 2 ^ (n - 1)) with a in Q by lia.
  rewrite <- Q at 1. rewrite Z.lxor_assoc, Z.lxor_nilpotent, Z.lxor_0_r. reflexivity.
Qed.
Lemma half_mod n : 1 <= n -> 2 ^ (n - 1) mod 2 ^ n = 2 ^ (n - 1).
Proof. intros. apply Z.mod_small. split; [apply Z.pow_nonneg; lia|apply Z.pow_lt_mono_r; lia]. Qed.
Lemma sub_mod_0 M a b : 0 <= a < M -> 0 <= b < M -> ((a - b) mod M =? 0) = (a =? b).
Proof.
  intros A B. destruct (Z.lt_ge_cases a b) as [L|L].
  - replace ((a - b) mod M) with (a - b + M) by (apply Zmod_unique with (-1); lia). lia.
  - rewrite Z.mod_small by lia. lia.
Qed.
Lemma add_mod_inj M a b z : 0 <= a < M -> 0 <= b < M -> ((a + z) mod M =? (b + z) mod M) = (a =? b).
Proof.
  intros A B. destruct (Z.eq_dec a b) as [->|H]; [rewrite !Z.eqb_refl; reflexivity|]. replace (a =? b) with false by lia.
  apply Z.eqb_neq. intros E. apply H. rewrite <- (Z.mod_small a M), <- (Z.mod_small b M) by lia.
  replace a with (a + z - z) by lia. replace b with (b + z - z) by lia. rewrite <- (Zminus_mod_idemp_l (a + z)), <- (Zminus_mod_idemp_l (b + z)), E. reflexivity.
Qed.

(** Rotations. *)
Lemma shl_bits n k a i : 0 <= k -> 0 <= i < n -> Z.testbit ((a * 2 ^ k) mod 2 ^ n) i = (k <=? i) && Z.testbit a (i - k).
Proof.
  intros K I. rewrite Z.mod_pow2_bits_low by lia. destruct (Z.leb_spec k i) as [H|H].
  - now rewrite Z.mul_pow2_bits by lia.
  - rewrite Z.mul_pow2_bits_low by lia. reflexivity.
Qed.
Lemma shr_bits k a i : 0 <= k -> 0 <= i -> Z.testbit (a / 2 ^ k) i = Z.testbit a (i + k).
Proof. intros. apply Z.div_pow2_bits; lia. Qed.
Lemma rolv_bits n k a i : 1 <= n -> 0 <= k <= n -> 0 <= a < 2 ^ n -> 0 <= i < n -> Z.testbit (rolv n k a) i = Z.testbit a ((i - k) mod n).
Proof.
  intros N K A I. unfold rolv. rewrite Z.lor_spec, shl_bits, shr_bits by lia. destruct (Z.leb_spec k i) as [H|H].
  - rewrite (testbit_high a n (i + (n - k))) by lia. rewrite orb_false_r. destruct (Z.eq_dec (i - k) n) as [E|E]; [lia|]. rewrite Z.mod_small by lia. reflexivity.
  - cbn [andb orb]. f_equal. apply Zmod_unique with (-1); lia.
Qed.
Lemma val_rol' cs l c a k : 0 <= k <= csize c -> val cs l c a -> val cs (rol l k) c (rolv (csize c) k a).
Proof.
  intros K V. pose proof V as (_ & N & A). destruct (val_rol cs l c a k K V) as (r & R & T). replace (rolv (csize c) k a) with r; [exact R|].
  pose proof R as (_ & _ & RR). apply (bits_ext (csize c)); [exact RR|now apply rolv_r|]. intros i I. rewrite T, rolv_bits by lia. reflexivity.
Qed.
Lemma val_ror' cs l c a k : 0 <= k <= csize c -> val cs l c a -> val cs (ror l k) c (rolv (csize c) (csize c - k) a).
Proof.
  intros K V. pose proof V as (_ & N & A). destruct (val_ror cs l c a k K V) as (r & R & T). replace (rolv (csize c) (csize c - k) a) with r; [exact R|].
  pose proof R as (_ & _ & RR). apply (bits_ext (csize c)); [exact RR|apply rolv_r; auto; lia|]. intros i I. rewrite T, rolv_bits by lia. f_equal. apply (eqm 1). lia.
Qed.
Lemma signed_compl n a : 0 <= a < 2 ^ n -> 1 <= n -> signed n (2 ^ n - 1 - a) = -1 - signed n a.
Proof.
  intros A N. assert (H : 2 ^ n = 2 * 2 ^ (n - 1)) by (rewrite <- Z.pow_succ_r by lia; f_equal; lia).
  unfold signed. destruct (2 * (2 ^ n - 1 - a) <? 2 ^ n) eqn:E1, (2 * a <? 2 ^ n) eqn:E2; lia.
Qed.
Lemma compl_div s d : 0 < d -> (-1 - s) / d = -1 - s / d.
Proof. intros D. symmetry. pose proof (Z.div_mod s d ltac:(lia)). pose proof (Z.mod_pos_bound s d D). apply Z.div_unique with (d - 1 - s mod d); lia. Qed.
Lemma compl_mod M q : 0 < M -> M - 1 - (-1 - q) mod M = q mod M.
Proof.
  intros D. pose proof (Z.div_mod q M ltac:(lia)). pose proof (Z.mod_pos_bound q M D).
  replace ((-1 - q) mod M) with (M - 1 - q mod M); [lia|]. apply Zmod_unique with (-1 - q / M); lia.
Qed.
Lemma shl_shr n k a : 0 <= k <= n -> (a * 2 ^ k) mod 2 ^ n / 2 ^ k = a mod 2 ^ (n - k).
Proof.
  intros K. replace (2 ^ n) with (2 ^ (n - k) * 2 ^ k) by (rewrite <- Z.pow_add_r by lia; f_equal; lia).
  pose proof (pow2_pos k ltac:(lia)). rewrite Zmult_mod_distr_r, Z.div_mul by lia. reflexivity.
Qed.
Lemma small_pow n k : 0 <= k < n -> 2 ^ k mod 2 ^ n = 2 ^ k.
Proof. intros. apply Z.mod_small. split; [apply Z.pow_nonneg; lia|apply Z.pow_lt_mono_r; lia]. Qed.
Lemma ones_bits k i : 0 <= k -> 0 <= i -> Z.testbit (2 ^ k - 1) i = (i <? k).
Proof.
  intros K I. replace (2 ^ k - 1) with (Z.ones k) by (rewrite Z.ones_equiv; lia). destruct (Z.ltb_spec i k) as [H|H]; [now apply Z.ones_spec_low|now apply Z.ones_spec_high].
Qed.
Ltac vt :=
  lazymatch goal with
  | |- val _ (op2 _ _ _) _ _ => eapply val_op; vt
  | |- val _ (op2i _ _ _) _ _ => eapply val_opi; vt
  | |- bit _ (cmp2 _ _ _) _ => eapply bit_cmp; vt
  | |- bit _ (cmp2i _ _ _) _ => eapply bit_cmpi; vt
  | |- bit _ (op2 _ _ _) _ => eapply bit_op; vt
  | |- val _ (methi MLshr _ _) _ _ => eapply val_lshr; vt
  | |- val _ (methi MAshr _ _) _ _ => eapply val_ashr; vt
  | |- val _ (methi MUdiv _ _) _ _ => eapply val_udiv; vt
  | |- bit _ (rel RUlt _ _) _ => eapply bit_ult; vt
  | |- bit _ (rel RSlt _ _) _ => eapply bit_slt; vt
  | |- val _ (inv _) _ _ => eapply val_inv; vt
  | |- bit _ (inv _) _ => eapply bit_inv; vt
  | |- val _ (neg _) _ _ => eapply val_neg; vt
  | |- val _ (lit _ _) _ _ => eapply val_lit; side
  | |- bit _ true_ _ => apply bit_true
  | |- val _ (rol _ _) _ _ => eapply val_rol'; [|vt]; side
  | |- val _ (ror _ _) _ _ => eapply val_ror'; [|vt]; side
  | |- bit _ (item _ _) _ => eapply bit_item; [|vt]; side
  | |- val _ (slice _ _ _) _ _ => eapply val_slice; [| | |vt]; side
  | |- val _ (cat _ _) _ _ => eapply val_cat; [|vt|vt]; side
  | |- val _ (zxt _ _) _ _ => eapply val_zxt; [|vt]; side
  | |- val _ (sxt _ _) _ _ => eapply val_sxt; [|vt]; side
  | |- val _ (sum _ _ _) _ _ => eapply val_adc; [side|vt|vt]
  | |- bit _ (carry _ _ _) _ => eapply val_adc; [side|vt|vt]
  | |- val _ (sel _ _ _) _ _ => eapply val_sel; vt
  | |- val _ _ _ _ => split; [reflexivity|cbn [csize ck]; auto]
  | |- bit _ _ _ => reflexivity
  end.

(** The same, up to equality of the class. *)
Lemma ety_eq ts e t t' : ety ts e = Some t' -> t' = t -> ety ts e = Some t.
Proof. now intros H <-. Qed.
Lemma val_eq cs e c d a : val cs e c a -> c = d -> val cs e d a.
Proof. now intros H <-. Qed.
Ltac cls := cbn [csize ck]; first [reflexivity | f_equal; cls' | cls'] with cls' := match goal with |- BVC _ _ = ?c => first [is_var c; destruct c; cbn [csize ck] in *; f_equal; lia | f_equal; lia] | |- ?c = BVC _ _ => symmetry; cls' end.

Lemma mod_le n k z : 0 <= k <= n -> (z mod 2 ^ n) mod 2 ^ k = z mod 2 ^ k.
Proof.
  intros K. symmetry. apply Zmod_div_mod; [apply pow2_pos; lia|apply pow2_pos; lia|]. exists (2 ^ (n - k)). rewrite <- Z.pow_add_r by lia. f_equal. lia.
Qed.
Lemma cat_bits n a b i : 0 <= n -> 0 <= a < 2 ^ n -> 0 <= i -> Z.testbit (a + b * 2 ^ n) i = if i <? n then Z.testbit a i else Z.testbit b (i - n).
Proof.
  intros N A I. destruct (Z.ltb_spec i n) as [H|H].
  - rewrite <- (Z.mod_pow2_bits_low (a + b * 2 ^ n) n) by lia. rewrite Z_mod_plus_full, Z.mod_pow2_bits_low by lia. reflexivity.
  - replace i with (i - n + n) at 1 by lia. rewrite <- Z.div_pow2_bits by lia. pose proof (pow2_pos n N). rewrite Z.div_add, Z.div_small, Z.add_0_l by lia. reflexivity.
Qed.
Lemma cat_r n m a b : 0 <= n -> 0 <= m -> 0 <= a < 2 ^ n -> 0 <= b < 2 ^ m -> 0 <= a + b * 2 ^ n < 2 ^ (n + m).
Proof. intros N M A B. rewrite Z.pow_add_r by lia. nia. Qed.
Lemma slice_bits n k a i : 0 <= k -> 0 <= i < n - k -> Z.testbit ((a / 2 ^ k) mod 2 ^ (n - k)) i = Z.testbit a (i + k).
Proof. intros K I. rewrite Z.mod_pow2_bits_low, shr_bits by lia. reflexivity. Qed.
