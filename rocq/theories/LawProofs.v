(** Proofs of the theorems stated in LawProps.v. *)
From Coq Require Import Lia ZifyBool.
From Verif Require Import PyBase BVModel BVSpec BVFacts BVOps OpModel OpSpec SMTTerm SMTModel SMTSpec SMTFacts ProgModel ProgSpec ProgFacts ProgInputs LawSpec LawFacts.

Ltac ins H := repeat first [let a := fresh "a" in let N := fresh "N" in apply inputs_vec in H; destruct H as (a & ? & -> & N & H)
  | let b := fresh "b" in apply inputs_bit in H; destruct H as (b & ? & -> & H)]; inversion H; subst; clear H.
Ltac start t := intros; apply (equation_intro _ _ _ t); [tyt|tyt|]; let cs := fresh "cs" in let H := fresh "H" in intros cs H; ins H;
  first [eapply vec_eq; [vt|vt|] | eapply bit_eq; [vt|vt|]]; cbn [op_value cmp_value csize ck].
Ltac start2 t := intros; apply (equation_intro _ _ _ (TVec t)); [eapply ety_eq; [tyt|cls]|eapply ety_eq; [tyt|cls]|]; let cs := fresh "cs" in let H := fresh "H" in intros cs H; ins H;
  eapply (vec_eq _ _ _ t); [eapply val_eq; [vt|cls]|eapply val_eq; [vt|cls]|]; cbn [op_value csize ck].
Ltac each_law2 t := unfold laws; repeat (apply Forall_cons; [start2 t|]); try apply Forall_nil.
Ltac each_law t := unfold laws; repeat (apply Forall_cons; [start t|]); try apply Forall_nil.
Ltac mods := repeat (match goal with |- context [- ?a] => rewrite <- (Z.sub_0_l a) end); repeat first [rewrite Zplus_mod_idemp_l|rewrite Zplus_mod_idemp_r|rewrite Zminus_mod_idemp_l|rewrite Zminus_mod_idemp_r|rewrite Zmult_mod_idemp_l|rewrite Zmult_mod_idemp_r].
Ltac iflia := unfold signed in *; repeat match goal with |- context [if ?b then _ else _] => destruct b eqn:? end; lia.
Ltac rng := match goal with |- _ = ?a => first [is_var a; rewrite <- (Z.mod_small a (2 ^ csize _)) by eassumption] | _ => idtac end.
Ltac ringmod := mods; first [f_equal; ring | match goal with A : 1 <= csize ?c /\ 0 <= ?a < 2 ^ csize ?c |- _ = ?a => rewrite <- (Z.mod_small a (2 ^ csize c)) at 2 by apply A; f_equal; ring end].

Lemma C112_ring_pf : forall c, 1 <= csize c -> laws [TVec c; TVec c; TVec c] [
  X + Y ~= Y + X; X + Y + Z_ ~= X + (Y + Z_); X + lit c 0 ~= X; X + - X ~= lit c 0;
  X - Y ~= X + - Y; X - X ~= lit c 0; - - X ~= X; - (X + Y) ~= - X - Y;
  X * Y ~= Y * X; X * Y * Z_ ~= X * (Y * Z_); X * lit c 1 ~= X; X * lit c 0 ~= lit c 0;
  X * (Y + Z_) ~= X * Y + X * Z_; X * (Y - Z_) ~= X * Y - X * Z_; - X * Y ~= - (X * Y)].
Proof. intros c N. each_law (TVec c). all: try ringmod. all: try (rewrite !Z.mod_0_l by (pose proof (pow2_pos (csize c)); lia); now rewrite ?Z.mul_0_r). Qed.

Lemma C112_boolean_pf : forall c, 1 <= csize c -> laws [TVec c; TVec c; TVec c] [
  X & Y ~= Y & X; X || Y ~= Y || X; X ^ Y ~= Y ^ X;
  X & Y & Z_ ~= X & (Y & Z_); X || Y || Z_ ~= X || (Y || Z_); (X ^ Y) ^ Z_ ~= X ^ (Y ^ Z_);
  X & (Y || Z_) ~= (X & Y) || (X & Z_); X || (Y & Z_) ~= (X || Y) & (X || Z_); X & (Y ^ Z_) ~= (X & Y) ^ (X & Z_);
  X & X ~= X; X || X ~= X; X & (X || Y) ~= X; X || (X & Y) ~= X;
  ~ (~ X) ~= X; ~ (X & Y) ~= (~ X) || (~ Y); ~ (X || Y) ~= (~ X) & (~ Y); X ^ Y ~= (X & (~ Y)) || ((~ X) & Y);
  X & (~ X) ~= lit c 0; X || (~ X) ~= lit c (-1); X ^ X ~= lit c 0; X & lit c (-1) ~= X; X || lit c 0 ~= X; X ^ lit c (-1) ~= ~ X].
Proof. intros c N. each_law (TVec c). all: bitwise (csize c). Qed.

Lemma C112_complement_pf : forall c, 1 <= csize c -> laws [TVec c; TVec c] [
  - X ~= (~ X) + lit c 1; ~ X ~= - X - lit c 1; X - Y ~= X + (~ Y) + lit c 1;
  X + Y ~= (X || Y) + (X & Y); X + Y ~= (X ^ Y) + op2i OShl (X & Y) 1; X - Y ~= (X ^ Y) - op2i OShl ((~ X) & Y) 1;
  sum X Y 0 ~= X + Y; sum X (~ Y) 1 ~= X - Y; ~ (X + Y) ~= (~ X) - Y].
Proof.
  intros c N. pose proof (pow2_pos (csize c) ltac:(lia)) as P. each_law (TVec c).
  - mods. apply (eqm (-1)). ring.
  - mods. apply Zmod_unique with (-1); lia.
  - mods. apply (eqm (-1)). ring.
  - f_equal. rewrite lor_parts, add_parts. ring.
  - rewrite (small_mod _ 1) by lia. mods. f_equal. rewrite add_parts. ring.
  - rewrite (small_mod _ 1) by lia. mods. f_equal. rewrite (sub_parts (csize c) a a0) by ranges. ring.
  - f_equal. ring.
  - apply (eqm 1). ring.
  - apply Zmod_unique with (- ((a + a0) / 2 ^ csize c)); [pose proof (Z.mod_pos_bound (a + a0) (2 ^ csize c) P); lia|]. pose proof (Z.div_mod (a + a0) (2 ^ csize c) ltac:(lia)). nia.
Qed.

Lemma C112_compare_pf : forall c, 1 <= csize c -> laws [TVec c; TVec c; TVec c] [
  X == Y ~= Y == X; X != Y ~= ~ (X == Y); X < Y ~= Y > X; X <= Y ~= ~ (X > Y); X >= Y ~= ~ (X < Y);
  X <= Y ~= (X < Y) || (X == Y); X == Y ~= (X <= Y) & (Y <= X);
  (~ ((X < Y) & (Y < Z_))) || (X < Z_) ~= true_;
  X == Y ~= X - Y == lit c 0; X == Y ~= X ^ Y == lit c 0; X + Z_ == Y + Z_ ~= X == Y;
  rel RUlt X Y ~= ~ (carry X (~ Y)%api 1); rel RUlt (~ X)%api (~ Y)%api ~= rel RUlt Y X;
  rel RSlt X Y ~= rel RUlt (X ^ lit c (2 ^ (csize c - 1)))%api (Y ^ lit c (2 ^ (csize c - 1)))%api;
  rel RSlt X Y ~= (rel RUlt X Y ^ item X (csize c - 1)) ^ item Y (csize c - 1);
  rel RSlt X (lit c 0) ~= item X (csize c - 1)].
Proof.
  intros c N. pose proof (pow2_pos (csize c) ltac:(lia)) as P. each_law TBit.
  all: rewrite ?zero_mod, ?half_mod by lia.
  all: try (destruct (is_signed (ck c)); iflia).
  - symmetry. apply sub_mod_0; ranges.
  - destruct (Z.eqb_spec a a0) as [->|H]; [rewrite Z.lxor_nilpotent; reflexivity|]. symmetry. apply Z.eqb_neq. intros E. apply H. now apply Z.lxor_eq.
  - apply add_mod_inj; ranges.
  - rewrite !lxor_msb by ranges. assert (H : 2 ^ csize c = 2 * 2 ^ (csize c - 1)) by (rewrite <- Z.pow_succ_r by lia; f_equal; lia). iflia.
  - rewrite !msb_spec by ranges. iflia.
  - rewrite !msb_spec by ranges. iflia.
Qed.

Lemma C112_wrap_refuted_pf : let c := BVC KSInt 4 in let d := BVC KUInt 4 in
  fails [TVec c; TVec c] (X < Y)%api (X - Y < lit c 0)%api /\
  fails [TVec d; TVec d] (X < X + Y)%api (lit d 0 < Y)%api /\
  fails [TVec d; TVec d] (X * Y // Y)%api X /\
  fails [TVec c; TVec c] ((- X) >= lit c 0)%api (X <= lit c 0)%api.
Proof.
  cbv zeta. split; [|split; [|split]].
  - exists [VBV (BV (BVC KSInt 4) 8); VBV (BV (BVC KSInt 4) 1)]. do 2 eexists. split; [repeat constructor; vm_compute; congruence|]. split; [vm_compute; reflexivity|]. split; [vm_compute; reflexivity|discriminate].
  - exists [VBV (BV (BVC KUInt 4) 15); VBV (BV (BVC KUInt 4) 1)]. do 2 eexists. split; [repeat constructor; vm_compute; congruence|]. split; [vm_compute; reflexivity|]. split; [vm_compute; reflexivity|discriminate].
  - exists [VBV (BV (BVC KUInt 4) 5); VBV (BV (BVC KUInt 4) 4)]. do 2 eexists. split; [repeat constructor; vm_compute; congruence|]. split; [vm_compute; reflexivity|]. split; [vm_compute; reflexivity|discriminate].
  - exists [VBV (BV (BVC KSInt 4) 8); VBV (BV (BVC KSInt 4) 1)]. do 2 eexists. split; [repeat constructor; vm_compute; congruence|]. split; [vm_compute; reflexivity|]. split; [vm_compute; reflexivity|discriminate].
Qed.

Lemma C112_shift_pf : forall c k, 1 <= csize c -> 0 <= k < csize c -> laws [TVec c; TVec c] [
  op2i OShl X k ~= X * lit c (2 ^ k); methi MLshr X k ~= methi MUdiv X (2 ^ k);
  op2i OShl (X + Y)%api k ~= op2i OShl X k + op2i OShl Y k;
  ~ (methi MAshr (~ X)%api k) ~= methi MAshr X k; methi MLshr (methi MLshr X k) (csize c - k) ~= lit c 0;
  methi MLshr (op2i OShl X k) k ~= X & lit c (2 ^ (csize c - k) - 1); op2i OShl (methi MLshr X k) k ~= X & (- lit c (2 ^ k));
  rol X k ~= op2i OShl X k || methi MLshr X (csize c - k); ror X k ~= rol X (csize c - k); ror (rol X k) k ~= X;
  rol (X & Y)%api k ~= rol X k & rol Y k; rol (~ X)%api k ~= ~ (rol X k)].
Proof.
  intros c k N K. pose proof (pow2_pos (csize c) ltac:(lia)) as P. each_law (TVec c).
  all: rewrite ?zero_mod, ?(small_mod _ k), ?(small_mod _ (csize c - k)), ?small_pow by lia.
  - reflexivity.
  - replace (2 ^ k =? 0) with false by (pose proof (pow2_pos k); lia). reflexivity.
  - mods. f_equal. ring.
  - rewrite signed_compl, compl_div, compl_mod by (ranges; apply pow2_pos; lia). reflexivity.
  - pose proof (pow2_pos k ltac:(lia)). rewrite Z.div_div by (try lia; apply pow2_pos; lia). rewrite <- Z.pow_add_r by lia. replace (k + (csize c - k)) with (csize c) by lia.
    apply Z.div_small. ranges.
  - rewrite shl_shr by lia. rewrite (Z.mod_small (2 ^ (csize c - k) - 1)).
    + rewrite <- Z.land_ones by lia. f_equal. rewrite Z.ones_equiv. lia.
    + pose proof (pow2_pos (csize c - k) ltac:(lia)). pose proof (Z.pow_le_mono_r 2 (csize c - k) (csize c) ltac:(lia) ltac:(lia)). lia.
  - pose proof (pow2_pos k ltac:(lia)) as PK. pose proof (Z.pow_lt_mono_r 2 k (csize c) ltac:(lia) ltac:(lia) ltac:(lia)) as LK.
    replace (- 2 ^ k mod 2 ^ csize c) with (2 ^ csize c - 1 - (2 ^ k - 1)) by (apply Zmod_unique with (-1); lia).
    apply (bits_ext (csize c)); [apply modr; lia|apply land_r; ranges|]. intros i I. rewrite shl_bits, Z.land_spec, compl_testbit, ones_bits by ranges.
    destruct (Z.leb_spec k i) as [H|H]; cbn [andb].
    + rewrite shr_bits by lia. replace (i - k + k) with i by lia. replace (i <? k) with false by lia. now rewrite andb_true_r.
    + replace (i <? k) with true by lia. now rewrite andb_false_r.
  - reflexivity.
  - reflexivity.
  - apply (bits_ext (csize c)); [apply rolv_r; [lia|apply rolv_r; ranges]|ranges|]. intros i I. rewrite !rolv_bits by ranges.
    f_equal. rewrite Zminus_mod_idemp_l. symmetry. apply Zmod_unique with (-1); lia.
  - apply (bits_ext (csize c)); [apply rolv_r; ranges|apply land_r; try (apply rolv_r); ranges|]. intros i I. rewrite Z.land_spec, !rolv_bits, Z.land_spec by ranges. reflexivity.
  - apply (bits_ext (csize c)); [apply rolv_r; ranges|apply compl_r, rolv_r; ranges|]. intros i I. pose proof (Z.mod_pos_bound (i - k) (csize c) ltac:(lia)).
    rewrite rolv_bits, !compl_testbit, rolv_bits by (ranges; apply rolv_r; ranges). reflexivity.
Qed.

Lemma C112_parts_pf : forall c k, 2 <= csize c -> 0 < k < csize c -> let n := csize c in
  laws [TVec c; TVec c] [
    cat (slice X 0 k) (slice X k n) ~= X; slice (cat X Y) 0 n ~= X; slice (cat X Y) n (n + n) ~= Y; slice (zxt X k) 0 n ~= X;
    slice (sxt X k) 0 n ~= X] /\
  laws [TVec c; TVec c] [
    slice (X & Y)%api k n ~= slice X k n & slice Y k n; slice (X ^ Y)%api k n ~= slice X k n ^ slice Y k n; slice (~ X)%api k n ~= ~ (slice X k n)] /\
  laws [TVec c; TVec c] [
    slice (X + Y)%api 0 k ~= slice X 0 k + slice Y 0 k; slice (X * Y)%api 0 k ~= slice X 0 k * slice Y 0 k; slice (- X)%api 0 k ~= - slice X 0 k] /\
  laws [TVec c; TVec c] [
    cat X Y & cat Y X ~= cat (X & Y)%api (Y & X)%api; ~ (cat X Y) ~= cat (~ X)%api (~ Y)%api; cat X (lit c 0) ~= zxt X n].
Proof.
  intros c k N K n. assert (N1 : 1 <= csize c) by lia. pose proof (pow2_pos (csize c) ltac:(lia)) as P. subst n. split; [|split; [|split]].
  - each_law2 c. all: change (2 ^ 0) with 1; rewrite ?Z.div_1_r, ?Z.sub_0_r, ?Z.add_simpl_r.
    + pose proof (pow2_pos k ltac:(lia)) as PK. rewrite (Z.mod_small (a / 2 ^ k)).
      * pose proof (Z.div_mod a (2 ^ k) ltac:(lia)). lia.
      * split; [apply Z.div_pos; ranges|]. apply Z.div_lt_upper_bound; [lia|]. rewrite <- Z.pow_add_r by lia. replace (k + (csize c - k)) with (csize c) by lia. apply N0.
    + rewrite Z_mod_plus_full. apply Z.mod_small. apply N0.
    + rewrite Z.div_add, (Z.div_small a), Z.add_0_l by (ranges; lia). apply Z.mod_small. apply N2.
    + apply Z.mod_small. apply N0.
    + rewrite mod_le by lia. apply signed_mod; ranges.
  - each_law2 (BVC (ck c) (csize c - k)).
    all: apply (bits_ext (csize c - k)); [ranges|ranges|]; intros i I; bitspec; rewrite !slice_bits by lia; bitspec; reflexivity.
  - each_law2 (BVC (ck c) k). all: change (2 ^ 0) with 1; rewrite ?Z.div_1_r, ?Z.sub_0_r, ?mod_le by lia; mods; reflexivity.
  - each_law2 (BVC (ck c) (csize c + csize c)).
    + apply (bits_ext (csize c + csize c)); [apply land_r; [lia|..]; apply cat_r; ranges|apply cat_r; ranges|]. intros i I. rewrite Z.land_spec, !cat_bits, !Z.land_spec by ranges. now destruct (i <? csize c).
    + rewrite Z.pow_add_r by lia. ring.
    + rewrite zero_mod. ring.
Qed.

Lemma C112_division_pf : forall c, 1 <= csize c -> ck c <> KSInt ->
  laws [TVec c; TVec c] [(X // Y) * Y + X %% Y ~= X; X - (X // Y) * Y ~= X %% Y; X // lit c 1 ~= X] /\
  laws [TVec c; TVec c] [(Y == lit c 0) || (X %% Y < Y) ~= true_; (Y == lit c 0) || (X // Y <= X) ~= true_; X < Y ~= (X // Y == lit c 0) & (Y != lit c 0)].
Proof.
  intros c N S. assert (SG : is_signed (ck c) = false) by (destruct (ck c); reflexivity || congruence). pose proof (pow2_pos (csize c) ltac:(lia)) as P. split.
  - each_law (TVec c); rewrite ?SG.
    + mods. destruct (Z.eqb_spec a0 0) as [->|H]; [rewrite Z.mul_0_r; apply Z.mod_small; ranges|].
      pose proof (Z.div_mod a a0 H) as D. replace (a / a0 * a0 + a mod a0) with a by lia. apply Z.mod_small; ranges.
    + mods. destruct (Z.eqb_spec a0 0) as [->|H]; [rewrite Z.mul_0_r, Z.sub_0_r; apply Z.mod_small; ranges|].
      pose proof (Z.div_mod a a0 H) as D. replace (a - a / a0 * a0) with (a mod a0) by lia. apply Z.mod_small. pose proof (Z.mod_pos_bound a a0 ltac:(lia)). lia.
    + rewrite (small_mod _ 1) by lia. cbn [Z.eqb]. apply Z.div_1_r.
  - each_law TBit; rewrite ?SG, ?zero_mod; destruct (Z.eqb_spec a0 0) as [->|H]; cbn [negb orb andb]; try reflexivity.
    + pose proof (Z.mod_pos_bound a a0 ltac:(lia)). lia.
    + assert (a / a0 <= a); [|lia]. apply Z.div_le_upper_bound; nia.
    + rewrite andb_false_r. lia.
    + rewrite andb_true_r. destruct (Z.ltb_spec a a0) as [L|L]; [rewrite Z.div_small by lia; reflexivity|]. pose proof (Z.div_str_pos a a0 ltac:(lia)). lia.
Qed.

Lemma C112_ite_pf : forall c, 1 <= csize c -> let B := Var 0 in let X := Var 1 in let Y := Var 2 in let Z_ := Var 3 in
  laws [TBit; TVec c; TVec c; TVec c] [
    sel B X X ~= X; sel (~ B)%api X Y ~= sel B Y X; sel true_ X Y ~= X; sel B (sel B X Y) Z_ ~= sel B X Z_; sel B X (sel B Y Z_) ~= sel B X Z_;
    sel B X Y + Z_ ~= sel B (X + Z_)%api (Y + Z_)%api; sel B X Y * Z_ ~= sel B (X * Z_)%api (Y * Z_)%api; ~ (sel B X Y) ~= sel B (~ X)%api (~ Y)%api;
    sel (X == Y)%api X Y ~= Y; sel (X < Y)%api X Y ~= sel (Y < X)%api Y X; sel (X < Y)%api X Y + sel (X < Y)%api Y X ~= X + Y].
Proof.
  intros c N B X Y Z_. subst B X Y Z_. each_law (TVec c). all: try (match goal with b : bool |- _ => destruct b; reflexivity end).
  - destruct (Z.eqb_spec a a0); congruence.
  - destruct (is_signed (ck c)); [|iflia]. destruct (signed (csize c) a <? signed (csize c) a0) eqn:E1, (signed (csize c) a0 <? signed (csize c) a) eqn:E2; try lia.
    symmetry. apply (signed_inj (csize c)); ranges.
  - destruct (_ <? _); f_equal; ring.
Qed.

Lemma C112_transfer_pf : forall ts l r t, ety ts l = Some t -> ety ts r = Some t ->
  ((forall cs, Forall2 conc_has cs ts -> conc_ev cs l = conc_ev cs r) <-> equation ts l r) /\
  forall S names v w, faithful S -> Forall sized_ty ts -> NoDup names -> length names = length ts ->
    (smt_ev S (inputs names ts) l = Ok v /\ smt_ev S (inputs names ts) r = Ok w) \/
    (z3_ev S (inputs names ts) l = Ok v /\ z3_ev S (inputs names ts) r = Ok w) ->
    ((forall e, vmeaning e v = vmeaning e w) <-> equation ts l r).
Proof.
  intros ts l r t HL HR.
  assert (TOT : forall cs e, ety ts e = Some t -> Forall2 conc_has cs ts -> exists v, conc_ev cs e = Ok v).
  { intros cs e H T. destruct (constants cs ts T) as (rs & R & E). destruct (ev_simulates _ (smt_call_simulates no_simp no_simp_faithful) e ts rs t H R) as (v & _ & _ & V).
    specialize (V env0). rewrite E in V. eauto. }
  assert (C : (forall cs, Forall2 conc_has cs ts -> conc_ev cs l = conc_ev cs r) <-> equation ts l r).
  { split.
    - intros H. apply (equation_intro ts l r t HL HR). intros cs T. destruct (TOT cs l HL T) as (v & V). exists v. split; [exact V|]. now rewrite <- H.
    - intros (t' & H & _) cs T. destruct (H cs T) as (v & V1 & V2 & _). congruence. }
  split; [exact C|]. intros S names v w F SZ ND LN EV. rewrite <- C. pose proof (inputs_has names ts LN SZ) as IH.
  assert (M : forall e, conc_ev (map (vmeaning e) (inputs names ts)) l = Ok (vmeaning e v) /\ conc_ev (map (vmeaning e) (inputs names ts)) r = Ok (vmeaning e w)).
  { intros e. destruct EV as [[E1 E2]|[E1 E2]].
    - destruct (ev_simulates _ (smt_call_simulates S F) l ts _ t HL IH) as (v' & A1 & _ & A3). destruct (ev_simulates _ (smt_call_simulates S F) r ts _ t HR IH) as (w' & B1 & _ & B3).
      unfold smt_ev in *. rewrite A1 in E1. rewrite B1 in E2. injection E1 as <-. injection E2 as <-. auto.
    - destruct (ev_simulates _ (z3_call_simulates S F) l ts _ t HL IH) as (v' & A1 & _ & A3). destruct (ev_simulates _ (z3_call_simulates S F) r ts _ t HR IH) as (w' & B1 & _ & B3).
      unfold z3_ev in *. rewrite A1 in E1. rewrite B1 in E2. injection E1 as <-. injection E2 as <-. auto. }
  split.
  - intros H cs T. destruct (assign names ts cs ND LN T) as (e & <-). destruct (M e) as [M1 M2]. rewrite M1, M2. now rewrite H.
  - intros H e. destruct (M e) as [M1 M2]. specialize (H _ (meanings_has e _ ts IH)). congruence.
Qed.
