(** Proofs of the theorems stated in FPAlgProps.v. *)
From Coq Require Import Lia ZArith QArith Qpower Qabs ZifyBool Lqa.
From Verif Require Import PyBase BVModel BVSpec BVFacts BVOps FPModel FPSpec FPRoundFacts FPPatFacts FPEncFacts FPDecFacts FPBracket FPQFacts FPRoundSpec FPInst FPArith FPMore FPProofs FPAlgFacts.
Open Scope Z_scope.



Lemma bin_inst f h x y z : In h [fp_add; fp_sub; fp_mul; fp_div; fp_rem; fp_min; fp_max] -> instance f x -> instance f y ->
  h x (AFP y) = Ok z -> instance f z.
Proof. intros H I1 I2 E. apply (I_bin f h x (AFP y) z H I1); [intros v X; congruence|intros v X; discriminate|exact E]. Qed.

Lemma inst_good f x : wide f -> instance f x -> good f x.
Proof. intros W H. now apply instance_good. Qed.

Lemma le_of f z z' e e' : wide f -> instance f z -> instance f z' -> xvalue z e -> xvalue z' e' -> ext_le e e' ->
  fp_leq z (AFP z') = Ok true.
Proof.
  intros W I1 I2 X X' L. destruct (C70_order_pf f z z' e e' W I1 I2 X X') as (lt & le & gt & ge & eq & ne & _ & H & _ & _ & _ & _ & _ & HL & _).
  rewrite H. f_equal. apply HL. exact L.
Qed.

Lemma ext_le_refl e e' : ext_eq e e' -> ext_le e e'.
Proof. intros H. right. exact H. Qed.

Lemma ext_eq_refl e : ext_eq e e.
Proof. destruct e; cbn; [reflexivity|lra]. Qed.

Lemma mono_op f x y z z' a b q q' : wide f -> instance f x -> instance f y -> instance f z -> instance f z' ->
  fvalue x a -> fvalue y b -> (a <= b)%Q -> correct f q z -> correct f q' z' -> (x = y -> z = z') ->
  ((a < b)%Q -> (q < q')%Q) -> ((a == 0)%Q -> (b == 0)%Q -> (q == q')%Q /\ repv f q) -> fp_leq z (AFP z') = Ok true.
Proof.
  intros W Ix Iy Iz Iz' VA VB L C C' SAME STR ZER. pose proof (wide_okf f W) as O.
  pose proof (inst_good f x W Ix) as Gx. pose proof (inst_good f y W Iy) as Gy. pose proof (inst_good f z W Iz) as Gz. pose proof (inst_good f z' W Iz') as Gz'.
  destruct (correct_x f q z W Gz C) as (e & X & R). destruct (correct_x f q' z' W Gz' C') as (e' & X' & R').
  apply (le_of f z z' e e' W Iz Iz' X X'). destruct (Qlt_le_dec a b) as [S|S].
  - exact (rx_mono f q q' e e' W (STR S) R R').
  - destruct (Qeq_dec a 0) as [Z|NZ].
    + destruct (ZER Z ltac:(lra)) as [E RV]. pose proof (rx_exact f q e W R RV) as E1.
      pose proof (rx_exact f q' e' W R' (repv_wd f q q' E RV)) as E2. destruct e as [s|v], e' as [s'|v']; cbn [ext_eq] in *; try contradiction.
      right. cbn. lra.
    + pose proof (same_object_nz f x y a b W Gx Gy VA VB ltac:(lra) NZ) as XY. specialize (SAME XY). subst z'.
      destruct e as [s|v], e' as [s'|v']; cbn [xvalue] in X, X'.
      * right. cbn. destruct X as [_ X], X' as [_ X']. congruence.
      * exfalso. destruct X as [X _], X' as (v2 & X' & _). unfold fp_is_infinite in X. destruct (fv_val z); discriminate.
      * exfalso. destruct X' as [X' _], X as (v2 & X & _). unfold fp_is_infinite in X'. destruct (fv_val z); discriminate.
      * right. cbn. destruct X as (v1 & X1 & X2), X' as (v2 & X1' & X2'). rewrite X1 in X1'. injection X1' as ->. lra.
Qed.

Lemma exact_of f q z w : wide f -> instance f z -> instance f w -> fvalue w q -> correct f q z -> fvalue z q.
Proof.
  intros W Iz Iw VW C. pose proof (wide_okf f W) as O. destruct (correct_x f q z W (inst_good f z W Iz) C) as (e & X & R).
  pose proof (rx_exact f q e W R (value_repv f w q O (inst_good f w W Iw) VW)) as E. destruct e as [s|v]; cbn [ext_eq xvalue] in *; [contradiction|].
  destruct X as (v' & X1 & X2). exists v'. split; [exact X1|lra].
Qed.

Lemma fvalue_wd x q q' : (q == q')%Q -> fvalue x q -> fvalue x q'.
Proof. intros E (v & H1 & H2). exists v. split; [exact H1|lra]. Qed.

Lemma fvalue_eq x q q' : fvalue x q -> fvalue x q' -> (q == q')%Q.
Proof. intros (v & H1 & H2) (v' & H1' & H2'). rewrite H1 in H1'. injection H1' as ->. lra. Qed.

Lemma unit_mult f x a : wide f -> instance f x -> fvalue x a -> exists k, (a == inject_Z k * unit f)%Q.
Proof.
  intros W Ix V. pose proof (wide_okf f W) as O. destruct (value_rep f x a O (inst_good f x W Ix) V) as (_ & _ & R & Q).
  destruct (rep_inv f _ O R) as (s & k & _ & _ & VB). eexists. rewrite <- Q. exact VB.
Qed.

Lemma unit_rep f (s : bool) : wide f -> f_ieee f = true -> repv f (if s then - unit f else unit f)%Q.
Proof.
  intros W I1. pose proof (wide_okf f W) as O. pose proof (IM_range f O) as (R1 & _). pose proof (IM_big f W) as IB. pose proof O as [O1 O2].
  pose proof (pow2_pos (f_mb f) ltac:(lia)) as PM.
  assert (R : repm f 1) by (split; [lia|intros; congruence]). exists (enc f s 1). split; [now apply rep_intro|].
  unfold enc. rewrite pat_value_W by (auto; now apply repm_range). unfold FPQFacts.W.
  assert (P2 : 1 < 2 ^ f_mb f) by (apply Z.pow_gt_1; lia). rewrite V_sub by lia.
  destruct s; cbn [sgnz]; [change (inject_Z (- (1))) with (- (1))%Q|change (inject_Z 1) with 1%Q]; ring.
Qed.

Lemma fv0 f x : wide f -> instance f x -> (fp_is_zero x = true <-> fvalue x 0).
Proof.
  intros W Ix. unfold fp_is_zero. split.
  - intros H. destruct (fv_val x) as [s|s|s|s m E] eqn:EV; try discriminate. exists 0%Q. rewrite EV. split; reflexivity.
  - intros H. pose proof (fnum_val f x 0 (wide_okf f W) (inst_good f x W Ix) H) as N. unfold fnum in N.
    destruct (nval_zero _ _ N (Qeq_refl 0)) as [s E]. destruct (fv_val x) as [t|t|t|t m e]; cbn in E; try discriminate; auto.
    destruct (_ <=? _) in E; discriminate.
Qed.

Lemma rat_value f x s n d : wide f -> good f x -> fnum x = NRat s n d ->
  0 < n /\ 0 < d /\ fvalue x (ratq s n d) /\ ~ (ratq s n d == 0)%Q.
Proof.
  intros W G E. pose proof (wide_okf f W) as O. pose proof (fnum_ok f x O G) as OK. rewrite E in OK. destruct OK as [Hn Hd].
  split; [exact Hn|]. split; [exact Hd|]. split; [|now apply ratq_nz].
  assert (X : exists q, fvalue x q).
  { unfold fnum in E. destruct (fv_val x) as [t|t|t|t m e] eqn:EV; try discriminate. eexists. eexists. rewrite EV. split; [reflexivity|apply Qeq_refl]. }
  destruct X as (q & X). pose proof (fnum_val f x q O G X) as N. rewrite E in N. inversion N; subst. apply (fvalue_wd x q); auto.
Qed.

Lemma cmp_same f x y s n d s' n' d' : wide f -> good f x -> good f y -> fnum x = NRat s n d -> fnum y = NRat s' n' d' ->
  sgnz s n * d' = sgnz s' n' * d -> x = y.
Proof.
  intros W G G' E E' H. destruct (rat_value f x s n d W G E) as (Hn & Hd & V & NZ). destruct (rat_value f y s' n' d' W G' E') as (Hn' & Hd' & V' & NZ').
  apply (same_object_nz f x y _ _ W G G' V V'); [|exact NZ]. rewrite !ratq_z by assumption.
  pose proof (inj_nz d Hd). pose proof (inj_nz d' Hd'). field_simplify_eq; [|split; assumption].
  rewrite <- !inject_Z_mult. rewrite H, (Z.mul_comm d). reflexivity.
Qed.

Lemma minmax_comm f x y : wide f -> good f x -> good f y ->
  num_min (fnum x) (fnum y) = num_min (fnum y) (fnum x) /\ num_max (fnum x) (fnum y) = num_max (fnum y) (fnum x).
Proof.
  intros W G G'. destruct (fnum x) as [s|s|s|s n d] eqn:E, (fnum y) as [s'|s'|s'|s' n' d'] eqn:E'; cbn [num_min num_max num_cmp cmp_le];
    try (split; reflexivity); try (destruct s, s'; split; reflexivity); try (destruct s; split; reflexivity); try (destruct s'; split; reflexivity).
  rewrite (Z.compare_antisym (sgnz s n * d')). destruct (Z.compare_spec (sgnz s n * d') (sgnz s' n' * d)) as [H|H|H]; cbn [CompOpp]; try (split; reflexivity).
  pose proof (cmp_same f x y _ _ _ _ _ _ W G G' E E' H) as X. subst y. rewrite E in E'. rewrite E'. split; reflexivity.
Qed.

Lemma C110_commutative_pf : forall f x y w,
  wide f -> instance f x -> instance f y -> instance f w ->
  fp_add x (AFP y) = fp_add y (AFP x) /\ fp_mul x (AFP y) = fp_mul y (AFP x) /\
  fp_min x (AFP y) = fp_min y (AFP x) /\ fp_max x (AFP y) = fp_max y (AFP x) /\
  fp_fma x (AFP y) (AFP w) = fp_fma y (AFP x) (AFP w) /\
  exists z, fp_add x (AFP y) = Ok z.
Proof.
  intros f x y w W Ix Iy Iw. pose proof (inst_good f x W Ix) as G. pose proof (inst_good f y W Iy) as G'. pose proof (inst_good f w W Iw) as G''.
  unfold fp_add, fp_mul, fp_min, fp_max. rewrite !(arith_eq f) by auto using add_ok, mul_ok, min_ok, max_ok.
  destruct (minmax_comm f x y W G G') as [M1 M2]. rewrite (num_add_comm _ (fnum x)), (num_mul_comm (fnum x)), M1, M2. repeat (split; [reflexivity|]).
  split; [|eexists; reflexivity]. unfold fp_fma. cbn [fp_coerce]. destruct G as (F & _), G' as (F' & _), G'' as (F'' & _). rewrite F, F', F''.
  rewrite !fmt_eqb_refl. cbn [negb bind]. unfold num_fma. rewrite (num_mul_comm (fnum x)). reflexivity.
Qed.

Lemma C110_associative_refuted_pf : exists f x y w,
  wide f /\ f_ieee f = true /\ instance f x /\ instance f y /\ instance f w /\
  bind (fp_add x (AFP y)) (fun s => fp_add s (AFP w)) <> bind (fp_add y (AFP w)) (fun s => fp_add x (AFP s)) /\
  bind (fp_add x (AFP y)) (fun s => fp_mul s (AFP w)) <>
  bind (fp_mul x (AFP w)) (fun p => bind (fp_mul y (AFP w)) (fun q => fp_add p (AFP q))).
Proof.
  exists (Fmt 5 10 RNE true), (fp_init (Fmt 5 10 RNE true) (NRat false 2048 1)), (fp_init (Fmt 5 10 RNE true) (NRat false 1 1)), (fp_init (Fmt 5 10 RNE true) (NRat false 5 1)).
  split; [split; cbn; lia|]. split; [reflexivity|]. do 3 (split; [apply I_init; split; reflexivity|]). split; intros H; vm_compute in H; discriminate.
Qed.

Lemma C110_exact_pf : forall f x y w a b c v,
  wide f -> instance f x -> instance f y -> instance f w -> instance f v ->
  fvalue x a -> fvalue y b -> fvalue w c ->
  (fvalue v (a + b) -> exists z, fp_add x (AFP y) = Ok z /\ fvalue z (a + b)) /\
  (fvalue v (a - b) -> exists z, fp_sub x (AFP y) = Ok z /\ fvalue z (a - b)) /\
  (fvalue v (a * b) -> exists z, fp_mul x (AFP y) = Ok z /\ fvalue z (a * b)) /\
  (~ (b == 0)%Q -> fvalue v (a / b) -> exists z, fp_div x (AFP y) = Ok z /\ fvalue z (a / b)) /\
  (fvalue v (a * b + c) -> exists z, fp_fma x (AFP y) (AFP w) = Ok z /\ fvalue z (a * b + c)).
Proof.
  intros f x y w a b c v W Ix Iy Iw Iv VA VB VC.
  destruct (C71_arithmetic_pf f x y a b W Ix Iy VA VB) as ((z1 & E1 & C1) & (z2 & E2 & C2) & (z3 & E3 & C3) & C4).
  destruct (C71_fma_pf f x y w a b c W Ix Iy Iw VA VB VC) as (z5 & E5 & C5).
  split; [|split; [|split; [|split]]].
  - intros V. exists z1. split; [exact E1|]. apply (exact_of f _ z1 v W); auto. apply (bin_inst f fp_add x y); auto. cbn; tauto.
  - intros V. exists z2. split; [exact E2|]. apply (exact_of f _ z2 v W); auto. apply (bin_inst f fp_sub x y); auto. cbn; tauto.
  - intros V. exists z3. split; [exact E3|]. apply (exact_of f _ z3 v W); auto. apply (bin_inst f fp_mul x y); auto. cbn; tauto.
  - intros NZ V. destruct (C4 NZ) as (z4 & E4 & C4'). exists z4. split; [exact E4|]. apply (exact_of f _ z4 v W); auto. apply (bin_inst f fp_div x y); auto. cbn; tauto.
  - intros V. exists z5. split; [exact E5|]. apply (exact_of f _ z5 v W); auto.
    apply (I_fma f x (AFP y) (AFP w)); auto; [intros u [X|X]; injection X as <-; assumption|intros u [X|X]; discriminate].
Qed.

Lemma C110_identities_pf : forall f x zero one a,
  wide f -> instance f x -> instance f zero -> instance f one ->
  fvalue x a -> fvalue zero 0 -> fvalue one 1 ->
  fp_mul x (AFP one) = Ok x /\ fp_div x (AFP one) = Ok x /\
  (~ (a == 0)%Q -> fp_add x (AFP zero) = Ok x /\ fp_sub x (AFP zero) = Ok x) /\
  (exists z, fp_sub x (AFP x) = Ok z /\ fp_is_zero z = true) /\
  (exists z, fp_add x (AFP (fp_neg x)) = Ok z /\ fp_is_zero z = true) /\
  (exists z, fp_mul x (AFP zero) = Ok z /\ fp_is_zero z = true) /\
  (~ (a == 0)%Q -> fp_div x (AFP x) = Ok one).
Proof.
  intros f x zero one a W Ix I0 I1 VA V0 V1. pose proof (wide_okf f W) as O.
  pose proof (inst_good f x W Ix) as G. pose proof (inst_good f one W I1) as G1. pose proof (inst_good f zero W I0) as G0.
  destruct (C71_zero_sign_pf f x one a 1 W Ix I1 VA V1) as (_ & _ & _ & _ & SM & SD & _).
  assert (S1 : is_signed (fv_val one) = false).
  { pose proof (value_signed f one 1 O G1 V1 ltac:(discriminate)) as S. destruct (is_signed (fv_val one)); [|reflexivity]. destruct S as [S _]. specialize (S eq_refl). lra. }
  assert (OP : forall h z q, In h [fp_add; fp_sub; fp_mul; fp_div; fp_rem; fp_min; fp_max] -> forall y, instance f y -> h x (AFP y) = Ok z -> correct f q z -> (q == a)%Q -> fvalue z a).
  { intros h z q H y Iy E C Q. apply (fvalue_wd z q); [exact Q|]. apply (exact_of f q z x W); auto; [apply (bin_inst f h x y); auto|]. apply (fvalue_wd x a); [lra|exact VA]. }
  assert (ZZ : forall h z q, In h [fp_add; fp_sub; fp_mul; fp_div; fp_rem; fp_min; fp_max] -> forall y, instance f y -> h x (AFP y) = Ok z -> correct f q z -> (q == 0)%Q -> fp_is_zero z = true).
  { intros h z q H y Iy E C Q. assert (Iz : instance f z) by (apply (bin_inst f h x y); auto). apply (fv0 f z W Iz). apply (fvalue_wd z q); [exact Q|].
    apply (exact_of f q z zero W); auto. apply (fvalue_wd zero 0); [lra|exact V0]. }
  assert (SAME : forall h z q, In h [fp_add; fp_sub; fp_mul; fp_div; fp_rem; fp_min; fp_max] -> forall y, instance f y -> h x (AFP y) = Ok z -> correct f q z -> (q == a)%Q ->
     ~ (a == 0)%Q -> z = x).
  { intros h z q H y Iy E C Q NZ. symmetry. apply (same_object_nz f x z a a W G); auto; [|eapply OP; eauto|lra].
    apply (inst_good f z W). apply (bin_inst f h x y); auto. }
  destruct (C71_arithmetic_pf f x one a 1 W Ix I1 VA V1) as (_ & _ & (z3 & E3 & C3) & C4). destruct (C4 ltac:(discriminate)) as (z4 & E4 & C4'). clear C4.
  destruct (C71_arithmetic_pf f x zero a 0 W Ix I0 VA V0) as ((y1 & F1 & D1) & (y2 & F2 & D2) & (y3 & F3 & D3) & _).
  destruct (C71_arithmetic_pf f x x a a W Ix Ix VA VA) as (_ & (u2 & H2 & K2) & _ & U4).
  split; [|split; [|split; [|split; [|split; [|split]]]]].
  - destruct (Qeq_dec a 0) as [Z|NZ].
    + rewrite SM by (rewrite Z; reflexivity). rewrite S1, xorb_false_r. f_equal.
      pose proof (fnum_val f x a O G VA) as N. destruct (nval_zero _ _ N Z) as [s E]. destruct G as (F & _). clear - E F.
      destruct x as [fx vx]. cbn in *. subst fx. unfold fnum in E. cbn [fv_val fv_fmt] in E. destruct vx as [t|t|t|t m e]; cbn [mnum] in E; try discriminate; [reflexivity|].
      destruct (_ <=? _) in E; discriminate.
    + rewrite E3. f_equal. apply (SAME fp_mul z3 (a * 1)%Q) with (y := one); auto; [cbn; tauto|ring].
  - destruct (Qeq_dec a 0) as [Z|NZ].
    + rewrite (SD Z ltac:(discriminate)). rewrite S1, xorb_false_r. f_equal.
      pose proof (fnum_val f x a O G VA) as N. destruct (nval_zero _ _ N Z) as [s E]. destruct G as (F & _). clear - E F.
      destruct x as [fx vx]. cbn in *. subst fx. unfold fnum in E. cbn [fv_val fv_fmt] in E. destruct vx as [t|t|t|t m e]; cbn [mnum] in E; try discriminate; [reflexivity|].
      destruct (_ <=? _) in E; discriminate.
    + rewrite E4. f_equal. apply (SAME fp_div z4 (a / 1)%Q) with (y := one); auto; [cbn; tauto|field].
  - intros NZ. rewrite F1, F2. split; f_equal.
    + apply (SAME fp_add y1 (a + 0)%Q) with (y := zero); auto; [cbn; tauto|ring].
    + apply (SAME fp_sub y2 (a - 0)%Q) with (y := zero); auto; [cbn; tauto|ring].
  - exists u2. split; [exact H2|]. apply (ZZ fp_sub u2 (a - a)%Q) with (y := x); auto; [cbn; tauto|ring].
  - assert (VN : fvalue (fp_neg x) (- a)).
    { destruct (value_rep f x a O G VA) as (NN & _). destruct (neg_good f x W G NN) as [-> _]. destruct VA as (v & VA1 & VA2). destruct G as (F & _). rewrite F in VA1.
      destruct (fv_val x) as [s|s|s|s m E]; cbn [mpfr_value] in VA1; try discriminate; injection VA1 as <-.
      - exists 0%Q. split; [reflexivity|lra].
      - eexists. split; [reflexivity|]. cbn [fv_fmt]. rewrite <- VA2. destruct s; cbn [negb sgnq]; ring. }
    assert (IN : instance f (fp_neg x)) by now apply I_neg.
    destruct (C71_arithmetic_pf f x (fp_neg x) a (- a) W Ix IN VA VN) as ((n1 & N1 & M1) & _). exists n1. split; [exact N1|].
    apply (ZZ fp_add n1 (a + - a)%Q) with (y := fp_neg x); auto; [cbn; tauto|ring].
  - exists y3. split; [exact F3|]. apply (ZZ fp_mul y3 (a * 0)%Q) with (y := zero); auto; [cbn; tauto|ring].
  - intros NZ. destruct (U4 NZ) as (u4 & H4 & K4). rewrite H4. f_equal. assert (Iu : instance f u4) by (apply (bin_inst f fp_div x x); auto; cbn; tauto).
    assert (Q1 : (a / a == 1)%Q) by (field; exact NZ).
    assert (VU : fvalue u4 1).
    { apply (fvalue_wd u4 (a / a)%Q); [exact Q1|]. apply (exact_of f _ u4 one W); auto. apply (fvalue_wd one 1); [lra|exact V1]. }
    apply (same_object_nz f u4 one 1 1 W); auto; [now apply inst_good|lra|discriminate].
Qed.

Lemma C110_monotone_pf : forall f x y w a b c,
  wide f -> instance f x -> instance f y -> instance f w ->
  fvalue x a -> fvalue y b -> fvalue w c -> (a <= b)%Q ->
  (exists z z', fp_add x (AFP w) = Ok z /\ fp_add y (AFP w) = Ok z' /\ fp_leq z (AFP z') = Ok true) /\
  (exists z z', fp_sub x (AFP w) = Ok z /\ fp_sub y (AFP w) = Ok z' /\ fp_leq z (AFP z') = Ok true) /\
  (exists z z', fp_sub w (AFP y) = Ok z /\ fp_sub w (AFP x) = Ok z' /\ fp_leq z (AFP z') = Ok true) /\
  ((0 < c)%Q ->
   (exists z z', fp_mul x (AFP w) = Ok z /\ fp_mul y (AFP w) = Ok z' /\ fp_leq z (AFP z') = Ok true) /\
   (exists z z', fp_div x (AFP w) = Ok z /\ fp_div y (AFP w) = Ok z' /\ fp_leq z (AFP z') = Ok true)).
Proof.
  intros f x y w a b c W Ix Iy Iw VA VB VC L. pose proof (wide_okf f W) as O.
  pose proof (value_repv f w c O (inst_good f w W Iw) VC) as RC. pose proof (repv_0 f O) as R0.
  assert (RM : repv f (- c)).
  { destruct RC as (p & R & V). destruct (rep_inv f p O R) as (s & k & _ & RK & VB'). exists (enc f (negb s) k). split; [now apply rep_intro|].
    unfold enc. rewrite pat_value_W by (auto; now apply repm_range).
    assert (E : (inject_Z (FPQFacts.W f (negb s) k) == - inject_Z (FPQFacts.W f s k))%Q) by (unfold FPQFacts.W, sgnz; destruct s; cbn [negb]; rewrite inject_Z_opp; ring).
    rewrite E, <- V, VB'. ring. }
  destruct (C71_arithmetic_pf f x w a c W Ix Iw VA VC) as ((z1 & E1 & C1) & (z2 & E2 & C2) & (z3 & E3 & C3) & C4).
  destruct (C71_arithmetic_pf f y w b c W Iy Iw VB VC) as ((z1' & E1' & C1') & (z2' & E2' & C2') & (z3' & E3' & C3') & C4').
  destruct (C71_arithmetic_pf f w y c b W Iw Iy VC VB) as (_ & (s1 & F1 & D1) & _).
  destruct (C71_arithmetic_pf f w x c a W Iw Ix VC VA) as (_ & (s2 & F2 & D2) & _).
  assert (INS : forall h p q r, In h [fp_add; fp_sub; fp_mul; fp_div; fp_rem; fp_min; fp_max] -> instance f p -> instance f q -> h p (AFP q) = Ok r -> instance f r)
    by (intros h p q r H Ip Iq E; exact (bin_inst f h p q r H Ip Iq E)).
  split; [|split; [|split]].
  - exists z1, z1'. split; [exact E1|]. split; [exact E1'|].
    apply (mono_op f x y z1 z1' a b (a + c) (b + c)); auto; [apply (INS fp_add x w); auto; cbn; tauto|apply (INS fp_add y w); auto; cbn; tauto|..].
    + intros ->. congruence.
    + intros; lra.
    + intros Z1 Z2. split; [lra|]. apply (repv_wd f c); [lra|exact RC].
  - exists z2, z2'. split; [exact E2|]. split; [exact E2'|].
    apply (mono_op f x y z2 z2' a b (a - c) (b - c)); auto; [apply (INS fp_sub x w); auto; cbn; tauto|apply (INS fp_sub y w); auto; cbn; tauto|..].
    + intros ->. congruence.
    + intros; lra.
    + intros Z1 Z2. split; [lra|]. apply (repv_wd f (- c)); [lra|exact RM].
  - exists s1, s2. split; [exact F1|]. split; [exact F2|].
    apply (mono_op f x y s1 s2 a b (c - b) (c - a)); auto; [apply (INS fp_sub w y); auto; cbn; tauto|apply (INS fp_sub w x); auto; cbn; tauto|..].
    + intros ->. congruence.
    + intros; lra.
    + intros Z1 Z2. split; [lra|]. apply (repv_wd f c); [lra|exact RC].
  - intros PC. split.
    + exists z3, z3'. split; [exact E3|]. split; [exact E3'|].
      apply (mono_op f x y z3 z3' a b (a * c) (b * c)); auto; [apply (INS fp_mul x w); auto; cbn; tauto|apply (INS fp_mul y w); auto; cbn; tauto|..].
      * intros ->. congruence.
      * intros H. apply Qmult_lt_compat_r; assumption.
      * intros Z1 Z2. split; [rewrite Z1, Z2; reflexivity|]. apply (repv_wd f 0); [rewrite Z1; ring|exact R0].
    + assert (NZ : ~ (c == 0)%Q) by lra. destruct (C4 NZ) as (z4 & E4 & K4). destruct (C4' NZ) as (z4' & E4' & K4').
      exists z4, z4'. split; [exact E4|]. split; [exact E4'|].
      apply (mono_op f x y z4 z4' a b (a / c) (b / c)); auto; [apply (INS fp_div x w); auto; cbn; tauto|apply (INS fp_div y w); auto; cbn; tauto|..].
      * intros ->. congruence.
      * intros H. apply Qlt_shift_div_l; [exact PC|]. apply Qle_lt_trans with a; [|exact H]. apply Qle_lteq. right. field. exact NZ.
      * intros Z1 Z2. split; [rewrite Z1, Z2; reflexivity|]. apply (repv_wd f 0); [rewrite Z1; field; exact NZ|exact R0].
Qed.

Lemma C110_monotone_conversion_pf : forall f p q a b,
  wide f -> num_value p a -> num_value q b -> (a < b)%Q -> fp_leq (fp_init f p) (AFP (fp_init f q)) = Ok true.
Proof.
  intros f p q a b W HA HB L.
  assert (NV : forall p a, num_value p a -> nval p a).
  { intros r c H. destruct r as [s|s|s|s n d]; cbn [num_value] in H; try contradiction; [now constructor|]. destruct H as (H1 & H2 & H3). now constructor. }
  apply NV in HA, HB. pose proof (nval_ok _ _ HA) as OA. pose proof (nval_ok _ _ HB) as OB.
  assert (Ip : instance f (fp_init f p)) by now apply I_init. assert (Iq : instance f (fp_init f q)) by now apply I_init.
  destruct (correct_x f a _ W (inst_good f _ W Ip) (init_correct f p a W HA)) as (e & X & R).
  destruct (correct_x f b _ W (inst_good f _ W Iq) (init_correct f q b W HB)) as (e' & X' & R').
  apply (le_of f _ _ e e' W Ip Iq X X'). exact (rx_mono f a b e e' W L R R').
Qed.

Lemma C110_sub_zero_pf : forall f x y a b,
  wide f -> f_ieee f = true -> instance f x -> instance f y -> fvalue x a -> fvalue y b ->
  exists z e, fp_sub x (AFP y) = Ok z /\ fp_eq x (AFP y) = Ok e /\ fp_is_zero z = e.
Proof.
  intros f x y a b W IE Ix Iy VA VB. pose proof (wide_okf f W) as O.
  destruct (C71_arithmetic_pf f x y a b W Ix Iy VA VB) as (_ & (z & E & C) & _).
  destruct (C70_order_pf f x y (XFin a) (XFin b) W Ix Iy VA VB) as (lt & le & gt & ge & eq & ne & _ & _ & _ & _ & EQ & _ & _ & _ & _ & _ & HE & _).
  exists z, eq. split; [exact E|]. split; [exact EQ|]. cbn [ext_eq] in HE.
  assert (Iz : instance f z) by (apply (bin_inst f fp_sub x y); auto; cbn; tauto).
  apply Bool.eq_iff_eq_true. rewrite HE, (fv0 f z W Iz). destruct (correct_x f _ z W (inst_good f z W Iz) C) as (e & X & R).
  destruct (unit_mult f x a W Ix VA) as (k & K). destruct (unit_mult f y b W Iy VB) as (k' & K').
  pose proof (pow2q_pos (1 - bias f - f_mb f)) as UP. fold (FPQFacts.unit f) in UP. split.
  - intros Z. destruct (Qeq_dec a b) as [AB|AB]; [exact AB|exfalso].
    destruct e as [s|v]; cbn [xvalue] in X.
    { destruct X as [X _]. unfold fp_is_infinite in X. destruct Z as (q & Z & _). destruct (fv_val z); discriminate. }
    pose proof (fvalue_eq z 0 v Z X) as V0.
    assert (KK : k <> k') by (intros ->; apply AB; rewrite K, K'; reflexivity).
    assert (D : (a - b == inject_Z (k - k') * FPQFacts.unit f)%Q) by (rewrite K, K', inj_sub; ring).
    destruct (Z_lt_le_dec k k') as [LT|GE].
    + assert (Q : (a - b <= - FPQFacts.unit f)%Q).
      { rewrite D. assert (J : (inject_Z (k - k') <= inject_Z (- (1)))%Q) by (rewrite <- Zle_Qle; lia). apply Qle_trans with (inject_Z (- (1)) * FPQFacts.unit f)%Q.
        - apply Qmult_le_compat_r; [exact J|lra].
        - apply Qle_lteq. right. change (inject_Z (- (1))) with (- (1))%Q. ring. }
      pose proof (rx_above f _ _ _ W R (unit_rep f true W IE) Q) as LE. destruct LE as [LE|LE]; cbn in LE; lra.
    + assert (Q : (FPQFacts.unit f <= a - b)%Q).
      { rewrite D. assert (J : (inject_Z 1 <= inject_Z (k - k'))%Q) by (rewrite <- Zle_Qle; lia). apply Qle_trans with (inject_Z 1 * FPQFacts.unit f)%Q.
        - apply Qle_lteq. right. change (inject_Z 1) with 1%Q. ring.
        - apply Qmult_le_compat_r; [exact J|lra]. }
      pose proof (rx_below f _ _ _ W R (unit_rep f false W IE) Q) as LE. destruct LE as [LE|LE]; cbn in LE; lra.
  - intros AB. pose proof (rx_exact f _ _ W R) as RE. destruct e as [s|v].
    + exfalso. apply RE. apply (repv_wd f 0); [lra|now apply repv_0].
    + cbn [xvalue ext_eq] in *. apply (fvalue_wd z v); [|exact X]. rewrite RE; [lra|]. apply (repv_wd f 0); [lra|now apply repv_0].
Qed.

Lemma C110_sub_zero_refuted_pf : exists f x y z,
  wide f /\ f_ieee f = false /\ instance f x /\ instance f y /\ fp_eq x (AFP y) = Ok false /\
  fp_sub x (AFP y) = Ok z /\ fp_is_zero z = true.
Proof.
  exists (Fmt 5 10 RNE false), (fp_init (Fmt 5 10 RNE false) (NRat false 1025 (2 ^ 24))), (fp_init (Fmt 5 10 RNE false) (NRat false 1024 (2 ^ 24))),
    (FPV (Fmt 5 10 RNE false) (MZero false)).
  split; [split; cbn; lia|]. split; [reflexivity|]. do 2 (split; [apply I_init; split; reflexivity|]). repeat split; vm_compute; reflexivity.
Qed.

Lemma C110_subtraction_pf : forall f x y, wide f -> instance f x -> instance f y ->
  fp_sub x (AFP y) = fp_add x (AFP (fp_neg y)) /\
  (fp_is_NaN x = false -> fp_neg (fp_neg x) = x) /\ (fp_is_NaN x = true -> fp_is_NaN (fp_neg x) = true).
Proof.
  intros f x y W Ix Iy. pose proof (inst_good f x W Ix) as G. pose proof (inst_good f y W Iy) as G'.
  assert (NN : forall z, good f z -> is_nan (fv_val z) = true -> exists s, fp_neg z = FPV f (MNaN s)).
  { intros z GZ N. rewrite (neg_eq z f W GZ). pose proof GZ as (F & _ & IE). unfold fnum. rewrite F. destruct (fv_val z) as [s|s|s|s m E]; try discriminate.
    exists (negb s). unfold fp_init, fp_store. cbn. destruct (f_ieee f); [reflexivity|]. specialize (IE eq_refl). discriminate. }
  split; [|split].
  - pose proof G as (F & _). pose proof G' as (F' & _). unfold fp_sub, fp_add, arith, fp_cast, fp_coerce.
    assert (FN : fv_fmt (fp_neg y) = f).
    { rewrite (neg_eq y f W G'). unfold fp_init, fp_store. destruct (_ && _); reflexivity. }
    rewrite FN, F', F. destruct (negb (fmt_eqb f f)); [reflexivity|]. cbn [bind]. do 2 f_equal. unfold num_sub.
    destruct (is_nan (fv_val y)) eqn:NY.
    + destruct (NN y G' NY) as (s & E). rewrite E. unfold fnum at 2 4. cbn [fv_fmt fv_val mnum]. destruct (fv_val y) as [t|t|t|t m e]; try discriminate. cbn [mnum num_neg].
      destruct (fnum x); reflexivity.
    + destruct (neg_good f y W G' NY) as (E & _). f_equal. rewrite E. unfold fnum. cbn [fv_fmt fv_val]. rewrite F'.
      destruct (fv_val y) as [t|t|t|t m e]; try discriminate; try reflexivity. unfold mnum. destruct (_ <=? _); reflexivity.
  - intros N. destruct (neg_good f x W G N) as (E & V). pose proof G as (F & _ & IE).
    assert (G2 : good f (fp_neg x)). { rewrite E. split; [reflexivity|]. split; [exact V|]. intros _. cbn [fv_val]. unfold fp_is_NaN in N. destruct (fv_val x); try discriminate; reflexivity. }
    assert (N2 : is_nan (fv_val (fp_neg x)) = false). { rewrite E. cbn [fv_val]. unfold fp_is_NaN in N. destruct (fv_val x); try discriminate; reflexivity. }
    destruct (neg_good f (fp_neg x) W G2 N2) as (E2 & _). rewrite E2, E. cbn [fv_val]. destruct x as [fx v]. cbn [fv_fmt fv_val] in *. subst fx.
    f_equal. unfold fp_is_NaN in N. cbn [fv_val] in N. destruct v as [s|s|s|s m e]; try discriminate; rewrite ?negb_involutive; reflexivity.
  - intros N. destruct (NN x G N) as (s & ->). reflexivity.
Qed.

Lemma C110_negation_pf : forall f x y a b,
  wide f -> In (f_mode f) [RNE; RNA; RTZ] -> instance f x -> instance f y -> fvalue x a -> fvalue y b ->
  (~ (a == b)%Q -> fp_sub y (AFP x) = rmap fp_neg (fp_sub x (AFP y))) /\
  (~ (a + b == 0)%Q -> fp_add (fp_neg x) (AFP (fp_neg y)) = rmap fp_neg (fp_add x (AFP y))) /\
  fp_mul (fp_neg x) (AFP y) = rmap fp_neg (fp_mul x (AFP y)) /\
  (~ (b == 0)%Q -> fp_div (fp_neg x) (AFP y) = rmap fp_neg (fp_div x (AFP y))).
Proof.
  intros f x y a b W SY Ix Iy VA VB. pose proof (wide_okf f W) as O. pose proof (inst_good f x W Ix) as G. pose proof (inst_good f y W Iy) as G'.
  assert (S : symmetric (f_mode f)) by (unfold symmetric; cbn [In] in SY; intuition congruence). clear SY.
  assert (Gn : good f (fp_neg x)) by (apply inst_good; [exact W|now apply I_neg]). assert (Gn' : good f (fp_neg y)) by (apply inst_good; [exact W|now apply I_neg]).
  assert (FN : forall v c, good f v -> fvalue v c -> fnum (fp_neg v) = num_neg (fnum v)).
  { intros v c Gv Vv. destruct (value_rep f v c O Gv Vv) as (NN & _). destruct (neg_good f v W Gv NN) as [-> _]. destruct Gv as (F & _).
    unfold fnum. cbn [fv_fmt fv_val]. rewrite F. destruct (fv_val v) as [s|s|s|s m E]; try reflexivity; [discriminate|]. unfold mnum. destruct (_ <=? _); reflexivity. }
  pose proof (fnum_val f x a O G VA) as NA. pose proof (fnum_val f y b O G' VB) as NB.
  unfold fp_add, fp_sub, fp_mul, fp_div. rewrite !(arith_eq f) by auto using add_ok, sub_ok, mul_ok, div_ok.
  rewrite (FN x a G VA), (FN y b G' VB). cbn [rmap]. split; [|split; [|split]].
  - intros NE. f_equal. rewrite (num_sub_neg _ _ _ a b NA NB NE). eapply init_neg; auto. apply nval_sub; eassumption.
  - intros NE. f_equal. rewrite (num_add_neg _ _ _ a b NA NB NE). eapply init_neg; auto. apply nval_add; eassumption.
  - f_equal. rewrite (num_mul_neg _ _ a b NA NB). eapply init_neg; auto. apply nval_mul; eassumption.
  - intros NE. f_equal. rewrite (num_div_neg _ _ a b NA NB NE). eapply init_neg; auto. apply nval_div; eassumption.
Qed.

Lemma C110_negation_refuted_pf : forall r, In r [RTP; RTN] -> exists f x y,
  f_mode f = r /\ wide f /\ f_ieee f = true /\ instance f x /\ instance f y /\
  fp_eq x (AFP y) = Ok false /\ fp_sub y (AFP x) <> rmap fp_neg (fp_sub x (AFP y)).
Proof.
  intros r H. exists (Fmt 5 10 r true), (fp_init (Fmt 5 10 r true) (NRat false 1 1)), (fp_init (Fmt 5 10 r true) (NRat false 1 4096)).
  split; [reflexivity|]. split; [split; cbn; lia|]. split; [reflexivity|]. do 2 (split; [apply I_init; split; reflexivity|]).
  cbn [In] in H. destruct H as [<-|[<-|[]]]; (split; [vm_compute; reflexivity|intros H; vm_compute in H; discriminate]).
Qed.
