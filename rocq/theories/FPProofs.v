(** Proofs of the theorems stated in FPProps.v. *)
From Coq Require Import Lia ZArith QArith Qpower Qabs ZifyBool.
From Verif Require Import PyBase BVModel BVSpec BVFacts BVOps FPModel FPSpec FPRoundFacts FPPatFacts FPEncFacts FPDecFacts FPBracket FPQFacts FPRoundSpec FPInst FPArith FPMore.
Open Scope Z_scope.



Definition nxval (x : num) (e : ext) : Prop := match e with XInf s => x = NInf s | XFin q => nval x q end.




Lemma C56_bits_pf : forall f k b,
  fmt_ok f = true -> f_ieee f = true -> is_pattern f b ->
  exists x c,
    reinterpret_from_bv f (BV (BVC k (f_size f)) b) = Ok x /\
    reinterpret_as_bv x = Ok (BV (BVC KBV (f_size f)) c) /\
    (~ pat_nan f b -> c = b) /\
    (pat_nan f b -> pat_nan f c /\ fp_is_NaN x = true).
Proof.
  intros f k b FO IE P. apply okf_fmt in FO as O. exists (FPV f (dec f b)), (pat f (dec f b)).
  split; [now apply from_bv_spec|]. split; [apply as_bv_spec; [exact O|now apply dec_wf]|].
  split; [intros N; apply pat_dec; auto; congruence|].
  intros [N1 N2]. assert (D : dec f b = MNaN false).
  { unfold dec. rewrite N1, IE. pose proof (emax_pos f O). replace (all_ones f =? 0) with false by (unfold all_ones; lia).
    unfold all_ones in *. rewrite Z.eqb_refl. replace (pat_man f b =? 0) with false by lia. reflexivity. }
  rewrite D. split; [|reflexivity]. destruct (pat_of f (MNaN false) O I) as (_ & _ & A & B). split; [exact A|]. rewrite B. discriminate.
Qed.

Lemma C56_size_pf : forall f v, bsize v <> f_size f -> reinterpret_from_bv f v = Raise ETypeError.
Proof. intros f v H. unfold reinterpret_from_bv. replace (f_size f =? bsize v) with false by lia. reflexivity. Qed.

Lemma C57_values_partial_pf : forall f x,
  wide f -> instance f x -> fp_is_NaN x = false ->
  exists b, reinterpret_as_bv x = Ok b /\ reinterpret_from_bv f b = Ok x.
Proof.
  intros f x W I N. pose proof (wide_okf f W) as O. destruct (instance_good f x W I) as (F & V & _).
  destruct x as [f' v]. cbn [fv_fmt fv_val] in *. subst f'.
  eexists. split; [now apply as_bv_spec|]. rewrite from_bv_spec; [|exact O|apply pat_of; assumption]. now rewrite dec_pat.
Qed.

Lemma C57_refuted_pf : exists f x,
  fmt_ok f = true /\ f_ieee f = true /\ instance f x /\ fp_is_NaN x = false /\
  ~ exists b, reinterpret_as_bv x = Ok b /\ reinterpret_from_bv f b = Ok x.
Proof.
  exists (Fmt 1 1 RNE true), (fp_init (Fmt 1 1 RNE true) (NRat false 3 2)).
  split; [reflexivity|]. split; [reflexivity|]. split; [constructor; split; reflexivity|]. split; [reflexivity|].
  intros (b & A & B). vm_compute in A. injection A as <-. vm_compute in B. discriminate.
Qed.

Lemma C58_values_partial_pf : forall f x q,
  wide f -> instance f x -> fvalue x q -> exists b, representable f b /\ (pat_value f b == q)%Q.
Proof.
  intros f x q W I (q' & E & Q). pose proof (wide_okf f W) as O. destruct (instance_good f x W I) as (F & V & _). rewrite F in E.
  destruct (value_pat f (fv_val x) O V) as (R & q2 & E2 & Q2).
  - destruct (fv_val x); auto; discriminate.
  - destruct (fv_val x); auto; discriminate.
  - exists (pat f (fv_val x)). split; [exact R|]. rewrite E in E2. injection E2 as E2. rewrite <- Q, E2. now symmetry.
Qed.

Lemma C58_exact_partial_pf : forall f b s n d,
  wide f -> representable f b -> 0 < n -> 0 < d -> (ratq s n d == pat_value f b)%Q ->
  fvalue (fp_init f (NRat s n d)) (pat_value f b).
Proof.
  intros f b s n d W R Hn Hd Q. pose proof (wide_okf f W) as O.
  destruct (init_correct f (NRat s n d) (ratq s n d) W) as (c & A & _ & B); [constructor; auto; reflexivity|].
  specialize (B (ratq_nz s n d Hn Hd)). destruct (rounded_exact f _ c b W R Q B) as [RC VC].
  destruct (init_good f (NRat s n d) W (conj Hn Hd)) as (F & V & N). set (x := fp_init f (NRat s n d)) in *. clearbody x.
  destruct x as [f' v]. cbn [fv_fmt fv_val] in *. subst f'. rewrite as_bv_spec in A by assumption. injection A as A. subst c.
  destruct (pat_of f v O V) as (_ & _ & PF). destruct RC as [[_ RC] _].
  destruct (value_pat f v O V) as (_ & q & E & QV); [destruct v; auto; destruct PF; contradiction..|].
  exists q. cbn [fv_fmt fv_val]. split; [exact E|]. rewrite QV, VC. exact Q.
Qed.

Lemma C58_refuted_pf : exists f x q,
  fmt_ok f = true /\ f_ieee f = true /\ instance f x /\ fvalue x q /\
  ~ exists b, representable f b /\ (pat_value f b == q)%Q.
Proof.
  exists (Fmt 1 1 RNE true), (fp_init (Fmt 1 1 RNE true) (NRat false 3 2)), 2%Q.
  split; [reflexivity|]. split; [reflexivity|]. split; [constructor; split; reflexivity|].
  split; [eexists; split; [vm_compute; reflexivity|vm_compute; reflexivity]|].
  intros (b & [[P E] _] & Q). unfold is_pattern in P. cbn in P.
  assert (C : b = 0 \/ b = 1 \/ b = 2 \/ b = 3 \/ b = 4 \/ b = 5 \/ b = 6 \/ b = 7) by lia.
  repeat destruct C as [->|C]; try (now apply E); try (vm_compute in Q; discriminate). subst b. now apply E.
Qed.

Lemma C59_classes_partial_pf : forall f x,
  wide f -> instance f x ->
  exists sub nor b,
    fp_is_subnormal x = Ok sub /\ fp_is_normal x = Ok nor /\
    reinterpret_as_bv x = Ok (BV (BVC KBV (f_size f)) b) /\
    exactly_one [fp_is_zero x; sub; nor; fp_is_infinite x; fp_is_NaN x] /\
    (fp_is_zero x = true <-> pat_zero f b) /\ (sub = true <-> pat_subnormal f b) /\
    (nor = true <-> pat_normal f b) /\ (fp_is_infinite x = true <-> pat_inf f b) /\
    (fp_is_NaN x = true <-> pat_nan f b).
Proof.
  intros f x W I. pose proof (wide_okf f W) as O. destruct (instance_good f x W I) as (F & V & _).
  destruct x as [f' v]. cbn [fv_fmt fv_val] in *. subst f'. unfold fp_is_normal. rewrite sub_spec by assumption. cbn [bind].
  do 3 eexists. split; [reflexivity|]. split; [reflexivity|]. split; [now apply as_bv_spec|].
  unfold fp_is_zero, fp_is_infinite, fp_is_NaN. cbn [fv_val].
  destruct (pat_of f v O V) as (P & S & H). pose proof (emax_pos f O) as [E1 E2].
  assert (A0 : all_ones f <> 0) by (unfold all_ones; lia).
  unfold pat_zero, pat_subnormal, pat_normal, pat_inf, pat_nan.
  destruct v as [s|s|s|s m E]; cbn [is_zero is_infinite is_nan orb negb].
  1-3: destruct H as [-> ->]; (split; [reflexivity|]); repeat split; intros; try congruence; try tauto; try lia.
  destruct (Z.ltb_spec E (top f)) as [L|L]; cbn [orb negb].
  - destruct H as (-> & -> & H1 & _). split; [reflexivity|]. repeat split; intros; try congruence; try tauto; try lia.
  - destruct H as (-> & -> & H1). split; [reflexivity|]. repeat split; intros; try congruence; try tauto; try lia.
Qed.

Lemma C59_refuted_pf : exists f x,
  fmt_ok f = true /\ instance f x /\ fp_is_normal x = Raise EAssertion.
Proof.
  exists (Fmt 1 2 RTZ false), (fp_init (Fmt 1 2 RTZ false) (NRat false 3 1)).
  split; [reflexivity|]. split; [constructor; split; reflexivity|]. vm_compute. reflexivity.
Qed.

Lemma C60_rounded_partial_pf : forall f s n d,
  wide f -> f_mode f <> RNA -> 0 < n -> 0 < d ->
  exists b, reinterpret_as_bv (fp_init f (NRat s n d)) = Ok (BV (BVC KBV (f_size f)) b) /\
    rounds_to f (f_mode f) (ratq s n d) b.
Proof.
  intros f s n d W M Hn Hd.
  destruct (init_correct f (NRat s n d) (ratq s n d) W) as (c & A & _ & B); [constructor; auto; reflexivity|].
  exists c. split; [exact A|]. specialize (B (ratq_nz s n d Hn Hd)). unfold rounded in B. destruct (f_mode f); auto; congruence.
Qed.

Lemma C60_away_partial_pf : forall f s n d,
  wide f -> f_mode f = RNA -> 0 < n -> 0 < d ->
  exists b, reinterpret_as_bv (fp_init f (NRat s n d)) = Ok (BV (BVC KBV (f_size f)) b) /\
    rounds_away f (ratq s n d) b.
Proof.
  intros f s n d W M Hn Hd.
  destruct (init_correct f (NRat s n d) (ratq s n d) W) as (c & A & _ & B); [constructor; auto; reflexivity|].
  exists c. split; [exact A|]. specialize (B (ratq_nz s n d Hn Hd)). unfold rounded in B. now rewrite M in B.
Qed.

Lemma C60_refuted_pf : exists f s n d b,
  wide f /\ f_mode f = RNA /\ 0 < n /\ 0 < d /\
  reinterpret_as_bv (fp_init f (NRat s n d)) = Ok (BV (BVC KBV (f_size f)) b) /\
  ~ rounds_to f RNA (ratq s n d) b.
Proof.
  exists (Fmt 3 2 RNA true), false, 17, 16, 13. split; [split; vm_compute; congruence|].
  split; [reflexivity|]. split; [reflexivity|]. split; [reflexivity|]. split; [vm_compute; reflexivity|].
  intros (_ & _ & [[(_ & _ & H) _]|[H _]]).
  - specialize (H 12). vm_compute in H. apply H; [|reflexivity]. split; [split; [split; [discriminate|reflexivity]|discriminate]|discriminate].
  - vm_compute in H. now apply H.
Qed.

Lemma C60_special_pf : forall f s,
  fmt_ok f = true ->
  exists z i n,
    reinterpret_as_bv (fp_init f (NZero s)) = Ok (BV (BVC KBV (f_size f)) z) /\ pat_zero f z /\ pat_sign f z = s /\
    reinterpret_as_bv (fp_init f (NInf s)) = Ok (BV (BVC KBV (f_size f)) i) /\ pat_inf f i /\ pat_sign f i = s /\
    reinterpret_as_bv (fp_init f (NNaN s)) = Ok (BV (BVC KBV (f_size f)) n) /\
    (if f_ieee f then pat_nan f n else n = i).
Proof.
  intros f s FO. apply okf_fmt in FO as O.
  destruct (pat_of f (MZero s) O I) as (_ & Z1 & Z2). destruct (pat_of f (MInf s) O I) as (_ & I1 & I2).
  destruct (pat_of f (MNaN s) O I) as (_ & N1 & N2 & N3).
  exists (pat f (MZero s)), (pat f (MInf s)), (pat f (if f_ieee f then MNaN s else MInf s)).
  split; [apply as_bv_spec; [exact O|exact I]|]. split; [exact Z2|]. split; [exact Z1|].
  split; [apply as_bv_spec; [exact O|exact I]|]. split; [exact I2|]. split; [exact I1|].
  unfold fp_init. cbn [mpfr_round]. unfold fp_store. cbn [is_nan is_signed andb].
  destruct (f_ieee f); cbn [negb].
  - split; [apply as_bv_spec; [exact O|exact I]|]. split; [exact N2|]. rewrite N3. discriminate.
  - replace (if s then MInf true else MInf false) with (MInf s) by (destruct s; reflexivity).
    split; [apply as_bv_spec; [exact O|exact I]|reflexivity].
Qed.

Lemma neg_good f x : wide f -> good f x -> is_nan (fv_val x) = false ->
  fp_neg x = FPV f (match fv_val x with MZero s => MZero (negb s) | MInf s => MInf (negb s)
                    | MFin s m E => MFin (negb s) m E | v => v end) /\
  wfv f (match fv_val x with MZero s => MZero (negb s) | MInf s => MInf (negb s)
                    | MFin s m E => MFin (negb s) m E | v => v end).
Proof.
  intros W G N. pose proof (wide_okf f W) as O. pose proof G as (F & V & _). rewrite (neg_eq x f W G). unfold fnum. rewrite F.
  destruct (fv_val x) as [s|s|s|s m E] eqn:EV; try discriminate; try (split; [reflexivity|exact I]).
  assert (V' : wfv f (MFin (negb s) m E)) by exact V. split; [|exact V'].
  pose proof (round_mnum f _ O V') as R.
  replace (num_neg (mnum (c_prec (fctx f)) (MFin s m E))) with (mnum (c_prec (fctx f)) (MFin (negb s) m E))
    by (unfold mnum; destruct (_ <=? _); reflexivity).
  unfold fp_init. rewrite R. reflexivity.
Qed.

Lemma exp_man_neg f v s m E : okf f -> v = MFin s m E -> wfv f v ->
  pat_exp f (pat f (MFin (negb s) m E)) = pat_exp f (pat f v) /\ pat_man f (pat f (MFin (negb s) m E)) = pat_man f (pat f v).
Proof.
  intros O -> V. assert (V' : wfv f (MFin (negb s) m E)) by exact V.
  destruct (pat_of f _ O V) as (_ & _ & A). destruct (pat_of f _ O V') as (_ & _ & B).
  destruct (E <? top f); destruct A as (A1 & A2 & _), B as (B1 & B2 & _); split; congruence.
Qed.

Lemma neg_fields f x : wide f -> good f x -> is_nan (fv_val x) = false ->
  exists b c, reinterpret_as_bv x = Ok (BV (BVC KBV (f_size f)) b) /\
    reinterpret_as_bv (fp_neg x) = Ok (BV (BVC KBV (f_size f)) c) /\ is_pattern f c /\
    pat_sign f c = negb (pat_sign f b) /\ pat_exp f c = pat_exp f b /\ pat_man f c = pat_man f b /\ pat_sign f b = is_signed (fv_val x).
Proof.
  intros W G N. pose proof (wide_okf f W) as O. destruct (neg_good f x W G N) as [-> V']. destruct G as (F & V & _).
  destruct x as [f' v]. cbn [fv_fmt fv_val] in *. subst f'. do 2 eexists. split; [now apply as_bv_spec|]. split; [now apply as_bv_spec|].
  destruct (pat_of f v O V) as (_ & S & A). destruct (pat_of f _ O V') as (P & S' & A'). split; [exact P|]. rewrite S, S'.
  destruct v as [s|s|s|s m E]; try discriminate; (split; [reflexivity|]).
  - destruct A, A'. split; [congruence|split; [congruence|reflexivity]].
  - destruct A, A'. split; [congruence|split; [congruence|reflexivity]].
  - destruct (exp_man_neg f _ s m E O eq_refl V). auto.
Qed.

Lemma cmp0 f x : wide f -> good f x -> is_nan (fv_val x) = false ->
  cmp_ge (num_cmp (fnum x) (NZero false)) = (is_zero (fv_val x) || negb (is_signed (fv_val x)))%bool.
Proof.
  intros W (F & V & _) N. unfold fnum. destruct (fv_val x) as [s|[]|s|[] m E]; try discriminate; try reflexivity;
    cbn [mnum]; destruct (_ <=? _); reflexivity.
Qed.

Lemma C61_neg_partial_pf : forall f x,
  wide f -> instance f x -> fp_is_NaN x = false ->
  exists b c,
    reinterpret_as_bv x = Ok (BV (BVC KBV (f_size f)) b) /\
    reinterpret_as_bv (fp_neg x) = Ok (BV (BVC KBV (f_size f)) c) /\
    pat_sign f c = negb (pat_sign f b) /\ pat_exp f c = pat_exp f b /\ pat_man f c = pat_man f b.
Proof.
  intros f x W I N. destruct (neg_fields f x W (instance_good f x W I) N) as (b & c & A & B & _ & C & D & E & _).
  exists b, c. auto.
Qed.

Lemma C61_abs_partial_pf : forall f x,
  wide f -> instance f x -> fp_is_NaN x = false ->
  exists b c,
    reinterpret_as_bv x = Ok (BV (BVC KBV (f_size f)) b) /\
    reinterpret_as_bv (fp_abs x) = Ok (BV (BVC KBV (f_size f)) c) /\
    (~ pat_zero f b -> pat_sign f c = false) /\ (pat_zero f b -> pat_sign f c = pat_sign f b) /\
    pat_exp f c = pat_exp f b /\ pat_man f c = pat_man f b.
Proof.
  intros f x W I N. pose proof (wide_okf f W) as O. pose proof (instance_good f x W I) as G.
  destruct (neg_fields f x W G N) as (b & c & A & B & _ & C & D & E & S).
  exists b. rewrite (abs_eq x f W G). rewrite (cmp0 f x W G N). rewrite (neg_eq x f W G) in B.
  pose proof G as (F & V & _). destruct x as [f' v]. cbn [fv_fmt fv_val] in *. subst f'.
  assert (BP : b = pat f v) by (rewrite as_bv_spec in A by assumption; congruence).
  assert (ZP : is_zero v = true <-> pat_zero f b).
  { subst b. destruct (pat_of f v O V) as (_ & _ & H). unfold pat_zero. pose proof (emax_pos f O). unfold all_ones in *.
    destruct v; cbn [is_zero]; [destruct H; split; [discriminate|lia]..| |].
    - tauto.
    - destruct (_ <? _); destruct H as (H1 & H2 & H3); (split; [discriminate|lia]). }
  destruct (is_zero v || negb (is_signed v)) eqn:Q.
  - exists b. split; [exact A|]. unfold fp_store. unfold fp_is_NaN in N. cbn [fv_val] in N. rewrite N. cbn [andb].
    split; [exact A|]. split; [|auto]. intros NZ. rewrite S. destruct (is_zero v); [exfalso; now apply NZ, ZP|]. cbn [orb] in Q. now destruct (is_signed v).
  - apply orb_false_iff in Q as [Q1 Q2]. exists c. split; [exact A|]. split; [exact B|].
    split; [intros _; rewrite C, S; now destruct (is_signed v)|]. split; [intros Z; apply ZP in Z; congruence|auto].
Qed.

Lemma C61_refuted_pf : exists f x b,
  wide f /\ instance f x /\ fp_is_NaN x = false /\
  reinterpret_as_bv (fp_abs x) = Ok (BV (BVC KBV (f_size f)) b) /\ pat_sign f b = true.
Proof.
  exists (Fmt 8 23 RNE true), (fp_init (Fmt 8 23 RNE true) (NZero true)), 0x80000000.
  split; [split; vm_compute; congruence|]. split; [now constructor|]. repeat split; vm_compute; reflexivity.
Qed.

Lemma C62_subnormal_pf : forall f k b,
  fmt_ok f = true -> f_ieee f = false -> is_pattern f b -> pat_subnormal f b ->
  exists x c,
    reinterpret_from_bv f (BV (BVC k (f_size f)) b) = Ok x /\ fp_is_zero x = true /\
    reinterpret_as_bv x = Ok (BV (BVC KBV (f_size f)) c) /\ pat_zero f c /\ pat_sign f c = pat_sign f b.
Proof.
  intros f k b FO IE P [S1 S2]. apply okf_fmt in FO as O. exists (FPV f (dec f b)), (pat f (dec f b)).
  assert (D : dec f b = MZero (pat_sign f b)) by (unfold dec; rewrite S1, IE; cbn; now rewrite orb_true_r).
  split; [now apply from_bv_spec|]. split; [rewrite D; reflexivity|]. split; [apply as_bv_spec; [exact O|now apply dec_wf]|].
  rewrite D. destruct (pat_of f (MZero (pat_sign f b)) O I) as (_ & A & B). split; [exact B|exact A].
Qed.

Lemma C62_nan_pf : forall f k b,
  fmt_ok f = true -> f_ieee f = false -> is_pattern f b -> pat_nan f b ->
  exists x c,
    reinterpret_from_bv f (BV (BVC k (f_size f)) b) = Ok x /\ fp_is_infinite x = true /\
    reinterpret_as_bv x = Ok (BV (BVC KBV (f_size f)) c) /\ pat_inf f c /\ pat_sign f c = false.
Proof.
  intros f k b FO IE P [N1 N2]. apply okf_fmt in FO as O. exists (FPV f (dec f b)), (pat f (dec f b)).
  assert (D : dec f b = MInf false).
  { unfold dec. rewrite N1, IE. pose proof (emax_pos f O). replace (all_ones f =? 0) with false by (unfold all_ones; lia).
    unfold all_ones in *. rewrite Z.eqb_refl. replace (pat_man f b =? 0) with false by lia. reflexivity. }
  split; [now apply from_bv_spec|]. split; [rewrite D; reflexivity|]. split; [apply as_bv_spec; [exact O|now apply dec_wf]|].
  rewrite D. destruct (pat_of f (MInf false) O I) as (_ & A & B). split; [exact B|exact A].
Qed.

Lemma C62_other_pf : forall f k b,
  fmt_ok f = true -> f_ieee f = false -> is_pattern f b -> ~ pat_subnormal f b -> ~ pat_nan f b ->
  exists x,
    reinterpret_from_bv f (BV (BVC k (f_size f)) b) = Ok x /\
    reinterpret_as_bv x = Ok (BV (BVC KBV (f_size f)) b).
Proof.
  intros f k b FO IE P S N. apply okf_fmt in FO as O. exists (FPV f (dec f b)).
  split; [now apply from_bv_spec|]. rewrite as_bv_spec; [|exact O|now apply dec_wf]. rewrite pat_dec by auto. reflexivity.
Qed.

Lemma C62_values_partial_pf : forall f x,
  wide f -> f_ieee f = false -> instance f x ->
  fp_is_NaN x = false /\ fp_is_subnormal x = Ok false.
Proof.
  intros f x W IE I. pose proof (wide_okf f W) as O. destruct (instance_good f x W I) as (F & V & N).
  split; [now apply N|]. destruct x as [f' v]. cbn [fv_fmt fv_val] in *. subst f'. rewrite sub_spec by assumption.
  destruct v as [s|s|s|s m E]; try reflexivity. destruct (pat_of f _ O V) as (_ & _ & H).
  destruct (E <? top f); [destruct H as (_ & _ & _ & H & _); congruence|reflexivity].
Qed.

Lemma C62_values_refuted_pf : exists f x,
  fmt_ok f = true /\ f_ieee f = false /\ instance f x /\ fp_is_subnormal x = Raise EAssertion.
Proof.
  exists (Fmt 1 2 RTZ false), (fp_init (Fmt 1 2 RTZ false) (NRat false 3 1)).
  split; [reflexivity|]. split; [reflexivity|]. split; [constructor; split; reflexivity|]. vm_compute. reflexivity.
Qed.

Lemma fnum_x f x e : okf f -> good f x -> xvalue x e -> nxval (fnum x) e.
Proof.
  intros O G H. destruct e as [s|q]; cbn [xvalue nxval] in *.
  - unfold fnum, fp_is_infinite in *. destruct H as [H1 H2]. destruct (fv_val x); cbn in *; try discriminate. now subst.
  - now apply (fnum_val f).
Qed.

Lemma cmp_x x y a b : nxval x a -> nxval y b ->
  exists c, num_cmp x y = Some c /\ (c = Lt <-> ext_lt a b) /\ (c = Gt <-> ext_lt b a) /\ (c = Eq <-> ext_eq a b).
Proof.
  destruct a as [s|p], b as [s'|q]; cbn [nxval ext_lt ext_eq].
  - intros -> ->. eexists. split; [reflexivity|]. destruct s, s'; cbn; repeat split; intros; try congruence; try tauto; destruct H; congruence.
  - intros -> [t r H|t n d r Hn Hd H]; (eexists; split; [reflexivity|]); destruct s; cbn; repeat split; intros; try congruence; tauto.
  - intros [t r H|t n d r Hn Hd H] ->; (eexists; split; [reflexivity|]); destruct s'; cbn; repeat split; intros; try congruence; tauto.
  - intros H H'. exists (p ?= q)%Q. split; [exact (nval_cmp x y p q H H')|].
    split; [symmetry; apply Qlt_alt|]. split; [symmetry; apply Qgt_alt|symmetry; apply Qeq_alt].
Qed.

Lemma compare_eq f h x y : good f x -> good f y ->
  compare_op h x (AFP y) = Ok (h (num_cmp (fnum x) (fnum y))).
Proof.
  intros (F & _) (F' & _). unfold compare_op, fp_cast. cbn [fp_coerce]. rewrite F, F', fmt_eqb_refl. reflexivity.
Qed.

Lemma C70_order_pf : forall f x y a b,
  wide f -> instance f x -> instance f y -> xvalue x a -> xvalue y b ->
  exists lt le gt ge eq ne,
    fp_lt x (AFP y) = Ok lt /\ fp_leq x (AFP y) = Ok le /\ fp_gt x (AFP y) = Ok gt /\
    fp_geq x (AFP y) = Ok ge /\ fp_eq x (AFP y) = Ok eq /\ fp_ne x (AFP y) = Ok ne /\
    (lt = true <-> ext_lt a b) /\ (le = true <-> ext_lt a b \/ ext_eq a b) /\
    (gt = true <-> ext_lt b a) /\ (ge = true <-> ext_lt b a \/ ext_eq a b) /\
    (eq = true <-> ext_eq a b) /\ (ne = true <-> ~ ext_eq a b).
Proof.
  intros f x y a b W I I' HA HB. pose proof (wide_okf f W) as O.
  pose proof (instance_good f x W I) as G. pose proof (instance_good f y W I') as G'.
  destruct (cmp_x _ _ a b (fnum_x f x a O G HA) (fnum_x f y b O G' HB)) as (c & E & C1 & C2 & C3).
  unfold fp_ne, fp_lt, fp_leq, fp_gt, fp_geq, fp_eq. rewrite !(compare_eq f _ x y G G'), E. cbn [rmap].
  do 6 eexists. repeat (split; [reflexivity|]). rewrite <- C1, <- C2, <- C3.
  destruct c; cbn; repeat split; intros; try congruence; try tauto; intuition congruence.
Qed.

Lemma C70_nan_pf : forall x y,
  fv_fmt x = fv_fmt y -> fp_is_NaN x = true \/ fp_is_NaN y = true ->
  fp_lt x (AFP y) = Ok false /\ fp_leq x (AFP y) = Ok false /\ fp_gt x (AFP y) = Ok false /\
  fp_geq x (AFP y) = Ok false /\ fp_eq x (AFP y) = Ok false /\ fp_ne x (AFP y) = Ok true.
Proof.
  intros x y F H. assert (C : num_cmp (fnum x) (fnum y) = None).
  { unfold fnum, fp_is_NaN in *. destruct H as [H|H].
    - destruct (fv_val x); try discriminate. reflexivity.
    - destruct (fv_val y); try discriminate. cbn [mnum]. now destruct (mnum _ (fv_val x)). }
  unfold fp_ne, fp_lt, fp_leq, fp_gt, fp_geq, fp_eq, compare_op, fp_cast. cbn [fp_coerce]. rewrite F, fmt_eqb_refl. cbn [negb bind]. rewrite C. cbn. auto 8.
Qed.

Lemma C70_sign_pf : forall f x a,
  wide f -> instance f x -> xvalue x a ->
  (fp_is_negative x = true <-> ext_lt a (XFin 0)) /\ (fp_is_positive x = true <-> ext_lt (XFin 0) a).
Proof.
  intros f x a W I H. pose proof (wide_okf f W) as O. pose proof (instance_good f x W I) as G.
  destruct (cmp_x (fnum x) (NZero false) a (XFin 0) (fnum_x f x a O G H)) as (c & E & C1 & C2 & C3); [constructor; reflexivity|].
  unfold fp_is_negative, fp_is_positive. rewrite E, <- C1, <- C2. destruct c; cbn; repeat split; congruence.
Qed.

Lemma C70_sign_nan_pf : forall x, fp_is_NaN x = true -> fp_is_negative x = false /\ fp_is_positive x = false.
Proof. intros x H. unfold fp_is_negative, fp_is_positive, fnum, fp_is_NaN in *. destruct (fv_val x); try discriminate. auto. Qed.

Lemma C70_operands_pf : forall x y z,
  (fv_fmt y <> fv_fmt x ->
   (forall h, In h [fp_add; fp_sub; fp_mul; fp_div; fp_rem; fp_min; fp_max] -> h x (AFP y) = Raise ETypeError) /\
   (forall h, In h [fp_lt; fp_leq; fp_gt; fp_geq; fp_eq; fp_ne] -> h x (AFP y) = Raise ETypeError) /\
   (forall c, fp_fma x (AFP y) c = Raise ETypeError) /\
   (forall w, fv_fmt w = fv_fmt x -> fp_fma x (AFP w) (AFP y) = Raise ETypeError)) /\
  (forall h, In h [fp_add; fp_sub; fp_mul; fp_div; fp_rem; fp_min; fp_max] ->
     h x (ANum z) = h x (AFP (fp_init (fv_fmt x) z))) /\
  (forall h, In h [fp_lt; fp_leq; fp_gt; fp_geq; fp_eq; fp_ne] ->
     h x (ANum z) = h x (AFP (fp_init (fv_fmt x) z))).
Proof.
  intros x y z. split; [|split].
  - intros NE. assert (C : fp_coerce (fv_fmt x) (AFP y) = Raise ETypeError).
    { cbn [fp_coerce]. destruct (fmt_eqb (fv_fmt y) (fv_fmt x)) eqn:E; [|reflexivity]. apply fmt_eqb_iff in E. contradiction. }
    split; [|split; [|split]].
    + intros h H. cbn [In] in H. repeat destruct H as [<-|H]; try contradiction; unfold fp_add, fp_sub, fp_mul, fp_div, fp_rem, fp_min, fp_max, arith, fp_cast; rewrite C; reflexivity.
    + intros h H. cbn [In] in H. repeat destruct H as [<-|H]; try contradiction; unfold fp_ne, fp_lt, fp_leq, fp_gt, fp_geq, fp_eq, compare_op, fp_cast; rewrite C; reflexivity.
    + intros c. unfold fp_fma. rewrite C. reflexivity.
    + intros w F. unfold fp_fma. cbn [fp_coerce] in C |- *. rewrite F, fmt_eqb_refl. cbn [negb bind]. rewrite C. reflexivity.
  - assert (C : fp_coerce (fv_fmt x) (ANum z) = fp_coerce (fv_fmt x) (AFP (fp_init (fv_fmt x) z))).
    { cbn [fp_coerce]. replace (fv_fmt (fp_init (fv_fmt x) z)) with (fv_fmt x) by (unfold fp_init, fp_store; now destruct (_ && _)).
      rewrite fmt_eqb_refl. reflexivity. }
    intros h H. cbn [In] in H. repeat destruct H as [<-|H]; try contradiction; unfold fp_add, fp_sub, fp_mul, fp_div, fp_rem, fp_min, fp_max, arith, fp_cast; rewrite C; reflexivity.
  - assert (C : fp_coerce (fv_fmt x) (ANum z) = fp_coerce (fv_fmt x) (AFP (fp_init (fv_fmt x) z))).
    { cbn [fp_coerce]. replace (fv_fmt (fp_init (fv_fmt x) z)) with (fv_fmt x) by (unfold fp_init, fp_store; now destruct (_ && _)).
      rewrite fmt_eqb_refl. reflexivity. }
    intros h H. cbn [In] in H. repeat destruct H as [<-|H]; try contradiction; unfold fp_ne, fp_lt, fp_leq, fp_gt, fp_geq, fp_eq, compare_op, fp_cast; rewrite C; reflexivity.
Qed.

Lemma C71_arithmetic_pf : forall f x y a b,
  wide f -> instance f x -> instance f y -> fvalue x a -> fvalue y b ->
  (exists z, fp_add x (AFP y) = Ok z /\ correct f (a + b) z) /\
  (exists z, fp_sub x (AFP y) = Ok z /\ correct f (a - b) z) /\
  (exists z, fp_mul x (AFP y) = Ok z /\ correct f (a * b) z) /\
  (~ (b == 0)%Q -> exists z, fp_div x (AFP y) = Ok z /\ correct f (a / b) z).
Proof.
  intros f x y a b W I I' HA HB. pose proof (wide_okf f W) as O.
  pose proof (instance_good f x W I) as G. pose proof (instance_good f y W I') as G'.
  pose proof (fnum_val f x a O G HA) as NA. pose proof (fnum_val f y b O G' HB) as NB.
  unfold fp_add, fp_sub, fp_mul, fp_div.
  split; [|split; [|split]].
  - rewrite (arith_eq f) by auto using add_ok. eexists. split; [reflexivity|]. apply init_correct; [exact W|now apply nval_add].
  - rewrite (arith_eq f) by auto using sub_ok. eexists. split; [reflexivity|]. apply init_correct; [exact W|now apply nval_sub].
  - rewrite (arith_eq f) by auto using mul_ok. eexists. split; [reflexivity|]. apply init_correct; [exact W|now apply nval_mul].
  - intros NZ. rewrite (arith_eq f) by auto using div_ok. eexists. split; [reflexivity|]. apply init_correct; [exact W|now apply nval_div].
Qed.

Lemma C71_fma_pf : forall f x y w a b c,
  wide f -> instance f x -> instance f y -> instance f w -> fvalue x a -> fvalue y b -> fvalue w c ->
  exists z, fp_fma x (AFP y) (AFP w) = Ok z /\ correct f (a * b + c) z.
Proof.
  intros f x y w a b c W I I' I'' HA HB HC. pose proof (wide_okf f W) as O.
  pose proof (instance_good f x W I) as G. pose proof (instance_good f y W I') as G'. pose proof (instance_good f w W I'') as G''.
  pose proof (fnum_val f x a O G HA) as NA. pose proof (fnum_val f y b O G' HB) as NB. pose proof (fnum_val f w c O G'' HC) as NC.
  assert (NV : nval (num_fma (mode_2_gmpy2 (f_mode f)) (fnum x) (fnum y) (fnum w)) (a * b + c)%Q) by (apply nval_add; auto using nval_mul).
  pose proof G as (F & _). pose proof G' as (F' & _). pose proof G'' as (F'' & _). unfold fp_fma. cbn [fp_coerce].
  rewrite F, F', F'', !fmt_eqb_refl. cbn [negb bind]. rewrite op_store; [|exact W|now apply (nval_ok _ _ NV)].
  eexists. split; [reflexivity|]. now apply init_correct.
Qed.

Lemma C71_rem_pf : forall f x y a b,
  wide f -> instance f x -> instance f y -> fvalue x a -> fvalue y b -> ~ (b == 0)%Q ->
  exists z k, fp_rem x (AFP y) = Ok z /\ correct f (a - inject_Z k * b) z /\
    (2 * Qabs (a - inject_Z k * b) <= Qabs b)%Q /\
    ((2 * Qabs (a - inject_Z k * b) == Qabs b)%Q -> Z.even k = true).
Proof.
  intros f x y a b W I I' HA HB NZ. pose proof (wide_okf f W) as O.
  pose proof (instance_good f x W I) as G. pose proof (instance_good f y W I') as G'.
  destruct (rem_spec _ _ a b (fnum_val f x a O G HA) (fnum_val f y b O G' HB) NZ) as (k & N & A & B).
  unfold fp_rem. rewrite (arith_eq f) by auto using rem_ok. eexists _, k. split; [reflexivity|]. split; [apply init_correct; assumption|auto].
Qed.

Lemma C71_integral_pf : forall f x a,
  wide f -> instance f x -> fvalue x a ->
  exists k, correct f (inject_Z k) (fp_round_to_integral x) /\ integral (f_mode f) a k.
Proof.
  intros f x a W I HA. pose proof (wide_okf f W) as O. pose proof (instance_good f x W I) as G.
  destruct (rint_spec (f_mode f) _ a (fnum_val f x a O G HA)) as (k & N & B). exists k. split; [|exact B].
  unfold fp_round_to_integral. pose proof G as (F & _). rewrite F, op_store; [|exact W|now apply (nval_ok _ _ N)]. now apply init_correct.
Qed.

Lemma C71_minmax_pf : forall f x y a b,
  wide f -> instance f x -> instance f y -> fvalue x a -> fvalue y b ->
  ((fp_min x (AFP y) = Ok x /\ (a <= b)%Q) \/ (fp_min x (AFP y) = Ok y /\ (b <= a)%Q)) /\
  ((fp_max x (AFP y) = Ok x /\ (b <= a)%Q) \/ (fp_max x (AFP y) = Ok y /\ (a <= b)%Q)).
Proof.
  intros f x y a b W I I' HA HB. pose proof (wide_okf f W) as O.
  pose proof (instance_good f x W I) as G. pose proof (instance_good f y W I') as G'.
  pose proof (fnum_val f x a O G HA) as NA. pose proof (fnum_val f y b O G' HB) as NB.
  unfold fp_min, fp_max. rewrite !(arith_eq f) by auto using min_ok, max_ok. split.
  - destruct (min_spec _ _ a b NA NB) as [[-> L]|[-> L]]; rewrite init_fnum by assumption; auto.
  - destruct (max_spec _ _ a b NA NB) as [[-> L]|[-> L]]; rewrite init_fnum by assumption; auto.
Qed.

Lemma C71_invalid_pf : forall f x y,
  wide f -> instance f x -> instance f y ->
  let nan := if f_ieee f then FPV f (MNaN false) else FPV f (MInf false) in
  (fp_is_NaN x = true \/ fp_is_NaN y = true ->
   forall h, In h [fp_add; fp_sub; fp_mul; fp_div; fp_rem] -> h x (AFP y) = Ok nan) /\
  (xvalue x (XInf false) -> xvalue y (XInf false) ->
   fp_sub x (AFP y) = Ok nan /\ fp_div x (AFP y) = Ok nan) /\
  (fvalue x 0 -> fvalue y 0 -> fp_div x (AFP y) = Ok nan) /\
  (forall s, fvalue x 0 -> xvalue y (XInf s) -> fp_mul x (AFP y) = Ok nan /\ fp_mul y (AFP x) = Ok nan) /\
  (forall a, fvalue x a -> ~ (a == 0)%Q -> fp_is_zero y = true ->
   fp_div x (AFP y) = Ok (FPV f (MInf (xorb (is_signed (fv_val x)) (is_signed (fv_val y)))))).
Proof.
  intros f x y W I I' nan. pose proof (wide_okf f W) as O.
  pose proof (instance_good f x W I) as G. pose proof (instance_good f y W I') as G'.
  assert (NI : fp_init f (NNaN false) = nan).
  { unfold nan, fp_init. cbn [mpfr_round]. unfold fp_store. cbn. destruct (f_ieee f); reflexivity. }
  assert (FN : forall v, good f v -> fp_is_NaN v = true -> exists s, fnum v = NNaN s).
  { intros v _ H. unfold fnum, fp_is_NaN in *. destruct (fv_val v); try discriminate. eexists; reflexivity. }
  assert (FZ : forall v, good f v -> fvalue v 0 -> exists s, fnum v = NZero s).
  { intros v Gv H. pose proof (fnum_val f v _ O Gv H) as N. inversion N as [s q Q E|s n d q Hn Hd Q E]; [eexists; reflexivity|].
    exfalso. apply (ratq_nz s n d Hn Hd). now symmetry. }
  unfold fp_add, fp_sub, fp_mul, fp_div, fp_rem.
  split; [|split; [|split; [|split]]].
  - intros H h IN. rewrite <- NI. cbn [In] in IN.
    assert (Z : forall g, (exists s, fnum x = NNaN s) \/ (exists s, fnum y = NNaN s) ->
       num_add g (fnum x) (fnum y) = NNaN false /\ num_sub g (fnum x) (fnum y) = NNaN false /\
       num_mul (fnum x) (fnum y) = NNaN false /\ num_div (fnum x) (fnum y) = NNaN false /\ num_rem (fnum x) (fnum y) = NNaN false).
    { intros g [[s ->]|[s ->]]; [repeat split|]. destruct (fnum x); repeat split. }
    destruct (Z (mode_2_gmpy2 (f_mode f))) as (Z1 & Z2 & Z3 & Z4 & Z5); [destruct H as [H|H]; [left|right]; auto|].
    repeat destruct IN as [<-|IN]; try contradiction.
    + rewrite (arith_eq f) by auto using add_ok. now rewrite Z1.
    + rewrite (arith_eq f) by auto using sub_ok. now rewrite Z2.
    + rewrite (arith_eq f) by auto using mul_ok. now rewrite Z3.
    + rewrite (arith_eq f) by auto using div_ok. now rewrite Z4.
    + rewrite (arith_eq f) by auto using rem_ok. now rewrite Z5.
  - intros H H'. pose proof (fnum_x f x _ O G H) as E. pose proof (fnum_x f y _ O G' H') as E'. cbn [nxval] in E, E'.
    rewrite !(arith_eq f) by auto using sub_ok, div_ok. rewrite E, E'. cbn. rewrite NI. auto.
  - intros H H'. destruct (FZ x G H) as [s E]. destruct (FZ y G' H') as [s' E'].
    rewrite !(arith_eq f) by auto using div_ok. rewrite E, E'. cbn. now rewrite NI.
  - intros s H H'. destruct (FZ x G H) as [s' E]. pose proof (fnum_x f y _ O G' H') as E'. cbn [nxval] in E'.
    rewrite !(arith_eq f) by auto using mul_ok. rewrite E, E'. cbn. rewrite NI. auto.
  - intros a H NZ Z. pose proof (fnum_val f x _ O G H) as N.
    rewrite !(arith_eq f) by auto using div_ok. unfold fp_is_zero in Z.
    assert (SG : num_sign (fnum x) = is_signed (fv_val x)).
    { unfold fnum. destruct (fv_val x) as [s|s|s|s m E]; try reflexivity. cbn [mnum]. destruct (_ <=? _); reflexivity. }
    rewrite <- SG. inversion N as [s q Q E|s n d q Hn Hd Q E]; [contradiction|].
    assert (EY : fnum y = NZero (is_signed (fv_val y))) by (unfold fnum; destruct (fv_val y); try discriminate; reflexivity).
    rewrite EY. reflexivity.
Qed.

Lemma nval_zero x q : nval x q -> (q == 0)%Q -> exists s, x = NZero s.
Proof.
  intros [s q0 H|s n d q0 Hn Hd H] E; [eauto|]. exfalso. apply (ratq_nz s n d Hn Hd). now rewrite <- H.
Qed.

Lemma init_zero f s : fp_init f (NZero s) = FPV f (MZero s).
Proof. unfold fp_init. cbn [mpfr_round]. unfold fp_store. cbn. now rewrite ?andb_false_r. Qed.

Lemma num_sign_signed x : num_sign (fnum x) = is_signed (fv_val x).
Proof. unfold fnum. destruct (fv_val x) as [s|s|s|s m E]; try reflexivity. cbn [mnum]. destruct (_ <=? _); reflexivity. Qed.

Lemma num_sign_neg x : num_sign (num_neg x) = negb (num_sign x).
Proof. destruct x; reflexivity. Qed.

Lemma nval_sign0 x q : nval x q -> (q == 0)%Q -> x = NZero (num_sign x).
Proof. intros H E. destruct (nval_zero x q H E) as [s ->]. reflexivity. Qed.

Lemma add_cancel g x y a b : nval x a -> nval y b -> (a + b == 0)%Q -> ((a == 0)%Q -> num_sign x <> num_sign y) ->
  num_add g x y = NZero (is_down g).
Proof.
  intros H H' E N. destruct (nval_zero _ _ (nval_add g x y a b H H') E) as [t T].
  destruct H as [s q H|s n d q Hn Hd H], H' as [s' q' H'|s' n' d' q' Hn' Hd' H']; cbn [num_add num_sign] in *.
  - specialize (N H). destruct s, s'; try reflexivity; now elim N.
  - discriminate T.
  - discriminate T.
  - destruct (Z.eqb_spec (sgnz s n * d' + sgnz s' n' * d) 0); [reflexivity|discriminate T].
Qed.

Lemma add_zeros g x y a b : nval x a -> nval y b -> (a == 0)%Q -> (b == 0)%Q -> num_sign x = num_sign y ->
  num_add g x y = NZero (num_sign x).
Proof.
  intros H H' A B S. rewrite (nval_sign0 x a H A), (nval_sign0 y b H' B). cbn [num_add num_sign]. rewrite S. now rewrite eqb_reflx.
Qed.

Lemma mul_zero_sign x y a b : nval x a -> nval y b -> (a * b == 0)%Q -> num_mul x y = NZero (xorb (num_sign x) (num_sign y)).
Proof.
  intros H H' E. destruct (nval_zero _ _ (nval_mul x y a b H H') E) as [t T].
  destruct H, H'; cbn [num_mul num_sign] in *; congruence.
Qed.

Lemma div_zero_sign x y a b : nval x a -> nval y b -> (a == 0)%Q -> ~ (b == 0)%Q -> num_div x y = NZero (xorb (num_sign x) (num_sign y)).
Proof.
  intros H H' E N. rewrite (nval_sign0 x a H E). destruct H' as [s' q' H'|s' n' d' q' Hn' Hd' H']; [contradiction|]. reflexivity.
Qed.

Lemma rem_zero_sign x y a b k : nval x a -> nval y b -> ~ (b == 0)%Q -> (a == inject_Z k * b)%Q -> num_rem x y = NZero (num_sign x).
Proof.
  intros H H' NZ E. destruct (rem_spec x y a b H H' NZ) as (k' & N & B & _).
  assert (K : k = k').
  { rewrite E in B. setoid_replace (inject_Z k * b - inject_Z k' * b)%Q with (inject_Z (k - k') * b)%Q in B
      by (unfold Z.sub; rewrite inject_Z_plus, inject_Z_opp; ring).
    rewrite Qabs_Qmult in B. destruct (Z.eq_dec k k') as [->|D]; [reflexivity|exfalso].
    assert (P : (0 < Qabs b)%Q).
    { destruct (Qlt_le_dec 0 (Qabs b)) as [L|L]; [exact L|]. exfalso. apply NZ.
      pose proof (Qabs_Qle_condition b 0) as [C _]. destruct (C L) as [C1 C2]. apply Qle_antisym; [exact C2|exact C1]. }
    assert (1 <= Qabs (inject_Z (k - k')))%Q.
    { unfold Qabs, inject_Z. unfold Qle. cbn. lia. }
    assert (2 * (1 * Qabs b) <= 2 * (Qabs (inject_Z (k - k')) * Qabs b))%Q.
    { apply Qmult_le_l; [reflexivity|]. apply Qmult_le_r; assumption. }
    assert (X : (2 * (1 * Qabs b) <= Qabs b)%Q) by (eapply Qle_trans; eassumption).
    assert (Y : (Qabs b < 2 * (1 * Qabs b))%Q).
    { setoid_replace (2 * (1 * Qabs b))%Q with (Qabs b + Qabs b)%Q by ring. rewrite <- (Qplus_0_r (Qabs b)) at 1. apply Qplus_lt_r. exact P. }
    apply (Qlt_irrefl (Qabs b)). eapply Qlt_le_trans; eassumption. }
  subst k'. assert (Z0 : (a - inject_Z k * b == 0)%Q) by (rewrite E; ring). destruct (nval_zero _ _ N Z0) as [t T].
  destruct H as [s q H|s n d q Hn Hd H], H' as [s' q' H'|s' n' d' q' Hn' Hd' H']; cbn [num_rem num_sign] in *; try congruence.
  destruct (_ =? 0); [reflexivity|discriminate T].
Qed.

Lemma init_sign f x q : nval x q -> is_signed (fv_val (fp_init f x)) = num_sign x.
Proof.
  intros [s q0 H|s n d q0 Hn Hd H]; [now rewrite init_zero|]. unfold fp_init, fp_store. cbn [mpfr_round num_sign].
  destruct (rnd_set _ _ _ _ _) as [[m E] t]. 
  assert (C : is_signed (finish (fctx f) s m E t) = s /\ is_nan (finish (fctx f) s m E t) = false).
  { unfold finish. assert (C : forall v, v = check_range (fctx f) s m E t -> is_signed v = s /\ is_nan v = false).
    { intros v ->. unfold check_range. destruct (_ <? _); [destruct (match c_rnd _ with RoundToNearest => _ | _ => _ end); split; reflexivity|].
      destruct (_ <? _); [destruct (toward_zero _ _)|]; split; reflexivity. }
    destruct (check_range (fctx f) s m E t) as [u|u|u|u m' E'] eqn:K; destruct (C _ eq_refl) as [C1 C2]; cbn [is_signed is_nan] in *; try discriminate; subst; auto.
    destruct (c_sub _); [|split; reflexivity]. unfold subnormalize. destruct (_ && _); [|split; reflexivity].
    destruct (renorm _ _ _). split; reflexivity. }
  destruct C as [C1 C2]. rewrite C2. exact C1.
Qed.

Lemma down_mode r : is_down (mode_2_gmpy2 r) = true <-> r = RTN.
Proof. destruct r; cbn; split; congruence. Qed.

Lemma C71_zero_sign_pf : forall f x y a b,
  wide f -> instance f x -> instance f y -> fvalue x a -> fvalue y b ->
  let neg v := is_signed (fv_val v) in
  ((a + b == 0)%Q -> ((a == 0)%Q -> neg x <> neg y) ->
     exists s, fp_add x (AFP y) = Ok (FPV f (MZero s)) /\ (s = true <-> f_mode f = RTN)) /\
  ((a == 0)%Q -> (b == 0)%Q -> neg x = neg y -> fp_add x (AFP y) = Ok (FPV f (MZero (neg x)))) /\
  ((a - b == 0)%Q -> ((a == 0)%Q -> neg x = neg y) ->
     exists s, fp_sub x (AFP y) = Ok (FPV f (MZero s)) /\ (s = true <-> f_mode f = RTN)) /\
  ((a == 0)%Q -> (b == 0)%Q -> neg x <> neg y -> fp_sub x (AFP y) = Ok (FPV f (MZero (neg x)))) /\
  ((a * b == 0)%Q -> fp_mul x (AFP y) = Ok (FPV f (MZero (xorb (neg x) (neg y))))) /\
  ((a == 0)%Q -> ~ (b == 0)%Q -> fp_div x (AFP y) = Ok (FPV f (MZero (xorb (neg x) (neg y))))) /\
  (forall k, ~ (b == 0)%Q -> (a == inject_Z k * b)%Q -> fp_rem x (AFP y) = Ok (FPV f (MZero (neg x)))) /\
  (forall s, fp_round_to_integral x = FPV f (MZero s) -> s = neg x).
Proof.
  intros f x y a b W I I' HA HB neg. unfold neg. pose proof (wide_okf f W) as O.
  pose proof (instance_good f x W I) as G. pose proof (instance_good f y W I') as G'.
  pose proof (fnum_val f x a O G HA) as NA. pose proof (fnum_val f y b O G' HB) as NB.
  unfold fp_add, fp_sub, fp_mul, fp_div, fp_rem. rewrite <- !num_sign_signed.
  split; [|split; [|split; [|split; [|split; [|split; [|split]]]]]].
  - intros E N. rewrite (arith_eq f) by auto using add_ok. rewrite (add_cancel _ _ _ a b), init_zero by assumption. eexists. split; [reflexivity|]. apply down_mode.
  - intros E E' S. rewrite (arith_eq f) by auto using add_ok. now rewrite (add_zeros _ _ _ a b), init_zero.
  - intros E N. rewrite (arith_eq f) by auto using sub_ok. unfold num_sub. rewrite (add_cancel _ _ _ a (- b)%Q), init_zero; auto using nval_neg.
    + eexists. split; [reflexivity|]. apply down_mode.
    + intros Z. rewrite num_sign_neg, (N Z). destruct (num_sign (fnum y)); discriminate.
  - intros E E' S. rewrite (arith_eq f) by auto using sub_ok. unfold num_sub. rewrite (add_zeros _ _ _ a (- b)%Q), init_zero; auto using nval_neg.
    + rewrite E'. reflexivity.
    + rewrite num_sign_neg. destruct (num_sign (fnum x)), (num_sign (fnum y)); try reflexivity; now elim S.
  - intros E. rewrite (arith_eq f) by auto using mul_ok. now rewrite (mul_zero_sign _ _ a b), init_zero.
  - intros E E'. rewrite (arith_eq f) by auto using div_ok. now rewrite (div_zero_sign _ _ a b), init_zero.
  - intros k NZ E. rewrite (arith_eq f) by auto using rem_ok. now rewrite (rem_zero_sign _ _ a b k), init_zero.
  - intros s. unfold fp_round_to_integral. pose proof G as (F & _). destruct (rint_spec (f_mode f) _ a NA) as (k & N & _).
    rewrite F, op_store; [|exact W|now apply (nval_ok _ _ N)]. intros E.
    assert (S : is_signed (fv_val (fp_init f (num_rint (mode_2_gmpy2 (f_mode f)) (fnum x)))) = s) by (now rewrite E).
    rewrite (init_sign f _ _ N) in S. rewrite <- S. destruct NA as [s0 q0 H|s0 n d q0 Hn Hd H]; cbn [num_rint]; [reflexivity|].
    destruct (_ =? 0); reflexivity.
Qed.
