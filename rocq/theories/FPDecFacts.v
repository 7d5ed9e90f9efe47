(** reinterpret_from_bv in closed form, and the two round trips. *)
From Coq Require Import Lia ZArith QArith ZifyBool.
From Verif Require Import PyBase BVModel BVSpec BVFacts BVOps SliceFacts FPModel FPSpec FPRoundFacts FPPatFacts FPEncFacts.
Open Scope Z_scope.

(** ** Fields of a pattern *)
Lemma fields f s k : okf f -> 0 <= k < 2 ^ (f_eb f + f_mb f) ->
  let b := b2z s * 2 ^ (f_eb f + f_mb f) + k in
  is_pattern f b /\ pat_sign f b = s /\ pat_exp f b = k / 2 ^ f_mb f /\ pat_man f b = k mod 2 ^ f_mb f /\
  0 <= pat_exp f b < 2 ^ f_eb f /\ 0 <= pat_man f b < 2 ^ f_mb f.
Proof.
  intros [O1 O2] Hk b. pose proof (pow2_pos (f_mb f) ltac:(lia)) as PM. pose proof (pow2_pos (f_eb f) ltac:(lia)) as PE.
  assert (S : 2 ^ (f_eb f + f_mb f) = 2 ^ f_eb f * 2 ^ f_mb f) by (apply pow2_split; lia).
  assert (PE' : pat_exp f b = k / 2 ^ f_mb f).
  { unfold pat_exp, b. rewrite S. replace (b2z s * (2 ^ f_eb f * 2 ^ f_mb f) + k) with (k + b2z s * 2 ^ f_eb f * 2 ^ f_mb f) by ring.
    rewrite Z.div_add, Z.mod_add by lia. apply Z.mod_small. split; [apply Z.div_pos; lia|apply Z.div_lt_upper_bound; lia]. }
  assert (PM' : pat_man f b = k mod 2 ^ f_mb f).
  { unfold pat_man, b. rewrite S. replace (b2z s * (2 ^ f_eb f * 2 ^ f_mb f) + k) with (k + b2z s * 2 ^ f_eb f * 2 ^ f_mb f) by ring.
    apply Z.mod_add; lia. }
  split.
  { unfold is_pattern, b. replace (1 + f_eb f + f_mb f) with (f_eb f + f_mb f + 1) by lia. rewrite pow2_S by lia. destruct s; cbn [b2z]; lia. }
  split. { unfold pat_sign, b. destruct s; cbn [b2z]; lia. }
  split; [exact PE'|]. split; [exact PM'|]. split.
  - unfold pat_exp. apply Z.mod_pos_bound; lia.
  - unfold pat_man. apply Z.mod_pos_bound; lia.
Qed.

Lemma split_pattern f b : okf f -> is_pattern f b ->
  exists k, 0 <= k < 2 ^ (f_eb f + f_mb f) /\ b = b2z (pat_sign f b) * 2 ^ (f_eb f + f_mb f) + k /\
    k = pat_exp f b * 2 ^ f_mb f + pat_man f b.
Proof.
  intros O H. pose proof O as [O1 O2]. unfold is_pattern in H. replace (1 + f_eb f + f_mb f) with (f_eb f + f_mb f + 1) in H by lia.
  rewrite pow2_S in H by lia. set (k := b - b2z (pat_sign f b) * 2 ^ (f_eb f + f_mb f)).
  assert (K : 0 <= k < 2 ^ (f_eb f + f_mb f)).
  { unfold k, pat_sign. destruct (Z.leb_spec (2 ^ (f_eb f + f_mb f)) b); cbn [b2z]; lia. }
  exists k. split; [exact K|]. assert (B : b = b2z (pat_sign f b) * 2 ^ (f_eb f + f_mb f) + k) by (unfold k; lia).
  split; [exact B|]. destruct (fields f (pat_sign f b) k O K) as (_ & _ & E & M & _). rewrite <- B in E, M.
  rewrite E, M. pose proof (Z.div_mod k (2 ^ f_mb f) ltac:(pose proof (pow2_pos (f_mb f)); lia)). lia.
Qed.

(** ** Decoding *)
Definition dec (f : fmt) (b : Z) : mpfr :=
  let s := pat_sign f b in
  let e := pat_exp f b in
  let m := pat_man f b in
  if e =? 0 then
    if (m =? 0) || negb (f_ieee f) then MZero s
    else MFin s (m * 2 ^ (f_mb f - Z.log2 m)) (top f - (f_mb f - Z.log2 m))
  else if e =? all_ones f then
    if m =? 0 then MInf s else if f_ieee f then MNaN false else MInf false
  else MFin s (2 ^ f_mb f + m) (e - 1 + top f).

Lemma log2_bounds m n : 0 < m < 2 ^ n -> 0 <= n -> 0 <= Z.log2 m <= n - 1 /\
  2 ^ n <= m * 2 ^ (n - Z.log2 m) < 2 * 2 ^ n.
Proof.
  intros H Hn. pose proof (Z.log2_nonneg m) as L0. assert (L1 : Z.log2 m < n) by (apply Z.log2_lt_pow2; lia).
  split; [lia|]. pose proof (Z.log2_spec m ltac:(lia)) as [S1 S2].
  pose proof (pow2_pos (n - Z.log2 m) ltac:(lia)) as P.
  assert (E : 2 ^ n = 2 ^ Z.log2 m * 2 ^ (n - Z.log2 m)) by (rewrite <- pow2_split by lia; f_equal; lia).
  rewrite <- Z.add_1_r in S2. rewrite pow2_S in S2 by lia. rewrite E. nia.
Qed.

Lemma dec_wf f b : okf f -> is_pattern f b -> wfv f (dec f b).
Proof.
  intros O H. pose proof (emax_pos f O) as [E1 E2]. destruct (split_pattern f b O H) as (k & K & B & KE).
  destruct (fields f (pat_sign f b) k O K) as (_ & _ & _ & _ & R1 & R2). rewrite <- B in R1, R2.
  unfold wfv, dec. rewrite fctx_eq by exact O. destruct O as [O1 O2]. pose proof (pow2_pos (f_mb f) ltac:(lia)) as PM.
  destruct (Z.eqb_spec (pat_exp f b) 0) as [Z0|Z0].
  - destruct (Z.eqb_spec (pat_man f b) 0) as [M0|M0]; cbn [orb]; [exact I|].
    destruct (f_ieee f) eqn:IE; cbn [negb]; [|exact I].
    destruct (log2_bounds (pat_man f b) (f_mb f) ltac:(lia) ltac:(lia)) as [L1 L2].
    cbn [wfm c_prec c_emin c_emax]. replace (f_mb f + 1 - 1) with (f_mb f) by lia. rewrite pow2_S by lia.
    split; [exact L2|]. split; [unfold top; lia|]. intros _.
    replace (top f - (top f - (f_mb f - Z.log2 (pat_man f b)))) with (f_mb f - Z.log2 (pat_man f b)) by lia.
    apply Z.mod_mul. pose proof (pow2_pos (f_mb f - Z.log2 (pat_man f b)) ltac:(lia)). lia.
  - destruct (Z.eqb_spec (pat_exp f b) (all_ones f)) as [A|A].
    + destruct (pat_man f b =? 0); [exact I|]. destruct (f_ieee f); exact I.
    + unfold all_ones in A. cbn [wfm c_prec c_emin c_emax]. replace (f_mb f + 1 - 1) with (f_mb f) by lia. rewrite pow2_S by lia.
      split; [lia|]. split; [unfold top; destruct (f_ieee f); lia|]. lia.
Qed.

Lemma read_digits_binary str : forall acc a r, read_binary acc str = Some r ->
  read_digits a str = r + (a - acc) * 2 ^ Z.of_nat (String.length str).
Proof.
  induction str as [|c str IH]; intros acc a r; cbn [read_binary read_digits String.length].
  - intros H. inversion H. change (Z.of_nat 0) with 0. rewrite Z.pow_0_r. lia.
  - rewrite Nat2Z.inj_succ, <- Z.add_1_r, pow2_S by lia. intros H.
    destruct (Ascii.eqb_spec c "0"%char) as [->|C0].
    + destruct (ascii_dec "0" "1") as [X|_]; [discriminate|]. rewrite (IH _ (2 * a + 0) _ H). ring.
    + destruct (Ascii.eqb_spec c "1"%char) as [->|C1]; [|discriminate].
      destruct (ascii_dec "1" "1") as [_|X]; [|congruence]. rewrite (IH _ (2 * a + 1) _ H). ring.
Qed.

Lemma of_string c s lead x e : wf x -> 0 <= lead -> 0 < lead * 2 ^ bsize x + bval x ->
  mpfr_of_string c s lead (binary_string x) e = mpfr_round c (dy s (lead * 2 ^ bsize x + bval x) (e - bsize x)).
Proof.
  intros W Hl Hp. destruct (binary_string_spec x W) as [R L]. assert (Hs : 0 <= bsize x) by apply W.
  unfold mpfr_of_string. rewrite (read_digits_binary _ 0 lead _ R), L, Z2Nat.id by exact Hs.
  replace (bval x + (lead - 0) * 2 ^ bsize x) with (lead * 2 ^ bsize x + bval x) by ring.
  replace (_ =? 0) with false by lia. reflexivity.
Qed.

Lemma store_fin f s m E : fp_store f (MFin s m E) = FPV f (MFin s m E).
Proof. reflexivity. Qed.

Lemma wrap_wf f v : okf f -> wfv f v -> fp_wrap f v = fp_store f v.
Proof. intros O W. unfold fp_wrap, fp_init. rewrite round_mnum by assumption. reflexivity. Qed.


Lemma from_bv_spec f k b : okf f -> is_pattern f b ->
  reinterpret_from_bv f (BV (BVC k (f_size f)) b) = Ok (FPV f (dec f b)).
Proof.
  intros O H. pose proof (emax_pos f O) as [E1 E2]. destruct (split_pattern f b O H) as (kk & K & B & KE).
  destruct (fields f (pat_sign f b) kk O K) as (_ & _ & _ & _ & R1 & R2). rewrite <- B in R1, R2.
  pose proof (dec_wf f b O H) as DW. pose proof O as [O1 O2].
  pose proof (pow2_pos (f_mb f) ltac:(lia)) as PM. pose proof (pow2_pos (f_eb f) ltac:(lia)) as PE.
  assert (W : wf (BV (BVC k (f_size f)) b)) by (split; cbn [bcls csize bval]; [unfold f_size; lia|exact H]).
  unfold reinterpret_from_bv. change (bsize (BV _ b)) with (f_size f). rewrite Z.eqb_refl. cbn [negb].
  rewrite !getitem_slice_plain by auto. cbv zeta. change (bsize (BV _ b)) with (f_size f). cbn [bval bkind bcls ck].
  replace (f_mb f <? 0) with false by lia. change (-1 <? 0) with true. cbv iota.
  replace (Z.max 0 (Z.min (f_size f) (f_mb f))) with (f_mb f) by (unfold f_size; lia).
  replace (Z.max 0 (Z.min (f_size f) (-1 + f_size f))) with (f_size f - 1) by (unfold f_size; lia).
  replace (Z.max 0 (f_mb f - 0)) with (f_mb f) by lia.
  replace (Z.max 0 (f_size f - 1 - f_mb f)) with (f_eb f) by (unfold f_size; lia).
  replace (Z.max 0 (f_size f - (f_size f - 1))) with 1 by lia.
  rewrite Z.pow_0_r, Z.div_1_r. fold (pat_man f b). fold (pat_exp f b). cbn [bind].
  assert (SG : (b / 2 ^ (f_size f - 1)) mod 2 ^ 1 = b2z (pat_sign f b)).
  { replace (f_size f - 1) with (f_eb f + f_mb f) by (unfold f_size; lia). rewrite B at 1.
    rewrite Z.add_comm, Z.div_add by (pose proof (pow2_pos (f_eb f + f_mb f)); lia). rewrite Z.div_small by lia.
    destruct (pat_sign f b); reflexivity. }
  rewrite SG. change (bsize (BV (BVC k (f_eb f)) _)) with (f_eb f). rewrite Z.eqb_refl. cbn [negb].
  set (e := pat_exp f b) in *. set (m := pat_man f b) in *. set (s := pat_sign f b) in *.
  assert (We : wf (BV (BVC k (f_eb f)) e)) by (split; cbn [bcls csize bval]; lia).
  assert (Wm : wf (BV (BVC k (f_mb f)) m)) by (split; cbn [bcls csize bval]; lia).
  assert (Ws : wf (BV (BVC k 1) (b2z s))) by (split; cbn [bcls csize bval]; [lia|destruct s; cbn; lia]).
  assert (OPI : forall n z, operand n (VInt z) (z mod 2 ^ n)) by (intros; apply Op_conv; [congruence|constructor]).
  rewrite (bveq_spec _ (VInt 0) (0 mod 2 ^ f_eb f)) by (auto; apply OPI). rewrite Z.mod_0_l by lia. cbn [bind bval].
  rewrite (bvne_spec (BV (BVC k (f_mb f)) m) (VInt 0) (0 mod 2 ^ f_mb f)) by (auto; apply OPI).
  rewrite (bveq_spec (BV (BVC k (f_mb f)) m) (VInt 0) (0 mod 2 ^ f_mb f)) by (auto; apply OPI).
  rewrite !Z.mod_0_l by lia. cbn [bval].
  rewrite (bveq_spec _ (VInt (-1)) ((-1) mod 2 ^ f_eb f)) by (auto; apply OPI). rewrite neg1_mod by lia. cbn [bval].
  rewrite getitem_int_spec by (auto; change (bsize (BV (BVC k 1) (b2z s))) with 1; lia).
  change (bsize (BV (BVC k 1) (b2z s))) with 1. change (0 mod 1) with 0. cbn [bval bind].
  replace (Z.testbit (b2z s) 0) with s by (destruct s; reflexivity).
  unfold dec in *. fold e m s in DW |- *. unfold all_ones in *.
  destruct (Z.eqb_spec e 0) as [Z0|Z0].
  - destruct (Z.eqb_spec m 0) as [M0|M0]; cbn [negb orb] in *; [reflexivity|].
    destruct (f_ieee f) eqn:IE; cbn [negb] in *; [|reflexivity].
    rewrite of_string by (auto; try lia; cbn [bval]; lia).
    change (bval (BV _ m)) with m. change (bsize (BV _ m)) with (f_mb f). rewrite Z.mul_0_l, Z.add_0_l.
    destruct (log2_bounds m (f_mb f) ltac:(lia) ltac:(lia)) as [L1 L2].
    rewrite (round_exact (fctx f) (top f) s (m * 2 ^ (f_mb f - Z.log2 m)) (top f - (f_mb f - Z.log2 m))).
    + rewrite wrap_wf by assumption. reflexivity.
    + rewrite fctx_eq by exact O. cbn [c_prec]. lia.
    + rewrite fctx_eq by exact O. cbn [c_prec c_sub c_emin]. rewrite IE. lia.
    + exact DW.
    + eexists m, _, (f_mb f - Z.log2 m). split; [lia|]. split; [reflexivity|]. split; [|reflexivity].
      rewrite fctx_eq by exact O. cbn [c_prec]. rewrite Z.shiftl_1_l. unfold top. lia.
  - destruct (Z.eqb_spec e (2 ^ f_eb f - 1)) as [A|A]; cbn [bind].
    + destruct (Z.eqb_spec m 0) as [M0|M0].
      * replace (bv_bool (BV (BVC k 1) (b2z s))) with (Ok s : res bool) by (clearbody s; destruct k, s; reflexivity). reflexivity.
      * unfold fp_init. cbn [mpfr_round]. unfold fp_store. cbn [is_nan is_signed andb]. destruct (f_ieee f); reflexivity.
    + rewrite (bvsub_spec _ (VInt (Z.shiftl 1 (f_eb f - 1) - 1)) ((Z.shiftl 1 (f_eb f - 1) - 1) mod 2 ^ f_eb f)) by (auto; apply OPI).
      cbn [bind rv_val]. change (bsize (BV (BVC k (f_eb f)) e)) with (f_eb f). cbn [bval bcls].
      rewrite Z.shiftl_1_l. rewrite Zminus_mod_idemp_r.
      rewrite as_sint_spec.
      2:{ split; cbn [bcls csize bval]; [lia|]. apply Z.mod_pos_bound; lia. }
      2:{ exact O1. }
      cbn [bind]. change (bsize (BV (BVC k (f_eb f)) ?z)) with (f_eb f). cbn [bval].
      assert (SE : signed (f_eb f) ((e - (2 ^ (f_eb f - 1) - 1)) mod 2 ^ f_eb f) = e - (2 ^ (f_eb f - 1) - 1)).
      { unfold signed. destruct (Z_lt_le_dec (e - (2 ^ (f_eb f - 1) - 1)) 0) as [L|L].
        - assert (X : (e - (2 ^ (f_eb f - 1) - 1)) mod 2 ^ f_eb f = e - (2 ^ (f_eb f - 1) - 1) + 2 ^ f_eb f)
            by (symmetry; apply Z.mod_unique with (-1); lia).
          rewrite X. replace (_ <? _) with false by lia. lia.
        - rewrite Z.mod_small by lia. replace (_ <? _) with true by lia. reflexivity. }
      unfold bsize. cbn [bcls csize]. rewrite SE.
      rewrite of_string by (auto; try lia; cbn [bval]; unfold bsize; cbn [bcls csize]; lia).
      change (bval (BV _ m)) with m. change (bsize (BV _ m)) with (f_mb f). rewrite Z.mul_1_l.
      rewrite (round_exact (fctx f) (top f) s (2 ^ f_mb f + m) (e - 1 + top f)).
      * rewrite wrap_wf by assumption. reflexivity.
      * rewrite fctx_eq by exact O. cbn [c_prec]. lia.
      * rewrite fctx_eq by exact O. cbn [c_prec c_sub c_emin]. destruct (f_ieee f); lia.
      * exact DW.
      * eexists (2 ^ f_mb f + m), _, 0. split; [lia|]. split; [rewrite Z.pow_0_r; lia|]. split; [|reflexivity].
        rewrite fctx_eq by exact O. cbn [c_prec]. unfold top. lia.
Qed.

(** ** Round trips *)
Lemma pat_dec f b : okf f -> is_pattern f b -> ~ pat_nan f b -> (f_ieee f = false -> ~ pat_subnormal f b) ->
  pat f (dec f b) = b.
Proof.
  intros O H NN NS. pose proof (emax_pos f O) as [E1 E2]. destruct (split_pattern f b O H) as (kk & K & B & KE).
  destruct (fields f (pat_sign f b) kk O K) as (_ & _ & _ & _ & R1 & R2). rewrite <- B in R1, R2.
  rewrite B at 2. rewrite KE. pose proof O as [O1 O2]. pose proof (pow2_pos (f_mb f) ltac:(lia)) as PM.
  unfold pat_nan in NN. unfold pat_subnormal in NS.
  unfold dec, pat. replace (f_mb f + 1 - 1) with (f_mb f) by lia.
  destruct (Z.eqb_spec (pat_exp f b) 0) as [Z0|Z0].
  - rewrite Z0. destruct (Z.eqb_spec (pat_man f b) 0) as [M0|M0]; cbn [orb].
    + rewrite M0. reflexivity.
    + destruct (f_ieee f) eqn:IE; cbn [negb]; [|exfalso; apply NS; auto].
      destruct (log2_bounds (pat_man f b) (f_mb f) ltac:(lia) ltac:(lia)) as [L1 L2].
      cbn [is_signed mag_pat]. unfold mpat. replace (_ <? top f) with true by lia.
      replace (top f - (top f - (f_mb f - Z.log2 (pat_man f b)))) with (f_mb f - Z.log2 (pat_man f b)) by lia.
      rewrite Z.div_mul by (pose proof (pow2_pos (f_mb f - Z.log2 (pat_man f b))); lia). lia.
  - destruct (Z.eqb_spec (pat_exp f b) (all_ones f)) as [A|A].
    + destruct (Z.eqb_spec (pat_man f b) 0) as [M0|M0]; [|tauto].
      rewrite M0, A. cbn [is_signed mag_pat]. unfold IM, all_ones. lia.
    + cbn [is_signed mag_pat]. unfold mpat. replace (_ <? top f) with false by lia.
      replace (f_mb f + 1 - 1) with (f_mb f) by lia. lia.
Qed.

Lemma pat_fields f v : okf f -> wfv f v ->
  exists k, 0 <= k < 2 ^ (f_eb f + f_mb f) /\ pat f v = b2z (is_signed v) * 2 ^ (f_eb f + f_mb f) + k /\
   k = match v with MNaN _ => IM f + 1 | _ => mag_pat (f_mb f + 1) (top f) (IM f) v end.
Proof.
  intros O W. pose proof (IM_range f O) as (I1 & I2 & I3).
  assert (M : 0 <= match v with MNaN _ => IM f + 1 | _ => mag_pat (f_mb f + 1) (top f) (IM f) v end < 2 ^ (f_eb f + f_mb f)).
  { destruct v; cbn [mag_pat]; try lia. destruct (mpat_range f m E s O W) as [R _]; [|lia].
    unfold wfv in W. rewrite fctx_eq in W by exact O. cbn [wfm c_emax] in W. lia. }
  eexists. split; [exact M|]. split; reflexivity.
Qed.

Lemma IM_div f r : okf f -> 0 <= r < 2 ^ f_mb f -> (IM f + r) / 2 ^ f_mb f = all_ones f /\ (IM f + r) mod 2 ^ f_mb f = r.
Proof.
  intros [O1 O2] Hr. unfold IM, all_ones. rewrite Z.add_comm, Z.div_add, Z.mod_add by lia.
  rewrite Z.div_small, Z.mod_small by lia. auto.
Qed.

(** Fields of the pattern of a value. *)
Lemma pat_of f v : okf f -> wfv f v ->
  is_pattern f (pat f v) /\ pat_sign f (pat f v) = is_signed v /\
  match v with
  | MNaN _ => pat_exp f (pat f v) = all_ones f /\ pat_man f (pat f v) = 1
  | MInf _ => pat_exp f (pat f v) = all_ones f /\ pat_man f (pat f v) = 0
  | MZero _ => pat_exp f (pat f v) = 0 /\ pat_man f (pat f v) = 0
  | MFin _ m E =>
      if E <? top f
      then pat_exp f (pat f v) = 0 /\ pat_man f (pat f v) = m / 2 ^ (top f - E) /\
           0 < m / 2 ^ (top f - E) /\ f_ieee f = true /\ top f - f_mb f <= E
      else pat_exp f (pat f v) = E - top f + 1 /\ pat_man f (pat f v) = m - 2 ^ f_mb f /\
           1 <= E - top f + 1 < all_ones f
  end.
Proof.
  intros O W. pose proof (emax_pos f O) as [E1 E2]. destruct (pat_fields f v O W) as (k & K & P & KE). rewrite P.
  destruct (fields f (is_signed v) k O K) as (F1 & F2 & F3 & F4 & _). split; [exact F1|]. split; [exact F2|].
  rewrite F3, F4. pose proof O as [O1 O2]. pose proof (pow2_pos (f_mb f) ltac:(lia)) as PM.
  pose proof (pow2_le_mono 1 (f_mb f) ltac:(lia)) as PM2. change (2 ^ 1) with 2 in PM2.
  destruct v as [s|s|s|s m E]; cbn [mag_pat] in KE.
  - subst k. apply IM_div; [exact O|lia].
  - subst k. rewrite <- (Z.add_0_r (IM f)). apply IM_div; [exact O|lia].
  - subst k. rewrite Z.div_small, Z.mod_small by lia. auto.
  - assert (HE : E <= 2 ^ (f_eb f - 1)) by (unfold wfv in W; rewrite fctx_eq in W by exact O; cbn [wfm c_emax] in W; lia).
    destruct (mpat_range f m E s O W HE) as (R1 & R2 & R3). rewrite <- KE in *. rewrite R2, R3.
    destruct (Z.ltb_spec E (top f)) as [L|L].
    + split; [reflexivity|]. split; [reflexivity|]. 
      unfold wfv in W. rewrite fctx_eq in W by exact O. cbn [wfm c_prec c_emin c_emax] in W.
      unfold mpat in KE. replace (E <? top f) with true in KE by lia. split; [lia|].
      destruct (f_ieee f); [split; [reflexivity|lia]|lia].
    + split; [reflexivity|]. split; [reflexivity|]. unfold all_ones, top in *. lia.
Qed.

Lemma dec_pat f v : okf f -> wfv f v -> is_nan v = false -> dec f (pat f v) = v.
Proof.
  intros O W NV. destruct (pat_of f v O W) as (_ & S & F). unfold dec. rewrite S.
  pose proof (emax_pos f O) as [E1 E2]. unfold all_ones in *.
  destruct v as [s|s|s|s m E]; cbn [is_nan is_signed] in *; [discriminate| | |].
  - destruct F as [-> ->]. replace (_ =? 0) with false by lia. rewrite Z.eqb_refl. reflexivity.
  - destruct F as [-> ->]. reflexivity.
  - pose proof O as [O1 O2]. unfold wfv in W. rewrite fctx_eq in W by exact O. cbn [wfm c_prec c_emin c_emax] in W.
    destruct W as (W1 & W2 & W3). replace (f_mb f + 1 - 1) with (f_mb f) in W1 by lia. rewrite pow2_S in W1 by lia.
    destruct (Z.ltb_spec E (top f)) as [L|L].
    + destruct F as (-> & -> & F & -> & F'). change (0 =? 0) with true. replace (m / 2 ^ (top f - E) =? 0) with false by lia. cbn [orb negb].
      specialize (W3 L). set (j := top f - E) in *. pose proof (pow2_pos j ltac:(unfold j; lia)) as PJ.
      assert (LG : Z.log2 (m / 2 ^ j) = f_mb f - j).
      { apply Z.log2_unique; [unfold j; lia|].
        assert (A : 2 ^ f_mb f = 2 ^ (f_mb f - j) * 2 ^ j) by (rewrite <- pow2_split by (unfold j; lia); f_equal; lia).
        rewrite <- Z.add_1_r, pow2_S by (unfold j; lia). split; [apply Z.div_le_lower_bound; lia|apply Z.div_lt_upper_bound; lia]. }
      rewrite LG. replace (f_mb f - (f_mb f - j)) with j by lia.
      replace (m / 2 ^ j * 2 ^ j) with m by (pose proof (Z.div_mod m (2 ^ j) ltac:(lia)); lia).
      f_equal. unfold j. lia.
    + destruct F as (-> & -> & F). replace (_ =? 0) with false by lia. replace (_ =? _) with false by lia. f_equal; lia.
Qed.

Lemma pat_inj f v w : okf f -> wfv f v -> wfv f w -> is_nan v = false -> is_nan w = false ->
  pat f v = pat f w -> v = w.
Proof.
  intros O V W NV NW E. rewrite <- (dec_pat f v O V NV), <- (dec_pat f w O W NW). now rewrite E.
Qed.
