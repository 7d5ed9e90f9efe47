(** Lemmas relating Z3Model.v to the concrete model, mostly through SMTModel.v: on the arguments both families take the
    two symbolic constructors build the same term. *)
From Coq Require Import Lia ZifyBool.
From Verif Require Import PyBase BVModel BVSpec BVFacts BVOps BVPropFacts OpModel OpSpec OpFacts SMTTerm SMTModel SMTSpec SMTFacts SMTOps
  SMTInfix SMTMore Z3Model Z3Spec.

(** The argument of the pySMT family that stands for the same value. *)
Definition norm (v : sval) : sval :=
  match v with SOther (Some (Ok z)) _ => SInt z | SNodeB t => SBit t | _ => v end.

Lemma norm_convertible n v : zconvertible n v -> convertible n (norm v).
Proof. intros [v' H|z b|t H]; [|constructor|now constructor]. destruct H; cbn [norm]; now constructor. Qed.
Lemma norm_accepted n v : zaccepted n v -> accepted n (norm v).
Proof.
  intros [H1 H2]. split; [now apply norm_convertible|].
  destruct v as [| | | | | | |[[]|]]; cbn [norm]; auto.
Qed.
Lemma norm_plain n v : convertible n v -> norm v = v \/ exists z b, v = SOther (Some (Ok z)) b.
Proof. destruct 1; cbn [norm]; eauto. Qed.

Lemma norm_init c e n v : zconvertible n v -> bv_init c (vmeaning e v) = bv_init c (vmeaning e (norm v)).
Proof.
  intros [v' H|z b|t H]; [|reflexivity|reflexivity]. destruct (norm_plain _ _ H) as [-> |(z & b & ->)]; reflexivity.
Qed.
Lemma norm_coerce c e n v : zconvertible n v -> coerce c (vmeaning e v) = coerce c (vmeaning e (norm v)).
Proof.
  intros [v' H|z b|t H]; [|reflexivity|reflexivity]. destruct (norm_plain _ _ H) as [-> |(z & b & ->)]; reflexivity.
Qed.
Lemma norm_cast {A} (g : bv -> bv -> res A) x e n v : zconvertible n v ->
  bv_cast g x (vmeaning e v) = bv_cast g x (vmeaning e (norm v)).
Proof. intros H. unfold bv_cast. now rewrite (norm_coerce _ _ _ _ H). Qed.

Lemma conc_meth_norm m x e n v : zconvertible n v -> conc_meth m x (vmeaning e v) = conc_meth m x (vmeaning e (norm v)).
Proof.
  intros H. destruct m; cbn [conc_meth];
    unfold bvand, bvnand, bvor, bvnor, bvxor, bvxnor, bvand, bvor, bvxor, bvshl, bvlshr, bvashr, bvadd, bvsub, bvmul, bvudiv, bvurem, bvcomp;
    now rewrite ?(norm_cast _ _ _ _ _ H).
Qed.
Lemma conc_rel_norm m x e n v : zconvertible n v -> conc_rel m x (vmeaning e v) = conc_rel m x (vmeaning e (norm v)).
Proof.
  intros H. destruct m; cbn [conc_rel];
    unfold bvne, bvugt, bvuge, bvsgt, bvsge, bvule, bvsle, bvult, bvslt, bveq; now rewrite ?(norm_cast _ _ _ _ _ H).
Qed.

Section F.
Variable S : simplifier.
Hypothesis FS : faithful S.

(** ** Slices, extension, concatenation *)
Lemma z_slice_eq x a b s : s = None \/ s = Some 1 ->
  let n := ssize x in
  let lo := match a with None => 0 | Some i => if i <? 0 then n + i else i end in
  let hi := Z.min (match b with None => n | Some i => if i <? 0 then n + i else i end) n in
  0 <= lo < hi -> vwf (sterm x) = true -> width (sterm x) = n ->
  z_slice S x a b s = s_getitem_slice S x a b s.
Proof.
  intros Hs n lo hi H W1 W2. unfold z_slice, s_getitem_slice. fold n. fold lo. fold hi.
  assert (E : z_extract (hi - 1) lo (sterm x) = extract (sterm x) lo (hi - 1)).
  { unfold z_extract, extract. replace ((lo <=? hi - 1) && (0 <=? lo)) with true by lia.
    replace (vwf (VExtract lo (hi - 1) (sterm x))) with true; [reflexivity|]. cbn [vwf]. rewrite W1. cbn [andb].
    assert (hi <= n) by (unfold hi; lia). lia. }
  destruct Hs; subst s; rewrite E; reflexivity.
Qed.
Lemma z_slice_ok x a b s : swf x -> s = None \/ s = Some 1 ->
  let n := csize (scls x) in
  let lo := match a with None => 0 | Some i => if i <? 0 then n + i else i end in
  let hi := Z.min (match b with None => n | Some i => if i <? 0 then n + i else i end) n in
  0 <= lo < hi ->
  exists r, z_slice S x a b s = Ok r /\ scls r = BVC (skind x) (hi - lo) /\ swf r /\
    forall e, getitem_slice (meaning e x) a b s = Ok (meaning e r).
Proof.
  intros Hx Hs n lo hi H. pose proof Hx as (X1 & X2 & X3).
  rewrite (z_slice_eq x a b s Hs H X2 X3). now apply s_getitem_slice_ok.
Qed.
Lemma z_index_eq x i : swf x -> z_index S x i = s_getitem_int S x i.
Proof.
  intros (X1 & X2 & X3). unfold z_index, s_getitem_int. set (j := if i <? 0 then ssize x + i else i).
  destruct (Z.leb_spec 0 j), (Z.ltb_spec j (ssize x)); cbn [andb negb]; try reflexivity.
  unfold z_extract, extract. replace ((j <=? j) && (0 <=? j)) with true by lia.
  replace (vwf (VExtract j j (sterm x))) with true; [reflexivity|]. cbn [vwf]. rewrite X2. cbn [andb]. unfold ssize in *. lia.
Qed.

Lemma z_concat_all_eq l : forall x, z_concat_all S x l = concat_all S x l.
Proof. induction l as [|y l IH]; intros x; cbn [z_concat_all concat_all]; [reflexivity|]. destruct (z_concat S x (SVec y)) eqn:E;
  change (s_concat S x (SVec y)) with (z_concat S x (SVec y)); rewrite E; cbn [bind]; auto. Qed.

(** ** Construction *)
Definition z_init_list (c : bvcls) : list sval -> res (list svec) :=
  fix go (l : list sval) : res (list svec) :=
    match l with
    | [] => Ok []
    | v :: l => x <- z_init S (BVC (ck c) 1) v ;; xs <- go l ;; Ok (x :: xs)
    end.

Lemma z_const_eq c z : 0 <= csize c -> z_const S c z = vec_const S c (z mod 2 ^ csize c).
Proof.
  intros H. unfold vec_const. pose proof (mod_range z (csize c) H).
  replace ((0 <=? z mod 2 ^ csize c) && (z mod 2 ^ csize c <? 2 ^ csize c)) with true by lia. reflexivity.
Qed.

Lemma z_init_elem k v : bit_elem v -> z_init S (BVC k 1) v = s_init S (BVC k 1) v.
Proof.
  destruct 1 as [ | |b|t Ht|x Hx Hs]; cbn [z_init s_init]; try (apply z_const_eq; cbn; lia); try reflexivity.
  unfold ssize. rewrite Hs. reflexivity.
Qed.
Lemma z_init_list_eq c l : Forall bit_elem l -> z_init_list c l = s_init_list S c l.
Proof.
  induction 1 as [|v l Hv Hl IH]; cbn [z_init_list s_init_list]; [reflexivity|].
  fold (z_init_list c). fold (s_init_list S c). now rewrite z_init_elem, IH.
Qed.

Lemma z_init_eq c v : 1 <= csize c -> zconvertible (csize c) v -> z_init S c v = s_init S c (norm v).
Proof.
  intros Hc [v' H|z b|t H]; [destruct H as [z|b|t Ht|x Hx|l Hl Hb|z b Hz]| |]; cbn [norm];
    try (cbn [z_init s_init bind]; apply z_const_eq; lia); try reflexivity.
  - cbn [z_init s_init]. destruct (Z.ltb_spec (csize c - ssize x) 0); [|reflexivity].
    pose proof Hx as (X1 & X2 & X3). rewrite z_slice_eq; auto.
    replace (csize c <? 0) with false by lia. lia.
  - change (z_init S c (SSeq l)) with (if negb (Z.of_nat (length l) =? csize c) then Raise EValueError else
      xs <- z_init_list c l ;; match xs with [] => Raise ETypeError | x :: xs => r <- z_concat_all S x xs ;; z_node S c (sterm r) end).
    change (s_init S c (SSeq l)) with (if negb (Z.of_nat (length l) =? csize c) then Raise EValueError else
      xs <- s_init_list S c l ;; match xs with [] => Raise ETypeError | x :: xs => r <- concat_all S x xs ;; vec_node S c (sterm r) end).
    rewrite (z_init_list_eq c l Hb). destruct (negb _); [reflexivity|].
    destruct (s_init_list S c l) as [[|x xs]|]; reflexivity.
Qed.
Lemma z_init_ok c v : 1 <= csize c -> zconvertible (csize c) v ->
  exists r, z_init S c v = Ok r /\ scls r = c /\ swf r /\ forall e, bv_init c (vmeaning e v) = Ok (meaning e r).
Proof.
  intros Hc Hv. destruct (s_init_ok S FS c (norm v) Hc (norm_convertible _ _ Hv)) as (r & A & B & C & D).
  exists r. rewrite (z_init_eq c v Hc Hv). repeat (split; [now auto|]). intros e. now rewrite (norm_init _ _ _ _ Hv).
Qed.

Lemma z_coerce_eq c v : 1 <= csize c -> zaccepted (csize c) v -> z_coerce S c v = s_coerce S c (norm v).
Proof.
  intros Hc [Hv Hs]. destruct v as [z|b|t|x|t|t|l|i b];
    try (cbn [z_coerce]; rewrite z_init_eq by auto; reflexivity).
  - cbn [z_coerce norm s_coerce]. unfold ssize. rewrite Hs, Z.eqb_refl. reflexivity.
  - cbn [z_coerce]. rewrite z_init_eq by auto. destruct i as [[]|]; reflexivity.
Qed.
Lemma z_cast_eq {A} (fn : svec -> svec -> res A) x v : swf x -> zaccepted (csize (scls x)) v ->
  z_cast S fn x v = s_cast S fn x (norm v).
Proof. intros (X1 & _) Hv. unfold z_cast, s_cast. now rewrite z_coerce_eq. Qed.

(** ** Named methods *)
Lemma z_comp_eq x v : swf x -> zaccepted (csize (scls x)) v ->
  exists r, z_bvcomp S x v = Ok r /\ scls r = BVC (skind x) 1 /\ swf r /\
    forall e, exists o, bvcomp (meaning e x) (vmeaning e v) = Ok o /\ rv_val (meaning e x) o = meaning e r.
Proof.
  intros Hx Hv. unfold z_bvcomp. rewrite z_cast_eq by auto.
  destruct (s_cast_ok S FS (fun x y => c <- sized (skind x) 1;; z_init S c (SNodeB (BEq (sterm x) (sterm y)))) x (norm v) Hx (norm_accepted _ _ Hv))
    as (y & E1 & E2 & E3 & E4 & _).
  destruct (swf_same x y Hx E3 E2) as (A1 & A2 & A3 & A4 & A5).
  rewrite E1. rewrite sized_ok by lia. cbn [bind].
  destruct (z_init_ok (BVC (skind x) 1) (SNodeB (BEq (sterm x) (sterm y)))) as (r & R1 & R2 & R3 & R4); [cbn; lia| |].
  { apply Z_bool. cbn [bwf]. rewrite A1, A2. cbn [andb]. lia. }
  rewrite R1. exists r. repeat (split; [now auto|]). intros e. unfold bvcomp.
  destruct Hv as [Hv _]. rewrite (norm_cast _ _ _ _ _ Hv), E4.
  rewrite construct_converts with (u := (if as_uint (meaning e x) =? as_uint (meaning e y) then 1 else 0) mod 2 ^ 1);
    [|lia|constructor].
  cbn [rmap]. eexists; split; [reflexivity|]. cbn [rv_val].
  specialize (R4 e). cbn [vmeaning bv_init] in R4. rewrite mk_eq in R4 by (cbn; lia).
  assert (Q : meaning e r = BV (BVC (skind x) 1) (b2z (evalb e (BEq (sterm x) (sterm y))) mod 2 ^ csize (BVC (skind x) 1))) by congruence.
  rewrite Q. cbn [evalb csize]. unfold as_uint, b2z. cbn [meaning bval]. reflexivity.
Qed.
Lemma z_meth_ok m x v : swf x -> zaccepted (csize (scls x)) v ->
  exists r, z3_meth S m x v = Ok r /\ scls r = (match m with MComp => BVC (skind x) 1 | _ => scls x end) /\ swf r /\
    forall e, exists o, conc_meth m (meaning e x) (vmeaning e v) = Ok o /\ rv_val (meaning e x) o = meaning e r.
Proof.
  intros Hx Hv. destruct (Z.eq_dec (match m with MComp => 1 | _ => 0 end) 1) as [E|E].
  { destruct m; try discriminate. cbn [z3_meth conc_meth]. now apply z_comp_eq. }
  destruct (meth_ok S FS m x (norm v) Hx (norm_accepted _ _ Hv)) as (r & R1 & R2 & R3 & R4).
  exists r. split; [|split; [exact R2|split; [exact R3|]]].
  - rewrite <- R1. destruct m; cbn [z3_meth smt_meth]; try (now elim E); now apply z_cast_eq.
  - intros e. destruct Hv as [Hv _]. rewrite (conc_meth_norm _ _ _ _ _ Hv). apply R4.
Qed.
Lemma z_rel_ok m x v : swf x -> zaccepted (csize (scls x)) v ->
  exists r, z3_rel S m x v = Ok r /\ bwf r = true /\
    forall e, conc_rel m (meaning e x) (vmeaning e v) = Ok (evalb e r).
Proof.
  intros Hx Hv. destruct (rel_ok S FS m x (norm v) Hx (norm_accepted _ _ Hv)) as (r & R1 & R2 & R3).
  exists r. split; [|split; [exact R2|]].
  - rewrite <- R1. destruct m; cbn [z3_rel smt_rel]; now apply z_cast_eq.
  - intros e. destruct Hv as [Hv _]. rewrite (conc_rel_norm _ _ _ _ _ Hv). apply R3.
Qed.

(** ** Rotation by any operand *)
Lemma z_bin_ok op x v : swf x -> zaccepted (csize (scls x)) v ->
  exists y r, z_bin S op x v = Ok r /\ ssize y = ssize x /\ swf y /\ scls r = scls x /\ swf r /\
    (forall e, evalv e (sterm r) = op_sem op (csize (scls x)) (evalv e (sterm x)) (evalv e (sterm y))) /\
    (forall e (B : Type) (g : bv -> bv -> res B), bv_cast g (meaning e x) (vmeaning e v) = g (meaning e x) (meaning e y)).
Proof.
  intros Hx Hv. destruct (s_bin_ok S FS op x (norm v) Hx (norm_accepted _ _ Hv)) as (y & r & E1 & E2 & E3 & E4 & E5 & E6 & E7).
  exists y, r. unfold z_bin. rewrite z_cast_eq by auto. repeat (split; [now auto|]).
  intros e B g. destruct Hv as [Hv _]. rewrite (norm_cast _ _ _ _ _ Hv). apply E7.
Qed.

Lemma rotate_same (f : bv -> pyval -> res rv) x y r sh e :
  swf x -> swf y -> ssize y = ssize x -> scls r = scls x -> swf r ->
  (forall i, 0 <= i < csize (scls x) -> Z.testbit (evalv e (sterm r)) i = Z.testbit (evalv e (sterm x)) (sh i)) ->
  (exists q, f (meaning e x) (VBV (meaning e y)) = Ok (New q) /\ bcls q = bcls (meaning e x) /\ wf q /\
     forall i, 0 <= i < bsize (meaning e x) -> Z.testbit (bval q) i = Z.testbit (bval (meaning e x)) (sh i)) ->
  f (meaning e x) (VBV (meaning e y)) = Ok (New (meaning e r)).
Proof.
  intros Hx Hy Hs Hc Hr Hb (q & Q1 & Q2 & Q3 & Q4). rewrite Q1. do 2 f_equal. apply bv_ext.
  - rewrite Q2. cbn [meaning bcls]. auto.
  - destruct Q3 as [Q3 Q3']. rewrite Q2 in Q3'. change (bcls (meaning e x)) with (scls x) in *.
    apply bits_ext with (csize (scls x)); auto.
    { cbn [meaning bval]. rewrite <- Hc. now apply eval_range. }
    intros i Hi. rewrite Q4 by exact Hi. cbn [meaning bval]. now rewrite Hb.
Qed.
Lemma cast_vec {A} (g : bv -> bv -> res A) e x y : ssize y = ssize x -> bv_cast g (meaning e x) (VBV (meaning e y)) = g (meaning e x) (meaning e y).
Proof. intros H. unfold bv_cast. cbn [coerce]. unfold bsize. cbn [meaning bcls]. unfold ssize in H. rewrite H, Z.eqb_refl. reflexivity. Qed.

Lemma z_rotate_ok x v : swf x -> zaccepted (csize (scls x)) v ->
  (exists r, z_bvrol S x v = Ok r /\ scls r = scls x /\ swf r /\
     forall e, bvrol (meaning e x) (vmeaning e v) = Ok (New (meaning e r))) /\
  (exists r, z_bvror S x v = Ok r /\ scls r = scls x /\ swf r /\
     forall e, bvror (meaning e x) (vmeaning e v) = Ok (New (meaning e r))).
Proof.
  intros Hx Hv. pose proof Hx as (X1 & X2 & X3).
  assert (RG : forall e, 0 <= evalv e (sterm x) < 2 ^ csize (scls x)) by (intros; now apply eval_range).
  split.
  - destruct (z_bin_ok XRol x v Hx Hv) as (y & r & E1 & E2 & E3 & E4 & E5 & E6 & E7). exists r.
    repeat (split; [now auto|]). intros e.
    transitivity (bvrol (meaning e x) (VBV (meaning e y))). { unfold bvrol. rewrite E7. symmetry. now apply cast_vec. }
    apply (rotate_same bvrol x y r (fun i => (i - evalv e (sterm y)) mod csize (scls x))); auto.
    + intros i Hi. rewrite E6. cbn [op_sem]. pose proof (Z.mod_pos_bound (evalv e (sterm y)) (csize (scls x))).
      rewrite rol_testbit by (auto; lia). f_equal. apply Zminus_mod_idemp_r.
    + apply bvrol_spec; [now apply swf_meaning|exact X1|]. constructor; [now apply swf_meaning|]. exact E2.
  - destruct (z_bin_ok XRor x v Hx Hv) as (y & r & E1 & E2 & E3 & E4 & E5 & E6 & E7). exists r.
    repeat (split; [now auto|]). intros e.
    transitivity (bvror (meaning e x) (VBV (meaning e y))). { unfold bvror. rewrite E7. symmetry. now apply cast_vec. }
    apply (rotate_same bvror x y r (fun i => (i + evalv e (sterm y)) mod csize (scls x))); auto.
    + intros i Hi. rewrite E6. cbn [op_sem]. pose proof (Z.mod_pos_bound (evalv e (sterm y)) (csize (scls x))).
      rewrite ror_testbit by (auto; lia). f_equal. apply Zplus_mod_idemp_r.
    + apply bvror_spec; [now apply swf_meaning|exact X1|]. constructor; [now apply swf_meaning|]. exact E2.
Qed.

(** ** Signed remainder: bvsmod is the floor remainder *)
Lemma smod_floor w a b : 1 <= w -> 0 <= a < 2 ^ w -> 0 <= b < 2 ^ w -> b <> 0 ->
  smod w a b = (signed w a mod signed w b) mod 2 ^ w.
Proof.
  intros Hw Ha Hb Hz. pose proof (abs_lt w a Hw Ha) as La. pose proof (abs_lt w b Hw Hb) as Lb.
  assert (Hsb : signed w b <> 0) by (rewrite signed_zero; lia). pose proof (pow2_pos w ltac:(lia)) as P.
  assert (Bm : b mod 2 ^ w = signed w b mod 2 ^ w). { rewrite signed_mod by lia. apply Z.mod_small; lia. }
  unfold smod. destruct (msb w a) eqn:Ma, (msb w b) eqn:Mb.
  - destruct (neg_msb w a Hw Ha Ma) as [Na La']. destruct (neg_msb w b Hw Hb Mb) as [Nb Lb'].
    rewrite Na, Nb, urem_pos by lia.
    assert (Q : signed w a mod signed w b = - ((- signed w a) mod (- signed w b))) by (rewrite Z.mod_opp_opp; lia).
    rewrite Q. destruct (Z.eqb_spec ((- signed w a) mod (- signed w b)) 0) as [E|E]; [rewrite E; reflexivity|reflexivity].
  - destruct (neg_msb w a Hw Ha Ma) as [Na La']. pose proof (pos_msb w b Hw Hb Mb) as Pb.
    rewrite Na, urem_pos by lia. rewrite Pb in *. set (m := (- signed w a) mod b) in *.
    pose proof (Z.mod_pos_bound (- signed w a) b ltac:(lia)). fold m in H.
    destruct (Z.eqb_spec m 0) as [E|E].
    + assert (Q : signed w a mod b = 0). { rewrite <- (Z.opp_involutive (signed w a)). apply Z.mod_opp_l_z; [lia|exact E]. }
      rewrite Q, E. symmetry. apply Z.mod_0_l. lia.
    + assert (Q : signed w a mod b = b - m).
      { rewrite <- (Z.opp_involutive (signed w a)). rewrite Z.mod_opp_l_nz by (auto; lia). reflexivity. }
      rewrite Q. unfold neg. rewrite Zplus_mod_idemp_l. f_equal. lia.
  - destruct (neg_msb w b Hw Hb Mb) as [Nb Lb']. pose proof (pos_msb w a Hw Ha Ma) as Pa.
    rewrite Nb, urem_pos by lia. rewrite Pa in *. set (m := a mod (- signed w b)) in *.
    pose proof (Z.mod_pos_bound a (- signed w b) ltac:(lia)). fold m in H.
    destruct (Z.eqb_spec m 0) as [E|E].
    + assert (Q : a mod signed w b = 0). { rewrite <- (Z.opp_involutive (signed w b)). apply Z.mod_opp_r_z; [lia|exact E]. }
      rewrite Q, E. symmetry. apply Z.mod_0_l. lia.
    + assert (Q : a mod signed w b = m - (- signed w b)).
      { rewrite <- (Z.opp_involutive (signed w b)) at 1. rewrite Z.mod_opp_r_nz by (auto; lia). reflexivity. }
      rewrite Q. rewrite <- Zplus_mod_idemp_r, Bm, Zplus_mod_idemp_r. f_equal. lia.
  - pose proof (pos_msb w a Hw Ha Ma) as Pa. pose proof (pos_msb w b Hw Hb Mb) as Pb.
    rewrite Pa, Pb in *. rewrite urem_pos by lia. rewrite mod_small_range by lia.
    destruct (Z.eqb_spec (a mod b) 0) as [E|E]; lia.
Qed.
Lemma smod_zero w a : 1 <= w -> 0 <= a < 2 ^ w -> smod w a 0 = a.
Proof.
  intros Hw Ha. assert (M0 : msb w 0 = false) by (unfold msb; pose proof (pow2_pos (w - 1)); lia).
  unfold smod. rewrite M0. unfold urem. cbn [Z.eqb]. destruct (msb w a) eqn:Ma.
  - destruct (neg_msb w a Hw Ha Ma) as [Na La']. rewrite Na. destruct (Z.eqb_spec (- signed w a) 0); [lia|].
    unfold neg. rewrite Z.opp_involutive, Z.add_0_r, Zmod_mod. apply signed_mod; lia.
  - now destruct (Z.eqb_spec a 0).
Qed.
Lemma z_srem_ok x v : swf x -> zaccepted (csize (scls x)) v ->
  exists r, z_bvsrem S x v = Ok r /\ scls r = scls x /\ swf r /\
    forall e, exists o, bvsrem (meaning e x) (vmeaning e v) = Ok o /\ rv_val (meaning e x) o = meaning e r.
Proof.
  intros Hx Hv. destruct (z_bin_ok XSMod x v Hx Hv) as (y & r & E1 & E2 & E3 & E4 & E5 & E6 & E7).
  exists r. repeat (split; [now auto|]). intros e. destruct (conc_srem e x v y Hx E3 E2 (E7 e)) as (o & O1 & O2).
  exists o. split; [exact O1|]. rewrite O2. symmetry. apply meaning_eq; [exact E4|]. rewrite E6. cbn [op_sem].
  assert (X1 : 1 <= csize (scls x)) by (destruct Hx; auto).
  assert (Rx : 0 <= evalv e (sterm x) < 2 ^ csize (scls x)) by now apply eval_range.
  assert (Ry : 0 <= evalv e (sterm y) < 2 ^ csize (scls x)) by (fold (ssize x); rewrite <- E2; now apply eval_range).
  destruct (Z.eqb_spec (evalv e (sterm y)) 0) as [Z0|Z0]; [rewrite Z0; now apply smod_zero|now apply smod_floor].
Qed.
Lemma z_sdiv_iff x v : swf x -> zaccepted (csize (scls x)) v ->
  exists r, z_bvsdiv S x v = Ok r /\ scls r = scls x /\ swf r /\
    forall e b, coerce (scls x) (vmeaning e v) = Ok b ->
      let n := csize (scls x) in let sa := signed n (evalv e (sterm x)) in let sb := signed n (bval b) in
      (bvsdiv (meaning e x) (vmeaning e v) = Ok (New (meaning e r)) <->
       if bval b =? 0 then 0 <= sa \/ n = 1 else Z.rem sa sb = 0 \/ 0 <= sa * sb).
Proof.
  intros Hx Hv. destruct (sdiv_iff S FS x (norm v) Hx (norm_accepted _ _ Hv)) as (r & R1 & R2 & R3 & R4).
  exists r. split; [unfold z_bvsdiv, z_bin; rewrite z_cast_eq by auto; exact R1|]. split; [exact R2|]. split; [exact R3|].
  intros e b Hb. destruct Hv as [Hv _]. rewrite (norm_coerce _ _ _ _ Hv) in Hb. specialize (R4 e b Hb).
  unfold bvsdiv in *. rewrite (norm_cast _ _ _ _ _ Hv). exact R4.
Qed.

(** ** Operators *)
Lemma z_op_ok op x v : swf x -> zaccepted (csize (scls x)) v -> signed_floordiv op (skind x) = false ->
  exists r, z_op_method S op (skind x) x v = Ok r /\ scls r = scls x /\ swf r /\
    forall e, exists o, forward op (meaning e x) (vmeaning e v) = Ok o /\
      oret_val (VBV (meaning e x)) (vmeaning e v) o = Ok (VBV (meaning e r)).
Proof.
  intros Hx Hv Hs.
  enough (W : exists r, z_op_method S op (skind x) x v = Ok r /\ scls r = scls x /\ swf r /\
    forall e, exists o, dispatch_oper (op_method op (skind x)) (meaning e x) (vmeaning e v) = Ok o /\
      oret_val (VBV (meaning e x)) (vmeaning e v) o = Ok (VBV (meaning e r))) by exact W.
  assert (G : forall m r, (forall e, exists o, m (meaning e x) (vmeaning e v) = Ok o /\ rv_val (meaning e x) o = meaning e r) ->
    forall e, exists o, dispatch_oper m (meaning e x) (vmeaning e v) = Ok o /\
      oret_val (VBV (meaning e x)) (vmeaning e v) o = Ok (VBV (meaning e r))).
  { intros m r H e. destruct (H e) as (o & O1 & O2). unfold dispatch_oper. rewrite O1.
    destruct o as [y|]; cbn [rv_val] in O2; (eexists; split; [reflexivity|]); cbn [oret_val]; congruence. }
  assert (M : forall m, m <> MComp -> exists r, z3_meth S m x v = Ok r /\ scls r = scls x /\ swf r /\
    forall e, exists o, dispatch_oper (conc_meth m) (meaning e x) (vmeaning e v) = Ok o /\
      oret_val (VBV (meaning e x)) (vmeaning e v) o = Ok (VBV (meaning e r))).
  { intros m Hm. destruct (z_meth_ok m x v Hx Hv) as (r & R1 & R2 & R3 & R4). exists r. split; auto.
    split; [destruct m; congruence|]. split; auto. }
  destruct op; cbn [op_method z_op_method].
  - apply (M MAnd); discriminate.
  - apply (M MOr); discriminate.
  - apply (M MXor); discriminate.
  - apply (M MShl); discriminate.
  - destruct (skind x) eqn:K; [apply (M MLshr)|apply (M MLshr)|apply (M MLshr)|apply (M MAshr)]; discriminate.
  - apply (M MAdd); discriminate.
  - apply (M MSub); discriminate.
  - apply (M MMul); discriminate.
  - destruct (skind x) eqn:K; try discriminate; apply (M MUdiv); discriminate.
  - destruct (skind x) eqn:K; try (apply (M MUrem); discriminate).
    destruct (z_srem_ok x v Hx Hv) as (r & R1 & R2 & R3 & R4). exists r. repeat (split; [now auto|]). now apply G.
Qed.

Lemma z_binop_left op x v : swf x -> zaccepted (csize (scls x)) v -> signed_floordiv op (skind x) = false ->
  (forall y, v = SVec y -> redefined op = true -> skind y = KSInt -> above_signed (skind x) = false) ->
  exists r, z_binop S op (SVec x) v = Ok (SVec r) /\ scls r = scls x /\ swf r /\
    forall e, py_binop_val op (VBV (meaning e x)) (vmeaning e v) = Ok (VBV (meaning e r)).
Proof.
  intros Hx Hv Hs Hy. destruct (z_op_ok op x v Hx Hv Hs) as (r & R1 & R2 & R3 & R4).
  exists r. split; [cbn [z_binop]; now rewrite R1|]. split; [exact R2|]. split; [exact R3|]. intros e.
  assert (H : forall l, (o <- first_of ((fun _ => forward op (meaning e x) (vmeaning e v)) :: l) ;;
      oret_val (VBV (meaning e x)) (vmeaning e v) o) = Ok (VBV (meaning e r))).
  { intros l. destruct (R4 e) as (o & O1 & O2). eapply oret_val_first; eauto. }
  destruct v as [z|b|t|y|t|t|l|i b]; try (unfold py_binop_val; cbn [vmeaning py_binop]; cbn [vmeaning] in H; apply H).
  - unfold py_binop_val. cbn [vmeaning py_binop].
    assert (B : negb (cls_eqb (bcls (meaning e x)) (bcls (meaning e y))) && cls_le (bcls (meaning e y)) (bcls (meaning e x))
      && reflected_overridden op (bkind (meaning e x)) (bkind (meaning e y)) = false).
    { specialize (Hy y eq_refl). change (bkind (meaning e x)) with (skind x). change (bkind (meaning e y)) with (skind y).
      cbn [meaning bcls]. unfold cls_eqb, cls_le. fold (skind x) (skind y).
      destruct op; cbn [reflected_overridden redefined] in *; rewrite ?andb_false_r; try reflexivity;
        destruct (skind x), (skind y); cbn in *; rewrite ?andb_false_r; try reflexivity; specialize (Hy eq_refl eq_refl); discriminate. }
    rewrite B. destruct (cls_eqb _ _); cbn [vmeaning] in H; apply H.
  - destruct Hv as [Hv _]. inversion Hv as [? Q| |]. inversion Q.
Qed.

(** ** Comparisons *)
Lemma z_cmp_meth c k : exists m, z_cmp_method S c k = z3_rel S m /\ cmp_method c k = conc_rel m.
Proof.
  destruct c; [exists REq|exists RNe|destruct k; [exists RUlt|exists RUlt|exists RUlt|exists RSlt]
    |destruct k; [exists RUle|exists RUle|exists RUle|exists RSle]|destruct k; [exists RUgt|exists RUgt|exists RUgt|exists RSgt]
    |destruct k; [exists RUge|exists RUge|exists RUge|exists RSge]]; try (destruct k); split; reflexivity.
Qed.
Lemma z_cmp_ok c x v : swf x -> zaccepted (csize (scls x)) v ->
  exists r, z_cmp_method S c (skind x) x v = Ok r /\ bwf r = true /\
    forall e, cmp_forward c (meaning e x) (vmeaning e v) = Ok (ONew (VBit (evalb e r))).
Proof.
  intros Hx Hv. destruct (z_cmp_meth c (skind x)) as (m & M1 & M2).
  destruct (z_rel_ok m x v Hx Hv) as (r & R1 & R2 & R3). exists r. unfold cmp_forward.
  rewrite M1, R1. split; [reflexivity|]. split; [exact R2|]. intros e.
  change (bkind (meaning e x)) with (skind x). rewrite M2, R3. reflexivity.
Qed.
Lemma z_compare_left c x v : swf x -> zaccepted (csize (scls x)) v ->
  exists r, z_compare S c (SVec x) v = Ok (SBit r) /\ bwf r = true /\
    forall e, py_cmp c (VBV (meaning e x)) (vmeaning e v) = Ok (ONew (VBit (evalb e r))).
Proof.
  intros Hx Hv. destruct (z_cmp_ok c x v Hx Hv) as (r & R1 & R2 & R3).
  assert (H : forall e l, cmp_first_of c ((fun _ => cmp_forward c (meaning e x) (vmeaning e v)) :: l) = Ok (ONew (VBit (evalb e r)))).
  { intros e l. cbn [cmp_first_of]. now rewrite R3. }
  destruct v as [z|b|t|y|t|t|l|i b]; cbn [z_compare];
    try (exists r; rewrite R1; split; [reflexivity|]; split; [exact R2|]; intros e; exact (H e _)).
  - assert (Ec : forall e, bcls (meaning e x) = scls x) by reflexivity.
    assert (Ed : forall e, bcls (meaning e y) = scls y) by reflexivity.
    destruct (negb (cls_eqb (scls x) (scls y)) && cls_le (scls y) (scls x)) eqn:B.
    + destruct Hv as [Hv Hsz]. assert (Hyw : swf y) by (inversion Hv as [? Q| |]; inversion Q; auto).
      destruct (z_cmp_ok (cmp_swap c) y (SVec x) Hyw) as (q & Q1 & Q2 & Q3).
      { split; [now do 2 constructor|]. auto. }
      exists q. rewrite Q1. split; [reflexivity|]. split; [exact Q2|]. intros e.
      cbn [vmeaning py_cmp]. rewrite Ec, Ed, B. cbn [cmp_first_of]. cbn [vmeaning] in Q3. now rewrite Q3.
    + exists r. rewrite R1. split; [reflexivity|]. split; [exact R2|]. intros e. cbn [vmeaning py_cmp]. rewrite Ec, Ed, B. exact (H e _).
  - destruct Hv as [Hv _]. inversion Hv as [? Q| |]. inversion Q.
Qed.
Lemma z_compare_right c v y : swf y -> zaccepted (csize (scls y)) v -> plain v ->
  exists r, z_compare S c v (SVec y) = Ok (SBit r) /\ bwf r = true /\
    forall e, py_cmp c (vmeaning e v) (VBV (meaning e y)) = Ok (ONew (VBit (evalb e r))).
Proof.
  intros Hy Hv Hp. destruct (z_cmp_ok (cmp_swap c) y v Hy Hv) as (r & R1 & R2 & R3). exists r.
  assert (H : forall e, cmp_first_of c [fun _ => cmp_forward (cmp_swap c) (meaning e y) (vmeaning e v)] = Ok (ONew (VBit (evalb e r)))).
  { intros e. cbn [cmp_first_of]. now rewrite R3. }
  destruct v; try (exfalso; exact Hp); cbn [z_compare]; rewrite R1; (split; [reflexivity|]; split; [exact R2|]; intros e; exact (H e)).
Qed.

(** ** Bits *)
Lemma z_bit_init_ok v : zbit_arg v ->
  exists t, z_bit_init S v = Ok t /\ bwf t = true /\ forall e, bit_init (vmeaning e v) = Ok (evalb e t).
Proof.
  intros [v' H|t H].
  - destruct (sbit_init_ok S FS v' H) as (t & T1 & T2 & T3). exists t. split; [|auto].
    rewrite <- T1. destruct H; reflexivity.
  - cbn [z_bit_init]. change (z_bit S t) with (bit_node S t). node FS; [exact H|]. exists r. repeat (split; [now auto|]).
    intros e. now rewrite V.
Qed.
Lemma z_bit_cast_ok fn p v : bwf p = true -> zbit_arg v ->
  (forall q, bwf q = true -> bwf (fn p q) = true) ->
  exists q r, z_bit_cast S fn p v = Ok r /\ bwf q = true /\ bwf r = true /\
    (forall e, evalb e r = evalb e (fn p q)) /\ forall e, bit_init (vmeaning e v) = Ok (evalb e q).
Proof.
  intros Hp Hv Hf. destruct (z_bit_init_ok v Hv) as (t & T1 & T2 & T3). unfold z_bit_cast.
  destruct v as [z|b|t0|y|t0|t0|l|i b]; try (rewrite T1; cbn [bind]; change (z_bit S) with (bit_node S); node FS; [now apply Hf|]; exists t, r; now auto).
  assert (W : bwf t0 = true). { inversion Hv as [? Q|]. now inversion Q. }
  change (z_bit S) with (bit_node S). node FS; [now apply Hf|]. exists t0, r. auto.
Qed.

Lemma z_bit_binop op p v : bwf p = true -> zbit_arg v -> op = OAnd \/ op = OOr \/ op = OXor ->
  exists r, z_binop S op (SBit p) v = Ok (SBit r) /\ bwf r = true /\
    forall e, py_binop_val op (VBit (evalb e p)) (vmeaning e v) = Ok (VBit (evalb e r)).
Proof.
  intros Hp Hv Ho.
  assert (V : match v with SVec _ => False | SNodeV _ => False | _ => True end) by (destruct Hv as [? []|]; exact I).
  assert (G : exists fn gn, z_bit_fn op = Some fn /\ bit_fn op = Some gn /\ (forall q, bwf q = true -> bwf (fn p q) = true) /\
      forall e q, evalb e (fn p q) = gn (evalb e p) (evalb e q)).
  { destruct Ho as [->|[->| ->]]; (do 2 eexists); (split; [reflexivity|]); (split; [reflexivity|]);
      (split; [intros q Hq; cbn; now rewrite Hp|]); intros e q; cbn; try reflexivity.
    now destruct (evalb e p), (evalb e q). }
  destruct G as (fn & gn & G1 & G2 & G3 & G4).
  destruct (z_bit_cast_ok fn p v Hp Hv G3) as (q & r & R1 & R2 & R3 & R4 & R5).
  exists r. cbn [z_binop]. rewrite G1, R1. split; [reflexivity|]. split; [exact R3|]. intros e. specialize (R5 e).
  assert (B : bit_method op (evalb e p) (vmeaning e v) = Ok (ONew (VBit (evalb e r)))).
  { unfold bit_method. rewrite G2, R5, R4, G4. reflexivity. }
  unfold py_binop_val. destruct v; try (now elim V); cbn [vmeaning py_binop] in *; cbn [first_of]; rewrite B; reflexivity.
Qed.
Lemma z_bit_cmp_ok c p v : bwf p = true -> zbit_arg v -> c = CEq \/ c = CNe ->
  exists r, z_bit_cmp S c p v = Some (Ok r) /\ bwf r = true /\
    forall e, bit_cmp c (evalb e p) (vmeaning e v) = Ok (ONew (VBit (evalb e r))).
Proof.
  intros Hp Hv [-> | ->]; unfold z_bit_cmp, bit_cmp.
  - destruct (z_bit_cast_ok BIff p v Hp Hv) as (q & r & E1 & E2 & E3 & E4 & E5). { intros q Hq. cbn. now rewrite Hp. }
    rewrite E1. exists r. repeat (split; [now auto|]). intros e. rewrite E5. now rewrite E4.
  - destruct (z_bit_cast_ok (fun p q => BNot (BIff p q)) p v Hp Hv) as (q & r & E1 & E2 & E3 & E4 & E5). { intros q Hq. cbn. now rewrite Hp. }
    rewrite E1. exists r. repeat (split; [now auto|]). intros e. rewrite E5. rewrite E4. cbn [evalb].
    do 3 f_equal. now destruct (evalb e p), (evalb e q).
Qed.
Lemma z_bit_compare c p v : bwf p = true -> zbit_arg v -> c = CEq \/ c = CNe ->
  (exists r, z_compare S c (SBit p) v = Ok (SBit r) /\ bwf r = true /\
     forall e, py_cmp c (VBit (evalb e p)) (vmeaning e v) = Ok (ONew (VBit (evalb e r)))) /\
  (plain v -> exists r, z_compare S c v (SBit p) = Ok (SBit r) /\ bwf r = true /\
     forall e, py_cmp c (vmeaning e v) (VBit (evalb e p)) = Ok (ONew (VBit (evalb e r)))).
Proof.
  intros Hp Hv Hc.
  assert (V : match v with SVec _ => False | SNodeV _ => False | _ => True end) by (destruct Hv as [? []|]; exact I). split.
  - destruct (z_bit_cmp_ok c p v Hp Hv Hc) as (r & R1 & R2 & R3). exists r. cbn [z_compare]. rewrite R1.
    split; [reflexivity|]. split; [exact R2|]. intros e.
    assert (H : forall l, cmp_first_of c ((fun _ => bit_cmp c (evalb e p) (vmeaning e v)) :: l) = Ok (ONew (VBit (evalb e r)))).
    { intros l. cbn [cmp_first_of]. now rewrite R3. }
    destruct v; try (now elim V); exact (H _).
  - intros Pv. assert (Hc' : cmp_swap c = CEq \/ cmp_swap c = CNe) by (destruct Hc; subst; auto).
    destruct (z_bit_cmp_ok (cmp_swap c) p v Hp Hv Hc') as (r & R1 & R2 & R3). exists r.
    assert (H : forall e, cmp_first_of c [fun _ => bit_cmp (cmp_swap c) (evalb e p) (vmeaning e v)] = Ok (ONew (VBit (evalb e r)))).
    { intros e. cbn [cmp_first_of]. now rewrite R3. }
    destruct v; try (now elim Pv); cbn [z_compare]; rewrite R1; (split; [reflexivity|]; split; [exact R2|]; intros e; exact (H e)).
Qed.

(** ** adc *)
Lemma z_add_ok x y : swf x -> swf y -> ssize y = ssize x ->
  exists r, z_bvadd S x (SVec y) = Ok r /\ scls r = scls x /\ swf r /\
    forall e, exists o, bvadd (meaning e x) (VBV (meaning e y)) = Ok o /\ rv_val (meaning e x) o = meaning e r.
Proof.
  intros Hx Hy Hs. destruct (z_meth_ok MAdd x (SVec y) Hx) as (r & R1 & R2 & R3 & R4).
  { split; [now do 2 constructor|exact Hs]. }
  exists r. auto.
Qed.
Lemma z_coerce_ok c v : 1 <= csize c -> zaccepted (csize c) v ->
  exists y, z_coerce S c v = Ok y /\ ssize y = csize c /\ swf y /\ forall e, coerce c (vmeaning e v) = Ok (meaning e y).
Proof.
  intros Hc Hv. destruct (s_coerce_ok S FS c (norm v) Hc (norm_accepted _ _ Hv)) as (y & A & B & C & D).
  exists y. rewrite z_coerce_eq by auto. repeat (split; [now auto|]). intros e. destruct Hv as [Hv _].
  now rewrite (norm_coerce _ _ _ _ Hv).
Qed.
Lemma z_adc_ok x v cv : swf x -> zaccepted (csize (scls x)) v -> zaccepted 1 cv ->
  exists r c, z_adc S x v cv = Ok (r, c) /\ scls r = scls x /\ swf r /\ bwf c = true /\
    forall e, adc (meaning e x) (vmeaning e v) (vmeaning e cv) = Ok (meaning e r, evalb e c).
Proof.
  intros Hx Hv Hc. pose proof Hx as (X1 & _).
  destruct (z_coerce_ok _ _ X1 Hv) as (o & O1 & O2 & O3 & O4).
  destruct (z_coerce_ok (BVC (skind x) 1) cv) as (c & C1 & C2 & C3 & C4); [cbn; lia|exact Hc|].
  destruct (s_zext_ok S FS x 1 Hx) as (a & A1 & A2 & A3 & A4); [lia|].
  destruct (s_zext_ok S FS o 1 O3) as (b & B1 & B2 & B3 & B4); [lia|].
  destruct (s_zext_ok S FS c (ssize x) C3) as (cc & D1 & D2 & D3 & D4); [unfold ssize; lia|].
  change (s_zext S) with (z_zext S) in A1, B1, D1.
  assert (Sa : ssize a = ssize x + 1) by (unfold ssize at 1; now rewrite A2).
  assert (Sb : ssize b = ssize x + 1) by (unfold ssize at 1; rewrite B2; cbn [csize]; unfold ssize in *; lia).
  assert (Sc : ssize cc = ssize x + 1) by (unfold ssize at 1; rewrite D2; cbn [csize] in *; unfold ssize in *; lia).
  destruct (z_add_ok a b A3 B3) as (s1 & E1 & E2 & E3 & E4); [lia|].
  assert (Ss1 : ssize s1 = ssize x + 1) by (unfold ssize at 1; rewrite E2; exact Sa).
  destruct (z_add_ok s1 cc E3 D3) as (s2 & F1 & F2 & F3 & F4); [lia|].
  assert (Ss2 : ssize s2 = ssize x + 1) by (unfold ssize at 1; rewrite F2; exact Ss1).
  fold (ssize x) in X1.
  destruct (z_slice_ok s2 (Some 0) (Some (-1)) None F3 (or_introl eq_refl)) as (lo & G1 & G2 & G3 & G4).
  { cbn [Z.ltb Z.compare]. fold (ssize s2). lia. }
  destruct (s_getitem_int_ok S FS s2 (-1) F3) as (hi & H1 & H2 & H3); [lia|]. rewrite <- z_index_eq in H1 by auto.
  exists lo, hi. split.
  { unfold z_adc. rewrite O1. cbn [bind]. rewrite sized_ok by lia. cbn [bind]. rewrite C1. cbn [bind]. rewrite A1. cbn [bind].
    rewrite B1. cbn [bind]. rewrite D1. cbn [bind]. rewrite E1. cbn [bind]. rewrite F1. cbn [bind]. rewrite G1. cbn [bind].
    rewrite H1. reflexivity. }
  split. { rewrite G2. unfold skind. rewrite F2, E2, A2. cbn [ck]. cbn [Z.ltb Z.compare csize]. 
    unfold skind, ssize. destruct (scls x) as [k n]. cbn [ck csize]. f_equal. lia. }
  split; [exact G3|]. split; [exact H2|]. intros e. unfold adc.
  change (bcls (meaning e x)) with (scls x). rewrite O4. cbn [bind]. change (bkind (meaning e x)) with (skind x).
  rewrite sized_ok by lia. cbn [bind]. rewrite C4. cbn [bind]. rewrite A4. cbn [bind]. rewrite B4. cbn [bind].
  change (bsize (meaning e x)) with (ssize x). rewrite D4. cbn [bind].
  destruct (E4 e) as (o1 & P1 & P2). rewrite P1. cbn [bind]. cbv zeta. rewrite P2.
  destruct (F4 e) as (o2 & Q1 & Q2). rewrite Q1. cbn [bind]. cbv zeta. rewrite Q2. rewrite G4. cbn [bind]. rewrite H3. reflexivity.
Qed.

(** ** ite *)
Lemma z_if_ok c x y : bwf c = true -> swf x -> swf y -> csize (scls y) = csize (scls x) ->
  exists r, z_if S c x y = Ok r /\ scls r = scls x /\ swf r /\
    forall e, evalv e (sterm r) = if evalb e c then evalv e (sterm x) else evalv e (sterm y).
Proof.
  intros Hc Hx Hy Hs. pose proof Hx as (X1 & X2 & X3). pose proof Hy as (Y1 & Y2 & Y3).
  unfold z_if. change (z_node S) with (vec_node S).
  node FS; [exact X1|cbn [vwf]; rewrite Hc, X2, Y2; cbn [andb]; lia|exact X3|]. exists r. auto.
Qed.
Lemma z_ite_same c x y : bwf c = true -> swf x -> swf y -> scls y = scls x ->
  exists r, z_ite S c (SVec x) (SVec y) = Ok r /\ scls r = scls x /\ swf r /\
    forall e, meaning e r = if evalb e c then meaning e x else meaning e y.
Proof.
  intros Hc Hx Hy Hs. cbn [z_ite].
  replace (cls_eqb (scls x) (scls y)) with true.
  2:{ rewrite Hs. unfold cls_eqb. rewrite Z.eqb_refl. now destruct (ck (scls x)). }
  destruct (z_if_ok c x y Hc Hx Hy) as (r & R1 & R2 & R3 & R4); [now rewrite Hs|]. exists r.
  repeat (split; [now auto|]). intros e. unfold meaning. rewrite R2, R4, Hs. now destruct (evalb e c).
Qed.
Lemma z_ite_left c x v : bwf c = true -> swf x -> zconvertible (csize (scls x)) v -> (forall y, v <> SVec y) ->
  exists r w, z_ite S c (SVec x) v = Ok r /\ scls r = scls x /\ swf r /\
    forall e, bv_init (scls x) (vmeaning e v) = Ok (w e) /\ meaning e r = if evalb e c then meaning e x else w e.
Proof.
  intros Hc Hx Hv Hn. pose proof Hx as (X1 & _). destruct (z_init_ok (scls x) v X1 Hv) as (y & Y1 & Y2 & Y3 & Y4).
  destruct (z_if_ok c x y Hc Hx Y3) as (r & R1 & R2 & R3 & R4); [now rewrite Y2|]. exists r, (fun e => meaning e y).
  split. { destruct v; try (now elim (Hn x0)); unfold z_ite; rewrite Y1; exact R1. }
  do 2 (split; [now auto|]). intros e. split; [apply Y4|]. unfold meaning. rewrite R2, R4, Y2. now destruct (evalb e c).
Qed.
Lemma z_ite_right c x v : bwf c = true -> swf x -> zconvertible (csize (scls x)) v -> (forall y, v <> SVec y) ->
  exists r w, z_ite S c v (SVec x) = Ok r /\ scls r = scls x /\ swf r /\
    forall e, bv_init (scls x) (vmeaning e v) = Ok (w e) /\ meaning e r = if evalb e c then w e else meaning e x.
Proof.
  intros Hc Hx Hv Hn. pose proof Hx as (X1 & _). destruct (z_init_ok (scls x) v X1 Hv) as (y & Y1 & Y2 & Y3 & Y4).
  destruct (z_if_ok c y x Hc Y3 Hx) as (r & R1 & R2 & R3 & R4); [now rewrite Y2|]. exists r, (fun e => meaning e y).
  unfold z_if in R1. rewrite Y2 in R1, R2.
  split. { destruct v; try (now elim (Hn x0)); unfold z_ite; rewrite Y1; exact R1. }
  do 2 (split; [now auto|]). intros e. split; [apply Y4|]. unfold meaning. rewrite R2, R4, Y2. now destruct (evalb e c).
Qed.

Lemma small_conv e v z n : small e v z -> convertible n v.
Proof. destruct 1; now constructor. Qed.
Definition small_arg (v : sval) : Prop :=
  match v with SInt z => 0 <= z | SBool _ => True | SBit t => bwf t = true | _ => False end.
Lemma z_implicit_ok v : small_arg v ->
  exists r, z_implicit S v = Ok r /\ skind r = KBV /\ swf r /\ forall e z, small e v z -> evalv e (sterm r) = z.
Proof.
  intros Hv.
  assert (G : forall n u, 1 <= n -> convertible n v -> z_implicit_size v = Ok n ->
    (forall e z, small e v z -> converts n (vmeaning e v) (z mod 2 ^ n) /\ 0 <= z < 2 ^ n) -> u = tt ->
    exists r, z_implicit S v = Ok r /\ skind r = KBV /\ swf r /\ forall e z, small e v z -> evalv e (sterm r) = z).
  { intros n _ Hn Hc Hi Hm _. destruct (z_init_ok (BVC KBV n) v) as (r & R1 & R2 & R3 & R4); [exact Hn|now constructor|].
    exists r. unfold z_implicit, z_construct. rewrite Hi. cbn [bind]. rewrite sized_ok by lia. cbn [bind]. rewrite R1.
    split; [reflexivity|]. split; [unfold skind; now rewrite R2|]. split; [exact R3|].
    intros e z Hz. destruct (Hm e z Hz) as [M1 M2]. specialize (R4 e).
    rewrite (bv_init_converts (BVC KBV n) _ _ ltac:(cbn; lia) M1) in R4. 
    assert (Q := meaning_inv _ _ _ _ (f_equal (fun r => match r with Ok x => x | Raise _ => BV (BVC KBV 0) 0 end) R4)).
    rewrite Q. apply Z.mod_small. exact M2. }
  destruct v as [z|b|t| | | | |]; try (now elim Hv).
  - apply (G (Z.max (bit_length z) 1) tt); [lia|constructor|reflexivity| |reflexivity]. intros e z' Hz.
    inversion Hz; subst. split; [constructor|]. destruct (bit_length_spec z' Hv) as (B1 & B2 & _).
    split; [exact Hv|]. apply Z.lt_le_trans with (2 ^ bit_length z'); [exact B2|]. apply Z.pow_le_mono_r; lia.
  - apply (G 1 tt); [lia|constructor|now destruct b| |reflexivity]. intros e z' Hz. inversion Hz; subst.
    split; [constructor|destruct b; cbn; lia].
  - apply (G 1 tt); [lia|now constructor|reflexivity| |reflexivity]. intros e z' Hz. inversion Hz; subst.
    cbn [vmeaning]. split; [constructor|destruct (evalb e t); cbn; lia].
Qed.
Lemma small_small_arg e v z : small e v z -> small_arg v.
Proof. destruct 1; cbn; auto. Qed.
Lemma z_ite_plain c t f e0 z0 z1 : bwf c = true -> small e0 t z0 -> small e0 f z1 ->
  exists r, z_ite S c t f = Ok r /\ skind r = KBV /\ swf r /\
    forall e zt zf, small e t zt -> small e f zf -> evalv e (sterm r) = if evalb e c then zt else zf.
Proof.
  intros Hc Ht Hf. apply small_small_arg in Ht, Hf.
  destruct (z_implicit_ok t Ht) as (x & X1 & X2 & X3 & X4). destruct (z_implicit_ok f Hf) as (y & Y1 & Y2 & Y3 & Y4).
  assert (E : z_ite S c t f = (x <- z_implicit S t ;; y <- z_implicit S f ;;
      let e := ssize x - ssize y in
      if 0 <? e then y <- z_zext S y e ;; z_if S c x y
      else if e <? 0 then x <- z_zext S x (- e) ;; z_if S c x y
      else z_if S c x y)).
  { destruct t, f; try (now elim Ht); try (now elim Hf); reflexivity. }
  rewrite E, X1, Y1. cbn [bind]. cbv zeta.
  assert (Z : forall u k, swf u -> skind u = KBV -> 0 <= k -> exists r, z_zext S u k = Ok r /\ skind r = KBV /\ ssize r = ssize u + k /\ swf r /\
    forall e, evalv e (sterm r) = evalv e (sterm u)).
  { intros u k Hu Hk K. destruct (s_zext_ok S FS u k Hu K) as (r & R1 & R2 & R3 & R4). exists r. split; [exact R1|].
    unfold skind at 1, ssize at 1. rewrite R2. split; [exact Hk|]. split; [reflexivity|]. split; [exact R3|].
    intros e. specialize (R4 e). rewrite zext_spec in R4 by (auto using swf_meaning).
    exact (meaning_inv _ _ _ _ (f_equal (fun r => match r with Ok x => x | Raise _ => BV (BVC KBV 0) 0 end) R4)). }
  destruct (Z.ltb_spec 0 (ssize x - ssize y)); [|destruct (Z.ltb_spec (ssize x - ssize y) 0)].
  - destruct (Z y (ssize x - ssize y) Y3 Y2) as (y' & A1 & A2 & A3 & A4 & A5); [lia|]. rewrite A1. cbn [bind].
    destruct (z_if_ok c x y' Hc X3 A4) as (r & R1 & R2 & R3 & R4); [unfold ssize in *; lia|]. exists r.
    split; [exact R1|]. split; [unfold skind in *; congruence|]. split; [exact R3|]. intros e zt zf H1 H2.
    rewrite R4, A5, (X4 e zt H1), (Y4 e zf H2). reflexivity.
  - destruct (Z x (- (ssize x - ssize y)) X3 X2) as (x' & A1 & A2 & A3 & A4 & A5); [lia|]. rewrite A1. cbn [bind].
    destruct (z_if_ok c x' y Hc A4 Y3) as (r & R1 & R2 & R3 & R4); [unfold ssize in *; lia|]. exists r.
    split; [exact R1|]. split; [unfold skind in *; congruence|]. split; [exact R3|]. intros e zt zf H1 H2.
    rewrite R4, A5, (X4 e zt H1), (Y4 e zf H2). reflexivity.
  - destruct (z_if_ok c x y Hc X3 Y3) as (r & R1 & R2 & R3 & R4); [unfold ssize in *; lia|]. exists r.
    split; [exact R1|]. split; [unfold skind in *; congruence|]. split; [exact R3|]. intros e zt zf H1 H2.
    rewrite R4, (X4 e zt H1), (Y4 e zf H2). reflexivity.
Qed.
Lemma z_vec_ite_ok x t f r0 : swf x ->
  (exists c, z_bvne S x (SInt 0) = Ok c /\ bwf c = true /\ z_ite S c t f = r0 /\
     forall e, evalb e c = negb (evalv e (sterm x) =? 0)) ->
  z_vec_ite S x t f = r0.
Proof. intros Hx (c & C1 & C2 & C3 & C4). unfold z_vec_ite. now rewrite C1. Qed.
Lemma z_cond_ok x : swf x -> exists c, z_bvne S x (SInt 0) = Ok c /\ bwf c = true /\
  forall e, evalb e c = negb (evalv e (sterm x) =? 0).
Proof.
  intros Hx. pose proof Hx as (X1 & _). destruct (z_rel_ok RNe x (SInt 0) Hx) as (c & C1 & C2 & C3). { split; [do 2 constructor|exact I]. }
  exists c. split; [exact C1|]. split; [exact C2|]. intros e. specialize (C3 e). cbn [conc_rel vmeaning] in C3.
  unfold bvne, bveq, bv_cast in C3. cbn [coerce bv_init bind] in C3.
  assert (Q : evalb e c = negb (as_uint (meaning e x) =? as_uint (mk (bcls (meaning e x)) 0))) by (cbn [bind rmap] in C3; congruence).
  rewrite Q. rewrite mk_eq by (cbn [meaning bcls]; lia). unfold as_uint. cbn [bval meaning]. rewrite Z.mod_0_l; [reflexivity|].
  apply Z.pow_nonzero; cbn [meaning bcls]; lia.
Qed.

(** ** Item assignment *)
Lemma z_setitem_eq x i v : swf x -> - csize (scls x) <= i < csize (scls x) -> s_bit_like v = true ->
  (match v with SBit t => bwf t = true | _ => True end) ->
  z_setitem_int S x i v = s_setitem_int S x i v.
Proof.
  intros Hx Hi Hv Hw. pose proof Hx as (X1 & X2 & X3). unfold z_setitem_int, s_setitem_int. rewrite Hv. cbn [negb]. fold (ssize x) in *.
  set (j := if i <? 0 then ssize x + i else i).
  assert (R : 0 <= j < ssize x) by (unfold j; destruct (Z.ltb_spec i 0); lia).
  replace ((0 <=? j) && (j <? ssize x)) with true by lia. cbn [negb].
  rewrite z_init_eq by (auto; do 2 constructor). cbn [norm].
  destruct (s_init_ok S FS (scls x) (SInt (Z.shiftl 1 j))) as (mask & M1 & M2 & M3 & M4); [exact X1|constructor|].
  rewrite M1. cbn [bind].
  assert (B : z_bit_init S v = sbit_init S v).
  { destruct v as [z| | | | | | |]; try reflexivity; discriminate. }
  rewrite B. destruct (sbit_init_ok S FS v (bit_like_arg v Hv Hw)) as (b & B1 & B2 & B3). rewrite B1. cbn [bind].
  destruct (s_bvnot_ok S FS mask M3) as (nm & N1 & N2 & N3 & N4).
  assert (A1 : zaccepted (csize (scls x)) (SVec mask)). { split; [now do 2 constructor|]. now rewrite M2. }
  assert (A2 : zaccepted (csize (scls x)) (SVec nm)). { split; [now do 2 constructor|]. now rewrite N2, M2. }
  change (z_bvnot S mask) with (s_bvnot S mask). unfold z_bvor, z_bvand, z_bin. rewrite !z_cast_eq by auto.
  destruct (meth_ok S FS MOr x (SVec mask) Hx (norm_accepted _ _ A1)) as (t & T1 & T2 & T3 & T4).
  destruct (meth_ok S FS MAnd x (SVec nm) Hx (norm_accepted _ _ A2)) as (f & F1 & F2 & F3 & F4).
  cbn [smt_meth] in T1, F1. unfold s_bvor, s_bvand, s_bin in *. cbn [norm]. change (z_node S) with (vec_node S) in *.
  rewrite T1. cbn [bind]. rewrite N1. cbn [bind]. rewrite z_cast_eq by auto. cbn [norm]. rewrite F1. cbn [bind]. cbn [z_ite].
  replace (cls_eqb (scls t) (scls f)) with true.
  2:{ rewrite T2, F2. unfold cls_eqb. rewrite Z.eqb_refl. now destruct (ck (scls x)). }
  unfold z_if. rewrite T2. reflexivity.
Qed.

(** ** repeat *)
Lemma z_repeat_1 x : swf x -> exists q, z_repeat S x 1 = Ok q /\ swf q /\ forall e, meaning e q = meaning e x.
Proof. exact (fun H => s_repeat_le1 S FS x 1 H ltac:(lia)). Qed.
Lemma z_repeat_many x r : swf x -> 2 <= r -> z_repeat S x r = Raise ETypeError.
Proof. intros H Hr. unfold z_repeat. replace (r <? 1) with false by lia. exact (s_repeat_many S x r H Hr). Qed.
End F.
