(** Proofs of the theorems stated in SPMethProps.v. *)
From Coq Require Import Lia ZifyBool.
From Verif Require Import PyBase BVModel BVSpec BVFacts OpModel OpSpec OpFacts IteModel IteSpec IteFacts SMTTerm SMTModel SMTSpec SMTFacts SMTProofs SIteModel SIteSpec SIteFacts.
From Verif Require Import PMethModel PMethSpec SPMethModel SPMethSpec SPMethFacts.



Lemma s_like_same e x y l m : Forall2 (sb_eq e) l m ->
  Forall2 same_item (map (item_meaning e) (map (spitem_of x) l)) (map (item_meaning e) (map (spitem_of y) m)).
Proof.
  induction 1 as [|i j l m H HH IH]; cbn [map]; constructor; auto.
  destruct i, j; try contradiction; cbn [sb_eq spitem_of item_meaning] in *.
  - destruct H as (A & _ & _ & D). constructor; cbn; auto. unfold ssize. now rewrite A.
  - rewrite H. constructor.
  - destruct H as [_ ->]. constructor.
Qed.

Lemma s_ite_vec S tab id sel a b v id' : faithful S -> bwf sel = true -> obj_ok a -> obj_ok b ->
  s_ite S tab id sel (SBrVec a) (SBrVec b) = Ok (SBrVec v, id') ->
  obj_ok v /\ spn a = spn b /\ spn v = spn a /\
  (spc v = if spcls_eqb (spc a) (spc b) then spc a else SPPoly id (spc a) (spc b) sel) /\
  forall e, evalv e (spt v) = evalv e (spt (if evalb e sel then a else b)).
Proof.
  intros FS Hs Oa Ob H. pose proof (ite_sim S FS tab sel Hs id (SBrVec a) (SBrVec b) Oa Ob I) as Q. rewrite H in Q.
  destruct Q as (Ov & _ & Q). split; [exact Ov|]. revert H. unfold s_ite. cbn [s_return_type s_push_ite]. unfold s_same_cls.
  intros H. assert (E : spn a = spn b /\ spn v = spn a /\ (spc v = if spcls_eqb (spc a) (spc b) then spc a else SPPoly id (spc a) (spc b) sel)).
  { destruct (spcls_eqb (spc a) (spc b)), (Z.eqb_spec (spn a) (spn b)) as [En|En]; cbn [andb negb bind] in H; try discriminate;
      cbn [bind fst snd s_coerce_branch] in H; (destruct (vec_node S _ _) as [r|] in H; [|discriminate]); cbn [bind] in H; inv H; auto. }
  destruct E as (E1 & E2 & E3). repeat (split; [assumption|]). intros e. destruct (Q e no_protocols) as [_ C].
  destruct (evalb e sel); cbn [branch_meaning] in C; inv C; cbn [pv obj_meaning] in *; auto.
Qed.

Lemma C100_methods_pf : forall S, faithful S -> forall tab id sel a b v id' m n, bwf sel = true -> obj_ok a -> obj_ok b ->
  s_ite S tab id sel (SBrVec a) (SBrVec b) = Ok (SBrVec v, id') -> splain_call m ->
  forall e, same_outcome (result_meaning e (sp_call S n m v)) (result_meaning e (sp_call S n m (if evalb e sel then a else b))).
Proof.
  intros S FS tab id sel a b v id' m n Hs Oa Ob H P e.
  destruct (s_ite_vec S tab id sel a b v id' FS Hs Oa Ob H) as (Ov & En & Nv & _ & V).
  set (s := if evalb e sel then a else b). assert (Os : obj_ok s) by (unfold s; now destruct (evalb e sel)).
  assert (Ns : spn s = spn v) by (unfold s; destruct (evalb e sel); congruence).
  assert (E : veqs e (as_svec v) (as_svec s)).
  { destruct Ov as (_ & _ & V2 & V3), Os as (_ & _ & S2 & S3). cbn in V2, V3, S2, S3. split; [cbn; now rewrite Ns|]. cbn. split; [congruence|].
    split; [congruence|]. apply V. }
  pose proof (call_cong S e m (as_svec v) (as_svec s) FS P E eq_refl) as C.
  assert (G : same_outcome (result_meaning e (rmap (fun l => (map (spitem_of v) l, n)) (sb_call S m (as_svec v))))
                           (result_meaning e (rmap (fun l => (map (spitem_of s) l, n)) (sb_call S m (as_svec s))))).
  { destruct (sb_call S m (as_svec v)) as [l|], (sb_call S m (as_svec s)) as [k|]; cbn in C |- *; try contradiction; [now apply s_like_same|exact C]. }
  destruct m; try contradiction; exact G.
Qed.

Lemma call_builtin S c x : faithful S -> obj_ok x -> call_ok x c -> (forall k, c <> QExt k) ->
  exists l, sb_call S c (as_svec x) = Ok l /\ Forall item_ok (map (spitem_of x) l) /\
    forall e, rmap (map (pitem_of (obj_meaning e x))) (b_call arg_val (call_meaning e c) (as_bv (obj_meaning e x))) =
              Ok (map (item_meaning e) (map (spitem_of x) l)).
Proof.
  intros FS [Oc W] H Hne.
  assert (OV : forall r, swf r -> item_ok (spitem_of x (SBVec r))) by (intros r Wr; split; [exact Oc|exact Wr]).
  assert (AC : forall n a, operand_ok n a -> accepted n (sarg_val a)).
  { intros n [y|w]; cbn; [|auto]. intros [[_ Wy] <-]. split; [now constructor|reflexivity]. }
  assert (VV : forall (r : svec) e, item_meaning e (spitem_of x (SBVec r)) = pitem_of (obj_meaning e x) (BVec (meaning e r))) by reflexivity.
  assert (XX : forall e, as_bv (obj_meaning e x) = meaning e (as_svec x)) by reflexivity.
  destruct c as [m a|m a|a|a|a|a| | |i|i j k|k|k|k|r|y|i b|a c| | ]; cbn [call_ok] in H; try contradiction; try (now edestruct Hne); cbn [sb_call].
  - destruct (C30_methods_pf S FS m (as_svec x) (sarg_val a) W (AC _ _ H)) as (r & E & _ & Wr & V). rewrite E. eexists. split; [reflexivity|].
    split; [constructor; auto|]. intros e. cbn [call_meaning b_call]. rewrite XX, arg_val_meaning. destruct (V e) as (o & -> & Eo). cbn. now rewrite Eo.
  - destruct (C30_comparisons_pf S FS m (as_svec x) (sarg_val a) W (AC _ _ H)) as (r & E & Wr & V). rewrite E. eexists. split; [reflexivity|].
    split; [constructor; auto|]. intros e. cbn [call_meaning b_call]. rewrite XX, arg_val_meaning, V. reflexivity.
  - destruct H as (k & -> & Hk). destruct (C30_rotate_partial_pf S FS (as_svec x) k W Hk) as [(r & E & _ & Wr & V) _]. cbn [sarg_val]. rewrite E.
    eexists. split; [reflexivity|]. split; [constructor; auto|]. intros e. cbn [call_meaning b_call]. rewrite XX. cbn [arg_meaning arg_val vmeaning].
    rewrite V. reflexivity.
  - destruct H as (k & -> & Hk). destruct (C30_rotate_partial_pf S FS (as_svec x) k W Hk) as [_ (r & E & _ & Wr & V)]. cbn [sarg_val]. rewrite E.
    eexists. split; [reflexivity|]. split; [constructor; auto|]. intros e. cbn [call_meaning b_call]. rewrite XX. cbn [arg_meaning arg_val vmeaning].
    rewrite V. reflexivity.
  - destruct (C30_unary_pf S FS (as_svec x) W) as [(r & E & _ & Wr & V) _]. rewrite E. eexists. split; [reflexivity|].
    split; [constructor; auto|]. intros e. cbn [call_meaning b_call]. rewrite XX, V. reflexivity.
  - destruct (C30_unary_pf S FS (as_svec x) W) as [_ (r & E & _ & Wr & V)]. rewrite E. eexists. split; [reflexivity|].
    split; [constructor; auto|]. intros e. cbn [call_meaning b_call]. rewrite XX, V. reflexivity.
  - destruct (proj1 (C32_getitem_pf S FS (as_svec x) i W) H) as (r & E & Wr & V). rewrite E. eexists. split; [reflexivity|].
    split; [constructor; auto|]. intros e. cbn [call_meaning b_call]. rewrite XX, V. reflexivity.
  - destruct H as [Hk H]. destruct (C32_slice_partial_pf S FS (as_svec x) i j k W Hk H) as (r & E & _ & Wr & V). rewrite E. eexists. split; [reflexivity|].
    split; [constructor; auto|]. intros e. cbn [call_meaning b_call]. rewrite XX, V. reflexivity.
  - destruct (C32_zext_pf S FS (as_svec x) k W H) as (r & E & _ & Wr & V). rewrite E. eexists. split; [reflexivity|].
    split; [constructor; auto|]. intros e. cbn [call_meaning b_call]. rewrite XX, V. reflexivity.
  - destruct (C32_sext_partial_pf S FS (as_svec x) k W H) as (r & E & _ & Wr & V). rewrite E. eexists. split; [reflexivity|].
    split; [constructor; auto|]. intros e. cbn [call_meaning b_call]. rewrite XX, V. reflexivity.
  - subst r. destruct (C33_smt_partial_pf S FS (as_svec x) W) as (r & E & Wr & V). rewrite E. eexists. split; [reflexivity|].
    split; [constructor; auto|]. intros e. cbn [call_meaning b_call]. rewrite XX, V. reflexivity.
  - destruct H as [[_ Wy] _]. destruct (C32_concat_pf S FS (as_svec x) (as_svec y) W Wy eq_refl) as (r & E & _ & Wr & V). cbn [sarg_val]. rewrite E.
    eexists. split; [reflexivity|]. split; [constructor; auto|]. intros e. cbn [call_meaning b_call arg_val]. rewrite XX.
    change (as_bv (obj_meaning e y)) with (meaning e (as_svec y)). rewrite V. reflexivity.
  - destruct H as (Hi & Hb & Hw). destruct (C32_setitem_pf S FS (as_svec x) i b W Hi Hb Hw) as (r & E & _ & Wr & V). rewrite E. eexists.
    split; [reflexivity|]. split; [constructor; auto|]. intros e. cbn [call_meaning b_call]. rewrite XX, V. reflexivity.
  - destruct H as [Ha Hc]. destruct (C32_adc_pf S FS (as_svec x) (sarg_val a) (sarg_val c) W (AC _ _ Ha) (AC _ _ Hc)) as (r & t & E & _ & Wr & Wt & V).
    rewrite E. eexists. split; [reflexivity|]. split; [constructor; auto|]. intros e. cbn [call_meaning b_call]. rewrite XX, !arg_val_meaning, V. reflexivity.
  - destruct (C37_as_uint_pf S FS (as_svec x) W) as (r & E & Wr & V). rewrite E. eexists. split; [reflexivity|].
    split; [constructor; auto|]. intros e. cbn [call_meaning b_call]. rewrite XX. cbn [rmap map item_meaning spitem_of pitem_of]. now rewrite V.
  - destruct (C37_as_sint_partial_pf S FS (as_svec x) W H) as (r & E & Wr & V). rewrite E. eexists. split; [reflexivity|].
    split; [constructor; auto|]. intros e. cbn [call_meaning b_call]. rewrite XX, V. reflexivity.
Qed.

Lemma spcls_eqb_refl c : spcls_eqb c c = true.
Proof. destruct c; cbn; [apply kind_eqb_refl|apply Nat.eqb_refl]. Qed.

Lemma leaf_ext_ok S s x k : faithful S -> obj_ok x -> 0 <= k ->
  exists r, s_leaf_ext S s x (SAOther (SInt k)) = Ok (SPVec r) /\ obj_ok r /\ spc r = spc x /\ spn r = spn x + k /\
    forall e, evalv e (spt r) = if s then signed (spn x) (evalv e (spt x)) mod 2 ^ (spn x + k) else evalv e (spt x).
Proof.
  intros FS [Oc W] Hk. pose proof W as (W1 & W2 & W3). cbn in W1, W2, W3. unfold s_leaf_ext, s_sext, s_zext. replace (k <? 0) with false by lia.
  unfold skind, ssize. cbn [as_svec scls ck csize sterm]. rewrite sized_ok by lia. cbn [bind].
  assert (G : forall t, vwf t = true -> width t = spn x + k -> exists r, rmap (fun b => SPVec (slike x b)) (vec_node S (BVC KBV (spn x + k)) t) = Ok (SPVec r) /\
     obj_ok r /\ spc r = spc x /\ spn r = spn x + k /\ forall e, evalv e (spt r) = evalv e t).
  { intros t Wt Nt. destruct (vec_node_ok S FS (BVC KBV (spn x + k)) t) as (r & E & C & Wr & V); cbn [csize]; auto; [lia|]. rewrite E. cbn [rmap].
    eexists. split; [reflexivity|]. assert (Nr : ssize r = spn x + k) by (unfold ssize; now rewrite C). cbn [slike spc spn spt].
    split; [split; [exact Oc|exact Wr]|]. auto. }
  destruct s.
  - destruct (G (VSExt k (spt x))) as (r & E & A & B & C & D); cbn [vwf width]; [lia|lia|]. exists r. repeat (split; [assumption|]). intros e. rewrite D.
    cbn [evalv]. rewrite W3, to_int_signed by lia. reflexivity.
  - destruct (G (VZExt k (spt x))) as (r & E & A & B & C & D); cbn [vwf width]; [lia|lia|]. exists r. repeat (split; [assumption|]). intros e. rewrite D. reflexivity.
Qed.

Lemma ext_run S x k id c : faithful S -> obj_ok x -> 0 <= k -> cls_ok c ->
  exists r, s_run_meth S (s_leaf_ext S) (s_resolve true c) id x (SAOther (SInt k)) = Ok (SPVec r, id) /\ obj_ok r /\ spc r = spc x /\ spn r = spn x + k /\
    forall e, evalv e (spt r) = if is_signed (selected_kind (cls_meaning e c)) then signed (spn x) (evalv e (spt x)) mod 2 ^ (spn x + k) else evalv e (spt x).
Proof.
  intros FS Ox Hk. revert id.
  assert (G : forall m id, meth_ok (fun _ => True) m -> exists r, s_run_meth S (s_leaf_ext S) m id x (SAOther (SInt k)) = Ok (SPVec r, id) /\ obj_ok r /\
     spc r = spc x /\ spn r = spn x + k /\ forall e, evalv e (spt r) =
       if chosen e m
       then signed (spn x) (evalv e (spt x)) mod 2 ^ (spn x + k) else evalv e (spt x)).
  { induction m as [s|sel m0 IH0 m1 IH1]; intros id Hm; cbn [s_run_meth].
    - destruct (leaf_ext_ok S s x k FS Ox Hk) as (r & E & R). rewrite E. cbn [bind]. eauto.
    - destruct Hm as (Hs & H0 & H1). destruct (IH0 id H0) as (r0 & E0 & A0 & B0 & C0 & D0). destruct (IH1 id H1) as (r1 & E1 & A1 & B1 & C1 & D1).
      rewrite E0. cbn [bind fst snd]. rewrite E1. cbn [bind fst snd]. unfold s_vcall. cbn [s_as_branch].
      destruct (s_ite S s_no_protocols id sel (SBrVec r0) (SBrVec r1)) as [[w id']|] eqn:Ei.
      + assert (Q : exists v, w = SBrVec v /\ id' = id).
        { revert Ei. unfold s_ite. cbn [s_return_type s_push_ite]. unfold s_same_cls. rewrite B0, B1, C0, C1, spcls_eqb_refl, Z.eqb_refl.
          cbn [andb bind fst snd s_coerce_branch]. destruct (vec_node _ _ _); [|discriminate]. cbn [bind]. intros Q. inv Q. eauto. }
        destruct Q as (v & -> & ->). destruct (s_ite_vec S _ _ _ _ _ _ _ FS Hs A0 A1 Ei) as (Ov & En & Nv & Cv & V).
        cbn [bind fst snd s_as_ret]. exists v. split; [reflexivity|]. split; [exact Ov|].
        split; [rewrite Cv, B0, B1, spcls_eqb_refl; reflexivity|]. split; [congruence|]. intros e. rewrite V. cbn [chosen]. destruct (evalb e sel); auto.
      + exfalso. revert Ei. unfold s_ite. cbn [s_return_type s_push_ite]. unfold s_same_cls. rewrite B0, B1, C0, C1, spcls_eqb_refl, Z.eqb_refl.
        cbn [andb bind fst snd s_coerce_branch]. destruct A0 as (_ & X1 & X2 & X3), A1 as (_ & Y1 & Y2 & Y3). cbn in X1, X2, X3, Y1, Y2, Y3.
        destruct (vec_node_ok S FS (BVC KBV (spn x + k)) (VIte sel (spt r0) (spt r1))) as (r & E & _); cbn [csize vwf width]; [lia| |lia|].
        { rewrite Hs, X2, Y2. lia. }
        rewrite E. discriminate. }
  intros id Hc. destruct (G (s_resolve true c) id) as (r & E & A & B & C & D); [apply resolve_ok; auto|]. exists r. repeat (split; [assumption|]).
  intros e. rewrite D. now rewrite chosen_resolve.
Qed.

Lemma C100_values_pf : forall S, faithful S -> forall id x c, obj_ok x -> call_ok x c ->
  exists l id', sp_call S id c x = Ok (l, id') /\ Forall item_ok l /\
    forall e, p_call id (call_meaning e c) (obj_meaning e x) = Ok (map (item_meaning e) l, id').
Proof.
  intros S FS id x c Ox Hc.
  assert (G : (forall k, c <> QExt k) -> exists l, rmap (fun l => (map (spitem_of x) l, id)) (sb_call S c (as_svec x)) = Ok (l, id) /\ Forall item_ok l /\
    forall e, rmap (fun l => (map (pitem_of (obj_meaning e x)) l, id)) (b_call arg_val (call_meaning e c) (as_bv (obj_meaning e x))) =
      Ok (map (item_meaning e) l, id)).
  { intros Hne. destruct (call_builtin S c x FS Ox Hc Hne) as (l & E & I & V). rewrite E. cbn [rmap]. eexists. split; [reflexivity|]. split; [exact I|].
    intros e. specialize (V e). destruct (b_call _ _ _); cbn in V |- *; [|discriminate]. now inv V. }
  destruct c as [m a|m a|a|a|a|a| | |i|i j k|k|k|k|r|y|i b|a c| | ];
    try (destruct G as (l & G1 & G2 & G3); [discriminate|exists l, id; split; [exact G1|split; [exact G2|exact G3]]]).
  - cbn [call_ok] in Hc.
    destruct (run_sim S FS (Some (spn x + k)) (fun _ => True) (s_leaf_ext S) leaf_ext x (SAOther (SInt k))) with
      (m := s_resolve true (spc x)) (id := id) as (r & id' & R1 & R2 & R3).
    + intros s _. destruct (leaf_ext_ok S s x k FS Ox) as (r & E & A & B & C & _); [lia|]. exists (SPVec r). split; [exact E|].
      split; [exists r; auto|]. intros e. cbn [arg_meaning vmeaning]. unfold leaf_ext. change (as_bv (obj_meaning e x)) with (meaning e (as_svec x)).
      destruct Ox as [_ W]. revert E. unfold s_leaf_ext. destruct s.
      * destruct (C32_sext_partial_pf S FS (as_svec x) k W Hc) as (q & E & _ & _ & V). rewrite E, V. cbn. intros Q. inv Q. reflexivity.
      * destruct (C32_zext_pf S FS (as_svec x) k W) as (q & E & _ & _ & V); [lia|]. rewrite E, V. cbn. intros Q. inv Q. reflexivity.
    + apply resolve_ok; auto. apply Ox.
    + destruct R2 as (w & -> & Ow & Nw). exists [SIVec w], id'. cbn [sp_call]. rewrite R1. cbn [bind fst snd sret_item]. split; [reflexivity|].
      split; [constructor; auto|]. intros e. cbn [call_meaning]. unfold p_call. cbn [pc obj_meaning]. rewrite resolve_meaning.
      specialize (R3 e). cbn [arg_meaning vmeaning] in R3. rewrite R3. reflexivity.
  - destruct G as (l & G1 & G2 & G3); [discriminate|]. exists l, id. cbn [call_ok] in Hc. destruct Hc as [Oy E].
    cbn [sp_call call_meaning] in *. unfold p_call, s_concat_accepts, concat_accepts. cbn [pc obj_meaning]. rewrite E, spcls_eqb_refl. cbn [orb].
    split; [exact G1|]. split; [exact G2|]. intros e. rewrite pcls_eqb_refl. cbn [orb]. apply G3.
Qed.

Lemma C100_ext_pf : forall S, faithful S -> forall id x k, obj_ok x -> 0 <= k ->
  exists t, sp_call S id (QExt k) x = Ok ([SIVec (SPObj (spc x) (spn x + k) t)], id) /\
    forall e, evalv e t = if is_signed (selected_kind (cls_meaning e (spc x))) then signed (spn x) (evalv e (spt x)) mod 2 ^ (spn x + k) else evalv e (spt x).
Proof.
  intros S FS id x k Ox Hk. destruct (ext_run S x k id (spc x) FS Ox Hk) as (r & E & A & B & C & D); [apply Ox|]. exists (spt r). cbn [sp_call].
  rewrite E. cbn [bind fst snd sret_item]. destruct r as [rc rn rt]. cbn in B, C, D. subst. auto.
Qed.

Lemma C100_ext_selected_pf : forall S, faithful S -> forall tab id sel a b v id' k n, bwf sel = true -> obj_ok a -> obj_ok b ->
  (spcls_eqb (spc a) (spc b) = true -> spc a = spc b) ->
  s_ite S tab id sel (SBrVec a) (SBrVec b) = Ok (SBrVec v, id') -> 0 <= k ->
  forall e, same_outcome (result_meaning e (sp_call S n (QExt k) v)) (result_meaning e (sp_call S n (QExt k) (if evalb e sel then a else b))).
Proof.
  intros S FS tab id sel a b v id' k n Hs Oa Ob Hid H Hk e.
  destruct (s_ite_vec S tab id sel a b v id' FS Hs Oa Ob H) as (Ov & En & Nv & Cv & V).
  set (s := if evalb e sel then a else b). assert (Os : obj_ok s) by (unfold s; now destruct (evalb e sel)).
  assert (Ns : spn s = spn v) by (unfold s; destruct (evalb e sel); congruence).
  assert (Ks : selected_kind (cls_meaning e (spc v)) = selected_kind (cls_meaning e (spc s))).
  { rewrite Cv. unfold s. destruct (spcls_eqb (spc a) (spc b)).
    - destruct (evalb e sel); [reflexivity|]. now rewrite Hid.
    - cbn. now destruct (evalb e sel). }
  destruct (C100_ext_pf S FS n v k Ov Hk) as (t & -> & T). destruct (C100_ext_pf S FS n s k Os Hk) as (u & -> & U). cbn.
  constructor; [|constructor]. constructor; cbn; [congruence|]. rewrite T, U, Ks, V, Ns. reflexivity.
Qed.

Lemma C100_ext_negative_pf : forall S id x k, k < 0 -> sp_call S id (QExt k) x = Raise EValueError.
Proof.
  intros S id x k Hk. cbn [sp_call]. assert (L : forall s, s_leaf_ext S s x (SAOther (SInt k)) = Raise EValueError).
  { intros s. unfold s_leaf_ext, s_sext, s_zext. replace (k <? 0) with true by lia. now destruct s. }
  assert (R : forall m id, s_run_meth S (s_leaf_ext S) m id x (SAOther (SInt k)) = Raise EValueError).
  { induction m as [s|sel m0 IH0 m1 IH1]; intros i; cbn [s_run_meth]; [now rewrite L|now rewrite IH0]. }
  now rewrite R.
Qed.

Lemma C100_concat_builtin_pf : forall S, faithful S -> forall tab id sel a b v id' k n u i, bwf sel = true -> obj_ok a -> obj_ok b ->
  spcls_eqb (spc a) (spc b) = false ->
  s_ite S tab id sel (SBrVec a) (SBrVec b) = Ok (SBrVec v, id') -> let x := SPObj (SPBase k) n u in obj_ok x ->
  (sp_call S i (QConcat v) x = Raise ETypeError /\ (sp_call S i (QConcat a) x = Raise ETypeError \/ sp_call S i (QConcat b) x = Raise ETypeError)) \/
  (exists t ta tb, sp_call S i (QConcat v) x = Ok ([SIVec (SPObj (SPBase k) (n + spn a) t)], i) /\
     sp_call S i (QConcat a) x = Ok ([SIVec (SPObj (SPBase k) (n + spn a) ta)], i) /\ sp_call S i (QConcat b) x = Ok ([SIVec (SPObj (SPBase k) (n + spn a) tb)], i) /\
     forall e, evalv e t = evalv e u + evalv e (spt v) * 2 ^ n /\ evalv e t = evalv e (if evalb e sel then ta else tb)).
Proof.
  intros S FS tab id sel a b v id' k n u i Hs Oa Ob Hne H x Ox.
  destruct (s_ite_vec S tab id sel a b v id' FS Hs Oa Ob H) as (Ov & En & Nv & Cv & V). rewrite Hne in Cv.
  assert (AC : forall y, obj_ok y -> (kind_le (sbase_kind (spc y)) k = false -> sp_call S i (QConcat y) x = Raise ETypeError) /\
    (kind_le (sbase_kind (spc y)) k = true -> exists t, sp_call S i (QConcat y) x = Ok ([SIVec (SPObj (SPBase k) (n + spn y) t)], i) /\
       forall e, evalv e t = evalv e u + evalv e (spt y) * 2 ^ n)).
  { intros y [_ Wy]. cbn [sp_call]. unfold s_concat_accepts. cbn [spc x].
    replace (spcls_eqb (spc y) (SPBase k) || kind_le (sbase_kind (spc y)) k) with (kind_le (sbase_kind (spc y)) k).
    2:{ destruct (spc y) as [l|]; [|reflexivity]. cbn. destruct l, k; reflexivity. }
    split; intros ->; [reflexivity|]. cbn [sb_call sarg_val]. destruct Ox as [_ Wx]. pose proof Wx as (X1 & X2 & X3). pose proof Wy as (Y1 & Y2 & Y3).
    cbn in X1, X2, X3, Y1, Y2, Y3. unfold s_concat, skind, ssize. cbn [as_svec scls ck csize kind_le]. cbn [x spn]. rewrite sized_ok by lia. cbn [bind sterm spt].
    destruct (vec_node_ok S FS (BVC KBV (n + spn y)) (VConcat (spt y) u)) as (r & E & C & Wr & Vr); cbn [csize vwf width]; [lia|rewrite X2, Y2; reflexivity|lia|].
    unfold svecs. change (sterm (as_svec y)) with (spt y). change (sterm (as_svec x)) with u. rewrite E. cbn [rmap map spitem_of]. exists (sterm r). split; [unfold slike, ssize; rewrite C; reflexivity|]. intros e. rewrite Vr. cbn [evalv].
    rewrite X3. lia. }
  assert (J : kind_le (sbase_kind (spc v)) k = true <-> kind_le (sbase_kind (spc a)) k = true /\ kind_le (sbase_kind (spc b)) k = true).
  { rewrite Cv. cbn [sbase_kind]. destruct (sbase_kind (spc a)), (sbase_kind (spc b)), k; cbn; intuition discriminate. }
  destruct (AC v Ov) as [Rv Av], (AC a Oa) as [Ra Aa], (AC b Ob) as [Rb Ab].
  destruct (kind_le (sbase_kind (spc v)) k) eqn:Ev.
  - right. destruct J as [J _]. destruct (J eq_refl) as [Ja Jb]. destruct (Av eq_refl) as (t & E1 & V1). destruct (Aa Ja) as (ta & E2 & V2).
    destruct (Ab Jb) as (tb & E3 & V3). exists t, ta, tb. rewrite Nv in E1. rewrite <- En in E3. repeat (split; [assumption|]). intros e. split; [apply V1|].
    rewrite V1, V. destruct (evalb e sel); [now rewrite V2|now rewrite V3].
  - left. split; [auto|]. destruct (kind_le (sbase_kind (spc a)) k); [|auto]. destruct (kind_le (sbase_kind (spc b)) k); [|auto].
    destruct J as [_ J]. exfalso. discriminate J. auto.
Qed.

Lemma C100_concat_refuted_pf : exists a b v r, s_ite no_simp s_no_protocols 0 (BVar "p") (SBrVec a) (SBrVec b) = Ok (SBrVec v, 1%nat) /\
  evalb env0 (BVar "p") = true /\ obj_ok a /\ obj_ok b /\
  sp_call no_simp 1 (QConcat a) v = Raise ETypeError /\ sp_call no_simp 1 (QConcat a) a = Ok (r, 1%nat).
Proof.
  exists (SPObj (SPBase KBV) 4 (VVar "x" 4)), (SPObj (SPBase KSInt) 4 (VVar "y" 4)). do 2 eexists. split; [vm_compute; reflexivity|].
  split; [reflexivity|]. split; [split; [exact I|unfold swf; cbn; lia]|]. split; [split; [exact I|unfold swf; cbn; lia]|]. split; vm_compute; reflexivity.
Qed.
