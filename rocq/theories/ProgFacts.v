(** Running a checked program in the pySMT and z3 families and concretely: one call, then induction. *)
From Coq Require Import Lia ZifyBool.
From Verif Require Import PyBase BVModel BVSpec BVFacts OpModel IteModel IteSpec SMTTerm SMTModel SMTSpec SMTFacts SMTOps
  SMTProofs SIteModel SIteSpec SIteProofs Z3Model Z3Spec Z3Proofs ProgModel ProgSpec.

Lemma Forall2_nth {A B} (P : A -> B -> Prop) l m i b : Forall2 P l m -> nth_error m i = Some b ->
  exists a, nth_error l i = Some a /\ P a b.
Proof.
  intros H. revert i. induction H as [|x y l m Hxy H IH]; intros [|i] E; cbn in *; try discriminate.
  - inv E. eauto.
  - eauto.
Qed.

Section Lookup.
  Variables (rs : list sval) (ts : list ty).
  Hypothesis T : Forall2 sym_has rs ts.
  Notation cr e := (map (vmeaning e) rs).

  Lemma reg_any x t : nth_error ts x = Some t -> exists v, reg rs x = Ok v /\ sym_has v t /\ forall e, reg (cr e) x = Ok (vmeaning e v).
  Proof.
    intros E. destruct (Forall2_nth _ _ _ _ _ T E) as (v & Ev & Hv). exists v. unfold reg. rewrite Ev. split; auto. split; auto.
    intros e. now rewrite (map_nth_error _ _ _ Ev).
  Qed.
  Lemma reg_vec x c : tvec ts x = Some c ->
    exists a, reg rs x = Ok (SVec a) /\ scls a = c /\ swf a /\ forall e, reg (cr e) x = Ok (VBV (meaning e a)).
  Proof.
    unfold tvec. destruct (nth_error ts x) as [[d|]|] eqn:E; try discriminate. intros H. inv H.
    destruct (reg_any _ _ E) as (v & R & H & C). destruct v; cbn in H; try contradiction. destruct H as [<- W]. exists x0. auto.
  Qed.
  Lemma reg_bit x : tbit ts x = true ->
    exists b, reg rs x = Ok (SBit b) /\ bwf b = true /\ forall e, reg (cr e) x = Ok (VBit (evalb e b)).
  Proof.
    unfold tbit. destruct (nth_error ts x) as [[d|]|] eqn:E; try discriminate. intros _.
    destruct (reg_any _ _ E) as (v & R & H & C). destruct v; cbn in H; try contradiction. eauto.
  Qed.
  Lemma opnd_fits n o : fits ts n o = true ->
    exists w, opnd SInt rs o = Ok w /\ accepted n w /\ forall e, opnd VInt (cr e) o = Ok (vmeaning e w).
  Proof.
    destruct o as [i|z]; cbn [fits opnd].
    - destruct (nth_error ts i) as [[c|]|] eqn:E; try discriminate; intros H; destruct (reg_any _ _ E) as (v & R & Hv & C);
        destruct v; cbn in Hv; try contradiction; eexists; (split; [exact R|]); (split; [|exact C]).
      + destruct Hv as [<- W]. split; [now constructor|]. lia.
      + split; [now constructor|exact Logic.I].
    - intros _. exists (SInt z). split; auto. split; [split; [constructor|exact Logic.I]|auto].
  Qed.
  Lemma opnd_fits_vec n o i d : fits ts n o = true -> o = Reg i -> nth_error ts i = Some (TVec d) ->
    exists y, opnd SInt rs o = Ok (SVec y) /\ scls y = d.
  Proof.
    intros _ -> E. destruct (reg_any _ _ E) as (v & R & Hv & _). destruct v; cbn in Hv; try contradiction.
    exists x. cbn [opnd]. split; [auto|tauto].
  Qed.
  Lemma opnd_bit o : bit_like ts o = true ->
    exists w, opnd SInt rs o = Ok w /\ bit_arg w /\ s_bit_like w = true /\ (match w with SBit t => bwf t = true | _ => True end) /\
      forall e, opnd VInt (cr e) o = Ok (vmeaning e w).
  Proof.
    destruct o as [i|z]; cbn [bit_like opnd].
    - intros H. destruct (reg_bit _ H) as (b & R & W & C). exists (SBit b). split; auto. split; [now constructor|]. auto.
    - intros H. exists (SInt z). split; auto. split; [|cbn; auto]. assert (z = 0 \/ z = 1) as [-> | ->] by lia; constructor.
  Qed.
  Lemma reg_bits l : forallb (tbit ts) l = true ->
    exists vs, mapM (reg rs) l = Ok vs /\ length vs = length l /\ Forall bit_elem vs /\
      forall e, mapM (reg (cr e)) l = Ok (map (vmeaning e) vs).
  Proof.
    induction l as [|x l IH]; cbn; intros H.
    - exists []. auto.
    - apply andb_true_iff in H as [H1 H2]. destruct (IH H2) as (vs & A & B & C & D). destruct (reg_bit _ H1) as (b & R & W & Q).
      exists (SBit b :: vs). rewrite R. cbn [bind]. rewrite A. cbn [bind]. split; auto. split; [cbn; lia|].
      split; [constructor; auto; now constructor|]. intros e. rewrite Q. cbn [bind]. rewrite D. reflexivity.
  Qed.
End Lookup.

(** What one call of a family must do. *)
Definition simulates (call : (nat -> res sval) -> (operand -> res sval) -> instr -> res (list sval)) : Prop :=
  forall ts rs i us, check1 ts i = Some us -> Forall2 sym_has rs ts ->
  exists vs, call (reg rs) (opnd SInt rs) i = Ok vs /\ Forall2 sym_has vs us /\
    forall e, conc_call (reg (map (vmeaning e) rs)) (opnd VInt (map (vmeaning e) rs)) i = Ok (map (vmeaning e) vs).

Lemma run_simulates call : simulates call -> forall p ts rs us, check ts p = Some us -> Forall2 sym_has rs ts ->
  exists vs, run SInt call rs p = Ok vs /\ Forall2 sym_has vs us /\
    forall e, conc_run (map (vmeaning e) rs) p = Ok (map (vmeaning e) vs).
Proof.
  intros HS. induction p as [|i p IH]; intros ts rs us H T; cbn [check run] in *.
  - inv H. exists rs. auto.
  - destruct (check1 ts i) as [vs|] eqn:E; [|discriminate]. cbn [obind] in H.
    destruct (HS ts rs i vs E T) as (ws & A & B & C). rewrite A. cbn [bind].
    destruct (IH _ (rs ++ ws)%list _ H) as (xs & P & Q & R); [now apply Forall2_app|]. exists xs. split; auto. split; auto.
    intros e. unfold conc_run. cbn [run]. rewrite C. cbn [bind]. rewrite <- map_app. apply R.
Qed.

Lemma guard_some {A} b (a x : A) : guard b a = Some x -> b = true /\ a = x.
Proof. destruct b; cbn; intros H; inv H; auto. Qed.
Lemma cls_eqb_eq a b : cls_eqb a b = true -> a = b.
Proof.
  destruct a as [k n], b as [l m]. unfold cls_eqb. cbn. intros H. apply andb_true_iff in H as [H1 H2].
  destruct k, l; try discriminate; f_equal; lia.
Qed.
Lemma swf_size x : swf x -> 1 <= csize (scls x). Proof. now intros []. Qed.

Lemma single v t : sym_has v t -> Forall2 sym_has [v] [t].
Proof. auto. Qed.

Ltac regs :=
  repeat match goal with
  | H : obind ?a _ = Some _ |- _ => let E := fresh "E" in destruct a eqn:E; cbn [obind] in H; [|discriminate]
  | H : guard _ _ = Some _ |- _ => apply guard_some in H as [? ?]; subst
  | H : Some _ = Some _ |- _ => inv H
  | H : _ && _ = true |- _ => apply andb_true_iff in H as [? ?]
  end.
Ltac vec T E a Ra Ca Wa Qa := destruct (reg_vec _ _ T _ _ E) as (a & Ra & Ca & Wa & Qa); subst; rewrite Ra; cbn [bind s_vec].
Ltac fit T y w Ew Aw Qw :=
  match goal with H : fits _ _ y = true |- _ => destruct (opnd_fits _ _ T _ _ H) as (w & Ew & Aw & Qw) end; rewrite Ew; cbn [bind].
Ltac bitl T y w Ew Aw Lw Bw Qw :=
  match goal with H : bit_like _ y = true |- _ => destruct (opnd_bit _ _ T _ H) as (w & Ew & Aw & Lw & Bw & Qw) end; rewrite Ew; cbn [bind].
Ltac fin := cbn [bind rmap one map]; eexists; split; [reflexivity|]; split; [constructor; [cbn; auto|constructor]|].

Section Smt.
  Variable S : simplifier.
  Hypothesis FS : faithful S.

  (** The class of an infix result. *)
  Lemma op_same ts rs op a y w : Forall2 sym_has rs ts -> swf a -> opnd SInt rs y = Ok w -> fits ts (csize (scls a)) y = true ->
    same_op ts op (scls a) y = true ->
    signed_division op (skind a) = false /\
    (forall z, w = SVec z -> signed_division op (skind z) = false) /\
    (forall z, w = SVec z -> redefined op = true -> skind z = KSInt -> above_signed (skind a) = false).
  Proof.
    intros T Wa Ew Hf Hs. unfold same_op in Hs. apply andb_true_iff in Hs as [H1 H2]. apply negb_true_iff in H1. split; auto.
    destruct y as [i|z]; cbn [opnd] in Ew; [|inv Ew; split; intros; discriminate].
    unfold fits in Hf. destruct (nth_error ts i) as [[d|]|] eqn:E; [| |discriminate].
    - destruct (reg_any _ _ T _ _ E) as (v & R & Hv & _). rewrite R in Ew. inv Ew. destruct w; cbn in Hv; try contradiction.
      destruct Hv as [<- W]. apply andb_true_iff in H2 as [H2 H3]. apply negb_true_iff in H2, H3. unfold skind.
      split; intros z Hz; inv Hz; auto. intros R1 R2. unfold skind in R2. rewrite R1, R2 in H3. exact H3.
    - destruct (reg_any _ _ T _ _ E) as (v & R & Hv & _). rewrite R in Ew. inv Ew. destruct w; cbn in Hv; try contradiction.
      split; intros; discriminate.
  Qed.

  Lemma zacc n v : accepted n v -> zaccepted n v.
  Proof. intros [A B]. split; auto. now constructor. Qed.
  Lemma sfd op k : signed_division op k = false -> signed_floordiv op k = false.
  Proof. destruct op, k; cbn; auto. Qed.

  Lemma smt_op op a w : swf a -> accepted (csize (scls a)) w -> signed_division op (skind a) = false ->
    (forall z, w = SVec z -> signed_division op (skind z) = false) ->
    (forall z, w = SVec z -> redefined op = true -> skind z = KSInt -> above_signed (skind a) = false) ->
    exists r, s_binop S op (SVec a) w = Ok (SVec r) /\ scls r = scls a /\ swf r /\
      forall e, py_binop_val op (VBV (meaning e a)) (vmeaning e w) = Ok (VBV (meaning e r)).
  Proof.
    intros Wa Aw H1 H2 H3. destruct (C30_infix_pf S FS op a w Wa Aw H1 H2) as (r & A & B & C). exists r. split; auto. split; auto.
    destruct (C38_infix_partial_pf S FS op a w Wa (zacc _ _ Aw) (sfd _ _ H1) H3) as (q & _ & D & _ & F).
    specialize (C env0). rewrite (F env0) in C. inv C. congruence.
  Qed.

  Lemma smt_call_simulates : simulates (smt_call S).
  Proof.
    intros ts rs i us H T. destruct i; cbn [check1] in H; cbn [smt_call conc_call].
    - (* PLit *) regs. destruct (C32_construct_pf S FS c (SInt z)) as (r & A & B & C & D); [lia|constructor|].
      rewrite A. fin. intros e. specialize (D e). cbn [vmeaning] in D. rewrite D. reflexivity.
    - (* PBit *) regs. cbn [sbit_init bit_init]. cbn [rmap one]. eexists. split; [reflexivity|]. split.
      + constructor; [|constructor]. exact (proj1 (proj1 FS (BConst b) eq_refl)).
      + intros e. cbn [map vmeaning]. rewrite (proj2 (proj1 FS (BConst b) eq_refl)). reflexivity.
    - (* PConv *) destruct (nth_error ts x) as [t|] eqn:E; [|discriminate]. regs. destruct (reg_any _ _ T _ _ E) as (v & R & Hv & Q).
      rewrite R. cbn [bind].
      destruct (C32_construct_pf S FS c v) as (r & A & B & C & D); [lia| |].
      { destruct v, t; cbn in Hv; try contradiction; constructor; tauto. }
      rewrite A. fin. intros e. rewrite Q. cbn [bind]. rewrite D. reflexivity.
    - (* PPack *) regs.
      match goal with H : forallb _ _ = true |- _ => destruct (reg_bits _ _ T _ H) as (vs & A & B & C & D) end. rewrite A. cbn [bind].
      destruct (C32_construct_pf S FS c (SSeq vs)) as (r & A' & B' & C' & D'); [lia|constructor; [lia|auto]|].
      rewrite A'. fin. intros e. rewrite D. cbn [bind]. specialize (D' e). cbn [vmeaning] in D'. rewrite D'. reflexivity.
    - (* PMeth *) regs. vec T E a Ra Ca Wa Qa. fit T y w Ew Aw Qw.
      destruct (C30_methods_pf S FS m a w Wa Aw) as (r & A & B & C & D). rewrite A. fin.
      intros e. rewrite Qa, Qw. cbn [bind as_vec]. destruct (D e) as (o & -> & Eo). cbn [rmap one]. now rewrite Eo.
    - (* PRel *) regs. vec T E a Ra Ca Wa Qa. fit T y w Ew Aw Qw.
      destruct (C30_comparisons_pf S FS m a w Wa Aw) as (r & A & B & C). rewrite A. fin.
      intros e. rewrite Qa, Qw. cbn [bind as_vec]. now rewrite C.
    - (* PInv *) destruct (nth_error ts x) as [t|] eqn:E; [|discriminate]. regs. destruct (reg_any _ _ T _ _ E) as (v & R & Hv & Q).
      rewrite R. cbn [bind]. destruct v, t; cbn in Hv; try contradiction.
      + destruct (sbit_invert S t0) eqn:Ei.
        2:{ exfalso. destruct (C30_bits_pf S FS t0 (SBool true) Hv (R_bool true)) as (_ & _ & _ & _ & r & A & _). congruence. }
        destruct (C30_bits_pf S FS t0 (SBool true) Hv (R_bool true)) as (_ & _ & _ & _ & r & A & B & C).
        rewrite Ei in A. inv A. fin. intros e. rewrite Q. cbn [bind vmeaning map]. now rewrite C.
      + destruct Hv as [<- W]. destruct (proj1 (C30_unary_pf S FS x0 W)) as (r & A & B & C & D). rewrite A. fin.
        intros e. rewrite Q. cbn [bind vmeaning]. now rewrite D.
    - (* PNeg *) regs. vec T E a Ra Ca Wa Qa. destruct (proj2 (C30_unary_pf S FS a Wa)) as (r & A & B & C & D). rewrite A. fin.
      intros e. rewrite Qa. cbn [bind as_vec]. now rewrite D.
    - (* PRol *) regs. vec T E a Ra Ca Wa Qa. destruct (proj1 (C30_rotate_partial_pf S FS a k Wa ltac:(lia))) as (r & A & B & C & D).
      rewrite A. fin. intros e. rewrite Qa. cbn [bind as_vec]. rewrite D. reflexivity.
    - (* PRor *) regs. vec T E a Ra Ca Wa Qa. destruct (proj2 (C30_rotate_partial_pf S FS a k Wa ltac:(lia))) as (r & A & B & C & D).
      rewrite A. fin. intros e. rewrite Qa. cbn [bind as_vec]. rewrite D. reflexivity.
    - (* POp *) destruct (nth_error ts x) as [[c|]|] eqn:E; [| |discriminate]; regs.
      + vec T (ltac:(unfold tvec; rewrite E; reflexivity) : tvec ts x = Some c) a Ra Ca Wa Qa.
        fit T y w Ew Aw Qw.
        destruct (op_same _ _ op _ _ _ T Wa Ew ltac:(assumption) ltac:(assumption)) as (P1 & P2 & P3).
        destruct (smt_op op a w Wa Aw P1 P2 P3) as (r & A & B & C & D). rewrite A. fin.
        intros e. rewrite Qa, Qw. cbn [bind]. now rewrite D.
      + destruct (reg_bit _ _ T x (ltac:(unfold tbit; rewrite E; reflexivity))) as (b & R & W & Q). rewrite R. cbn [bind].
        bitl T y w Ew Aw Lw Bw Qw.
        destruct (C30_bits_pf S FS b w W Aw) as (P & _). destruct (P op) as (r & A & B & C); [destruct op; auto; discriminate|].
        rewrite A. fin. intros e. rewrite Q, Qw. cbn [bind]. now rewrite C.
    - (* PCmp *) destruct (nth_error ts x) as [[d|]|] eqn:E; [| |discriminate]; regs.
      + vec T (ltac:(unfold tvec; rewrite E; reflexivity) : tvec ts x = Some d) a Ra Ca Wa Qa.
        fit T y w Ew Aw Qw.
        destruct (proj1 (C30_infix_comparisons_pf S FS c a w Wa Aw)) as (r & A & B & C). rewrite A. fin.
        intros e. rewrite Qa, Qw. cbn [bind]. now rewrite C.
      + destruct (reg_bit _ _ T x (ltac:(unfold tbit; rewrite E; reflexivity))) as (b & R & W & Q). rewrite R. cbn [bind].
        bitl T y w Ew Aw Lw Bw Qw.
        destruct (C30_bits_pf S FS b w W Aw) as (_ & _ & P & _). destruct (P c) as (r & A & B & C); [destruct c; auto; discriminate|].
        rewrite A. fin. intros e. rewrite Q, Qw. cbn [bind]. now rewrite C.
    - (* PCmpInt *) regs. vec T E a Ra Ca Wa Qa.
      destruct (C30_infix_comparisons_pf S FS c a (SInt z) Wa) as (_ & P); [split; [constructor|exact Logic.I]|].
      destruct (P Logic.I) as (r & A & B & C). rewrite A. fin. intros e. rewrite Qa. cbn [bind]. specialize (C e). cbn [vmeaning] in C. now rewrite C.
    - (* PItem *) regs. vec T E a Ra Ca Wa Qa. destruct (proj1 (C32_getitem_pf S FS a i Wa) ltac:(lia)) as (r & A & B & C).
      rewrite A. fin. intros e. rewrite Qa. cbn [bind as_vec]. now rewrite C.
    - (* PSlice *) regs. vec T E v Ra Ca Wa Qa. unfold lower, upper in *.
      destruct (C32_slice_partial_pf S FS v a b None Wa ltac:(auto) ltac:(lia)) as (r & A & B & C & D).
      rewrite A. fin. intros e. rewrite Qa. cbn [bind as_vec]. now rewrite D.
    - (* PConcat *) regs. vec T E a Ra Ca Wa Qa. vec T E0 a' Ra' Ca' Wa' Qa'.
      destruct (C32_concat_pf S FS a a' Wa Wa' ltac:(assumption)) as (r & A & B & C & D).
      rewrite A. fin. intros e. rewrite Qa, Qa'. cbn [bind as_vec]. now rewrite D.
    - (* PZext *) regs. vec T E a Ra Ca Wa Qa. destruct (C32_zext_pf S FS a k Wa ltac:(lia)) as (r & A & B & C & D).
      rewrite A. fin. intros e. rewrite Qa. cbn [bind as_vec]. now rewrite D.
    - (* PSext *) regs. vec T E a Ra Ca Wa Qa. destruct (C32_sext_partial_pf S FS a k Wa ltac:(lia)) as (r & A & B & C & D).
      rewrite A. fin. intros e. rewrite Qa. cbn [bind as_vec]. now rewrite D.
    - (* PExt *) regs. vec T E a Ra Ca Wa Qa. destruct (C32_ext_partial_pf S FS a k Wa ltac:(lia)) as (r & A & B & C & D).
      rewrite A. fin. intros e. rewrite Qa. cbn [bind as_vec]. now rewrite D.
    - (* PSet *) regs. vec T E a Ra Ca Wa Qa. bitl T b w Ew Aw Lw Bw Qw.
      destruct (C32_construct_pf S FS (scls a) (SVec a)) as (y & A & B & C & D); [now apply swf_size|now constructor|].
      rewrite A. cbn [bind].
      destruct (C32_setitem_pf S FS y i w C) as (r & A' & B' & C' & D'); [rewrite B; lia|auto|auto|].
      rewrite A'. fin. { split; [congruence|auto]. }
      intros e. rewrite Qa, Qw. cbn [bind as_vec]. specialize (D e). cbn [vmeaning] in D. cbn [meaning bcls] in *. rewrite D. cbn [bind]. now rewrite D'.
    - (* PAdc *) regs. vec T E a Ra Ca Wa Qa. fit T y w Ew Aw Qw.
      fit T c u Eu Au Qu.
      destruct (C32_adc_pf S FS a w u Wa Aw Au) as (r & q & A & B & C & D & F). rewrite A. cbn [rmap fst snd].
      eexists. split; [reflexivity|]. split; [constructor; [cbn; auto|constructor; [cbn; auto|constructor]]|].
      intros e. rewrite Qa, Qw, Qu. cbn [bind as_vec]. now rewrite F.
    - (* PIte *) regs.
      match goal with H : tbit _ _ = true |- _ => destruct (reg_bit _ _ T _ H) as (sb & R & W & Q) end.
      match goal with H : cls_eqb _ _ = true |- _ => apply cls_eqb_eq in H end. rewrite R. cbn [bind s_bit].
      vec T E a Ra Ca Wa Qa. vec T E0 a' Ra' Ca' Wa' Qa'. assert (Hc : scls a = scls a') by congruence.
      destruct (C65_ite_pf S FS s_no_protos 0 sb (s_vec_branch a) (s_vec_branch a') env0 W) as (r & id & A & B & C).
      { split; [exact Logic.I|]. unfold as_svec, s_vec_branch. destruct Wa as (P1 & P2 & P3). split; [|split]; cbn; auto. }
      { split; [exact Logic.I|]. unfold as_svec, s_vec_branch. destruct Wa' as (P1 & P2 & P3). split; [|split]; cbn; auto. }
      { exact Logic.I. }
      { constructor. cbn. unfold ssize. congruence. }
      rewrite A. cbn [bind fst].
      (* the shape of the result *)
      assert (SH : exists t, r = SBrVec (SPObj (SPBase (skind a)) (ssize a) t)).
      { unfold s_ite in A. cbn [s_return_type s_vec_branch] in A. unfold s_same_cls in A. cbn [spc spn spcls_eqb] in A.
        assert (K : kind_eqb (skind a) (skind a') && (ssize a =? ssize a') = true).
        { unfold skind, ssize. rewrite <- Hc. destruct (ck (scls a)); cbn; lia. }
        rewrite K in A. cbn [bind fst snd] in A. unfold s_vec_branch in A. cbn [s_push_ite bind s_coerce_branch spt] in A.
        match type of A with context [vec_node S ?c ?t] => destruct (vec_node S c t) as [q|]; cbn [bind] in A; [|discriminate] end.
        inv A. eauto. }
      destruct SH as (t & ->). cbn [sbranch_ok] in B. eexists. split; [reflexivity|]. split.
      { constructor; [|constructor]. cbn. destruct B as [_ (P1 & P2 & P3)]. cbn in P1, P2, P3. split; [unfold skind, ssize; now destruct (scls a)|]. split; [|split]; auto. }
      intros e. rewrite Q, Qa, Qa'. cbn [bind as_vec as_bit]. destruct (C e no_protocols) as [_ D].
      cbn [branch_meaning s_vec_branch obj_meaning spc spn spt cls_meaning] in D.
      change (vec_branch (meaning e a)) with (BrVec (PObj (PBase (skind a)) (ssize a) (evalv e (sterm a)))).
      change (vec_branch (meaning e a')) with (BrVec (PObj (PBase (skind a')) (ssize a') (evalv e (sterm a')))).
      unfold obj_meaning in D. cbn [spc spn spt cls_meaning] in D. rewrite D. reflexivity.
  Qed.

  Lemma z3_call_simulates : simulates (z3_call S).
  Proof.
    intros ts rs i us H T. destruct i; cbn [check1] in H; cbn [z3_call conc_call].
    - (* PLit *) regs. destruct (C38_construct_pf S FS c (SInt z)) as (r & A & B & C & D); [lia|apply Z_same; constructor|].
      rewrite A. fin. intros e. specialize (D e). cbn [vmeaning] in D. rewrite D. reflexivity.
    - (* PBit *) regs. cbn [z_bit_init bit_init]. cbn [rmap one]. eexists. split; [reflexivity|]. split.
      + constructor; [|constructor]. exact (proj1 (proj1 FS (BConst b) eq_refl)).
      + intros e. cbn [map vmeaning]. rewrite (proj2 (proj1 FS (BConst b) eq_refl)). reflexivity.
    - (* PConv *) destruct (nth_error ts x) as [t|] eqn:E; [|discriminate]. regs. destruct (reg_any _ _ T _ _ E) as (v & R & Hv & Q).
      rewrite R. cbn [bind].
      destruct (C38_construct_pf S FS c v) as (r & A & B & C & D); [lia| |].
      { apply Z_same. destruct v, t; cbn in Hv; try contradiction; constructor; tauto. }
      rewrite A. fin. intros e. rewrite Q. cbn [bind]. rewrite D. reflexivity.
    - (* PPack *) regs.
      match goal with H : forallb _ _ = true |- _ => destruct (reg_bits _ _ T _ H) as (vs & A & B & C & D) end. rewrite A. cbn [bind].
      destruct (C38_construct_pf S FS c (SSeq vs)) as (r & A' & B' & C' & D'); [lia|apply Z_same; constructor; [lia|auto]|].
      rewrite A'. fin. intros e. rewrite D. cbn [bind]. specialize (D' e). cbn [vmeaning] in D'. rewrite D'. reflexivity.
    - (* PMeth *) regs. vec T E a Ra Ca Wa Qa. fit T y w Ew Aw Qw.
      destruct (C38_methods_pf S FS m a w Wa (zacc _ _ Aw)) as (r & A & B & C & D). rewrite A. fin.
      intros e. rewrite Qa, Qw. cbn [bind as_vec]. destruct (D e) as (o & -> & Eo). cbn [rmap one]. now rewrite Eo.
    - (* PRel *) regs. vec T E a Ra Ca Wa Qa. fit T y w Ew Aw Qw.
      destruct (C38_comparisons_pf S FS m a w Wa (zacc _ _ Aw)) as (r & A & B & C). rewrite A. fin.
      intros e. rewrite Qa, Qw. cbn [bind as_vec]. now rewrite C.
    - (* PInv *) destruct (nth_error ts x) as [t|] eqn:E; [|discriminate]. regs. destruct (reg_any _ _ T _ _ E) as (v & R & Hv & Q).
      rewrite R. cbn [bind]. destruct v, t; cbn in Hv; try contradiction.
      + destruct (C38_bits_pf S FS t0 (SBool true) Hv (ZB_same _ (R_bool true))) as (_ & _ & _ & r & A & B & C).
        rewrite A. fin. intros e. rewrite Q. cbn [bind vmeaning map]. now rewrite C.
      + destruct Hv as [<- W]. destruct (proj1 (C38_unary_pf S FS x0 W)) as (r & A & B & C & D). rewrite A. fin.
        intros e. rewrite Q. cbn [bind vmeaning]. now rewrite D.
    - (* PNeg *) regs. vec T E a Ra Ca Wa Qa. destruct (proj2 (C38_unary_pf S FS a Wa)) as (r & A & B & C & D). rewrite A. fin.
      intros e. rewrite Qa. cbn [bind as_vec]. now rewrite D.
    - (* PRol *) regs. vec T E a Ra Ca Wa Qa. destruct (proj1 (C38_rotate_pf S FS a (SInt k) Wa ltac:(apply zacc; split; [constructor|exact Logic.I]))) as (r & A & B & C & D).
      rewrite A. fin. intros e. rewrite Qa. cbn [bind as_vec]. specialize (D e). cbn [vmeaning] in D. rewrite D. reflexivity.
    - (* PRor *) regs. vec T E a Ra Ca Wa Qa. destruct (proj2 (C38_rotate_pf S FS a (SInt k) Wa ltac:(apply zacc; split; [constructor|exact Logic.I]))) as (r & A & B & C & D).
      rewrite A. fin. intros e. rewrite Qa. cbn [bind as_vec]. specialize (D e). cbn [vmeaning] in D. rewrite D. reflexivity.
    - (* POp *) destruct (nth_error ts x) as [[c|]|] eqn:E; [| |discriminate]; regs.
      + vec T (ltac:(unfold tvec; rewrite E; reflexivity) : tvec ts x = Some c) a Ra Ca Wa Qa.
        fit T y w Ew Aw Qw.
        destruct (op_same _ _ op _ _ _ T Wa Ew ltac:(assumption) ltac:(assumption)) as (P1 & P2 & P3).
        destruct (C38_infix_partial_pf S FS op a w Wa (zacc _ _ Aw) (sfd _ _ P1) P3) as (r & A & B & C & D). rewrite A. fin.
        intros e. rewrite Qa, Qw. cbn [bind]. now rewrite D.
      + destruct (reg_bit _ _ T x (ltac:(unfold tbit; rewrite E; reflexivity))) as (b & R & W & Q). rewrite R. cbn [bind].
        bitl T y w Ew Aw Lw Bw Qw.
        destruct (C38_bits_pf S FS b w W (ZB_same _ Aw)) as (_ & P & _). destruct (P op) as (r & A & B & C); [destruct op; auto; discriminate|].
        rewrite A. fin. intros e. rewrite Q, Qw. cbn [bind]. now rewrite C.
    - (* PCmp *) destruct (nth_error ts x) as [[d|]|] eqn:E; [| |discriminate]; regs.
      + vec T (ltac:(unfold tvec; rewrite E; reflexivity) : tvec ts x = Some d) a Ra Ca Wa Qa.
        fit T y w Ew Aw Qw.
        destruct (proj1 (C38_infix_comparisons_pf S FS c a w Wa (zacc _ _ Aw))) as (r & A & B & C). rewrite A. fin.
        intros e. rewrite Qa, Qw. cbn [bind]. now rewrite C.
      + destruct (reg_bit _ _ T x (ltac:(unfold tbit; rewrite E; reflexivity))) as (b & R & W & Q). rewrite R. cbn [bind].
        bitl T y w Ew Aw Lw Bw Qw.
        destruct (C38_bits_pf S FS b w W (ZB_same _ Aw)) as (_ & _ & P & _). destruct (P c) as ((r & A & B & C) & _); [destruct c; auto; discriminate|].
        rewrite A. fin. intros e. rewrite Q, Qw. cbn [bind]. now rewrite C.
    - (* PCmpInt *) regs. vec T E a Ra Ca Wa Qa.
      destruct (C38_infix_comparisons_pf S FS c a (SInt z) Wa) as (_ & P); [apply zacc; split; [constructor|exact Logic.I]|].
      destruct (P Logic.I) as (r & A & B & C). rewrite A. fin. intros e. rewrite Qa. cbn [bind]. specialize (C e). cbn [vmeaning] in C. now rewrite C.
    - (* PItem *) regs. vec T E a Ra Ca Wa Qa. destruct (proj1 (C38_getitem_pf S FS a i Wa) ltac:(lia)) as (r & A & B & C).
      rewrite A. fin. intros e. rewrite Qa. cbn [bind as_vec]. now rewrite C.
    - (* PSlice *) regs. vec T E v Ra Ca Wa Qa. unfold lower, upper in *.
      destruct (C38_slice_partial_pf S FS v a b None Wa ltac:(auto) ltac:(lia)) as (r & A & B & C & D).
      rewrite A. fin. intros e. rewrite Qa. cbn [bind as_vec]. now rewrite D.
    - (* PConcat *) regs. vec T E a Ra Ca Wa Qa. vec T E0 a' Ra' Ca' Wa' Qa'.
      destruct (C38_concat_pf S FS a a' Wa Wa' ltac:(assumption)) as (r & A & B & C & D).
      rewrite A. fin. intros e. rewrite Qa, Qa'. cbn [bind as_vec]. now rewrite D.
    - (* PZext *) regs. vec T E a Ra Ca Wa Qa. destruct (C38_zext_pf S FS a k Wa ltac:(lia)) as (r & A & B & C & D).
      rewrite A. fin. intros e. rewrite Qa. cbn [bind as_vec]. now rewrite D.
    - (* PSext *) regs. vec T E a Ra Ca Wa Qa. destruct (C38_sext_partial_pf S FS a k Wa ltac:(lia)) as (r & A & B & C & D).
      rewrite A. fin. intros e. rewrite Qa. cbn [bind as_vec]. now rewrite D.
    - (* PExt *) regs. vec T E a Ra Ca Wa Qa. destruct (C38_ext_partial_pf S FS a k Wa ltac:(lia)) as (r & A & B & C & D).
      { intros K. unfold skind in K. rewrite K in *. discriminate. }
      rewrite A. fin. intros e. rewrite Qa. cbn [bind as_vec]. now rewrite D.
    - (* PSet *) regs. vec T E a Ra Ca Wa Qa. bitl T b w Ew Aw Lw Bw Qw.
      destruct (C38_construct_pf S FS (scls a) (SVec a)) as (y & A & B & C & D); [now apply swf_size|now apply Z_same; constructor|].
      rewrite A. cbn [bind].
      destruct (C38_setitem_pf S FS y i w C) as (r & A' & B' & C' & D'); [rewrite B; lia|auto|auto|].
      rewrite A'. fin. { split; [congruence|auto]. }
      intros e. rewrite Qa, Qw. cbn [bind as_vec]. specialize (D e). cbn [vmeaning] in D. cbn [meaning bcls] in *. rewrite D. cbn [bind]. now rewrite D'.
    - (* PAdc *) regs. vec T E a Ra Ca Wa Qa. fit T y w Ew Aw Qw.
      fit T c u Eu Au Qu.
      destruct (C38_adc_pf S FS a w u Wa (zacc _ _ Aw) (zacc _ _ Au)) as (r & q & A & B & C & D & F). rewrite A. cbn [rmap fst snd].
      eexists. split; [reflexivity|]. split; [constructor; [cbn; auto|constructor; [cbn; auto|constructor]]|].
      intros e. rewrite Qa, Qw, Qu. cbn [bind as_vec]. now rewrite F.
    - (* PIte *) regs.
      match goal with H : tbit _ _ = true |- _ => destruct (reg_bit _ _ T _ H) as (sb & R & W & Q) end.
      match goal with H : cls_eqb _ _ = true |- _ => apply cls_eqb_eq in H end. rewrite R. cbn [bind s_bit].
      vec T E a Ra Ca Wa Qa. vec T E0 a' Ra' Ca' Wa' Qa'. assert (Hc : scls a' = scls a) by congruence.
      destruct (C38_ite_same_pf S FS sb a a' W Wa Wa' Hc) as (r & A & B & C & D). rewrite A. fin.
      intros e. rewrite Q, Qa, Qa'. cbn [bind as_vec as_bit]. destruct (D e) as [_ F]. rewrite (F no_protocols 0%nat).
      2:{ intros i. split; [cbn; lia|]. cbn. eauto. }
      cbn [bind fst vec_branch]. cbn [map vmeaning]. unfold bkind, bsize, meaning. cbn [bcls bval ck csize]. now destruct (scls r).
  Qed.
End Smt.
