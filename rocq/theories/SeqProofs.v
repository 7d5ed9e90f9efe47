(** Proofs of the theorems stated in SeqProps.v. *)
From Coq Require Import Lia.
From Verif Require Import PyBase BVModel BVSpec BVFacts BVOps BVProofs OpModel SMTTerm SMTModel SMTSpec SMTFacts SMTProofs Z3Model Z3Proofs MixModel.
From Verif Require ADTProofs HeapFacts.
From Verif Require Import ADTTy ADTModel ADTSpec SeqModel SeqSpec SeqFacts.


Definition tup_good (n : nat) (y : val) : Prop := exists t b vs, y = VTup t b vs /\ length vs = n.

Definition sym_item (S : simplifier) (f : fam) (x : svec) (k : nat) : bterm := match sym_get S f x (Z.of_nat k) with Ok (_, t) => t | Raise _ => BConst false end.


Lemma vec_get_ok x : forall y k, wf y /\ bsize y = bsize x -> (k < Z.to_nat (bsize x))%nat -> vec_get y (Z.of_nat k) = Ok (y, Z.testbit (bval y) (Z.of_nat k)).
Proof. intros y k (W & B) K. unfold vec_get. rewrite getitem_int_spec by (auto; lia). rewrite Z.mod_small by lia. reflexivity. Qed.

Lemma vec_get_end x : wf x -> forall y, wf y /\ bsize y = bsize x -> vec_get y (Z.of_nat (Z.to_nat (bsize x))) = Raise EIndexError.
Proof. intros W0 y (W & B). unfold vec_get. rewrite getitem_int_out; [reflexivity|]. destruct W0. unfold bsize in *. lia. Qed.

Lemma bit_same_ok o v c b : (v = VBit c \/ v = VBool c \/ v = VInt (b2z c) \/ exists i t, v = VOther i (Some (Ok c)) t) -> bit_same o v b = Ok (Bool.eqb b c).
Proof. intros [->|[->|[->|(i & t & ->)]]]; destruct o, b, c; reflexivity. Qed.

Lemma bit_same_other o v b : (exists l, v = VSeq l) \/ (exists n, v = VStr n) \/ (exists i t, v = VOther i None t) -> bit_same o v b = Ok false.
Proof. intros [(l & ->)|[(n & ->)|(i & t & ->)]]; destruct o; reflexivity. Qed.

Lemma bit_same_int o z b : z <> 0 -> z <> 1 -> bit_same o (VInt z) b = Raise EValueError.
Proof.
  intros A B. assert (Q : bit_cmp CEq b (VInt z) = Raise EValueError).
  { unfold bit_cmp, bit_init. destruct (Z.eqb_spec z 0); [congruence|]. destruct (Z.eqb_spec z 1); [congruence|]. reflexivity. }
  unfold bit_same. destruct o; cbn [py_cmp cmp_swap cmp_first_of]; rewrite Q; reflexivity.
Qed.

Lemma existsb_bits x c : existsb (fun b => Bool.eqb b c) (map (fun k => Z.testbit (bval x) (Z.of_nat k)) (seq 0 (Z.to_nat (bsize x)))) = true <->
  exists j, 0 <= j < bsize x /\ Z.testbit (bval x) j = c.
Proof.
  rewrite existsb_exists. split.
  - intros (b & I & Q). apply in_map_iff in I as (k & <- & I). apply in_seq in I. apply Bool.eqb_prop in Q. exists (Z.of_nat k). split; [lia|exact Q].
  - intros (j & J & Q). exists c. split; [|apply Bool.eqb_reflx]. apply in_map_iff. exists (Z.to_nat j). rewrite Z2Nat.id by lia. split; [exact Q|]. apply in_seq. lia.
Qed.

Lemma adt_get_ok n : forall y k, tup_good n y -> (k < n)%nat -> adt_get y (Z.of_nat k) = Ok (y, nth k (components y) (VAtom (TLeaf LObject) 0)).
Proof.
  intros y k (t & b & vs & -> & L) K. cbn [adt_get components]. unfold py_index. destruct (Z.ltb_spec (Z.of_nat k) 0); [lia|].
  destruct (Z.leb_spec 0 (Z.of_nat k)); [|lia]. destruct (Z.ltb_spec (Z.of_nat k) (Z.of_nat (length vs))); [|lia]. cbn [andb bind].
  rewrite Nat2Z.id. rewrite (nth_error_nth' vs (VAtom (TLeaf LObject) 0)) by lia. reflexivity.
Qed.

Lemma adt_get_end n : forall y, tup_good n y -> adt_get y (Z.of_nat n) = Raise EIndexError.
Proof.
  intros y (t & b & vs & -> & L). cbn [adt_get]. unfold py_index. destruct (Z.ltb_spec (Z.of_nat n) 0); [lia|].
  destruct (Z.ltb_spec (Z.of_nat n) (Z.of_nat (length vs))); [lia|]. rewrite andb_false_r. reflexivity.
Qed.

Lemma map_nth_seq {A} (d : A) l : map (fun k => nth k l d) (seq 0 (length l)) = l.
Proof.
  induction l as [|a l IH]; [reflexivity|]. cbn [length seq map nth]. f_equal. rewrite <- seq_shift, map_map. exact IH.
Qed.

Lemma sym_get_ok S f : faithful S -> forall x, swf x -> forall y k, y = x -> (k < Z.to_nat (ssize x))%nat ->
  sym_get S f y (Z.of_nat k) = Ok (y, sym_item S f y k) /\ bwf (sym_item S f y k) = true /\ forall e, evalb e (sym_item S f y k) = Z.testbit (bval (meaning e x)) (Z.of_nat k).
Proof.
  intros FS x W y k -> K. unfold sym_item, sym_get, ssize in *. assert (R : - csize (scls x) <= Z.of_nat k < csize (scls x)) by lia.
  assert (D : exists r, match f with FSmt => s_getitem_int S x (Z.of_nat k) | FZ3 => z_index S x (Z.of_nat k) end = Ok r /\ bwf r = true /\ forall e, getitem_int (meaning e x) (Z.of_nat k) = Ok (evalb e r)).
  { destruct f; [exact (proj1 (C32_getitem_pf S FS x _ W) R)|exact (proj1 (C38_getitem_pf S FS x _ W) R)]. }
  destruct D as (r & D1 & D2 & D3). rewrite D1. cbn [rmap bind]. split; [reflexivity|]. split; [exact D2|]. intros e. specialize (D3 e).
  assert (B : bsize (meaning e x) = csize (scls x)) by reflexivity.
  rewrite getitem_int_spec in D3 by (try apply swf_meaning; auto; lia). injection D3 as D3. rewrite <- D3, Z.mod_small by lia. reflexivity.
Qed.

Lemma sym_get_end S f : faithful S -> forall x, swf x -> forall y, y = x -> sym_get S f y (Z.of_nat (Z.to_nat (ssize x))) = Raise EIndexError.
Proof.
  intros FS x W y ->. unfold sym_get, ssize. assert (R : ~ (- csize (scls x) <= Z.of_nat (Z.to_nat (csize (scls x))) < csize (scls x))) by (destruct W; lia).
  destruct f; [rewrite (proj1 (proj2 (C32_getitem_pf S FS x _ W) R))|rewrite (proj1 (proj2 (C38_getitem_pf S FS x _ W) R))]; reflexivity.
Qed.

Lemma C105_vector_loop_pf : forall x body fuel, wf x -> (forall y b z, wf y -> body y b = Ok z -> wf z /\ bsize z = bsize y) ->
  let n := Z.to_nat (bsize x) in (n < fuel)%nat ->
  for_loop vec_get fuel body x (Some 0) =
  let '(y, l, e) := range_loop (fun y k => Z.testbit (bval y) (Z.of_nat k)) body 0 n x in (y, l, match e with None => LStop | Some e => LExc e end).
Proof.
  intros x body fuel W B n F. change 0 with (Z.of_nat 0).
  apply (for_range vec_get _ (fun y => wf y /\ bsize y = bsize x) n (vec_get_ok x) (vec_get_end x W)); [|auto|reflexivity|exact F].
  intros s v s' (Ws & Bs) E. destruct (B _ _ _ Ws E). split; [assumption|congruence].
Qed.

Lemma C105_vector_pf : forall x fuel, wf x -> let n := Z.to_nat (bsize x) in
  let bs := map (fun k => Z.testbit (bval x) (Z.of_nat k)) (seq 0 n) in
  ((n < fuel)%nat -> seq_list vec_get fuel x = (x, bs, LStop)) /\ construct (bkind x) (bsize x) (VSeq (map VBit bs)) = Ok x
  /\ seq_reversed vec_get (vec_len x) x = (x, rev bs, LStop)
  /\ forall m, seq_unpack vec_get m x = if Nat.eqb m n then Ok bs else Raise EValueError.
Proof.
  intros x fuel W n bs. pose proof (vec_get_ok x) as G. pose proof (vec_get_end x W) as E. assert (I : wf x /\ bsize x = bsize x) by auto.
  split; [intros F; exact (list_items vec_get _ _ n G E x fuel I F)|]. split; [|split].
  - destruct (C03_to_bits_pf (bkind x) (map VBit bs) bs) as (y & Y1 & Y2 & _).
    { clear. induction bs; constructor; auto. constructor. }
    assert (L : length bs = n) by (unfold bs; now rewrite map_length, seq_length).
    rewrite map_length, L in Y1. unfold n in Y1. rewrite Z2Nat.id in Y1 by (destruct W; unfold bsize; lia). rewrite Y1. f_equal.
    destruct (construct_wf _ _ _ _ Y1) as (Wy & C).
    assert (D : bits y = bits x).
    { rewrite Y2. destruct (C03_bits_pf x W) as (L1 & L2). apply nth_ext with (d := 0) (d' := 0); [now rewrite map_length, L1, L|].
      intros k K. rewrite map_length in K. change (nth k (map (fun b : bool => if b then 1 else 0) bs) 0) with (nth k (map (fun b : bool => if b then 1 else 0) bs) ((fun b : bool => if b then 1 else 0) false)).
      rewrite map_nth. replace (nth k bs false) with (Z.testbit (bval x) (Z.of_nat k)).
      - rewrite <- L2 by lia. now rewrite Nat2Z.id.
      - symmetry. apply nth_error_nth. unfold bs. rewrite nth_error_map. rewrite (nth_error_nth' (seq 0 n) 0%nat) by (rewrite seq_length; lia). rewrite seq_nth by lia. reflexivity. }
    pose proof (C03_from_bits_pf x W) as Q1. pose proof (C03_from_bits_pf y Wy) as Q2. rewrite D in Q2.
    assert (K1 : bkind y = bkind x) by (unfold bkind at 1; now rewrite C). assert (K2 : bsize y = bsize x) by (unfold bsize at 1; now rewrite C). congruence.
  - unfold seq_reversed, vec_len. exact (rev_items vec_get _ _ n G x I n (le_n n)).
  - intros m. exact (unpack_items vec_get _ _ n G E x m I).
Qed.

Lemma C105_vector_in_pf : forall o x v, wf x ->
  (forall c, (v = VBit c \/ v = VBool c \/ v = VInt (b2z c) \/ exists i t, v = VOther i (Some (Ok c)) t) ->
     exists r, vec_in o v x = Some (Ok r) /\ (r = true <-> exists j, 0 <= j < bsize x /\ Z.testbit (bval x) j = c)) /\
  ((exists l, v = VSeq l) \/ (exists n, v = VStr n) \/ (exists i t, v = VOther i None t) -> vec_in o v x = Some (Ok false)).
Proof.
  intros o x v W. pose proof (in_first vec_get _ _ _ (vec_get_ok x) (vec_get_end x W) (bit_same o v) x (conj W eq_refl) (Z.to_nat (bsize x)) 0 _ eq_refl (Nat.lt_succ_diag_r _)) as I.
  change (Z.of_nat 0) with 0 in I. unfold vec_in. rewrite I. clear I. split.
  - intros c C. rewrite go_total with (f := fun b => Bool.eqb b c) by (intros; now apply bit_same_ok).
    eexists. split; [reflexivity|]. apply existsb_bits.
  - intros C. rewrite go_total with (f := fun b => false) by (intros; now apply bit_same_other). f_equal. f_equal.
    induction (map _ _); [reflexivity|assumption].
Qed.

Lemma C105_vector_in_refuted_pf : forall o x z, wf x -> z <> 0 -> z <> 1 ->
  vec_in o (VInt z) x = Some (if bsize x =? 0 then Ok false else Raise EValueError).
Proof.
  intros o x z W A B. pose proof (in_first vec_get _ _ _ (vec_get_ok x) (vec_get_end x W) (bit_same o (VInt z)) x (conj W eq_refl) (Z.to_nat (bsize x)) 0 _ eq_refl (Nat.lt_succ_diag_r _)) as I.
  change (Z.of_nat 0) with 0 in I. unfold vec_in. rewrite I. clear I. destruct (Z.eqb_spec (bsize x) 0) as [->|N]; [reflexivity|].
  destruct (Z.to_nat (bsize x)) as [|m] eqn:Q; [destruct W; unfold bsize in *; lia|]. cbn [seq map]. now rewrite bit_same_int.
Qed.

Lemma C105_symbolic_pf : forall S f x fuel, faithful S -> swf x -> (Z.to_nat (ssize x) < fuel)%nat ->
  exists ts, seq_list (sym_get S f) fuel x = (x, ts, LStop) /\ seq_reversed (sym_get S f) (sym_len x) x = (x, rev ts, LStop)
    /\ (forall m, seq_unpack (sym_get S f) m x = if Nat.eqb m (Z.to_nat (ssize x)) then Ok ts else Raise EValueError)
    /\ Forall (fun t => bwf t = true) ts
    /\ forall e, seq_list vec_get fuel (meaning e x) = (meaning e x, map (evalb e) ts, LStop).
Proof.
  intros S f x fuel FS W F. set (n := Z.to_nat (ssize x)) in *.
  assert (G : forall y k, y = x -> (k < n)%nat -> sym_get S f y (Z.of_nat k) = Ok (y, sym_item S f y k)) by (intros y k Y K; apply (sym_get_ok S f FS x W y k Y K)).
  pose proof (sym_get_end S f FS x W) as E. fold n in E.
  exists (map (sym_item S f x) (seq 0 n)). split; [exact (list_items _ _ _ n G E x fuel eq_refl F)|]. split; [|split; [|split]].
  - unfold seq_reversed, sym_len. fold n. exact (rev_items _ _ _ n G x eq_refl n (le_n n)).
  - intros m. exact (unpack_items _ _ _ n G E x m eq_refl).
  - apply Forall_forall. intros t I. apply in_map_iff in I as (k & <- & I). apply in_seq in I. apply (sym_get_ok S f FS x W x k eq_refl). fold n. lia.
  - intros e. pose proof (swf_meaning e x W) as We. assert (B : bsize (meaning e x) = ssize x) by reflexivity.
    rewrite (proj1 (C105_vector_pf (meaning e x) fuel We)) by (rewrite B; exact F). f_equal. f_equal. rewrite B. fold n. rewrite map_map. apply map_ext_in.
    intros k I. apply in_seq in I. symmetry. apply (sym_get_ok S f FS x W x k eq_refl). fold n. lia.
Qed.

Lemma C105_symbolic_in_refuted_pf : forall S o x t, faithful S -> swf x -> bwf t = true ->
  sym_in S FSmt o (SBit t) x = Some (Raise ETypeError) /\ sym_in S FZ3 o (SBit t) x = Some (Ok true).
Proof.
  intros S o x t FS W T. assert (Hn : exists m, Z.to_nat (ssize x) = Datatypes.S m).
  { destruct W as (W & _). unfold ssize. destruct (Z.to_nat (csize (scls x))) eqn:Q; [lia|]. eauto. }
  destruct Hn as (m & Hn).
  assert (A : forall f, exists t0, bwf t0 = true /\ sym_get S f x 0 = Ok (x, t0)).
  { intros f. change 0 with (Z.of_nat 0). destruct (sym_get_ok S f FS x W x 0 eq_refl) as (A1 & A2 & _); [lia|]. eauto. }
  unfold sym_in. rewrite Hn. split.
  - destruct (A FSmt) as (t0 & B0 & B). cbn [seq_in it_next]. rewrite B. assert (Q : sym_same S FSmt o (SBit t) t0 = Raise ETypeError); [|now rewrite Q].
    unfold sym_same. destruct o; cbn [sym_compare s_compare s_cmp_first_of sbit_cmp sbit_cast].
    + destruct (bit_node_ok S FS (BIff t0 t)) as (r & R & _); [cbn [bwf]; now rewrite B0, T|]. rewrite R. reflexivity.
    + destruct (bit_node_ok S FS (BIff t t0)) as (r & R & _); [cbn [bwf]; now rewrite B0, T|]. rewrite R. reflexivity.
  - destruct (A FZ3) as (t0 & B0 & B). cbn [seq_in it_next]. rewrite B. assert (Q : sym_same S FZ3 o (SBit t) t0 = Ok true); [|now rewrite Q].
    unfold sym_same. destruct o; cbn [sym_compare z_compare z_bit_cmp z_bit_cast]; unfold z_bit; cbn [bwf]; rewrite B0, T; reflexivity.
Qed.

Lemma C105_tuple_loop_pf : forall t b vs body fuel,
  (forall y v z, body y v = Ok z -> (exists u c ws, z = VTup u c ws) /\ length (components z) = length (components y)) ->
  let n := length vs in (n < fuel)%nat ->
  for_loop adt_get fuel body (VTup t b vs) (Some 0) =
  let '(y, l, e) := range_loop (fun y k => nth k (components y) (VAtom (TLeaf LObject) 0)) body 0 n (VTup t b vs) in (y, l, match e with None => LStop | Some e => LExc e end).
Proof.
  intros t b vs body fuel B n F. change 0 with (Z.of_nat 0) at 1.
  apply (for_range adt_get _ (tup_good n) n (adt_get_ok n) (adt_get_end n)); [|exists t, b, vs; auto|reflexivity|exact F].
  intros s v s' (u & c & ws & -> & L) E. destruct (B _ _ _ E) as ((u' & c' & ws' & ->) & L'). exists u', c', ws'. split; [reflexivity|]. cbn [components] in L'. congruence.
Qed.

Lemma C105_adt_pf : forall t b vs u v a fuel, (length vs < fuel)%nat ->
  seq_list adt_get fuel (VTup t b vs) = (VTup t b vs, vs, LStop) /\
  (forall m, seq_unpack adt_get m (VTup t b vs) = if Nat.eqb m (length vs) then Ok vs else Raise EValueError) /\
  seq_reversed adt_get (adt_len (VTup t b vs)) (VTup t b vs) = (VTup t b vs, [], LExc ETypeError) /\
  seq_list adt_get fuel (VSum u v) = (VSum u v, [], LExc ETypeError) /\ seq_list adt_get fuel (VTag u a v) = (VTag u a v, [], LExc ETypeError).
Proof.
  intros t b vs u v a fuel F. assert (I : tup_good (length vs) (VTup t b vs)) by (exists t, b, vs; auto).
  split; [|split; [|split; [reflexivity|destruct fuel; [lia|]; split; reflexivity]]].
  - rewrite (list_items adt_get _ _ _ (adt_get_ok _) (adt_get_end _) _ fuel I F). cbn [components]. now rewrite map_nth_seq.
  - intros m. rewrite (unpack_items adt_get _ _ _ (adt_get_ok _) (adt_get_end _) _ m I). cbn [components]. now rewrite map_nth_seq.
Qed.

Lemma C105_tuple_in_pf : forall H L o t b vs v, leaf_sym L -> (forall w, In w vs -> exists r, py_eq H L w v = Ok r) ->
  exists r, adt_in H L o v (VTup t b vs) = Some (Ok r) /\ (r = true <-> exists w, In w vs /\ py_eq H L w v = Ok true).
Proof.
  intros H L o t b vs v LS C. assert (I : tup_good (length vs) (VTup t b vs)) by (exists t, b, vs; auto).
  set (f := fun w => match py_eq H L w v with Ok r => r | Raise _ => false end).
  pose proof (in_first adt_get _ _ _ (adt_get_ok _) (adt_get_end _) (fun w => if o then py_eq H L w v else py_eq H L v w) _ I (length vs) 0 _ eq_refl (Nat.lt_succ_diag_r _)) as E.
  change (Z.of_nat 0) with 0 in E. unfold adt_in. rewrite E. clear E. cbn [components]. rewrite map_nth_seq. rewrite go_total with (f := f).
  - eexists. split; [reflexivity|]. rewrite existsb_exists. unfold f. split.
    + intros (w & W & Q). exists w. split; [exact W|]. destruct (C w W) as (r & R). rewrite R in *. now rewrite Q.
    + intros (w & W & Q). exists w. now rewrite Q.
  - intros w W. unfold f. destruct (C w W) as (r & R). destruct o; [now rewrite R|]. rewrite (ADTProofs.C45_symmetric_pf H L LS v w), R. reflexivity.
Qed.
