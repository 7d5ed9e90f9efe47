(** Vectors and ADT instances as Python sequences (C105), for every vector, instance, loop body and needle. *)
From Coq Require Import Lia.
From Verif Require Import PyBase BVModel BVSpec BVFacts BVOps BVProofs OpModel SMTTerm SMTModel SMTSpec SMTFacts SMTProofs Z3Model Z3Proofs MixModel.
From Verif Require ADTProofs HeapFacts.
From Verif Require Import ADTTy ADTModel ADTSpec SeqModel SeqSpec SeqFacts.
From Verif Require Import SeqProofs.


(** * C105: iteration, unpacking, reversed() and in *)
(** A for loop over a vector runs once for each position, from bit 0, and gives the bit that is there when its turn comes,
    whatever the body assigns; an exception of the body (an IndexError too) ends the loop and is passed on. *)
Theorem C105_vector_loop : forall x body fuel, wf x -> (forall y b z, wf y -> body y b = Ok z -> wf z /\ bsize z = bsize y) ->
  let n := Z.to_nat (bsize x) in (n < fuel)%nat ->
  for_loop vec_get fuel body x (Some 0) =
  let '(y, l, e) := range_loop (fun y k => Z.testbit (bval y) (Z.of_nat k)) body 0 n x in (y, l, match e with None => LStop | Some e => LExc e end).
Proof. exact C105_vector_loop_pf. Qed.
Print Assumptions C105_vector_loop.
(** list(x) is the bits, K[n](list(x)) is x, reversed(x) the bits from the end, and unpacking into m names works exactly
    if m is the size. *)
Theorem C105_vector : forall x fuel, wf x -> let n := Z.to_nat (bsize x) in
  let bs := map (fun k => Z.testbit (bval x) (Z.of_nat k)) (seq 0 n) in
  ((n < fuel)%nat -> seq_list vec_get fuel x = (x, bs, LStop)) /\ construct (bkind x) (bsize x) (VSeq (map VBit bs)) = Ok x
  /\ seq_reversed vec_get (vec_len x) x = (x, rev bs, LStop)
  /\ forall m, seq_unpack vec_get m x = if Nat.eqb m n then Ok bs else Raise EValueError.
Proof. exact C105_vector_pf. Qed.
Print Assumptions C105_vector.
(** v in x, for a Bit, bool, 0, 1 or an object with __bool__: some bit is v. For an object that is no Bit: False. *)
Theorem C105_vector_in : forall o x v, wf x ->
  (forall c, (v = VBit c \/ v = VBool c \/ v = VInt (b2z c) \/ exists i t, v = VOther i (Some (Ok c)) t) ->
     exists r, vec_in o v x = Some (Ok r) /\ (r = true <-> exists j, 0 <= j < bsize x /\ Z.testbit (bval x) j = c)) /\
  ((exists l, v = VSeq l) \/ (exists n, v = VStr n) \/ (exists i t, v = VOther i None t) -> vec_in o v x = Some (Ok false)).
Proof. exact C105_vector_in_pf. Qed.
Print Assumptions C105_vector_in.
(** Other ints are not looked for: a ValueError, except in a vector of no bits. *)
Theorem C105_vector_in_refuted : forall o x z, wf x -> z <> 0 -> z <> 1 ->
  vec_in o (VInt z) x = Some (if bsize x =? 0 then Ok false else Raise EValueError).
Proof. exact C105_vector_in_refuted_pf. Qed.
Print Assumptions C105_vector_in_refuted.
Example C105_vector_ex : let x := BV (BVC KUInt 4) 6 in
  (* for b in x: x[0] = b; x[3] = 1 *)
  let body := fun y (b : bool) => z <- BVModel.setitem y (IInt 0) (VBool b) ;; BVModel.setitem z (IInt 3) (VInt 1) in
  wf x /\ (forall y b z, wf y -> body y b = Ok z -> wf z /\ bsize z = bsize y) /\
  for_loop vec_get 5 body x (Some 0) = (BV (BVC KUInt 4) 15, [false; true; true; true], LStop) /\
  seq_list vec_get 9 x = (x, [false; true; true; false], LStop) /\ seq_unpack vec_get 3 x = Raise EValueError /\
  vec_in true (VInt 1) x = Some (Ok true) /\ vec_in false (VInt 2) x = Some (Raise EValueError) /\ vec_in true (VStr 1) x = Some (Ok false).
Proof.
  cbv zeta. split; [unfold wf; cbn; lia|]. split.
  - intros y b z W E. destruct (BVModel.setitem y (IInt 0) (VBool b)) as [w|] eqn:A; [|discriminate]. cbn [bind] in E.
    destruct (HeapFacts.setitem_wf _ _ _ _ W A) as (W1 & B1). destruct (HeapFacts.setitem_wf _ _ _ _ W1 E) as (W2 & B2). split; [exact W2|]. unfold bsize. congruence.
  - repeat split; vm_compute; reflexivity.
Qed.

(** The items of a symbolic vector, in both families, mean the bits; so do the reversed ones. *)
Theorem C105_symbolic : forall S f x fuel, faithful S -> swf x -> (Z.to_nat (ssize x) < fuel)%nat ->
  exists ts, seq_list (sym_get S f) fuel x = (x, ts, LStop) /\ seq_reversed (sym_get S f) (sym_len x) x = (x, rev ts, LStop)
    /\ (forall m, seq_unpack (sym_get S f) m x = if Nat.eqb m (Z.to_nat (ssize x)) then Ok ts else Raise EValueError)
    /\ Forall (fun t => bwf t = true) ts
    /\ forall e, seq_list vec_get fuel (meaning e x) = (meaning e x, map (evalb e) ts, LStop).
Proof. exact C105_symbolic_pf. Qed.
Print Assumptions C105_symbolic.
(** b in x of symbolic values never says what it means: it raises TypeError on pySMT values and is True on z3 values, also
    for the constant 1 in a constant 0. *)
Theorem C105_symbolic_in_refuted : forall S o x t, faithful S -> swf x -> bwf t = true ->
  sym_in S FSmt o (SBit t) x = Some (Raise ETypeError) /\ sym_in S FZ3 o (SBit t) x = Some (Ok true).
Proof. exact C105_symbolic_in_refuted_pf. Qed.
Print Assumptions C105_symbolic_in_refuted.
Example C105_symbolic_ex : let x := SV (BVC KBV 2) (VConst 0 2) in swf x /\ sym_in no_simp FZ3 true (SBit (BConst true)) x = Some (Ok true) /\
  vec_in true (VBit true) (meaning env0 x) = Some (Ok false) /\ snd (fst (seq_list (sym_get no_simp FSmt) 9 x)) <> [].
Proof. cbv zeta. split; [unfold swf; cbn; lia|]. split; [vm_compute; reflexivity|]. split; [vm_compute; reflexivity|]. vm_compute. discriminate. Qed.

(** A for loop over a Tuple or Product runs once for each component and gives the component that is there when its turn comes. *)
Theorem C105_tuple_loop : forall t b vs body fuel,
  (forall y v z, body y v = Ok z -> (exists u c ws, z = VTup u c ws) /\ length (components z) = length (components y)) ->
  let n := length vs in (n < fuel)%nat ->
  for_loop adt_get fuel body (VTup t b vs) (Some 0) =
  let '(y, l, e) := range_loop (fun y k => nth k (components y) (VAtom (TLeaf LObject) 0)) body 0 n (VTup t b vs) in (y, l, match e with None => LStop | Some e => LExc e end).
Proof. exact C105_tuple_loop_pf. Qed.
Print Assumptions C105_tuple_loop.
(** list(t) is the components, unpacking into m names works exactly if there are m components; but there is
    no len(t) and no reversed(t), and Sums and TaggedUnions cannot be iterated. *)
Theorem C105_adt : forall t b vs u v a fuel, (length vs < fuel)%nat ->
  seq_list adt_get fuel (VTup t b vs) = (VTup t b vs, vs, LStop) /\
  (forall m, seq_unpack adt_get m (VTup t b vs) = if Nat.eqb m (length vs) then Ok vs else Raise EValueError) /\
  seq_reversed adt_get (adt_len (VTup t b vs)) (VTup t b vs) = (VTup t b vs, [], LExc ETypeError) /\
  seq_list adt_get fuel (VSum u v) = (VSum u v, [], LExc ETypeError) /\ seq_list adt_get fuel (VTag u a v) = (VTag u a v, [], LExc ETypeError).
Proof. exact C105_adt_pf. Qed.
Print Assumptions C105_adt.
(** v in t: some component is equal to v, provided that the comparisons do not raise. *)
Theorem C105_tuple_in : forall H L o t b vs v, leaf_sym L -> (forall w, In w vs -> exists r, py_eq H L w v = Ok r) ->
  exists r, adt_in H L o v (VTup t b vs) = Some (Ok r) /\ (r = true <-> exists w, In w vs /\ py_eq H L w v = Ok true).
Proof. exact C105_tuple_in_pf. Qed.
Print Assumptions C105_tuple_in.
Example C105_adt_ex : let x := VTup point true [VAtom bv4 3; VAtom bv4 7] in
  let L := fun (t : ty) (a : Z) (u : ty) (b : Z) => Ok (a =? b) in
  (* for v in p: p.y = v *)
  let body := fun y v => ADTModel.vsetitem nosub y (IxInt 1) v in
  seq_list adt_get 3 x = (x, [VAtom bv4 3; VAtom bv4 7], LStop) /\ adt_in nosub L true (VAtom bv4 7) x = Some (Ok true) /\ adt_in nosub L false (VAtom bv4 8) x = Some (Ok false) /\
  for_loop adt_get 3 body x (Some 0) = (VTup point false [VAtom bv4 3; VAtom bv4 3], [VAtom bv4 3; VAtom bv4 3], LStop).
Proof. cbv zeta. repeat split; vm_compute; reflexivity. Qed.
