(** Property theorems about programs that create, share and assign to bit-vector objects. *)
From Coq Require Import Lia.
From Verif Require Import PyBase BVModel BVSpec BVFacts OpModel HeapModel HeapSpec HeapFacts.
From Verif Require Import HeapProofs.


(** A program used as a non-vacuity example: x = SIntVector[4](13); y = x + 5; y[0] = 1; z = x.adc(y, 1)[0] *)
Definition sample : list call :=
  [KLit (LInt 13); KConstruct KSInt 4 0; KLit (LInt 5); KOp OAdd 1 2; KLit (LInt 1); KSet 3 (IInt 0) 4;
   KAdc 1 3 4; KItem 5 0].

(** * C01: range and class invariant over all histories *)
Theorem C01_in_range : forall p r x, nth_error (st_heap (run start p)) r = Some x ->
  0 <= bsize x /\ 0 <= as_uint x < 2 ^ bsize x.
Proof. exact C01_in_range_pf. Qed.
Print Assumptions C01_in_range.
Theorem C01_class_stable : forall p q r x, nth_error (st_heap (run start p)) r = Some x ->
  exists y, nth_error (st_heap (run start (p ++ q))) r = Some y /\ bcls y = bcls x.
Proof. exact C01_class_stable_pf. Qed.
Print Assumptions C01_class_stable.
(** Every variable refers to an existing object (so [deref]'s default is never used). *)
Theorem C01_no_dangling : forall p x r, var (st_env (run start p)) x = HRef r ->
  exists b, nth_error (st_heap (run start p)) r = Some b.
Proof. exact C01_no_dangling_pf. Qed.
Print Assumptions C01_no_dangling.
Example C01_ex : st_heap (run start sample) = [BV (BVC KSInt 4) 13; BV (BVC KSInt 4) 3; BV (BVC KSInt 4) 1].
Proof. vm_compute. reflexivity. Qed.

(** * C26: results are fresh objects. Full claim: every operator and method; false for remainder by zero. *)
Theorem C26_fresh_partial : forall p c, expression c -> let s := run start p in
  ~ zero_remainder s c ->
  (exists new, st_heap (step s c) = st_heap s ++ new) /\
  (st_env (step s c) = st_env s \/
   exists a, st_env (step s c) = st_env s ++ [a] /\ fresh_from (length (st_heap s)) a).
Proof. exact C26_fresh_partial_pf. Qed.
Print Assumptions C26_fresh_partial.
Theorem C26_assignment_local : forall p x i a r, let s := run start p in
  var (st_env s) x <> HRef r ->
  nth_error (st_heap (step s (KSet x i a))) r = nth_error (st_heap s) r.
Proof. exact C26_assignment_local_pf. Qed.
Print Assumptions C26_assignment_local.
Theorem C26_mutation_isolated_partial : forall p c i a r b, expression c -> let s := run start p in
  ~ zero_remainder s c ->
  nth_error (st_heap s) r = Some b ->
  nth_error (st_heap (step (step s c) (KSet (length (st_env s)) i a))) r = Some b.
Proof. exact C26_mutation_isolated_partial_pf. Qed.
Print Assumptions C26_mutation_isolated_partial.
(** Remainders by anything that is not zero, and every other call, satisfy the hypothesis. *)
Example C26_ex : expression (KOp OMod 1 2) /\ ~ zero_remainder (run start (firstn 3 sample)) (KOp OMod 1 2).
Proof.
  split; [exact I|]. intros (x & d & b & H & Hb & Ho). injection H as <- <-. vm_compute in Hb. injection Hb as <-.
  cbn in Ho. inversion Ho as [|v u _ Hc]; subst. inversion Hc.
Qed.
(** x % 0 returns x itself: assigning to the result changes x. *)
Theorem C26_remainder_alias_refuted : exists p c i a r b b', expression c /\
  nth_error (st_heap (run start p)) r = Some b /\
  nth_error (st_heap (step (step (run start p) c) (KSet (length (st_env (run start p))) i a))) r = Some b' /\
  bval b' <> bval b.
Proof. exact C26_remainder_alias_refuted_pf. Qed.
Print Assumptions C26_remainder_alias_refuted.
