(** Proofs of the theorems stated in HeapProps.v. *)
From Coq Require Import Lia.
From Verif Require Import PyBase BVModel BVSpec BVFacts OpModel HeapModel HeapSpec HeapFacts.

Lemma C01_in_range_pf : forall p r x, nth_error (st_heap (run start p)) r = Some x ->
  0 <= bsize x /\ 0 <= as_uint x < 2 ^ bsize x.
Proof.
  intros p r x H. destruct (run_ok p start start_ok) as [[Hh _] _]. rewrite Forall_forall in Hh.
  exact (Hh x (nth_error_In _ _ H)).
Qed.

Lemma C01_class_stable_pf : forall p q r x, nth_error (st_heap (run start p)) r = Some x ->
  exists y, nth_error (st_heap (run start (p ++ q))) r = Some y /\ bcls y = bcls x.
Proof.
  intros p q r x H. unfold run. rewrite fold_left_app. fold (run start p).
  destruct (run_ok p start start_ok) as [Hp _]. destruct (run_ok q _ Hp) as [_ C]. auto.
Qed.

Lemma C01_no_dangling_pf : forall p x r, var (st_env (run start p)) x = HRef r ->
  exists b, nth_error (st_heap (run start p)) r = Some b.
Proof.
  intros p x r H. destruct (run_ok p start start_ok) as [Hp _]. pose proof (var_below _ x Hp) as B.
  rewrite H in B. cbn in B. apply nth_error_Some in B. destruct (nth_error _ r); [eauto|congruence].
Qed.

Lemma C26_fresh_partial_pf : forall p c, expression c -> let s := run start p in
  ~ zero_remainder s c ->
  (exists new, st_heap (step s c) = st_heap s ++ new) /\
  (st_env (step s c) = st_env s \/
   exists a, st_env (step s c) = st_env s ++ [a] /\ fresh_from (length (st_heap s)) a).
Proof. exact (fun p c Hc Hd => step_fresh _ c (proj1 (run_ok p start start_ok)) Hc Hd). Qed.

Lemma C26_assignment_local_pf : forall p x i a r, let s := run start p in
  var (st_env s) x <> HRef r ->
  nth_error (st_heap (step s (KSet x i a))) r = nth_error (st_heap s) r.
Proof. exact (fun p x i a r => step_set (run start p) x i a r). Qed.

Lemma C26_mutation_isolated_partial_pf : forall p c i a r b, expression c -> let s := run start p in
  ~ zero_remainder s c ->
  nth_error (st_heap s) r = Some b ->
  nth_error (st_heap (step (step s c) (KSet (length (st_env s)) i a))) r = Some b.
Proof.
  intros p c i a r b Hc s Hd Hr. pose proof (proj1 (run_ok p start start_ok)) as Hs. fold s in Hs.
  destruct (step_fresh s c Hs Hc Hd) as [[e He] Hn].
  assert (L : (r < length (st_heap s))%nat) by (apply nth_error_Some; congruence).
  rewrite step_set; [rewrite He, nth_error_app1; auto|].
  destruct Hn as [Hn|(v & Hn & Hf)]; rewrite Hn; unfold var.
  - rewrite nth_overflow by lia. discriminate.
  - rewrite app_nth2, Nat.sub_diag by lia. cbn. intros ->. cbn in Hf. lia.
Qed.

Lemma C26_remainder_alias_refuted_pf : exists p c i a r b b', expression c /\
  nth_error (st_heap (run start p)) r = Some b /\
  nth_error (st_heap (step (step (run start p) c) (KSet (length (st_env (run start p))) i a))) r = Some b' /\
  bval b' <> bval b.
Proof.
  exists [KLit (LInt 13); KConstruct KBV 4 0; KLit (LInt 0)], (KOp OMod 1 2), (IInt 0), 2%nat, 0%nat,
    (BV (BVC KBV 4) 13), (BV (BVC KBV 4) 12).
  repeat split; try (vm_compute; reflexivity). discriminate.
Qed.
