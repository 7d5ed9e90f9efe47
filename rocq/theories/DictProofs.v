(** Proofs of the theorems stated in DictProps.v. *)
From Coq Require Import Lia ZifyBool Permutation.
From Verif Require Import PyBase BVModel BVSpec BVFacts OpModel OpFacts HeapModel HeapSpec HeapFacts DictModel DictSpec DictFacts.

(** A hash for examples. *)
Fixpoint code (s : string) : Z := match s with EmptyString => 1 | String c s => Z.of_nat (nat_of_ascii c) + 256 * code s end.
Definition plain_hashes : hashes := Hashes code (fun b => if b then -2 else -3) (fun z => z) (fun _ d => seq 0 (length d)).
(** x = BitVector[4](3); d[x] = 0; x[0] = 0; d[x]; d[BitVector[4](3)]; d[BitVector[4](2)] *)
Definition lost : list dop :=
  [DCall (KLit (LInt 3)); DCall (KConstruct KBV 4 0); DStore 1 0;
   DCall (KLit (LInt 0)); DCall (KSet 1 (IInt 0) 2); DLoad 1;
   DCall (KConstruct KBV 4 0); DLoad 3; DCall (KLit (LInt 2)); DCall (KConstruct KBV 4 4); DLoad 5].
(** x = UIntVector[4](3); y = SIntVector[4](3); d[x] = 0; d[y]; x == y *)
Definition two_classes : list dop :=
  [DCall (KLit (LInt 3)); DCall (KConstruct KUInt 4 0); DCall (KConstruct KSInt 4 0); DStore 1 0; DLoad 2; DCall (KCmp CEq 1 2)].
(** x = BitVector[4](3); y = BitVector[5](3); d[x] = 0; d[y] *)
Definition two_sizes : list dop :=
  [DCall (KLit (LInt 3)); DCall (KConstruct KBV 4 0); DCall (KConstruct KBV 5 0); DStore 1 0; DLoad 2].
(** A history with two vectors, a Bit and an int as keys: replacing, deleting, and keys found by an equal value. *)
Definition mixed : list dop :=
  [DCall (KLit (LInt 3)); DCall (KConstruct KBV 4 0); DCall (KConstruct KSInt 4 0); DCall (KLit (LBit true));
   DStore 1 10; DStore 2 20; DStore 3 30; DStore 0 40; DCall (KConstruct KBV 4 0); DStore 4 11; DLoad 1; DLoad 2; DLoad 3;
   DDel 2; DLoad 2; DCall (KLit (LInt 0)); DCall (KSet 2 (IInt 0) 5); DLoad 2; DLoad 0].

Lemma C97_dictionary_partial_pf : forall K l, probes_all K -> no_collision K (keys_used start l) -> keys_kept K dstart l ->
  let s := fst (drun K dstart l) in
  let m := fst (arun start [] l) in
  snd (drun K dstart l) = snd (arun start [] l) /\
  map (fun e => (key_of (deref (st_heap (d_state s)) (e_key e)), e_item e)) (d_dict s) = map (fun q => (Some (fst q), snd q)) m /\
  NoDup (map fst m).
Proof.
  intros K l P NC Kp.
  destruct (run_refines K (keys_used start l) P NC l dstart []) as (H1 & H2 & H3 & H4).
  - apply start_ok.
  - constructor.
  - constructor.
  - constructor.
  - intros a [].
  - apply incl_refl.
  - exact Kp.
  - cbv zeta. split; [exact H1|]. split; [|exact H3]. clear - H2. cbn [d_state dstart] in H2.
    induction H2 as [|e q d m (R1 & R2 & R3) F IH]; cbn [map]; [reflexivity|]. now rewrite R1, R3, IH.
Qed.

Lemma C97_one_class_partial_pf : forall K l, probes_all K ->
  (forall a b, In a (keys_used start l) -> In b (keys_used start l) -> same_class a b) -> keys_kept K dstart l ->
  snd (drun K dstart l) = snd (arun start [] l).
Proof. intros K l P S Kp. apply C97_dictionary_partial_pf; auto. intros a b Ha Hb _. auto. Qed.

Lemma C97_map_pf : forall m k k' i, NoDup (map fst m) ->
  aget (aset m k i) k' = (if akey_eq k k' then Some i else aget m k') /\
  aget (adel m k) k' = (if akey_eq k k' then None else aget m k').
Proof.
  intros m k k' i N. split.
  - destruct (in_dec akey_eq k (map fst m)) as [I|I].
    + unfold aset. assert (exists j, aget m k = Some j) as [j ->].
      { apply in_map_iff in I as ([k0 j] & E & I). cbn in E. subst k0. apply In_nth_error in I as [p Hp]. exists j.
        eapply aget_at; eauto. }
      clear j. unfold aget. induction m as [|[k0 j0] m IH]; [destruct I|].
      cbn [map] in N. inversion N as [|? ? N1 N2]; subst. cbn [map find fst].
      destruct (akey_eq k0 k) as [->|D0]; cbn [fst].
      * destruct (akey_eq k k') as [->|D1]; [reflexivity|].
        f_equal. clear - N1 D1. induction m as [|[k0 j0] m IH]; [reflexivity|]. cbn [map find fst].
        destruct (akey_eq k0 k) as [->|D]; [elim N1; now left|]. cbn [fst].
        destruct (akey_eq k0 k'); [reflexivity|]. apply IH. intros ?. apply N1. now right.
      * destruct I as [I|I]; [cbn in I; congruence|]. specialize (IH N2 I).
        destruct (akey_eq k0 k') as [->|D1].
        { destruct (akey_eq k k') as [->|]; [congruence|reflexivity]. }
        exact IH.
    + unfold aset. rewrite (aget_none m k I). unfold aget. induction m as [|[k0 j0] m IH].
      * cbn. destruct (akey_eq k k'); reflexivity.
      * cbn [app find fst]. destruct (akey_eq k0 k') as [->|D].
        { destruct (akey_eq k k') as [->|]; [elim I; now left|reflexivity]. }
        inversion N; subst. apply IH; auto. intros ?. apply I. now right.
  - unfold aget, adel. clear N. induction m as [|[k0 j0] m IH]; [cbn; destruct (akey_eq k k'); reflexivity|].
    cbn [filter find fst]. destruct (akey_eq k0 k) as [->|D].
    + rewrite IH. destruct (akey_eq k k'); reflexivity.
    + cbn [find fst]. destruct (akey_eq k0 k') as [->|D1]; [|exact IH].
      destruct (akey_eq k k') as [->|]; [congruence|reflexivity].
Qed.

Lemma C97_assigned_refuted_pf : exists K l, probes_all K /\ no_collision K (keys_used start l) /\
  snd (drun K dstart l) <> snd (arun start [] l) /\
  skipn 5 (snd (drun K dstart l)) = [Exc EKeyError; Done; Exc EKeyError; Done; Done; Exc EKeyError] /\
  length (d_dict (fst (drun K dstart l))) = 1%nat.
Proof.
  exists plain_hashes, lost. split; [intros z d; apply Permutation_refl|]. split.
  - intros a b Ha Hb _. cut (forall a, In a (keys_used start lost) -> exists z, a = AVec (BVC KBV 4) z).
    + intros Q. destruct (Q a Ha) as [? ->]. destruct (Q b Hb) as [? ->]. reflexivity.
    + intros c Hc. set (L := keys_used start lost) in Hc. vm_compute in L. subst L. cbn [In] in Hc.
      repeat destruct Hc as [Hc|Hc]; try (destruct Hc; fail); eexists; symmetry; exact Hc.
  - vm_compute. repeat split; discriminate.
Qed.

Lemma C97_class_refuted_pf : exists K l, probes_all K /\ keys_kept K dstart l /\
  nth_error (snd (drun K dstart l)) 4 = Some (Exc EKeyError) /\
  nth_error (st_env (d_state (fst (drun K dstart l)))) 3 = Some (HImm (LBit true)).
Proof.
  exists plain_hashes, two_classes. split; [intros z d; apply Permutation_refl|]. split; [vm_compute; tauto|].
  vm_compute. split; reflexivity.
Qed.

Lemma C97_collision_refuted_pf : exists K l, probes_all K /\ keys_kept K dstart l /\
  nth_error (snd (drun K dstart l)) 4 = Some (Exc EInconsistentSize).
Proof.
  exists (Hashes (fun _ => 0) (fun _ => 0) (fun _ => 0) (fun _ d => seq 0 (length d))), two_sizes.
  split; [intros z d; apply Permutation_refl|]. split; [vm_compute; tauto|]. vm_compute. reflexivity.
Qed.
