(** Proofs of the theorems stated in ConstProps.v. *)
From Coq Require Import Lia ZifyBool.
From Verif Require Import PyBase BVModel BVSpec BVFacts BVOps OpModel OpSpec OpFacts IteModel IteSpec SMTTerm SMTModel SMTSpec SMTFacts SMTOps SMTInfix SMTMore
  Z3Model Z3Spec Z3Facts BVProofs OpProofs IteProofs SMTProofs Z3Proofs ConstModel ConstSpec.

Lemma C116_smt_pf : forall S, faithful S -> forall x v size, swf x ->
  let n := const_size (csize (scls x)) size in
  1 <= n -> convertible n v ->
  exists r, s_make_constant S x v size = Ok r /\ scls r = BVC (skind x) n /\ swf r /\
    forall e, make_constant (bcls (meaning e x)) (vmeaning e v) size = Ok (meaning e r).
Proof.
  intros S F x v size Hx n N C.
  assert (K : exists r, s_init S (BVC (skind x) n) v = Ok r /\ scls r = BVC (skind x) n /\ swf r /\ forall e, bv_init (BVC (skind x) n) (vmeaning e v) = Ok (meaning e r)) by (apply C32_construct_pf; auto).
  destruct K as (r & E & K1 & K2 & K3). exists r.
  assert (EQ : s_make_constant S x v size = s_construct S (skind x) n v) by (unfold s_make_constant, n; destruct size; reflexivity).
  split; [|split; [exact K1|split; [exact K2|]]].
  - rewrite EQ. unfold s_construct, sized. destruct (Z.ltb_spec n 0); [lia|exact E].
  - intros e. rewrite <- (K3 e). unfold make_constant, n, const_size in *. destruct size as [k|].
    + unfold construct, sized. destruct (Z.ltb_spec k 0); [lia|]. reflexivity.
    + unfold skind. destruct x as [c t]. destruct c. reflexivity.
Qed.

Lemma C116_z3_pf : forall S, faithful S -> forall x v size, swf x ->
  let n := const_size (csize (scls x)) size in
  1 <= n -> zconvertible n v ->
  exists r, z_make_constant S x v size = Ok r /\ scls r = BVC (skind x) n /\ swf r /\
    forall e, make_constant (bcls (meaning e x)) (vmeaning e v) size = Ok (meaning e r).
Proof.
  intros S F x v size Hx n N C.
  assert (K : exists r, z_init S (BVC (skind x) n) v = Ok r /\ scls r = BVC (skind x) n /\ swf r /\ forall e, bv_init (BVC (skind x) n) (vmeaning e v) = Ok (meaning e r)) by (apply C38_construct_pf; auto).
  destruct K as (r & E & K1 & K2 & K3). exists r.
  assert (EQ : z_make_constant S x v size = z_construct S (skind x) n v) by (unfold z_make_constant, n; destruct size; reflexivity).
  split; [|split; [exact K1|split; [exact K2|]]].
  - rewrite EQ. unfold z_construct, sized. destruct (Z.ltb_spec n 0); [lia|exact E].
  - intros e. rewrite <- (K3 e). unfold make_constant, n, const_size in *. destruct size as [k|].
    + unfold construct, sized. destruct (Z.ltb_spec k 0); [lia|]. reflexivity.
    + unfold skind. destruct x as [c t]. destruct c. reflexivity.
Qed.

Lemma C116_int_pf : forall S, faithful S -> forall x z size, swf x ->
  let n := const_size (csize (scls x)) size in
  1 <= n ->
  (exists r, s_make_constant S x (SInt z) size = Ok r /\ forall e, meaning e r = BV (BVC (skind x) n) (z mod 2 ^ n)) /\
  (exists r, z_make_constant S x (SInt z) size = Ok r /\ forall e, meaning e r = BV (BVC (skind x) n) (z mod 2 ^ n)) /\
  (forall e, make_constant (bcls (meaning e x)) (VInt z) size = Ok (BV (BVC (skind x) n) (z mod 2 ^ n))).
Proof.
  intros S F x z size Hx n N.
  assert (MK : forall e, make_constant (bcls (meaning e x)) (VInt z) size = Ok (BV (BVC (skind x) n) (z mod 2 ^ n))).
  { intros e. unfold make_constant, n, const_size in *. assert (E : forall c, 0 <= csize c -> bv_init c (VInt z) = Ok (BV c (z mod 2 ^ csize c))) by (intros c H; cbn [bv_init]; now rewrite mk_eq).
    destruct size as [k|]; [unfold construct, sized; destruct (Z.ltb_spec k 0); [lia|]; cbn [bind]; rewrite E by (cbn; lia); reflexivity|].
    rewrite E by (cbn [meaning bcls]; lia). unfold skind. destruct x as [c t]. destruct c. reflexivity. }
  destruct (C116_smt_pf S F x (SInt z) size Hx N (V_int n z)) as (r & E & _ & _ & K). destruct (C116_z3_pf S F x (SInt z) size Hx N (Z_same n _ (V_int n z))) as (r' & E' & _ & _ & K').
  split; [|split; [|exact MK]].
  - exists r. split; [exact E|]. intros e. specialize (K e). cbn [vmeaning] in K. rewrite MK in K. congruence.
  - exists r'. split; [exact E'|]. intros e. specialize (K' e). cbn [vmeaning] in K'. rewrite MK in K'. congruence.
Qed.

Lemma C116_negative_pf : forall S x v u k, k < 0 ->
  s_make_constant S x v (Some k) = Raise EValueError /\ z_make_constant S x v (Some k) = Raise EValueError /\
  make_constant (scls x) u (Some k) = Raise EValueError.
Proof.
  intros S x v u k H. unfold s_make_constant, z_make_constant, make_constant, s_construct, z_construct, construct, sized. destruct (Z.ltb_spec k 0); [|lia]. repeat split; reflexivity.
Qed.

Lemma C116_object_refuted_pf : exists x z k, swf x /\ 1 <= k /\
  (forall S, s_make_constant S x (SOther (Some (Ok z)) None) (Some k) = Raise EValueError) /\
  (exists r, z_make_constant no_simp x (SOther (Some (Ok z)) None) (Some k) = Ok r) /\
  (exists r, make_constant (scls x) (VOther (Some (Ok z)) None true) (Some k) = Ok r).
Proof.
  exists (SV (BVC KBV 4) (VVar "x" 4)), 16, 4. split; [repeat split; cbn; lia|]. split; [lia|]. split; [intros S; reflexivity|].
  split; eexists; vm_compute; reflexivity.
Qed.
