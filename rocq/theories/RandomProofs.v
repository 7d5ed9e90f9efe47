(** Proofs of the theorems stated in RandomProps.v. *)
From Coq Require Import Lia.
From Verif Require Import PyBase BVModel BVSpec BVFacts BVProofs RandomSpec.

Lemma C69_random_pf : forall k w, 0 <= w -> (k = KSInt -> 1 <= w) ->
  exists lo hi, (forall z, lo <= z <= hi <-> in_range k w z) /\
  forall draw, lo <= draw lo hi <= hi -> exists x, bv_random k draw w = Ok x /\ wf x /\ bcls x = BVC (random_kind k) w /\ number x = draw lo hi.
Proof.
  intros k w Hw Hk. pose proof (pow2_pos w Hw) as Pw.
  assert (U : k <> KSInt -> exists lo hi, (forall z, lo <= z <= hi <-> 0 <= z < 2 ^ w) /\ forall draw : Z -> Z -> Z, lo <= draw lo hi <= hi ->
    construct (random_kind k) w (VInt (draw 0 (Z.shiftl 1 w - 1))) = Ok (BV (BVC (random_kind k) w) (draw lo hi)) /\ 0 <= draw lo hi < 2 ^ w).
  { intros Nk. exists 0, (Z.shiftl 1 w - 1). rewrite Z.shiftl_1_l. split; [lia|]. intros draw Hd. split; [|lia].
    rewrite (C02_construct_any_pf (random_kind k) w (VInt _) _ Hw (Cv_int w _)). rewrite Z.mod_small by lia. reflexivity. }
  destruct k.
  1-3: destruct U as (lo & hi & R & D); [discriminate|]; exists lo, hi; split; [exact R|]; intros draw Hd; destruct (D draw Hd) as [E B]; 
    eexists; split; [exact E|]; split; [split; cbn [bcls csize bval]; auto|]; split; [reflexivity|]; reflexivity.
  specialize (Hk eq_refl). exists (- Z.shiftl 1 (w - 1)), (Z.shiftl 1 (w - 1) - 1). rewrite Z.shiftl_1_l.
  assert (P2 : 2 ^ w = 2 * 2 ^ (w - 1)) by (rewrite <- Z.pow_succ_r by lia; f_equal; lia). assert (0 < 2 ^ (w - 1)) by (apply pow2_pos; lia).
  split. { intros z. cbn [in_range]. lia. } intros draw Hd. eexists. split; [|split; [|split]].
  - unfold bv_random.
    replace (w - 1 <? 0) with false by (symmetry; apply Z.ltb_ge; lia). rewrite Z.shiftl_1_l. exact (C02_construct_any_pf KSInt w (VInt _) _ Hw (Cv_int w _)).
  - split; cbn [bcls csize bval]; auto. now apply Z.mod_pos_bound.
  - reflexivity.
  - unfold number. cbn [bcls ck csize bval]. unfold signed. set (d := draw _ _) in *. destruct (Z.lt_ge_cases d 0) as [Hn|Hn].
    + assert (E : d mod 2 ^ w = d + 2 ^ w). { symmetry. apply Zmod_unique with (-1); lia. } rewrite E. destruct (Z.ltb_spec (2 * (d + 2 ^ w)) (2 ^ w)); lia.
    + rewrite Z.mod_small by lia. destruct (Z.ltb_spec (2 * d) (2 ^ w)); lia.
Qed.

Lemma C69_every_value_pf : forall x, wf x -> bkind x <> KNum -> (bkind x = KSInt -> 1 <= bsize x) ->
  exists draw, (forall lo hi, lo <= hi -> lo <= draw lo hi <= hi) /\ bv_random (bkind x) draw (bsize x) = Ok x.
Proof.
  intros x [Hs Hv] Nk Hk. exists (fun lo hi => Z.max lo (Z.min hi (number x))). split; [lia|].
  assert (Rk : random_kind (bkind x) = bkind x) by (destruct (bkind x); cbn; congruence).
  destruct (C69_random_pf (bkind x) (bsize x) Hs Hk) as (lo & hi & R & D). assert (Rx : in_range (bkind x) (bsize x) (number x)).
  { unfold in_range, number, bkind, bsize in *. destruct (ck (bcls x)); auto. specialize (Hk eq_refl). unfold signed.
    assert (P2 : 2 ^ csize (bcls x) = 2 * 2 ^ (csize (bcls x) - 1)) by (rewrite <- Z.pow_succ_r by lia; f_equal; lia).
    destruct (Z.ltb_spec (2 * bval x) (2 ^ csize (bcls x))); lia. }
  apply R in Rx. destruct (D (fun lo hi => Z.max lo (Z.min hi (number x)))) as (y & E & [Ws Wv] & C & N); [lia|]. rewrite E. f_equal.
  replace (Z.max lo (Z.min hi (number x))) with (number x) in N by lia. rewrite Rk in C. destruct x as [[k n] u], y as [c v]. cbn [bcls] in C. unfold bkind, bsize in C. cbn in C. subst c.
  f_equal. unfold number, bkind, bsize in *. cbn [bcls ck csize bval] in *. destruct k; auto. specialize (Hk eq_refl). unfold signed in N.
  destruct (Z.ltb_spec (2 * u) (2 ^ n)), (Z.ltb_spec (2 * v) (2 ^ n)); lia.
Qed.

Lemma C69_injective_pf : forall k w z1 z2, 0 <= w -> (k = KSInt -> 1 <= w) -> in_range k w z1 -> in_range k w z2 ->
  bv_random k (fun _ _ => z1) w = bv_random k (fun _ _ => z2) w -> z1 = z2.
Proof.
  intros k w z1 z2 Hw Hk R1 R2 E. destruct (C69_random_pf k w Hw Hk) as (lo & hi & R & D). apply R in R1, R2.
  destruct (D (fun _ _ => z1) R1) as (x1 & E1 & _ & _ & N1), (D (fun _ _ => z2) R2) as (x2 & E2 & _ & _ & N2). congruence.
Qed.

Lemma C69_zero_width_signed_pf : forall draw, bv_random KSInt draw 0 = Raise EValueError.
Proof. reflexivity. Qed.
