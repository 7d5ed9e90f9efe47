(** Proofs of the theorems stated in ProtoProps.v. *)
From Coq Require Import Lia.
From Verif Require Import PyBase BVFacts MetaModel MergeFacts ProtoModel ProtoSpec ProtoFacts.

Lemma C102_issubclass_pf : forall h c, let w := prun h in class_in w c -> plain_meta w c ->
  (issubclass w c w_protocol = true <-> implements w c).
Proof. intros h c w [L C] P. apply sub_implements; auto. apply run_pinv. Qed.

Lemma C102_isinstance_pf : forall h x, let w := prun h in exists_in w x ->
  isinstance w x w_protocol = issubclass w (typeof w x) w_protocol.
Proof.
  intros h x w L. pose proof (run_pinv h) as I. fold w in I. rewrite isinstance_eq by auto.
  destruct (Nat.eqb_spec (typeof w x) w_protocol) as [E|E]; auto. rewrite E. symmetry. assert (LP : (w_protocol < length w)%nat) by (pose proof (V_len w I); unfold w_protocol; lia).
  assert (P : is_class w w_protocol = true) by (unfold is_class; rewrite init_mro by (auto; unfold w_protocol; lia); reflexivity).
  assert (PR : forall a, In a [AFrom; ATo] -> provides w w_protocol a).
  { intros a H. exists w_protocol. rewrite init_mro, (V_init w I) by (auto; unfold w_protocol; lia). split; [left; reflexivity|exact H]. }
  rewrite sub_protocol by auto. rewrite isinstance_eq by auto. rewrite typeof_protocol, Nat.eqb_refl by auto.
  rewrite !(proj2 (hasattr_class w w_protocol _ I LP P)); [reflexivity| |]; left; apply PR; cbn; auto.
Qed.

Lemma C102_meta_pf : forall h c, let w := prun h in class_in w c -> plain_meta w c ->
  (isinstance w c w_meta = true <-> provides w (typeof w c) ABvT).
Proof. intros h c w [L C] P. apply instance_meta; auto. apply run_pinv. Qed.

Lemma C102_objects_pf : forall h x, let w := prun h in exists_in w x ->
  isinstance w (typeof w x) w_meta = true -> typeof w x <> w_meta -> isinstance w x w_meta = false.
Proof.
  intros h x w L H N. pose proof (run_pinv h) as I. fold w in I. rewrite isinstance_eq by auto. rewrite (proj2 (Nat.eqb_neq _ _) N).
  unfold issubclass. rewrite check_meta, H by auto. apply andb_false_r.
Qed.

Lemma C102_inherited_pf : forall h c d, let w := prun h in class_in w d -> plain_meta w d -> In c (mro w d) ->
  issubclass w c w_protocol = true -> issubclass w d w_protocol = true.
Proof.
  intros h c d w [L C] P H S. pose proof (run_pinv h) as I. fold w in I.
  pose proof (V_mro w I d c L H) as Lc. assert (Lc' : (c < length w)%nat) by lia.
  pose proof (V_cls w I d c L H) as Cc. pose proof (V_mono w I d c L H) as M1.
  pose proof (typeof_lt w d I L) as L1. pose proof (V_mono w I _ _ L1 M1) as M2. pose proof (typeof_lt w _ I L1) as L2.
  pose proof (V_mono w I _ _ L2 M2) as M3. pose proof (typeof_lt w _ I L2) as L3.
  assert (Pc : plain_meta w c).
  { destruct P as [P1 P2]. split; intros X; [apply P1|apply P2]; eapply provides_mono; eauto. }
  apply sub_implements in S; auto. apply sub_implements; auto. destruct S as (S1 & S2 & S3).
  split; [eapply provides_mono; eauto|]. split; [destruct S2; [left|right]|destruct S3; [left|right]]; eapply provides_mono; eauto.
Qed.

Lemma C102_derived_pf : forall h c, let w := prun h in class_in w c -> plain_meta w c -> In w_protocol (mro w c) ->
  issubclass w c w_protocol = true.
Proof.
  intros h c w C P H. apply (C102_inherited_pf h w_protocol c C P H). pose proof (run_pinv h) as I. fold w in I.
  assert (LP : (w_protocol < length w)%nat) by (pose proof (V_len w I); unfold w_protocol; lia). assert (K : is_class w w_protocol = true) by (unfold is_class; rewrite init_mro by (auto; unfold w_protocol; lia); reflexivity).
  assert (PR : forall a, In a [AFrom; ATo] -> provides w w_protocol a).
  { intros a Ha. exists w_protocol. rewrite init_mro, (V_init w I) by (auto; unfold w_protocol; lia). split; [left; reflexivity|exact Ha]. }
  rewrite sub_protocol by auto. rewrite isinstance_eq by auto. rewrite typeof_protocol, Nat.eqb_refl by auto.
  rewrite !(proj2 (hasattr_class w w_protocol _ I LP K)); [reflexivity| |]; left; apply PR; cbn; auto.
Qed.

Lemma C102_ite_pf : forall h x y, let w := prun h in exists_in w x -> exists_in w y ->
  (ite_accepts w x y = true <-> typeof w x = typeof w y /\ ite_converts w x = true /\ ite_converts w y = true).
Proof.
  intros h x y w Lx Ly. unfold ite_accepts, ite_converts. subst w. rewrite !C102_isinstance_pf by auto.
  rewrite andb_true_iff, Nat.eqb_eq. split; [intros [E H]; rewrite <- E; auto|tauto].
Qed.

Lemma C102_stable_pf : forall h h' x c, exists_in (prun h) x -> exists_in (prun h) c ->
  isinstance (prun (h ++ h')) x c = isinstance (prun h) x c /\ issubclass (prun (h ++ h')) x c = issubclass (prun h) x c.
Proof.
  intros h h' x c Lx Lc. pose proof (run_pinv h) as I. pose proof (run_extends h h') as X.
  split; [apply ext_isinstance|apply ext_issubclass]; auto using run_pinv.
Qed.

Lemma C102_any_type_refuted_pf : exists h c x, let w := prun h in
  class_in w c /\ hasattr w c ABvT = true /\ hasattr w c AFrom = true /\ hasattr w c ATo = true /\
  isinstance w c w_meta = false /\ issubclass w c w_protocol = false /\
  exists_in w x /\ is_class w x = false /\ isinstance w x w_meta = true.
Proof.
  exists [PClass [] None [ABvT; AFrom; ATo]; PInst 5], 5%nat, 6%nat. cbv zeta.
  split; [split; [vm_compute; lia|reflexivity]|]. do 5 (split; [reflexivity|]). split; [vm_compute; lia|]. split; reflexivity.
Qed.

Lemma C102_metameta_refuted_pf : exists h c, let w := prun h in
  class_in w c /\ implements w c /\ issubclass w c w_protocol = false.
Proof.
  exists [PClass [1%nat] None [ABvT]; PClass [1%nat] (Some 5%nat) [ABvT]; PClass [] (Some 6%nat) [AFrom; ATo]], 7%nat. cbv zeta.
  split; [split; [vm_compute; lia|reflexivity]|]. split; [|reflexivity].
  split; [exists 6%nat; split; vm_compute; auto|]. split; left; exists 7%nat; split; vm_compute; auto.
Qed.

Lemma C102_unrelated_refuted_pf : exists h c d x, let w := prun h in
  class_in w c /\ class_in w d /\ ~ In d (mro w c) /\ ~ In c (mro w d) /\ typeof w x = c /\
  issubclass w c d = true /\ issubclass w d c = true /\ isinstance w x d = true.
Proof.
  exists [PClass [4%nat] None [AFrom; ATo]; PClass [4%nat] None [AFrom; ATo]; PInst 5], 5%nat, 6%nat, 7%nat. cbv zeta.
  split; [split; [vm_compute; lia|reflexivity]|]. split; [split; [vm_compute; lia|reflexivity]|].
  split; [vm_compute; intuition discriminate|]. split; [vm_compute; intuition discriminate|]. repeat split.
Qed.
