(** Dictionaries refine maps from values. *)
From Coq Require Import Lia ZifyBool Permutation.
From Verif Require Import PyBase BVModel BVSpec BVFacts BVOps OpModel OpFacts HeapModel HeapSpec HeapFacts DictModel DictSpec.

Lemma py_hash_key K v : match key_of v with
  | Some k => py_hash K v = Ok (akey_hash K k)
  | None => py_hash K v = Raise (no_key v) end.
Proof. destruct v as [x| | | | | |]; reflexivity. Qed.

Lemma key_eq_spec a b k k' : arg_wf a -> arg_wf b -> key_of a = Some k -> key_of b = Some k' -> same_class k k' ->
  key_eq a b = Ok (if akey_eq k k' then true else false).
Proof.
  intros Wa Wb Ha Hb S.
  destruct a as [z|b0|b0|x|n| |], b as [z'|b0'|b0'|x'|n'| |]; cbn [key_of] in Ha, Hb; inv Ha; inv Hb; cbn [same_class] in S; try (exfalso; exact S);
    unfold key_eq; cbn [num].
  all: try (f_equal; match goal with |- _ = (if ?d then _ else _) => destruct d as [E|E] end; [injection E as E; lia|
    match goal with |- (?u =? ?w) = false => destruct (Z.eqb_spec u w) as [F|F]; [elim E; now rewrite F|reflexivity] end]).
  - unfold py_cmp, bit_cmp, cmp_first_of. cbn. unfold bit_init. destruct b0, b0'; reflexivity.
  - cbn in Wa, Wb.
    assert (E : py_cmp CEq (VBV x) (VBV x') = Ok (ONew (VBit (bval x =? bval x')))).
    { unfold py_cmp. rewrite S. unfold cls_eqb at 1.
      replace (kind_eqb (ck (bcls x')) (ck (bcls x'))) with true by (destruct (ck (bcls x')); reflexivity).
      rewrite Z.eqb_refl. cbn [negb andb].
      assert (E : cmp_forward CEq x (VBV x') = Ok (ONew (VBit (bval x =? bval x')))).
      { apply cmp_forward_ok. cbn [cmp_method]. destruct (bkind x); apply bveq_spec; auto;
        unfold bsize; rewrite S; now apply operand_self. }
      cbn [cmp_first_of]. now rewrite E. }
    rewrite E. cbn [bind truth]. f_equal. destruct (akey_eq _ _) as [F|F]; [injection F as F1 F2; lia|].
    destruct (Z.eqb_spec (bval x) (bval x')) as [G|G]; auto. elim F. congruence.
Qed.

(** ** Positions *)
Section Positions.
Context {A : Type}.
Implicit Types m : list (akey * A).
Definition is_at m (k : akey) (p : nat) : bool :=
  match nth_error m p with Some q => if akey_eq (fst q) k then true else false | None => false end.
Lemma is_at_true m k p : is_at m k p = true -> exists i, nth_error m p = Some (k, i).
Proof.
  unfold is_at. destruct (nth_error m p) as [[k' i]|]; [|discriminate]. cbn [fst].
  destruct (akey_eq k' k) as [->|]; [eauto|discriminate].
Qed.
Lemma position_unique m : NoDup (map fst m) -> forall p q k i j, nth_error m p = Some (k, i) -> nth_error m q = Some (k, j) -> p = q.
Proof.
  intros N p q k i j Hp Hq. rewrite NoDup_nth_error in N. apply N.
  - rewrite map_length. apply nth_error_Some. congruence.
  - rewrite !nth_error_map, Hp, Hq. reflexivity.
Qed.
Lemma find_position m k ps : NoDup (map fst m) -> (forall p, (p < length m)%nat -> In p ps) ->
  match find (is_at m k) ps with
  | Some p => exists i, nth_error m p = Some (k, i)
  | None => ~ In k (map fst m)
  end.
Proof.
  intros N Hps. destruct (find (is_at m k) ps) as [p|] eqn:F.
  - apply find_some in F as [_ F]. now apply is_at_true.
  - intros I. apply in_map_iff in I as ([k' i] & E & I). cbn in E. subst k'.
    apply In_nth_error in I as (p & Hp).
    assert (L : (p < length m)%nat) by (apply nth_error_Some; congruence).
    pose proof (find_none _ _ F p (Hps p L)) as G. unfold is_at in G. rewrite Hp in G. cbn [fst] in G.
    destruct (akey_eq k k); congruence.
Qed.
End Positions.

Lemma aget_at m k p i : NoDup (map fst m) -> nth_error m p = Some (k, i) -> aget m k = Some i.
Proof.
  unfold aget. revert p. induction m as [|[k' j] m IH]; intros p N H; [destruct p; discriminate|].
  cbn [map] in N. inversion N as [|? ? N1 N2]; subst. cbn [find fst]. destruct p as [|p].
  - cbn in H. inv H. destruct (akey_eq k k); [reflexivity|congruence].
  - cbn in H. destruct (akey_eq k' k) as [->|].
    + elim N1. apply nth_error_In in H. apply in_map_iff. now exists (k, i).
    + eauto.
Qed.
Lemma aget_none m k : ~ In k (map fst m) -> aget m k = None.
Proof.
  unfold aget. induction m as [|[k' j] m IH]; intros H; [reflexivity|]. cbn [find fst map] in *.
  destruct (akey_eq k' k) as [->|]; [elim H; now left|]. apply IH. intros ?. apply H. now right.
Qed.
Lemma aset_at m k p i j : NoDup (map fst m) -> nth_error m p = Some (k, j) -> aset m k i = update m p (k, i).
Proof.
  intros N H. unfold aset. rewrite (aget_at m k p j N H). revert p H. induction m as [|[k' j'] m IH]; intros p H; [destruct p; discriminate|].
  cbn [map] in N. inversion N as [|? ? N1 N2]; subst. cbn [map fst]. destruct p as [|p].
  - cbn in H. inv H. cbn [update]. destruct (akey_eq k k); [|congruence]. f_equal.
    rewrite <- (map_id m) at 2. apply map_ext_in. intros [k1 j1] I1. cbn [fst]. destruct (akey_eq k1 k) as [->|]; [|reflexivity].
    elim N1. apply in_map_iff. now exists (k, j1).
  - cbn in H. cbn [update]. destruct (akey_eq k' k) as [->|].
    + elim N1. apply nth_error_In in H. apply in_map_iff. now exists (k, j).
    + f_equal. eauto.
Qed.
Lemma adel_at m k p j : NoDup (map fst m) -> nth_error m p = Some (k, j) -> adel m k = remove_at p m.
Proof.
  unfold adel. revert p. induction m as [|[k' j'] m IH]; intros p N H; [destruct p; discriminate|].
  cbn [map] in N. inversion N as [|? ? N1 N2]; subst. cbn [filter fst]. destruct p as [|p].
  - cbn in H. inv H. cbn [remove_at]. destruct (akey_eq k k); [|congruence].
    clear N N2 IH. induction m as [|[k1 j1] m IH]; [reflexivity|]. cbn [filter fst]. destruct (akey_eq k1 k) as [->|].
    + elim N1. now left.
    + f_equal. apply IH. intros ?. apply N1. now right.
  - cbn in H. cbn [remove_at]. destruct (akey_eq k' k) as [->|].
    + elim N1. apply nth_error_In in H. apply in_map_iff. now exists (k, j).
    + f_equal. eauto.
Qed.

(** ** Two lists in step *)
Lemma Forall2_length {A B} (P : A -> B -> Prop) l l' : Forall2 P l l' -> length l = length l'.
Proof. induction 1; cbn; auto. Qed.
Lemma Forall2_nth {A B} (P : A -> B -> Prop) l l' p a b : Forall2 P l l' -> nth_error l p = Some a -> nth_error l' p = Some b -> P a b.
Proof. intros F. revert p. induction F; intros [|p] Ha Hb; try discriminate; cbn in *; [congruence|eauto]. Qed.
Lemma Forall2_update {A B} (P : A -> B -> Prop) l l' p a b : Forall2 P l l' -> P a b -> Forall2 P (update l p a) (update l' p b).
Proof. intros F. revert p. induction F; intros [|p] Hab; cbn [update]; constructor; auto. Qed.
Lemma Forall2_remove {A B} (P : A -> B -> Prop) l l' p : Forall2 P l l' -> Forall2 P (remove_at p l) (remove_at p l').
Proof. intros F. revert p. induction F; intros [|p]; cbn [remove_at]; try constructor; auto. Qed.
Lemma remove_In {A} (x : A) p l : In x (remove_at p l) -> In x l.
Proof. revert p. induction l; intros [|p] H; cbn in *; auto. destruct H; eauto. Qed.
Lemma remove_NoDup {A B} (f : A -> B) p l : NoDup (map f l) -> NoDup (map f (remove_at p l)).
Proof.
  revert p. induction l as [|a l IH]; intros [|p] N; cbn [remove_at map] in *; auto; inversion N as [|? ? N1 N2]; subst; auto.
  constructor; auto. intros I. apply N1. apply in_map_iff in I as (y & <- & I). apply in_map. eapply remove_In; eauto.
Qed.
Lemma update_keys {A} (m : list (akey * A)) k p i j : nth_error m p = Some (k, j) -> map fst (update m p (k, i)) = map fst m.
Proof. revert p. induction m as [|[k' j'] m IH]; intros [|p] H; try discriminate; cbn in *; [congruence|]. f_equal. eauto. Qed.

(** ** The refinement *)
Definition rel (K : hashes) (h : heap) (e : entry) (q : akey * nat) : Prop :=
  key_of (deref h (e_key e)) = Some (fst q) /\ e_hash e = akey_hash K (fst q) /\ e_item e = snd q.

Lemma scan_spec K h d m U z v k ps : Forall wf h -> Forall2 (rel K h) d m -> incl (map fst m) U -> no_collision K U -> In k U ->
  key_of (deref h v) = Some k -> z = akey_hash K k -> scan h d z v ps = Ok (find (is_at m k) ps).
Proof.
  intros Hh F Hm HU Hk Hv Hz. induction ps as [|p ps IH]; [reflexivity|]. cbn [scan find].
  destruct (nth_error d p) as [e|] eqn:E.
  - assert (exists q, nth_error m p = Some q) as [q Eq].
    { destruct (nth_error m p) eqn:G; [eauto|]. apply nth_error_None in G. apply Forall2_length in F.
      assert (p < length d)%nat by (apply nth_error_Some; congruence). lia. }
    destruct (Forall2_nth _ _ _ _ _ _ F E Eq) as (K1 & K2 & K3).
    assert (Iq : In (fst q) U) by (apply Hm, in_map; eapply nth_error_In; eauto).
    unfold is_at at 1. rewrite Eq. destruct (Z.eqb_spec (e_hash e) z) as [S|S]; cbn [negb].
    + destruct (same_object (e_key e) v) eqn:SO.
      * assert (e_key e = v).
        { destruct (e_key e), v; try discriminate. cbn in SO. apply Nat.eqb_eq in SO. congruence. }
        destruct (akey_eq (fst q) k); [reflexivity|congruence].
      * rewrite (key_eq_spec _ _ (fst q) k); auto using deref_wf.
        2:{ apply HU; auto. congruence. }
        cbn [bind]. destruct (akey_eq (fst q) k); auto.
    + destruct (akey_eq (fst q) k); [congruence|auto].
  - assert (G : nth_error m p = None).
    { apply nth_error_None. apply nth_error_None in E. apply Forall2_length in F. lia. }
    unfold is_at at 1. rewrite G. exact IH.
Qed.

Lemma probe_all K d (m : amap) z : probes_all K -> length d = length m -> forall p, (p < length m)%nat -> In p (probe K z d).
Proof.
  intros P L p Hp. eapply Permutation_in; [apply Permutation_sym, (P z d)|]. apply in_seq. lia.
Qed.

(** Objects that are not assigned to keep their value. *)
Lemma step_keeps s c r b : inv_ok s -> nth_error (st_heap s) r = Some b ->
  match c with KSet x _ _ => var (st_env s) x <> HRef r | _ => True end -> nth_error (st_heap (step s c)) r = Some b.
Proof.
  intros [Hh He] Hr Hc.
  assert (G : forall q, eval (st_heap s) (st_env s) c = q ->
    nth_error (st_heap (match q with
      | Ok (CAlias x) => State (st_heap s) (st_env s ++ [var (st_env s) x])
      | Ok (CNew v) => let (h', a) := alloc (st_heap s) v in State h' (st_env s ++ [a])
      | Raise _ => s end)) r = Some b).
  { intros [[x|v]|e] E; auto.
    destruct (alloc (st_heap s) v) as [h' a] eqn:F.
    destruct (alloc_spec _ _ _ _ F (eval_wf _ _ _ _ Hh E)) as (e & -> & _).
    cbn [st_heap]. rewrite nth_error_app1; auto. apply nth_error_Some. congruence. }
  destruct c; try exact (G _ eq_refl).
  - cbn [step]. destruct (var (st_env s) x); auto. destruct (nth_error l i); auto.
  - now rewrite step_set.
Qed.

Lemma rel_step K s c e q : inv_ok s -> below (length (st_heap s)) (e_key e) ->
  match c with KSet x _ _ => var (st_env s) x <> e_key e | _ => True end ->
  rel K (st_heap s) e q -> rel K (st_heap (step s c)) e q.
Proof.
  intros Hs B Hc (K1 & K2). split; [|exact K2]. rewrite <- K1.
  destruct (e_key e) as [r|l|v] eqn:E; cbn [deref]; [|reflexivity|reflexivity].
  cbn [deref] in K1. destruct (nth_error (st_heap s) r) as [b|] eqn:Er; [|discriminate].
  now rewrite (step_keeps s c r b).
Qed.

Lemma below_step s c v : inv_ok s -> below (length (st_heap s)) v -> below (length (st_heap (step s c))) v.
Proof.
  intros Hs. apply below_mono. destruct (length (st_heap s)) as [|n] eqn:L; [lia|].
  destruct (nth_error (st_heap s) n) as [b|] eqn:E.
  - destruct (step_ok s c Hs) as [_ C]. destruct (C n b E) as (b' & E' & _).
    assert (n < length (st_heap (step s c)))%nat by (apply nth_error_Some; congruence). lia.
  - apply nth_error_None in E. lia.
Qed.

Lemma run_refines K U : probes_all K -> no_collision K U -> forall l s m,
  inv_ok (d_state s) -> Forall2 (rel K (st_heap (d_state s))) (d_dict s) m ->
  Forall (fun e => below (length (st_heap (d_state s))) (e_key e)) (d_dict s) ->
  NoDup (map fst m) -> incl (map fst m) U -> incl (keys_used (d_state s) l) U -> keys_kept K s l ->
  snd (drun K s l) = snd (arun (d_state s) m l) /\
  Forall2 (rel K (st_heap (d_state (fst (drun K s l))))) (d_dict (fst (drun K s l))) (fst (arun (d_state s) m l)) /\
  NoDup (map fst (fst (arun (d_state s) m l))) /\
  d_state (fst (drun K s l)) = fold_left calls l (d_state s).
Proof.
  intros P NC. induction l as [|o l IH]; intros s m Hs F B N M Us Kp; [cbn; auto|].
  destruct s as [st d]. cbn [d_state d_dict] in *. cbn [keys_kept] in Kp. destruct Kp as [Kp0 Kp].
  cbn [keys_used] in Us. apply incl_app_inv in Us as [U0 Us].
  assert (STEP : exists s' m' a, dstep K (DSt st d) o = (s', a) /\ astep st m o = (m', a) /\ d_state s' = calls st o /\
    inv_ok (d_state s') /\ Forall2 (rel K (st_heap (d_state s'))) (d_dict s') m' /\
    Forall (fun e => below (length (st_heap (d_state s'))) (e_key e)) (d_dict s') /\ NoDup (map fst m') /\ incl (map fst m') U).
  2:{ destruct STEP as (s' & m' & a & E1 & E2 & E3 & H1 & H2 & H3 & H4 & H5).
      cbn [drun arun fold_left]. rewrite E1, E2, <- E3. rewrite E1 in Kp. cbn [fst] in Kp.
      destruct (IH s' m' H1 H2 H3 H4 H5) as (G1 & G2 & G3 & G4); [now rewrite E3|exact Kp|].
      destruct (drun K s' l) as [s2 r] eqn:D. destruct (arun (d_state s') m' l) as [m2 r2] eqn:A.
      cbn [fst snd] in *. subst r2. auto. }
  assert (L : length d = length m) by (eapply Forall2_length; eauto).
  assert (FIND : forall x k, key_of (deref (st_heap st) (var (st_env st) x)) = Some k -> In k U ->
     exists r, lookup K (st_heap st) d (var (st_env st) x) = Ok (akey_hash K k, r) /\
       match r with Some p => exists i, nth_error m p = Some (k, i) | None => ~ In k (map fst m) end).
  { intros x k Hk HI. pose proof (py_hash_key K (deref (st_heap st) (var (st_env st) x))) as HH. rewrite Hk in HH.
    exists (find (is_at m k) (probe K (akey_hash K k) d)). split.
    - unfold lookup. rewrite HH. cbn [bind].
      rewrite (scan_spec K (st_heap st) d m U (akey_hash K k) (var (st_env st) x) k); auto. apply Hs.
    - apply find_position; auto. now apply probe_all. }
  assert (FAIL : forall x, key_of (deref (st_heap st) (var (st_env st) x)) = None ->
     lookup K (st_heap st) d (var (st_env st) x) = Raise (no_key (deref (st_heap st) (var (st_env st) x)))).
  { intros x Hk. pose proof (py_hash_key K (deref (st_heap st) (var (st_env st) x))) as HH. rewrite Hk in HH.
    unfold lookup. now rewrite HH. }
  assert (ENT : forall p q, nth_error m p = Some q -> exists e, nth_error d p = Some e /\ rel K (st_heap st) e q).
  { intros p q Hq. destruct (nth_error d p) as [e|] eqn:E.
    - exists e. split; auto. eapply Forall2_nth; eauto.
    - apply nth_error_None in E. assert (p < length m)%nat by (apply nth_error_Some; congruence). lia. }
  destruct o as [c|x i|x|x]; cbn [dstep astep calls operand_key d_state d_dict] in *; cbv zeta.
  - exists (DSt (step st c) d), m, Done. cbn [d_state d_dict]. repeat split; auto.
    + apply step_ok; auto.
    + apply step_ok; auto.
    + clear - Hs F B Kp0. induction F as [|e q d m R F IH]; constructor.
      * inversion B; subst. apply rel_step; auto. destruct c; auto. intros E. apply Kp0. left. auto.
      * inversion B; subst. apply IH; auto. destruct c; auto. intros E. apply Kp0. right. exact E.
    + eapply Forall_impl; [|exact B]. intros e. now apply below_step.
  - destruct (key_of (deref (st_heap st) (var (st_env st) x))) as [k|] eqn:Hk.
    2:{ rewrite (FAIL x Hk). do 3 eexists. split; [reflexivity|]. split; [reflexivity|]. repeat split; auto; apply Hs. }
    destruct (FIND x k Hk) as (r & Fr & Hr); [apply U0; now left|]. rewrite Fr. destruct r as [p|].
    + destruct Hr as (j & Hj). destruct (ENT _ _ Hj) as (e & He & R1 & R2 & R3). rewrite He.
      do 3 eexists. split; [reflexivity|]. split; [reflexivity|]. cbn [d_state d_dict].
      rewrite (aset_at m k p i j) by auto.
      split; [reflexivity|]. split; [exact Hs|]. split; [|split; [|split]].
      * apply Forall2_update; auto. repeat split; auto.
      * apply update_Forall; auto. cbn [e_key]. rewrite Forall_forall in B. apply B. eapply nth_error_In; eauto.
      * now rewrite (update_keys m k p i j).
      * now rewrite (update_keys m k p i j).
    + do 3 eexists. split; [reflexivity|]. split; [reflexivity|]. cbn [d_state d_dict].
      unfold aset. rewrite (aget_none m k Hr). split; [reflexivity|]. split; [exact Hs|]. split; [|split; [|split]].
      * apply Forall2_app; auto. constructor; auto. repeat split; auto.
      * apply Forall_app. split; auto. constructor; auto. now apply var_below.
      * rewrite map_app. cbn [map fst]. apply NoDup_Add with (a := k) (l := map fst m); [|auto].
        rewrite <- (app_nil_r (map fst m)) at 1. apply Add_app.
      * rewrite map_app. apply incl_app; auto.
  - destruct (key_of (deref (st_heap st) (var (st_env st) x))) as [k|] eqn:Hk.
    2:{ rewrite (FAIL x Hk). do 3 eexists. split; [reflexivity|]. split; [reflexivity|]. repeat split; auto; apply Hs. }
    destruct (FIND x k Hk) as (r & Fr & Hr); [apply U0; now left|]. rewrite Fr. destruct r as [p|].
    + destruct Hr as (j & Hj). destruct (ENT _ _ Hj) as (e & He & R1 & R2 & R3). rewrite He, (aget_at m k p j) by auto.
      exists (DSt st d), m, (Item j). split; [now rewrite R3|]. split; [reflexivity|]. repeat split; auto; apply Hs.
    + rewrite (aget_none m k Hr). do 3 eexists. split; [reflexivity|]. split; [reflexivity|]. repeat split; auto; apply Hs.
  - destruct (key_of (deref (st_heap st) (var (st_env st) x))) as [k|] eqn:Hk.
    2:{ rewrite (FAIL x Hk). do 3 eexists. split; [reflexivity|]. split; [reflexivity|]. repeat split; auto; apply Hs. }
    destruct (FIND x k Hk) as (r & Fr & Hr); [apply U0; now left|]. rewrite Fr. destruct r as [p|].
    + destruct Hr as (j & Hj). rewrite (aget_at m k p j) by auto. rewrite (adel_at m k p j) by auto.
      do 3 eexists. split; [reflexivity|]. split; [reflexivity|]. cbn [d_state d_dict].
      split; [reflexivity|]. split; [exact Hs|]. split; [|split; [|split]].
      * now apply Forall2_remove.
      * rewrite Forall_forall in B |- *. intros e He. apply B. eapply remove_In; eauto.
      * now apply remove_NoDup.
      * intros a Ha. apply M. apply in_map_iff in Ha as (y & <- & Ha). apply in_map. eapply remove_In; eauto.
    + rewrite (aget_none m k Hr). do 3 eexists. split; [reflexivity|]. split; [reflexivity|]. repeat split; auto; apply Hs.
Qed.
