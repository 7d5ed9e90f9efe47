(** Proofs of the theorems stated in AliasProps.v. *)
From Coq Require Import Lia.
From Verif Require Import PyBase BVModel BVSpec BVFacts BVProofs ADTTy ADTTyFacts ADTModel ADTSpec ADTFacts AliasModel AliasSpec AliasFacts.





Lemma hist_inv H l : Forall plain_call l -> ainv (arun H [] l).
Proof. intros P. apply arun_inv; auto. exact ainv_nil. Qed.

Lemma C107_reads_pf : forall H l r, Forall plain_call l -> (r < length (arun H [] l))%nat -> exists! v, reads (arun H [] l) r v.
Proof.
  intros H l r P L. destruct (reads_total _ (hist_inv H l P) r L) as [v Q]. exists v. split; auto. intros w W. symmetry. eapply reads_det; eauto.
Qed.

Lemma C107_acyclic_pf : forall H l r o x, Forall plain_call l -> nth_error (arun H [] l) r = Some o -> In x (refs o) -> ~ reach (arun H [] l) x r.
Proof. intros H l r o x P E Hx. eapply reach_strict; eauto. now apply hist_inv. Qed.

Lemma C107_cycle_refuted_pf : forall H, let t := TNode KTuple [] (unnamed [TLeaf LObject]) in
  let h := arun H [] [ANode (OpAtom (TLeaf (LOther 1)) 5); ANode (OpCall t [0%nat] [])] in
  snd (astep H h (ANode (OpSetItem 1 (IxInt 0) 1))) = Ok 1%nat /\
  let h' := fst (astep H h (ANode (OpSetItem 1 (IxInt 0) 1))) in nth_error h' 1 = Some (ONode t (STup false [1%nat])) /\ forall v, ~ reads h' 1 v.
Proof.
  intros H t h. split; [reflexivity|]. intros h'. assert (E : nth_error h' 1 = Some (ONode t (STup false [1%nat]))) by reflexivity.
  split; [exact E|].
  intros v Q. remember 1%nat as r eqn:Er in Q. revert Er. induction Q as [r u z E'|r u b xs vs E' F IH|r u x v E' Q IH|r u k x v E' Q IH] using reads_ind'; intros ->;
    rewrite E in E'; try discriminate. injection E' as <- <- <-. inversion IH; subst. auto.
Qed.

Lemma C107_failed_pf : forall H h c h' e, astep H h c = (h', Raise e) -> h' = h.
Proof.
  intros H h c h' e. destruct c as [o|r i b|r|d r]; cbn [astep].
  - destruct o as [t z|t pos kw|pos|r k v|r a b v|r n v]; cbn [step].
    + destruct (node_of t); [now intros [= <- _]|discriminate].
    + destruct (forallb (live h) _); [|now intros [= <- _]]. destruct (call _ _ _ _ _); [discriminate|now intros [= <- _]].
    + destruct (forallb (live h) _); [|now intros [= <- _]]. destruct (call _ _ _ _ _); [discriminate|now intros [= <- _]].
    + destruct (live h v); [|now intros [= <- _]]. destruct (nth_error h r) as [[|t s]|]; try now intros [= <- _]. destruct (ADTModel.setitem _ _ _ _ _ _); [discriminate|now intros [= <- _]].
    + destruct (live h v); [|now intros [= <- _]]. destruct (nth_error h r) as [[|t s]|]; try now intros [= <- _]. destruct (set_slice _ _ _ _ _ _ _) as [[]|]; [discriminate|now intros [= <- _]].
    + destruct (live h v); [|now intros [= <- _]]. destruct (nth_error h r) as [[|t s]|]; try now intros [= <- _]. destruct (setattr _ _ _ _ _ _); [discriminate|now intros [= <- _]].
  - destruct (nth_error h r) as [[t z|]|]; try now intros [= <- _]. destruct (vec_leaf t) as [[[| |] n]|]; try now intros [= <- _]. destruct (setitem_int _ _ _); [discriminate|now intros [= <- _]].
  - destruct (nth_error h r); [discriminate|now intros [= <- _]].
  - destruct (live h r); [|now intros [= <- _]]. destruct (deep d h [] r) as [[[]]|]; [discriminate|now intros [= <- _]].
Qed.

Lemma assign_shape H h c r h' : plain_call c -> ainv h -> target c = Some r -> forall r', astep H h c = (h', Ok r') ->
  r' = r /\ ainv h' /\ (r < length h)%nat /\ forall q, (q < length h)%nat -> q <> r -> nth_error h' q = nth_error h q.
Proof.
  intros P I T r' E. pose proof (astep_inv H h c P I) as I'. rewrite E in I'. cbn [fst] in I'.
  destruct c as [[t z|t pos kw|pos|q k v|q a b v|q n v]|q i b|q|d q]; cbn [target] in T; try discriminate; injection T as ->; cbn [astep step] in E.
  1-3: destruct (live h v); [|discriminate]; destruct (nth_error h r) as [[|t s]|] eqn:En; try discriminate.
  - destruct (ADTModel.setitem _ _ _ _ _ _); [|discriminate]. injection E as <- <-. split; auto. split; auto. split; [apply nth_error_Some; congruence|]. intros q _ N. apply update_other. auto.
  - destruct (set_slice _ _ _ _ _ _ _) as [[h2 s2]|] eqn:Es; [|discriminate]. injection E as <- <-. destruct (set_slice_grow _ _ _ _ _ _ _ _ _ _ I En Es) as (_ & [bits ->] & _).
    split; auto. split; auto. split; [apply nth_error_Some; congruence|]. intros q L N. rewrite update_other by auto. now rewrite nth_error_app1.
  - destruct (setattr _ _ _ _ _ _); [|discriminate]. injection E as <- <-. split; auto. split; auto. split; [apply nth_error_Some; congruence|]. intros q _ N. apply update_other. auto.
  - destruct (nth_error h r) as [[t z|]|] eqn:En; try discriminate. destruct (vec_leaf t) as [[[| |] n]|]; try discriminate. destruct (setitem_int _ _ _); [|discriminate].
    injection E as <- <-. split; auto. split; auto. split; [apply nth_error_Some; congruence|]. intros q _ N. apply update_other. auto.
Qed.

Lemma C107_assign_pf : forall H l c r h', Forall plain_call l -> target c = Some r -> astep H (arun H [] l) c = (h', Ok r) ->
  exists v, reads h' r v /\ forall q u, (q < length (arun H [] l))%nat -> reads h' q u <-> reads_with (arun H [] l) r v q u.
Proof.
  intros H l c r h' P T E. pose proof (hist_inv H l P) as I. assert (Pc : plain_call c) by (destruct c as [[]| | |]; try exact Logic.I; discriminate).
  destruct (assign_shape H _ c r h' Pc I T r E) as (_ & I' & L & K). assert (L' : (r < length h')%nat).
  { assert (X : extends (arun H [] l) h').
    { intros q o Eq. destruct c as [o'|q' i b| |]; try discriminate; cbn [astep] in E.
      - pose proof (step_extends H (arun H [] l) o') as X. rewrite E in X. exact (X q o Eq).
      - destruct (nth_error _ q') as [[t z|]|] eqn:En; try discriminate. destruct (vec_leaf t) as [[[| |] n]|]; try discriminate. destruct (setitem_int _ _ _); [|discriminate]. injection E as <- ->.
        rewrite update_nth, Eq. destruct (Nat.eqb_spec r q) as [<-|]; [|eauto]. rewrite En in Eq. injection Eq as <-. eauto. }
    apply nth_error_Some. apply nth_error_Some in L. destruct (nth_error (arun H [] l) r) as [o|] eqn:Eo; [|congruence]. destruct (X r o Eo) as (o' & -> & _). discriminate. }
  destruct (reads_total h' I' r L') as [v Q]. exists v. split; auto. intros q u Lq. now apply reads_changed.
Qed.

Lemma C107_frame_pf : forall H l c r h' q u, Forall plain_call l -> target c = Some r -> astep H (arun H [] l) c = (h', Ok r) ->
  (q < length (arun H [] l))%nat -> ~ reach (arun H [] l) q r -> reads h' q u <-> reads (arun H [] l) q u.
Proof.
  intros H l c r h' q u P T E L N. destruct (C107_assign_pf H l c r h' P T E) as (v & _ & A). rewrite (A q u L). now apply reads_frame.
Qed.

Lemma C107_setitem_pf : forall H l r k v x w, Forall plain_call l -> let h := arun H [] l in reads h r x -> reads h v w ->
  snd (astep H h (ANode (OpSetItem r k v))) = rmap (fun _ => r) (vsetitem H x k w) /\
  (forall y, vsetitem H x k w = Ok y -> reads (fst (astep H h (ANode (OpSetItem r k v)))) r y).
Proof.
  intros H l r k v x w P h Qx Qw. pose proof (hist_inv H l P) as I. fold h in I. pose proof (step_inv H h (OpSetItem r k v) Logic.I I) as I'. revert I'. cbn [astep step].
  assert (Lv : live h v = true) by (apply live_lt; eapply reads_live; eauto). rewrite Lv.
  destruct (nth_error h r) as [[t z|t s]|] eqn:E.
  - intros _. inversion Qx; subst; try congruence. cbn. split; [reflexivity|discriminate].
  - destruct (reads_srel _ _ _ _ _ E Qx) as (s' & -> & S). unfold vsetitem. rewrite mk_val_shape, mk_val_type.
    assert (R : rrel (srel (reads h)) (ADTModel.setitem H (rtype h) t s k v) (ADTModel.setitem H vtype t s' k w)) by (apply (setitem_rel H (rtype h) vtype (reads h) (reads_type h)); auto).
    destruct (ADTModel.setitem H (rtype h) t s k v) as [s2|e], (ADTModel.setitem H vtype t s' k w) as [s2'|e']; cbn [rrel] in R; try contradiction; cbn [fst snd rmap].
    + intros I'. split; auto. intros y [= <-]. eapply reads_updated; eauto.
    + intros _. subst. split; [reflexivity|discriminate].
  - apply reads_live, nth_error_Some in Qx. congruence.
Qed.

Lemma C107_setattr_pf : forall H l r n v x w, Forall plain_call l -> let h := arun H [] l in reads h r x -> reads h v w ->
  snd (astep H h (ANode (OpSetAttr r n v))) = rmap (fun _ => r) (vsetattr H x n w) /\
  (forall y, vsetattr H x n w = Ok y -> reads (fst (astep H h (ANode (OpSetAttr r n v)))) r y).
Proof.
  intros H l r n v x w P h Qx Qw. pose proof (hist_inv H l P) as I. fold h in I. pose proof (step_inv H h (OpSetAttr r n v) Logic.I I) as I'. revert I'. cbn [astep step].
  assert (Lv : live h v = true) by (apply live_lt; eapply reads_live; eauto). rewrite Lv.
  destruct (nth_error h r) as [[t z|t s]|] eqn:E.
  - intros _. inversion Qx; subst; try congruence. cbn. split; [reflexivity|discriminate].
  - destruct (reads_srel _ _ _ _ _ E Qx) as (s' & -> & S). unfold vsetattr. rewrite mk_val_shape, mk_val_type.
    assert (R : rrel (srel (reads h)) (setattr H (rtype h) t s n v) (setattr H vtype t s' n w)) by (apply (setattr_rel H (rtype h) vtype (reads h) (reads_type h)); auto).
    destruct (setattr H (rtype h) t s n v) as [s2|e], (setattr H vtype t s' n w) as [s2'|e']; cbn [rrel] in R; try contradiction; cbn [fst snd rmap].
    + intros I'. split; auto. intros y [= <-]. eapply reads_updated; eauto.
    + intros _. subst. split; [reflexivity|discriminate].
  - apply reads_live, nth_error_Some in Qx. congruence.
Qed.

Lemma C107_setbit_pf : forall H l r i b t n z, Forall plain_call l -> let h := arun H [] l in reads h r (VAtom t z) -> vec_leaf t = Some (0, n) -> 0 <= z < 2 ^ n -> 0 <= n ->
  (- n <= i < n -> exists z', astep H h (ASetBit r i b) = (update r (OAtom t z') h, Ok r) /\ reads (fst (astep H h (ASetBit r i b))) r (VAtom t z') /\
     0 <= z' < 2 ^ n /\ forall j, 0 <= j < n -> Z.testbit z' j = if j =? i mod n then b else Z.testbit z j) /\
  (~ (- n <= i < n) -> astep H h (ASetBit r i b) = (h, Raise EIndexError)).
Proof.
  intros H l r i b t n z P h Q V Rz Hn. inversion Q as [? ? ? E| | |]; subst. cbn [astep]. rewrite E, V. set (x := BV (BVC KBV n) z).
  assert (W : wf x) by (split; cbn; auto). split.
  - intros Hi. destruct (C17_setitem_pf x i b (VBit b) W Hi) as (y & Ey & Ec & Wy & B); [auto|]. change (setitem_int x i (VBit b) = Ok y) in Ey. rewrite Ey. exists (bval y). split; [reflexivity|]. split.
    { apply reads_atom. cbn [fst]. apply update_same. eapply reads_live; eauto. }
    destruct Wy as [_ Wy]. rewrite Ec in Wy. split; [exact Wy|exact B].
  - intros Hi. pose proof (C17_setitem_range_pf x i b Hi) as Ey. change (setitem_int x i (VBit b) = Raise EIndexError) in Ey. now rewrite Ey.
Qed.

Lemma C107_new_pf : forall H l t pos kw vs ks, Forall plain_call l -> let h := arun H [] l in
  Forall2 (reads h) pos vs -> map fst kw = map fst ks -> Forall2 (reads h) (map snd kw) (map snd ks) ->
  snd (astep H h (ANode (OpCall t pos kw))) = rmap (fun _ => length h) (vcall H t vs ks) /\
  (forall y, vcall H t vs ks = Ok y -> reads (fst (astep H h (ANode (OpCall t pos kw)))) (length h) y) /\
  (forall q u, (q < length h)%nat -> reads (fst (astep H h (ANode (OpCall t pos kw)))) q u <-> reads h q u).
Proof.
  intros H l t pos kw vs ks P h F Ek G. pose proof (hist_inv H l P) as I. fold h in I. cbn [astep step].
  assert (Lv : forallb (live h) (pos ++ map snd kw) = true).
  { apply forallb_forall. intros x Hx. apply live_lt. apply in_app_or in Hx as [Hx|Hx].
    - clear - F Hx. induction F; destruct Hx; [subst; eapply reads_live; eauto|auto].
    - clear - G Hx. induction G; destruct Hx; [subst; eapply reads_live; eauto|auto]. }
  rewrite Lv. assert (K : Forall2 (krel (reads h)) kw ks).
  { clear - Ek G. revert ks Ek G. induction kw as [|[a x] kw IH]; intros [|[b y] ks] Ek G; cbn in *; try discriminate; constructor; inversion G; injection Ek as <- Ek; subst; auto. split; auto. }
  pose proof (call_rel H (rtype h) vtype (reads h) (reads_type h) t pos vs kw ks F K) as R. unfold vcall.
  destruct (call H (rtype h) t pos kw) as [s|e], (call H vtype t vs ks) as [s'|e']; cbn [rrel] in R; try contradiction; cbn [fst snd rmap].
  - split; [reflexivity|]. split; [|intros q u Lq; now apply reads_grown]. intros y [= <-]. eapply srel_reads; [rewrite nth_error_app2, Nat.sub_diag by lia; reflexivity|].
    eapply srel_impl; [exact R|]. intros x y _. apply reads_app.
  - subst. split; [reflexivity|]. split; [discriminate|reflexivity].
Qed.

Lemma C107_tuple_pf : forall H l pos vs, Forall plain_call l -> let h := arun H [] l in Forall2 (reads h) pos vs ->
  let h' := fst (astep H h (ANode (OpTuple pos))) in
  snd (astep H h (ANode (OpTuple pos))) = Ok (length h) /\ reads h' (length h) (VTup (TNode KTuple [] (unnamed (map vtype vs))) true vs) /\
  (forall q u, (q < length h)%nat -> reads h' q u <-> reads h q u).
Proof.
  intros H l pos vs P h F. pose proof (hist_inv H l P) as I. fold h in I. cbn [astep step].
  assert (Lv : forallb (live h) pos = true).
  { apply forallb_forall. intros x Hx. apply live_lt. clear - F Hx. induction F; destruct Hx; [subst; eapply reads_live; eauto|auto]. }
  assert (T : map (rtype h) pos = map vtype vs) by (clear - F; induction F as [|x v pos vs E F IH]; cbn [map]; [reflexivity|]; now rewrite (reads_type _ _ _ E), IH).
  rewrite Lv. cbn [call node_of].
  assert (C : tuple_init H (rtype h) (unnamed (map (rtype h) pos)) pos = Ok (STup true pos)).
  { apply tuple_init_ok. split; [reflexivity|]. clear. unfold unnamed. induction pos as [|x pos IH]; cbn [map]; constructor; auto. cbn [snd]. apply sub_refl. }
  rewrite C. cbn [fst snd]. split; [reflexivity|]. split; [|intros q u Lq; now apply reads_grown].
  rewrite T. eapply reads_tup; [rewrite nth_error_app2, Nat.sub_diag by lia; reflexivity|]. eapply Forall2_impl; [|exact F]. intros x y. apply reads_app.
Qed.

Lemma C107_copy_pf : forall H l r v, Forall plain_call l -> let h := arun H [] l in reads h r v -> let h' := fst (astep H h (ACopy r)) in
  snd (astep H h (ACopy r)) = Ok (length h) /\ reads h' (length h) v /\ (forall q u, (q < length h)%nat -> reads h' q u <-> reads h q u) /\
  ~ reach h' r (length h) /\ ~ reach h' (length h) r /\ (forall x, x <> r -> x <> length h -> reach h' (length h) x <-> reach h' r x).
Proof.
  intros H l r v P h Q. pose proof (hist_inv H l P) as I. fold h in I. pose proof (reads_live _ _ _ Q) as L. cbn [astep].
  pose proof (proj2 (nth_error_Some h r) L) as N. destruct (nth_error h r) as [o|] eqn:E; [|congruence]. cbn [fst snd]. clear N.
  assert (En : nth_error (h ++ [o]) (length h) = Some o) by (rewrite nth_error_app2, Nat.sub_diag by lia; reflexivity).
  assert (Eo : nth_error (h ++ [o]) r = Some o) by (apply app_keeps; exact E).
  assert (I' : ainv (h ++ [o])). { pose proof (astep_inv H h (ACopy r) Logic.I I) as A. cbn [astep] in A. now rewrite E in A. }
  assert (NR : forall x, In x (refs o) -> ~ reach (h ++ [o]) x (length h)).
  { intros x Hx R. destruct (a_parts h I r o x E Hx) as [Lx _]. apply reach_grown in R; auto. apply reach_live in R; auto. lia. }
  split; [reflexivity|]. split.
  { destruct o as [t z|t s].
    - inversion Q; subst; try congruence. rewrite E in H0. injection H0 as -> ->. now apply reads_atom.
    - destruct (reads_srel _ _ _ _ _ E Q) as (s' & -> & S). eapply srel_reads; [exact En|]. eapply srel_impl; [exact S|]. intros x y _. apply reads_app. }
  split; [intros q u Lq; now apply reads_grown|]. split; [|split].
  - intros R. inversion R as [|a p x b Ep Hx R']; subst; [lia|]. rewrite Eo in Ep. injection Ep as <-. exact (NR x Hx R').
  - intros R. inversion R as [|a p x b Ep Hx R']; subst; [lia|]. rewrite En in Ep. injection Ep as <-. exact (reach_strict _ r o x I' Eo Hx R').
  - intros x N1 N2. split; intros R; inversion R as [|a p y b Ep Hx R']; subst; try congruence.
    + rewrite En in Ep. injection Ep as <-. eapply reach_step; eauto.
    + rewrite Eo in Ep. injection Ep as <-. eapply reach_step; eauto.
Qed.

Lemma C107_deep_pf : forall H l r v, Forall plain_call l -> let h := arun H [] l in reads h r v ->
  exists d0, forall d, (d0 <= d)%nat -> exists k x, astep H h (ADeep d r) = (h ++ k, Ok x) /\ reads (h ++ k) x v /\
    (forall q u, (q < length h)%nat -> reads (h ++ k) q u <-> reads h q u) /\
    (forall y, reach (h ++ k) x y -> (length h <= y)%nat) /\ (forall q y, (q < length h)%nat -> reach (h ++ k) q y -> (y < length h)%nat).
Proof.
  intros H l r v P h Q. pose proof (hist_inv H l P) as I. fold h in I. pose proof (reads_live _ _ _ Q) as L. exists (S (height (rtype h r))). intros d Hd. cbn [astep].
  rewrite (proj2 (live_lt h r) L). pose proof (deep_total h I d h [] r (dinv_start h I) L Hd) as N. destruct (deep d h [] r) as [[[h' m'] x]|] eqn:E; [|congruence].
  destruct (deep_ok h I d _ _ _ _ _ _ (dinv_start h I) L E) as (D & (_ & Lx & _ & R) & [k ->]). exists k, x. split; [reflexivity|]. split; [apply R, reads_app, Q|].
  split; [intros q u Lq; now apply reads_grown|]. split.
  - intros y Y. exact (deep_fresh _ _ _ _ _ D (proj1 Lx) Y).
  - intros q y Lq Y. apply reach_grown in Y; auto. eapply reach_live; eauto.
Qed.

Lemma C107_deep_sharing_pf : forall H l d r x, Forall plain_call l -> let h := arun H [] l in
  snd (astep H h (ADeep d r)) = Ok x -> same_graph h (fst (astep H h (ADeep d r))) r x.
Proof.
  intros H l d r x P h. pose proof (hist_inv H l P) as I. fold h in I. cbn [astep]. destruct (live h r) eqn:L; [|discriminate].
  destruct (deep d h [] r) as [[[h' m'] x']|] eqn:E; [|discriminate]. cbn [fst snd]. intros [= ->]. apply live_lt in L. eapply deep_graph; eauto.
Qed.

Lemma C107_deep_independent_pf : forall H l d r x c q h' u, Forall plain_call l -> let h := arun H [] l in let h1 := fst (astep H h (ADeep d r)) in
  snd (astep H h (ADeep d r)) = Ok x -> target c = Some q -> astep H h1 c = (h', Ok q) ->
  ((q < length h)%nat -> reads h' x u <-> reads h1 x u) /\
  ((length h <= q)%nat -> forall y, (y < length h)%nat -> reads h' y u <-> reads h1 y u).
Proof.
  intros H l d r x c q h' u P h h1 E T A. pose proof (hist_inv H l P) as I. fold h in I.
  assert (R1 : h1 = arun H [] (l ++ [ADeep d r])) by (unfold h1, arun; now rewrite fold_left_app). assert (P1 : Forall plain_call (l ++ [ADeep d r])) by (apply Forall_app; split; auto; repeat constructor).
  assert (L : live h r = true) by (cbn [astep] in E; destruct (live h r); [reflexivity|discriminate]).
  assert (D : exists m', dinv h h1 m' /\ copy_ok h h1 r x).
  { unfold h1. cbn [astep] in E |- *. rewrite L in E |- *. destruct (deep d h [] r) as [[[h2 m'] x']|] eqn:Ed; [|discriminate]. cbn [fst snd] in *. injection E as ->.
    apply live_lt in L. destruct (deep_ok h I d _ _ _ _ _ _ (dinv_start h I) L Ed) as (D & C & _). eauto. }
  destruct D as (m' & D & (Lr & Lx & _)). split; [intros Lq|intros Lq y Ly].
  - rewrite R1 in A, D, Lx |- *. eapply C107_frame_pf; eauto; [lia|]. intros R. pose proof (deep_fresh _ _ _ _ _ D (proj1 Lx) R). lia.
  - destruct (d_ext _ _ _ D) as [k Ek]. rewrite R1 in A, Ek |- *. eapply C107_frame_pf; eauto. { rewrite Ek, app_length. lia. }
    intros R. rewrite Ek in R. apply reach_grown in R; auto. assert (q < length h)%nat; [|lia]. eapply reach_live; eauto.
Qed.
