(** Proofs of the theorems stated in ShareProps.v. *)
From Coq Require Import Lia.
From Verif Require Import PyBase BVModel BVSpec BVFacts ADTTy ADTTyFacts ADTModel ADTSpec ADTFacts ShareModel ShareSpec ShareFacts ShareProv.

Lemma C103_vector_pf : forall H x progs l, wf x ->
  let p := sh_run H (sh_spawn (ShVec x) progs) l in
  exists y, p_obj p = ShVec y /\ bcls y = bcls x /\ wf y
    /\ (forall j, 0 <= j < bsize x -> bit_from x progs j (Z.testbit (bval y) j))
    /\ (forall k i b, In (k, CGetBit i, Ok (ABit b)) (p_log p) -> - bsize x <= i < bsize x /\ bit_from x progs (i mod bsize x) b)
    /\ (forall i b, last_put (p_log p) (CSetBit i b) -> Z.testbit (bval y) (i mod bsize x) = b).
Proof.
  intros H x progs l W p. pose proof (vec_put H progs x W l) as Q. destruct (vec_run H progs x W l) as ((y & E & G1 & G2 & G3) & _ & L). fold p in E, L, Q.
  exists y. split; [exact E|]. split; [exact G1|]. split; [exact G2|]. split; [exact G3|]. split.
  - intros k i b I. exact (L _ _ _ I i b eq_refl eq_refl).
  - intros i b P. exact (Q _ P i b y eq_refl E).
Qed.

Lemma C103_tuple_pf : forall H t k fs b vs progs l, node_of t = Some (k, fs) -> tuple_like k ->
  Forall2 (fun f v => sub H (vtype v) (snd f) = true) fs vs ->
  let p := sh_run H (sh_spawn (ShAdt t (STup b vs)) progs) l in
  exists b' ws, p_obj p = ShAdt t (STup b' ws) /\ Forall2 (fun f v => sub H (vtype v) (snd f) = true) fs ws
    /\ (forall q v, nth_error ws q = Some v -> component_from vs progs fs q v)
    /\ (forall i j v, In (i, CGetItem j, Ok (AVal v)) (p_log p) ->
          exists q, (q < length fs)%nat /\ (j = Z.of_nat q \/ j = Z.of_nat q - Z.of_nat (length fs)) /\ component_from vs progs fs q v)
    /\ (forall c q v, last_put (p_log p) c -> assigns fs c q v -> nth_error ws q = Some v).
Proof.
  intros H t k fs b vs progs l Ht Hk F p. pose proof (tup_put H progs t k fs vs Ht Hk l b F) as Q.
  destruct (tup_run H progs t k fs vs Ht Hk l b F) as ((b' & ws & E & G1 & G2) & _ & L). fold p in E, L, Q.
  exists b', ws. split; [exact E|]. split; [exact G1|]. split; [exact G2|]. split.
  - intros i j v I. exact (L _ _ _ I j v eq_refl eq_refl).
  - intros c q v P A. exact (Q _ P q v b' ws A E).
Qed.

Lemma C103_one_writer_pf : forall H o progs w l, is_tagged o = false -> one_writer w progs ->
  let p := sh_run H (sh_spawn o progs) l in
  explains H (reader_skip w) o (p_log p) (p_obj p).
Proof.
  intros H o progs w l T W p. destruct (winv_run H w o progs l W) as (o' & X & Y & Z & _); [congruence|]. fold p in X, Z.
  assert (p_obj p = o') as ->; [|exact X].
  destruct (nth_error (p_thr p) w) as [[[|c m] ctl]|]; [apply Z|eapply mid_obj; [exact Z|congruence]|exact Z].
Qed.

Lemma C103_locked_pf : forall H o progs l, exclusive H (sh_spawn o progs) l ->
  let p := sh_run H (sh_spawn o progs) l in
  (forall i, outside p i) -> explains H no_skip o (p_log p) (p_obj p).
Proof.
  intros H o progs l E p O. destruct (linv_run H o progs l E) as (o' & X & D). fold p in X, D.
  destruct D as [(_ & ->)|(i & c & m & ctl & K1 & K2 & _)]; [exact X|]. exfalso. apply K2. exact (O i _ K1).
Qed.

Lemma C103_lost_update_refuted_pf : exists x l1 t vs l2,
  let q1 := [[CSetBit 0 true]; [CSetBit 1 true]] in
  let p1 := sh_run nosub (sh_spawn (ShVec x) q1) l1 in
  let q2 := [[CSetItem (IxInt 0) (VAtom bv4 7)]; [CSetItem (IxInt 1) (VAtom bv4 9)]] in
  let p2 := sh_run nosub (sh_spawn (ShAdt t (STup true vs)) q2) l2 in
  finished p1 /\ map snd (p_log p1) = [Ok ADone; Ok ADone] /\ p_obj p1 = ShVec (BV (bcls x) 1)
  /\ (forall log, (forall i c r, In (i, c, r) log <-> In (i, c, r) (p_log p1)) -> length log = 2%nat -> ~ explains nosub no_skip (ShVec x) log (p_obj p1))
  /\ finished p2 /\ map snd (p_log p2) = [Ok ADone; Ok ADone] /\ p_obj p2 = ShAdt t (STup false [VAtom bv4 7; VAtom bv4 0]).
Proof.
  exists (BV (BVC KBV 4) 0), [EStep 0; EStep 0; EStep 1; EStep 1; EStep 1; EStep 0], (TNode KTuple [] (unnamed [bv4; bv4])), [VAtom bv4 0; VAtom bv4 0], [EStep 0; EStep 1; EStep 1; EStep 0].
  cbv zeta. split; [intros t [<-|[<-|[]]]; reflexivity|]. split; [vm_compute; reflexivity|]. split; [vm_compute; reflexivity|]. split.
  - intros log E L X.
    assert (Q : p_log (sh_run nosub (sh_spawn (ShVec (BV (BVC KBV 4) 0)) [[CSetBit 0 true]; [CSetBit 1 true]]) [EStep 0; EStep 0; EStep 1; EStep 1; EStep 1; EStep 0])
      = [(1%nat, CSetBit 1 true, Ok ADone); (0%nat, CSetBit 0 true, Ok ADone)]) by (vm_compute; reflexivity).
    rewrite Q in E. clear Q. destruct log as [|((i1 & c1) & r1) [|((i2 & c2) & r2) [|? ?]]]; try discriminate.
    pose proof (proj1 (E _ _ _) (or_introl eq_refl)) as A. pose proof (proj1 (E _ _ _) (or_intror (or_introl eq_refl))) as B.
    pose proof (proj2 (E 1%nat (CSetBit 1 true) (Ok ADone)) (or_introl eq_refl)) as C.
    pose proof (proj2 (E 0%nat (CSetBit 0 true) (Ok ADone)) (or_intror (or_introl eq_refl))) as D. clear E L.
    destruct A as [A|[A|[]]], B as [B|[B|[]]]; injection A as <- <- <-; injection B as <- <- <-.
    + destruct D as [D|[D|[]]]; discriminate.
    + destruct X as (_ & _ & X). vm_compute in X. discriminate.
    + destruct X as (_ & _ & X). vm_compute in X. discriminate.
    + destruct C as [C|[C|[]]]; discriminate.
  - split; [intros t [<-|[<-|[]]]; reflexivity|]. split; vm_compute; reflexivity.
Qed.

Lemma C104_sum_pf : forall H t fs x progs l, node_of t = Some (KSum, fs) -> of_some_field H fs x ->
  let p := sh_run H (sh_spawn (ShAdt t (SSum x)) progs) l in
  (exists y, p_obj p = ShAdt t (SSum y) /\ of_some_field H fs y /\ sum_from x progs y) /\ sound H (p_obj p)
  /\ (forall i c m v, In (i, c, Ok (AMatch m v)) (p_log p) -> of_some_field H fs v /\ sum_from x progs v)
  /\ (forall u v, last_put (p_log p) (CSetItem (IxTy u) v) -> p_obj p = ShAdt t (SSum v)).
Proof.
  intros H t fs x progs l Ht F p. pose proof (sum_put H progs t fs x Ht l F) as Q. destruct (sum_run H progs t fs x Ht l F) as ((y & E & G1 & G2) & _ & L).
  fold p in E, L, Q. split; [eauto|]. split; [|split].
  - rewrite E. destruct G1 as (f & F1 & F2). eapply vok_sum; eauto.
  - intros i c m v I. exact (L _ _ _ I m v eq_refl).
  - intros u v P. exact (Q _ P u v eq_refl).
Qed.

Lemma C104_tagged_pf : forall H t n e fs a x progs l, node_of t = Some (KTag n e, fs) -> (a < length fs)%nat -> of_some_field H fs x ->
  let p := sh_run H (sh_spawn (ShAdt t (STag a x)) progs) l in
  (exists k y, p_obj p = ShAdt t (STag k y) /\ (k < length fs)%nat /\ tag_from a progs fs k /\ of_some_field H fs y /\ field_from x progs y)
  /\ (forall i c m v, In (i, c, Ok (AMatch m v)) (p_log p) -> of_some_field H fs v /\ field_from x progs v).
Proof.
  intros H t n e fs a x progs l Ht A F p. destruct (tag_run H progs t n e fs a x Ht l F A) as ((k & y & E & (K1 & K2) & G1 & G2) & _ & L). fold p in E, L.
  split; [exists k, y; auto|]. intros i c m v I. exact (L _ _ _ I m v eq_refl).
Qed.

Lemma C104_uniform_pf : forall H t n e fs u a x progs l, node_of t = Some (KTag n e, fs) -> (forall f, In f fs -> snd f = u) ->
  (a < length fs)%nat -> sub H (vtype x) u = true ->
  let p := sh_run H (sh_spawn (ShAdt t (STag a x)) progs) l in
  sound H (p_obj p) /\ forall i c m v, In (i, c, Ok (AMatch m v)) (p_log p) -> sub H (vtype v) u = true.
Proof.
  intros H t n e fs u a x progs l Ht U A S p.
  assert (F : of_some_field H fs x).
  { destruct (nth_error fs a) as [f|] eqn:N; [|apply nth_error_None in N; lia]. exists f. apply nth_error_In in N. split; [exact N|]. now rewrite U. }
  destruct (tag_run H progs t n e fs a x Ht l F A) as ((k & y & E & (K1 & K2) & (f & G1 & G2) & _) & _ & L). fold p in E, L. split.
  - rewrite E. destruct (nth_error fs k) as [g|] eqn:N; [|apply nth_error_None in N; lia]. eapply vok_tag; [exact Ht|exact N|].
    rewrite (U g) by (eapply nth_error_In; exact N). now rewrite <- (U f).
  - intros i c m v I. destruct (L _ _ _ I m v eq_refl) as ((g & D1 & D2) & _). now rewrite <- (U g).
Qed.

Lemma C104_one_writer_pf : forall H o progs w l, is_tagged o = true -> one_writer w progs -> ~ In (EInt w) l ->
  let p := sh_run H (sh_spawn o progs) l in
  outside p w -> explains H (reader_skip w) o (p_log p) (p_obj p) /\ (sound H o -> sound H (p_obj p)).
Proof.
  intros H o progs w l T W N p O. destruct (winv_run H w o progs l W) as (o' & X & Y & Z & _); [auto|]. fold p in X, Z.
  assert (E : p_obj p = o').
  { destruct (nth_error (p_thr p) w) as [[[|c m] ctl]|] eqn:Q; [apply Z| |exact Z]. specialize (O _ Q). cbn [s_ctl] in O. subst ctl. exact Z. }
  rewrite E. split; [exact X|]. intros S. apply (explains_sound _ _ _ _ _ T X S).
Qed.

Lemma C104_read_refuted_pf : exists l,
  let progs := [[CGetField "a"]; [CSetAttr "c" (VAtom col 1)]] in
  let p := sh_run nosub (sh_spawn (ShAdt tagged (STag 0 (VAtom bv4 3))) progs) l in
  one_writer 1 progs /\ finished p /\ sound nosub (ShAdt tagged (STag 0 (VAtom bv4 3))) /\ In (0%nat, CGetField "a", Ok (AMatch true (VAtom col 1))) (p_log p)
  /\ sub nosub col bv4 = false.
Proof.
  exists [EStep 0; EStep 1; EStep 1; EStep 0]. cbv zeta. split.
  - intros [|[|i]] m c N E I; [|congruence|destruct i; discriminate]. injection E as <-. destruct I as [<-|[]]; reflexivity.
  - split; [intros t [<-|[<-|[]]]; reflexivity|]. split; [eapply vok_tag with (i := 0%nat); vm_compute; reflexivity|]. split; [|reflexivity]. vm_compute. tauto.
Qed.

Lemma C104_writers_refuted_pf : exists l,
  let p := sh_run nosub (sh_spawn (ShAdt tagged (STag 0 (VAtom bv4 3))) [[CSetAttr "b" (VAtom bv4 5)]; [CSetAttr "c" (VAtom col 1)]]) l in
  finished p /\ map snd (p_log p) = [Ok ADone; Ok ADone] /\ p_obj p = ShAdt tagged (STag 1 (VAtom col 1)) /\ ~ sound nosub (p_obj p).
Proof.
  exists [EStep 0; EStep 1; EStep 1; EStep 0]. cbv zeta. split; [intros t [<-|[<-|[]]]; reflexivity|]. split; [vm_compute; reflexivity|]. split; [vm_compute; reflexivity|].
  intros V. vm_compute in V. inversion V as [| |? ? ? ? ? f ? N1 N2 N3]. subst. vm_compute in N1. injection N1 as <- <- <-. vm_compute in N2. injection N2 as <-. vm_compute in N3. discriminate.
Qed.

Lemma C104_interrupt_refuted_pf : exists l,
  let p := sh_run nosub (sh_spawn (ShAdt tagged (STag 0 (VAtom bv4 3))) [[CSetAttr "c" (VAtom col 1); CGetField "a"]]) l in
  finished p /\ p_obj p = ShAdt tagged (STag 0 (VAtom col 1)) /\ p_log p = [(0%nat, CGetField "a", Ok (AMatch true (VAtom col 1)))] /\ ~ sound nosub (p_obj p).
Proof.
  exists [EStep 0; ShareModel.EInt 0; EStep 0; EStep 0]. cbv zeta. split; [intros t [<-|[]]; reflexivity|]. split; [vm_compute; reflexivity|]. split; [vm_compute; reflexivity|].
  intros V. vm_compute in V. inversion V as [| |? ? ? ? ? f ? N1 N2 N3]. subst. vm_compute in N1. injection N1 as <- <- <-. vm_compute in N2. injection N2 as <-. vm_compute in N3. discriminate.
Qed.

Lemma C104_sum_read_refuted_pf : exists t x y u l,
  let progs := [[CGetSum u]; [CSetItem (IxTy bit) y]] in
  let p := sh_run nosub (sh_spawn (ShAdt t (SSum x)) progs) l in
  one_writer 1 progs /\ finished p /\ In (0%nat, CGetSum u, Ok (AMatch true y)) (p_log p) /\ sub nosub (vtype y) u = false.
Proof.
  exists (TNode KSum [] (unnamed (type_set [bv4; bit]))), (VAtom bv4 3), (VAtom bit 1), bv4, [EStep 0; EStep 1; EStep 0]. cbv zeta. split.
  - intros [|[|i]] m c N E I; [|congruence|destruct i; discriminate]. injection E as <-. destruct I as [<-|[]]; reflexivity.
  - split; [intros t [<-|[<-|[]]]; reflexivity|]. split; [vm_compute; tauto|reflexivity].
Qed.
