(** Where the contents of a shared object come from. *)
From Coq Require Import Lia.
From Verif Require Import PyBase BVModel BVSpec BVFacts BVOps ADTTy ADTTyFacts ADTModel ADTSpec ADTFacts ShareModel ShareSpec ShareFacts.

Section Prov.
Context (H : Z -> Z -> bool) (progs : list (list scall)).
Context (Po : sobj -> Prop) (Pc : scall -> scontrol -> Prop) (Pl : scall -> res sans -> Prop).
Definition result_ok (c : scall) (r : sout) : Prop := match r with SGo ctl => Pc c ctl | SEnd a => Pl c a end.
Definition pinv (p : spool) : Prop :=
  Po (p_obj p) /\
  (forall i l ctl, nth_error (p_thr p) i = Some (SThread l ctl) -> (forall c, In c l -> called progs c) /\ (ctl <> SIdle -> exists c l', l = c :: l' /\ Pc c ctl)) /\
  (forall i c a, In (i, c, a) (p_log p) -> Pl c a).
Context (Pw : scall -> sobj -> Prop).
Definition effect (o : sobj) (c : scall) (o' : sobj) (r : sout) : Prop := (o' = o /\ r <> SEnd (Ok ADone)) \/ (r = SEnd (Ok ADone) /\ Pw c o').
Context (HS : forall o c o' r, Po o -> called progs c -> sh_start H o c = (o', r) -> Po o' /\ result_ok c r).
Context (HR : forall o c ctl o' r, Po o -> called progs c -> ctl <> SIdle -> Pc c ctl -> sh_resume o ctl = (o', r) -> Po o' /\ result_ok c r).
Lemma pinv_step p e : pinv p -> pinv (sh_event H p e).
Proof.
  intros (I1 & I2 & I3). destruct e as [i|i]; cbn [sh_event]; destruct (nth_error (p_thr p) i) as [[[|c l] ctl]|] eqn:T; try (split; [assumption|split; assumption]).
  - destruct (I2 _ _ _ T) as (A & B). pose proof (A c (or_introl eq_refl)) as Cc.
    assert (G : forall o' r, (match ctl with SIdle => sh_start H (p_obj p) c | _ => sh_resume (p_obj p) ctl end) = (o', r) -> Po o' /\ result_ok c r).
    { intros o' r E. destruct ctl.
      - exact (HS _ _ _ _ I1 Cc E).
      - destruct B as (d & m & D & Pd); [discriminate|]. injection D as <- <-. refine (HR _ _ _ _ _ I1 Cc _ Pd E). discriminate.
      - destruct B as (d & m & D & Pd); [discriminate|]. injection D as <- <-. refine (HR _ _ _ _ _ I1 Cc _ Pd E). discriminate.
      - destruct B as (d & m & D & Pd); [discriminate|]. injection D as <- <-. refine (HR _ _ _ _ _ I1 Cc _ Pd E). discriminate.
      - destruct B as (d & m & D & Pd); [discriminate|]. injection D as <- <-. refine (HR _ _ _ _ _ I1 Cc _ Pd E). discriminate.
      - destruct B as (d & m' & D & Pd); [discriminate|]. injection D as <- <-. refine (HR _ _ _ _ _ I1 Cc _ Pd E). discriminate. }
    destruct (match ctl with SIdle => _ | _ => _ end) as [o' r]. destruct (G _ _ eq_refl) as (G1 & G2). destruct r as [a|ctl']; cbn [result_ok] in G2.
    + split; [exact G1|]. split; cbn [p_thr p_log].
      * intros j m k Hj. rewrite nth_update in Hj. destruct (Nat.eqb_spec i j) as [->|N]; [|exact (I2 _ _ _ Hj)].
        rewrite T in Hj. injection Hj as <- <-. split; [intros d Hd; apply A; now right|congruence].
      * intros j d q Hq. apply in_app_or in Hq as [Hq|[Hq|[]]]; [exact (I3 _ _ _ Hq)|]. injection Hq as _ <- <-. exact G2.
    + split; [exact G1|]. split; cbn [p_thr p_log]; [|exact I3].
      intros j m k Hj. rewrite nth_update in Hj. destruct (Nat.eqb_spec i j) as [->|N]; [|exact (I2 _ _ _ Hj)].
      rewrite T in Hj. injection Hj as <- <-. split; [exact A|]. intros _. exists c, l. auto.
  - split; [exact I1|]. split; cbn [p_thr p_log]; [|exact I3].
    intros j m k Hj. rewrite nth_update in Hj. destruct (Nat.eqb_spec i j) as [->|N]; [|exact (I2 _ _ _ Hj)].
    rewrite T in Hj. injection Hj as <- <-. split; [intros d Hd; apply (I2 _ _ _ T); now right|congruence].
Qed.
Lemma pinv_run o l : Po o -> pinv (sh_run H (sh_spawn o progs) l).
Proof.
  intros O. induction l as [|e l IH] using rev_ind.
  - split; [exact O|]. split; [|intros i c a []]. intros i l ctl Hi. cbn in Hi. rewrite nth_error_map in Hi.
    destruct (nth_error progs i) as [m|] eqn:M; [|discriminate]. injection Hi as <- <-. split; [|congruence].
    intros c Hc. exists m. split; [eapply nth_error_In; exact M|exact Hc].
  - rewrite run_app. now apply pinv_step.
Qed.
Context (ES : forall o c o' r, Po o -> called progs c -> sh_start H o c = (o', r) -> effect o c o' r).
Context (ER : forall o c ctl o' r, Po o -> called progs c -> ctl <> SIdle -> Pc c ctl -> sh_resume o ctl = (o', r) -> effect o c o' r).
Definition put_inv (p : spool) : Prop := forall c, last_put (p_log p) c -> Pw c (p_obj p).
Lemma last_put_app log i c a d : last_put (log ++ [(i, c, a)]) d -> (a = Ok ADone /\ d = c) \/ (a <> Ok ADone /\ last_put log d).
Proof.
  intros (j & l1 & l2 & E & N). destruct l2 as [|z l2 _] using rev_ind.
  - apply app_inj_tail in E as (E & F). injection F as -> -> ->. auto.
  - right. rewrite app_comm_cons, app_assoc in E. apply app_inj_tail in E as (E & <-). split.
    + intros ->. eapply N. apply in_or_app. right. left. reflexivity.
    + exists j, l1, l2. split; [exact E|]. intros k e K. eapply N. apply in_or_app. left. exact K.
Qed.
Lemma put_step p e : pinv p -> put_inv p -> put_inv (sh_event H p e).
Proof.
  intros (I1 & I2 & I3) V. destruct e as [i|i]; cbn [sh_event]; destruct (nth_error (p_thr p) i) as [[[|c l] ctl]|] eqn:T; try assumption.
  destruct (I2 _ _ _ T) as (A & B). pose proof (A c (or_introl eq_refl)) as Cc.
  assert (G : forall o' r, (match ctl with SIdle => sh_start H (p_obj p) c | _ => sh_resume (p_obj p) ctl end) = (o', r) -> effect (p_obj p) c o' r).
  { intros o' r E. destruct ctl; [exact (ES _ _ _ _ I1 Cc E)|..];
      (destruct B as (d & m' & D & Pd); [discriminate|]; injection D as <- <-; refine (ER _ _ _ _ _ I1 Cc _ Pd E); discriminate). }
  destruct (match ctl with SIdle => _ | _ => _ end) as [o' r]. specialize (G _ _ eq_refl). destruct r as [a|ctl']; intros d D; cbn [p_log p_obj] in *.
  - apply last_put_app in D as [(-> & ->)|(NA & D)]; destruct G as [(-> & G)|(G1 & G2)]; try congruence. now apply V.
  - destruct G as [(-> & G)|(G1 & G2)]; [now apply V|discriminate].
Qed.
Lemma put_run o l : Po o -> put_inv (sh_run H (sh_spawn o progs) l).
Proof.
  intros O. induction l as [|e l IH] using rev_ind.
  - intros c (i & l1 & l2 & E & _). destruct l1; discriminate.
  - rewrite run_app. apply put_step; [now apply pinv_run|exact IH].
Qed.
End Prov.

(** ** Vectors *)
Section Vec.
Context (H : Z -> Z -> bool) (progs : list (list scall)) (x0 : bv) (W0 : wf x0).
Definition vgood (y : bv) : Prop := bcls y = bcls x0 /\ wf y /\ forall j, 0 <= j < bsize x0 -> bit_from x0 progs j (Z.testbit (bval y) j).
Definition vobj (o : sobj) : Prop := exists y, o = ShVec y /\ vgood y.
Definition vput (c : scall) (o : sobj) : Prop := forall i b y, c = CSetBit i b -> o = ShVec y -> Z.testbit (bval y) (i mod bsize x0) = b.
Definition vctl (c : scall) (ctl : scontrol) : Prop :=
  match ctl with
  | SIdle => True
  | SAnd i b r => exists i0 x1 r0, c = CSetBit i0 b /\ set_index x0 i0 = Ok i /\ vgood x1 /\ bvor x1 (VBV (set_mask x1 i)) = Ok r0 /\ r = rv_val x1 r0
  | SStoreV y => vgood y /\ vput c (ShVec y)
  | _ => False
  end.
Definition vlog (c : scall) (a : res sans) : Prop := forall i b, c = CGetBit i -> a = Ok (ABit b) -> - bsize x0 <= i < bsize x0 /\ bit_from x0 progs (i mod bsize x0) b.
Lemma set_index_cls x y i : bcls x = bcls y -> set_index x i = set_index y i.
Proof. intros E. unfold set_index, bsize. now rewrite E. Qed.
Lemma set_index_range x i i' : set_index x i = Ok i' -> - bsize x <= i < bsize x.
Proof.
  unfold set_index. cbv zeta. destruct (Z.ltb_spec i 0).
  - destruct (Z.leb_spec 0 (bsize x + i)); cbn [andb negb]; [|discriminate]. destruct (Z.ltb_spec (bsize x + i) (bsize x)); cbn [negb]; [lia|discriminate].
  - destruct (Z.leb_spec 0 i); cbn [andb negb]; [|discriminate]. destruct (Z.ltb_spec i (bsize x)); cbn [negb]; [lia|discriminate].
Qed.
Lemma set_vgood x i b : vgood x -> called progs (CSetBit i b) -> - bsize x0 <= i < bsize x0 ->
  exists y, BVModel.setitem x (IInt i) (VBool b) = Ok y /\ vgood y /\ vput (CSetBit i b) (ShVec y).
Proof.
  intros (E & W & P) C R. assert (B : bsize x = bsize x0) by (unfold bsize; now rewrite E).
  destruct (setitem_int_spec x i b (VBool b) W) as (y & Y1 & Y2 & Y3 & Y4); [lia|now left|].
  exists y. split; [exact Y1|]. rewrite B in Y4. split.
  2:{ intros i1 b1 y1 D1 D2. injection D1 as <- <-. injection D2 as <-. rewrite Y4 by (apply Z.mod_pos_bound; lia). now rewrite Z.eqb_refl. }
  split; [congruence|]. split; [exact Y3|]. intros j J. rewrite (Y4 j J).
  destruct (Z.eqb_spec j (i mod bsize x0)) as [->|N]; [|now apply P]. right. exists i. auto.
Qed.
Lemma getitem_from x i b : vgood x -> getitem_int x i = Ok b -> - bsize x0 <= i < bsize x0 /\ bit_from x0 progs (i mod bsize x0) b.
Proof.
  intros (E & W & P) G. assert (B : bsize x = bsize x0) by (unfold bsize; now rewrite E).
  assert (R : - bsize x0 <= i < bsize x0).
  { revert G. unfold getitem_int. cbv zeta. rewrite B. destruct (Z.ltb_spec i 0).
    - destruct (Z.leb_spec 0 (bsize x0 + i)); cbn [andb]; [|discriminate]. destruct (Z.ltb_spec (bsize x0 + i) (bsize x0)); [lia|discriminate].
    - destruct (Z.leb_spec 0 i); cbn [andb]; [|discriminate]. destruct (Z.ltb_spec i (bsize x0)); [lia|discriminate]. }
  split; [exact R|]. rewrite getitem_int_spec in G by (auto; lia). rewrite B in G. injection G as <-. apply P.
  apply Z.mod_pos_bound. lia.
Qed.
Lemma vec_start o c o' r : vobj o -> called progs c -> sh_start H o c = (o', r) -> vobj o' /\ result_ok vctl vlog c r.
Proof.
  intros (x & -> & G) C E. destruct c as [i b|i|k v|n v|i|u|n]; cbn [sh_start] in E.
  - destruct (set_index x i) as [i'|] eqn:I; cbn [bind] in E; [|injection E as <- <-; split; [eexists; eauto|intros ? ? ?; discriminate]].
    destruct (bvor x _) as [r0|] eqn:R; cbn [bind] in E; injection E as <- <-; (split; [eexists; eauto|]).
    + exists i, x, r0. split; [reflexivity|]. split; [rewrite <- I; symmetry; apply set_index_cls, G|]. auto.
    + intros ? ? ?; discriminate.
  - injection E as <- <-. split; [eexists; eauto|]. intros i1 b D A. injection D as <-. destruct (getitem_int x i) eqn:Q; [|discriminate]. injection A as <-. eapply getitem_from; eauto.
  - injection E as <- <-. split; [eexists; eauto|intros ? ? ?; discriminate].
  - injection E as <- <-. split; [eexists; eauto|intros ? ? ?; discriminate].
  - injection E as <- <-. split; [eexists; eauto|intros ? ? ?; discriminate].
  - injection E as <- <-. split; [eexists; eauto|intros ? ? ?; discriminate].
  - injection E as <- <-. split; [eexists; eauto|intros ? ? ?; discriminate].
Qed.
Lemma vec_resume o c ctl o' r : vobj o -> called progs c -> ctl <> SIdle -> vctl c ctl -> sh_resume o ctl = (o', r) -> vobj o' /\ result_ok vctl vlog c r.
Proof.
  intros (x & -> & G) C N P E. destruct ctl as [|i b r1|y|s|k|m]; try contradiction; cbn [vctl sh_resume] in *.
  - destruct P as (i0 & x1 & r0 & -> & I & G1 & R & ->). pose proof (set_index_range _ _ _ I) as RG.
    assert (M : set_mask x i = set_mask x1 i) by (unfold set_mask; now rewrite (proj1 G), (proj1 G1)).
    destruct (bvand x _) as [f|] eqn:F; injection E as <- <-; (split; [eexists; eauto|]); cbn [result_ok vctl]; [|intros ? ? ?; discriminate].
    destruct b.
    + destruct (set_vgood x1 i0 true G1 C RG) as (y & Y1 & Y2). rewrite setitem_vec, (set_index_cls x1 x0 i0 (proj1 G1)), I in Y1. cbn [bind] in Y1.
      rewrite R in Y1. cbn [bind] in Y1. destruct (bvand x1 _); cbn [bind] in Y1; [|discriminate]. injection Y1 as <-.
      rewrite (proj1 G), <- (proj1 G1). exact Y2.
    + destruct (set_vgood x i0 false G C RG) as (y & Y1 & Y2). rewrite setitem_vec, (set_index_cls x x0 i0 (proj1 G)), I in Y1. cbn [bind] in Y1.
      destruct (bvor x _); cbn [bind] in Y1; [|discriminate]. rewrite F in Y1. injection Y1 as <-. exact Y2.
  - injection E as <- <-. split; [eexists; split; [reflexivity|apply P]|]. intros ? ? ?; discriminate.
Qed.
Lemma vec_run l : pinv progs vobj vctl vlog (sh_run H (sh_spawn (ShVec x0) progs) l).
Proof.
  apply pinv_run; [exact vec_start|exact vec_resume|]. exists x0. split; [reflexivity|]. split; [reflexivity|]. split; [exact W0|]. intros j _. now left.
Qed.
Lemma vec_start_effect o c o' r : vobj o -> called progs c -> sh_start H o c = (o', r) -> effect vput o c o' r.
Proof.
  intros (x & -> & G) C E. left. destruct c as [i b|i|k v|n v|i|u|n]; cbn [sh_start] in E; try (injection E as <- <-; split; [reflexivity|discriminate]).
  - destruct (i' <- set_index x i ;; _) as [[? ?]|]; injection E as <- <-; (split; [reflexivity|discriminate]).
  - injection E as <- <-. split; [reflexivity|]. destruct (getitem_int x i); discriminate.
Qed.
Lemma vec_resume_effect o c ctl o' r : vobj o -> called progs c -> ctl <> SIdle -> vctl c ctl -> sh_resume o ctl = (o', r) -> effect vput o c o' r.
Proof.
  intros (x & -> & G) C N P E. destruct ctl as [|i b r1|y|s|k|m]; try contradiction; cbn [vctl sh_resume] in *.
  - left. destruct (bvand x _); injection E as <- <-; (split; [reflexivity|discriminate]).
  - right. injection E as <- <-. split; [reflexivity|apply P].
Qed.
Lemma vec_put l : put_inv vput (sh_run H (sh_spawn (ShVec x0) progs) l).
Proof.
  eapply put_run; [exact vec_start|exact vec_resume|exact vec_start_effect|exact vec_resume_effect|].
  exists x0. split; [reflexivity|]. split; [reflexivity|]. split; [exact W0|]. intros j _. now left.
Qed.
End Vec.

(** ** Tuples and Products *)
Lemma index_assoc {A} n (fs : list (string * A)) i : index_of n (map fst fs) = Some i -> exists u, nth_error fs i = Some (n, u) /\ assoc n fs = Some u.
Proof.
  revert i. induction fs as [|[m u] fs IH]; intros i E; cbn in E; [discriminate|]. cbn [assoc]. destruct (String.eqb_spec n m) as [->|N].
  - injection E as <-. exists u. auto.
  - destruct (index_of n (map fst fs)) as [j|]; [|discriminate]. injection E as <-. destruct (IH _ eq_refl) as (w & W1 & W2). exists w. auto.
Qed.
Section Tup.
Context (H : Z -> Z -> bool) (progs : list (list scall)) (t : ty) (k : nkind) (fs : list (string * ty)) (vs : list val).
Context (Ht : node_of t = Some (k, fs)) (Hk : tuple_like k).
Definition tgood (xs : list val) : Prop := Forall2 (fun f v => sub H (vtype v) (snd f) = true) fs xs /\ forall p v, nth_error xs p = Some v -> component_from vs progs fs p v.
Definition tobj (o : sobj) : Prop := exists b xs, o = ShAdt t (STup b xs) /\ tgood xs.
Definition tput (c : scall) (o : sobj) : Prop := forall p v b xs, assigns fs c p v -> o = ShAdt t (STup b xs) -> nth_error xs p = Some v.
Definition tctl (c : scall) (ctl : scontrol) : Prop := match ctl with SIdle => True | SStoreT s => exists b xs, s = STup b xs /\ tgood xs /\ tput c (ShAdt t (STup b xs)) | _ => False end.
Definition tlog (c : scall) (a : res sans) : Prop := forall i v, c = CGetItem i -> a = Ok (AVal v) ->
  exists p, (p < length fs)%nat /\ (i = Z.of_nat p \/ i = Z.of_nat p - Z.of_nat (length fs)) /\ component_from vs progs fs p v.
Lemma py_index_cases n i p : py_index n i = Ok p -> (p < n)%nat /\ (i = Z.of_nat p \/ i = Z.of_nat p - Z.of_nat n).
Proof.
  unfold py_index. cbv zeta. destruct (Z.ltb_spec i 0).
  - destruct (Z.leb_spec 0 (i + Z.of_nat n)); cbn [andb]; [|discriminate]. destruct (Z.ltb_spec (i + Z.of_nat n) (Z.of_nat n)); [|discriminate]. intros E. injection E as <-. lia.
  - destruct (Z.leb_spec 0 i); cbn [andb]; [|discriminate]. destruct (Z.ltb_spec i (Z.of_nat n)); [|discriminate]. intros E. injection E as <-. lia.
Qed.
Lemma set_tgood xs i v s c : tgood xs -> tuple_setitem H vtype fs xs i v = Ok s -> called progs c ->
  (forall p w, assigns fs c p w <-> (p < length fs)%nat /\ (i = Z.of_nat p \/ i = Z.of_nat p - Z.of_nat (length fs)) /\ w = v) ->
  exists b ys, s = STup b ys /\ tgood ys /\ tput c (ShAdt t (STup b ys)).
Proof.
  intros (F & P) E C A. pose proof (Forall2_length _ _ _ F) as L. unfold tuple_setitem in E. rewrite <- L in E. destruct (py_index (length fs) i) as [p|] eqn:I; cbn [bind] in E; [|discriminate].
  destruct (py_index_cases _ _ _ I) as (p1 & p2).
  destruct (isinstance _ _ _ _) eqn:S; [|discriminate]. injection E as <-.
  exists false, (update p v xs). split; [reflexivity|]. split; [split|].
  - apply Forall2_update with (d := (EmptyString, TLeaf LObject)); [exact F|exact p1|]. unfold isinstance, types in S. change (TLeaf LObject) with (snd (EmptyString, TLeaf LObject)) in S.
    rewrite map_nth in S. exact S.
  - intros q w Q. rewrite nth_update in Q. destruct (Nat.eqb_spec p q) as [->|N]; [|now apply P].
    destruct (nth_error xs q); [|discriminate]. injection Q as <-. right. exists c. split; [exact C|]. apply A. auto.
  - intros q w b ys B D. injection D as <- <-. apply A in B as (B1 & B2 & ->). assert (q = p) as -> by lia.
    rewrite nth_update, Nat.eqb_refl. destruct (nth_error xs p) eqn:Z; [reflexivity|]. apply nth_error_None in Z. lia.
Qed.
Lemma tup_start o c o' r : tobj o -> called progs c -> sh_start H o c = (o', r) -> tobj o' /\ result_ok tctl tlog c r.
Proof.
  intros (b & xs & -> & G) C E. assert (L : length fs = length xs) by (eapply Forall2_length; apply G).
  assert (O : tobj (ShAdt t (STup b xs))) by (exists b, xs; auto).
  destruct c as [i b0|i|kk v|n v|i|u|n]; cbn [sh_start] in E; try (injection E as <- <-; split; [exact O|intros ? ? ?; discriminate]).
  - destruct (ADTModel.setitem _ _ _ _ _ _) as [s|] eqn:S; injection E as <- <-; (split; [exact O|]); [|intros ? ? ?; discriminate].
    cbn [result_ok tctl].
    assert (Q : exists i, kk = IxInt i /\ tuple_setitem H vtype fs xs i v = Ok s).
    { unfold ADTModel.setitem in S. rewrite Ht in S. destruct k; try contradiction; destruct kk; try discriminate; try (eexists; split; [reflexivity|exact S]). destruct (assoc _ _); discriminate. }
    destruct Q as (i & -> & Q). apply (set_tgood _ _ _ _ _ G Q C). intros p w. cbn [assigns]. intuition.
  - destruct (setattr _ _ _ _ _ _) as [s|] eqn:S; injection E as <- <-; (split; [exact O|]); [|intros ? ? ?; discriminate].
    cbn [result_ok tctl].
    assert (Q : exists i, index_of n (map fst fs) = Some i /\ tuple_setitem H vtype fs xs (Z.of_nat i) v = Ok s).
    { unfold setattr in S. rewrite Ht in S. unfold names in S. destruct k; try contradiction; try discriminate.
      - destruct (index_of n (map fst fs)) as [i|] eqn:I; [|discriminate]. destruct (index_assoc _ _ _ I) as (u & U1 & U2). rewrite U2 in S. destruct (isinstance _ _ _ _); [|discriminate]. eauto.
      - destruct (index_of n (map fst fs)) as [i|] eqn:I; [|discriminate]. destruct (index_assoc _ _ _ I) as (u & U1 & U2). rewrite U2 in S. destruct (isinstance _ _ _ _); [|discriminate]. eauto. }
    destruct Q as (i & Q1 & Q). destruct (index_assoc _ _ _ Q1) as (u & U1 & U2).
    assert (i < length fs)%nat by (apply nth_error_Some; congruence).
    apply (set_tgood _ _ _ _ _ G Q C). intros p w. cbn [assigns]. rewrite Q1. split.
    + intros (D & ->). injection D as ->. auto.
    + intros (p1 & p2 & ->). split; [|reflexivity]. f_equal. lia.
  - injection E as <- <-. split; [exact O|]. intros j v D A. injection D as <-. unfold tup_get in A.
    destruct (py_index (length xs) i) as [p|] eqn:I; cbn [bind rmap] in A; [|discriminate]. destruct (nth_error xs p) as [w|] eqn:Q; [|discriminate]. injection A as <-.
    destruct (py_index_cases _ _ _ I) as (p1 & p2). rewrite <- L in *. exists p. split; [exact p1|]. split; [exact p2|]. now apply G.
Qed.
Lemma tup_resume o c ctl o' r : tobj o -> called progs c -> ctl <> SIdle -> tctl c ctl -> sh_resume o ctl = (o', r) -> tobj o' /\ result_ok tctl tlog c r.
Proof.
  intros (b & xs & -> & G) C N P E. destruct ctl as [|i b1 r1|y|s|kk|m]; try contradiction; cbn [tctl sh_resume] in *.
  destruct P as (b1 & ys & -> & G1 & _). injection E as <- <-. split; [exists b1, ys; auto|]. intros ? ? ?; discriminate.
Qed.
Lemma tup_run l b : Forall2 (fun f v => sub H (vtype v) (snd f) = true) fs vs -> pinv progs tobj tctl tlog (sh_run H (sh_spawn (ShAdt t (STup b vs)) progs) l).
Proof.
  intros F. apply pinv_run; [exact tup_start|exact tup_resume|]. exists b, vs. split; [reflexivity|]. split; [exact F|]. intros p v Q. now left.
Qed.
Lemma tup_start_effect o c o' r : tobj o -> called progs c -> sh_start H o c = (o', r) -> effect tput o c o' r.
Proof.
  intros (b & xs & -> & G) C E. left. destruct c as [i b0|i|kk v|n v|i|u|n]; cbn [sh_start] in E; try (injection E as <- <-; split; [reflexivity|discriminate]).
  - destruct (ADTModel.setitem _ _ _ _ _ _); injection E as <- <-; (split; [reflexivity|discriminate]).
  - destruct (setattr _ _ _ _ _ _); injection E as <- <-; (split; [reflexivity|discriminate]).
  - injection E as <- <-. split; [reflexivity|]. destruct (tup_get xs i); discriminate.
Qed.
Lemma tup_resume_effect o c ctl o' r : tobj o -> called progs c -> ctl <> SIdle -> tctl c ctl -> sh_resume o ctl = (o', r) -> effect tput o c o' r.
Proof.
  intros (b & xs & -> & G) C N P E. destruct ctl as [|i b1 r1|y|s|kk|m]; try contradiction; cbn [tctl sh_resume] in *.
  right. destruct P as (b1 & ys & -> & _ & G1). injection E as <- <-. split; [reflexivity|exact G1].
Qed.
Lemma tup_put l b : Forall2 (fun f v => sub H (vtype v) (snd f) = true) fs vs -> put_inv tput (sh_run H (sh_spawn (ShAdt t (STup b vs)) progs) l).
Proof.
  intros F. eapply put_run; [exact tup_start|exact tup_resume|exact tup_start_effect|exact tup_resume_effect|].
  exists b, vs. split; [reflexivity|]. split; [exact F|]. intros p v Q. now left.
Qed.
End Tup.

(** ** Sums *)
Section Sum.
Context (H : Z -> Z -> bool) (progs : list (list scall)) (t : ty) (fs : list (string * ty)) (x0 : val).
Context (Ht : node_of t = Some (KSum, fs)).
Definition sgood (x : val) : Prop := of_some_field H fs x /\ sum_from x0 progs x.
Definition sumobj (o : sobj) : Prop := exists x, o = ShAdt t (SSum x) /\ sgood x.
Definition sumctl (c : scall) (ctl : scontrol) : Prop := match ctl with SIdle | SMatch _ => True | _ => False end.
Definition sumlog (c : scall) (a : res sans) : Prop := forall m v, a = Ok (AMatch m v) -> sgood v.
Lemma sum_start o c o' r : sumobj o -> called progs c -> sh_start H o c = (o', r) -> sumobj o' /\ result_ok sumctl sumlog c r.
Proof.
  intros (x & -> & G) C E. assert (O : sumobj (ShAdt t (SSum x))) by (exists x; auto).
  destruct c as [i b0|i|kk v|n v|i|u|n]; cbn [sh_start] in E; try (injection E as <- <-; split; [exact O|intros ? ?; discriminate]).
  - destruct (ADTModel.setitem _ _ _ _ _ _) as [s|] eqn:S; injection E as <- <-; [|split; [exact O|intros ? ?; discriminate]].
    unfold ADTModel.setitem in S. rewrite Ht in S. destruct kk; try discriminate. destruct (existsb _ _) eqn:X; [|discriminate]. destruct (isinstance _ _ _ _) eqn:I; [|discriminate]. injection S as <-.
    split; [|intros ? ?; discriminate]. exists v. split; [reflexivity|]. split; [|right; eauto].
    apply existsb_exists in X as (w & X1 & X2). apply ty_eqb_eq in X2. subst w. unfold types in X1. apply in_map_iff in X1 as (f & <- & X1). exists f. auto.
  - destruct (sum_get _ _ _ _ _) as [[m y]|]; injection E as <- <-; (split; [exact O|]); [exact I|intros ? ?; discriminate].
Qed.
Lemma sum_resume o c ctl o' r : sumobj o -> called progs c -> ctl <> SIdle -> sumctl c ctl -> sh_resume o ctl = (o', r) -> sumobj o' /\ result_ok sumctl sumlog c r.
Proof.
  intros (x & -> & G) C N P E. destruct ctl; try contradiction. injection E as <- <-. split; [exists x; auto|]. intros m' v D. injection D as _ <-. exact G.
Qed.
Lemma sum_run l : of_some_field H fs x0 -> pinv progs sumobj sumctl sumlog (sh_run H (sh_spawn (ShAdt t (SSum x0)) progs) l).
Proof. intros F. apply pinv_run; [exact sum_start|exact sum_resume|]. exists x0. split; [reflexivity|]. split; [exact F|now left]. Qed.
Definition sput (c : scall) (o : sobj) : Prop := forall u v, c = CSetItem (IxTy u) v -> o = ShAdt t (SSum v).
Lemma sum_start_effect o c o' r : sumobj o -> called progs c -> sh_start H o c = (o', r) -> effect sput o c o' r.
Proof.
  intros (x & -> & G) C E. destruct c as [i b0|i|kk v|n v|i|u|n]; cbn [sh_start] in E; try (left; injection E as <- <-; split; [reflexivity|discriminate]).
  - destruct (ADTModel.setitem _ _ _ _ _ _) as [s|] eqn:S; injection E as <- <-; [|left; split; [reflexivity|discriminate]].
    right. split; [reflexivity|]. unfold ADTModel.setitem in S. rewrite Ht in S. destruct kk; try discriminate. destruct (existsb _ _); [|discriminate]. destruct (isinstance _ _ _ _); [|discriminate]. injection S as <-.
    intros u w D. injection D as _ <-. reflexivity.
  - left. destruct (sum_get _ _ _ _ _) as [[m y]|]; injection E as <- <-; (split; [reflexivity|discriminate]).
Qed.
Lemma sum_resume_effect o c ctl o' r : sumobj o -> called progs c -> ctl <> SIdle -> sumctl c ctl -> sh_resume o ctl = (o', r) -> effect sput o c o' r.
Proof.
  intros (x & -> & G) C N P E. destruct ctl; try contradiction. injection E as <- <-. left. split; [reflexivity|discriminate].
Qed.
Lemma sum_put l : of_some_field H fs x0 -> put_inv sput (sh_run H (sh_spawn (ShAdt t (SSum x0)) progs) l).
Proof.
  intros F. eapply put_run; [exact sum_start|exact sum_resume|exact sum_start_effect|exact sum_resume_effect|].
  exists x0. split; [reflexivity|]. split; [exact F|now left].
Qed.
End Sum.

(** ** TaggedUnions *)
Section Tag.
Context (H : Z -> Z -> bool) (progs : list (list scall)) (t : ty) (n0 : string) (e0 : Z) (fs : list (string * ty)) (a0 : nat) (x0 : val).
Context (Ht : node_of t = Some (KTag n0 e0, fs)).
Definition ggood (x : val) : Prop := of_some_field H fs x /\ field_from x0 progs x.
Definition kgood (k : nat) : Prop := (k < length fs)%nat /\ tag_from a0 progs fs k.
Definition tagobj (o : sobj) : Prop := exists a x, o = ShAdt t (STag a x) /\ kgood a /\ ggood x.
Definition tagctl (c : scall) (ctl : scontrol) : Prop := match ctl with SIdle | SMatch _ => True | SStoreTag k => kgood k | _ => False end.
Definition taglog (c : scall) (a : res sans) : Prop := forall m v, a = Ok (AMatch m v) -> ggood v.
Lemma tag_start o c o' r : tagobj o -> called progs c -> sh_start H o c = (o', r) -> tagobj o' /\ result_ok tagctl taglog c r.
Proof.
  intros (a & x & -> & K & G) C E. assert (O : tagobj (ShAdt t (STag a x))) by (exists a, x; auto).
  destruct c as [i b0|i|kk v|n v|i|u|n]; cbn [sh_start] in E; try (injection E as <- <-; split; [exact O|intros ? ?; discriminate]).
  - destruct (ADTModel.setitem _ _ _ _ _ _) as [s|] eqn:S; injection E as <- <-; (split; [exact O|]); intros ? ?; discriminate.
  - destruct (setattr _ _ _ _ _ _) as [s|] eqn:S; [|injection E as <- <-; split; [exact O|intros ? ?; discriminate]].
    unfold setattr in S. rewrite Ht in S. unfold tag_set, names in S. destruct (index_of n (map fst fs)) as [i|] eqn:I; [|discriminate].
    destruct (index_assoc _ _ _ I) as (u & U1 & U2). rewrite U2 in S. destruct (isinstance _ _ _ _) eqn:J; [|discriminate]. injection S as <-. injection E as <- <-.
    split.
    + exists a, v. split; [reflexivity|]. split; [exact K|]. split; [exists (n, u); split; [eapply nth_error_In; exact U1|exact J]|right; eauto].
    + split; [apply nth_error_Some; congruence|]. right. exists n, v. auto.
  - destruct (tag_get _ _ _) as [[m y]|]; injection E as <- <-; (split; [exact O|]); [exact I|intros ? ?; discriminate].
Qed.
Lemma tag_resume o c ctl o' r : tagobj o -> called progs c -> ctl <> SIdle -> tagctl c ctl -> sh_resume o ctl = (o', r) -> tagobj o' /\ result_ok tagctl taglog c r.
Proof.
  intros (a & x & -> & K & G) C N P E. destruct ctl; try contradiction; injection E as <- <-.
  - split; [exists k, x; auto|]. intros ? ?; discriminate.
  - split; [exists a, x; auto|]. intros m' v D. injection D as _ <-. exact G.
Qed.
Lemma tag_run l : of_some_field H fs x0 -> (a0 < length fs)%nat -> pinv progs tagobj tagctl taglog (sh_run H (sh_spawn (ShAdt t (STag a0 x0)) progs) l).
Proof. intros F L. apply pinv_run; [exact tag_start|exact tag_resume|]. exists a0, x0. split; [reflexivity|]. split; [split; [exact L|now left]|]. split; [exact F|now left]. Qed.
End Tag.

(** ** Serial calls on a TaggedUnion keep it well typed *)
Lemma seq_sound H o c : is_tagged o = true -> sound H o -> sound H (fst (seq_call H o c)).
Proof.
  intros T S. destruct o as [x|t [b xs|x|a x]]; try discriminate. destruct c as [i b0|i|kk v|n v|i|u|n]; try exact S; cbn [seq_call].
  - destruct (ADTModel.setitem _ _ _ _ _ _) as [s|] eqn:E; [|exact S]. exfalso. eapply setitem_tag. exact E.
  - destruct (setattr _ _ _ _ _ _) as [s|] eqn:E; cbn [rmap bind]; [|exact S]. cbn [fst sound].
    unfold setattr in E. destruct (node_of t) as [[k fs]|] eqn:N; [|discriminate].
    inversion S as [| |? n0 e0 fs' i f y N1 N2 N3]; subst. rewrite N in N1. injection N1 as -> ->.
    unfold tag_set, names in E. destruct (index_of n (map fst fs')) as [j|] eqn:I; [|discriminate].
    destruct (index_assoc _ _ _ I) as (u & U1 & U2). rewrite U2 in E. destruct (isinstance _ _ _ _) eqn:J; [|discriminate]. injection E as <-.
    eapply vok_tag; [exact N|exact U1|exact J].
Qed.
Lemma explains_sound H sk o log o' : is_tagged o = true -> explains H sk o log o' -> sound H o -> sound H o'.
Proof.
  revert o. induction log as [|((i & c) & r) log IH]; intros o T X S; [cbn in X; now subst|]. destruct X as (_ & X).
  apply (IH _ (eq_trans (seq_tagged H o c) T) X). now apply seq_sound.
Qed.
