(** Lemmas about objects shared by threads. *)
From Coq Require Import Lia.
From Verif Require Import PyBase BVModel BVSpec BVFacts BVOps ADTTy ADTTyFacts ADTModel ADTSpec ADTFacts ShareModel ShareSpec.

(** ** A call in progress *)
Definition mid (H : Z -> Z -> bool) (o : sobj) (c : scall) (ctl : scontrol) (o' : sobj) : Prop :=
  match ctl with
  | SIdle => o' = o
  | SAnd i b r => o' = o /\ exists x i0 r0, o = ShVec x /\ c = CSetBit i0 b /\ set_index x i0 = Ok i /\
                    bvor x (VBV (set_mask x i)) = Ok r0 /\ r = rv_val x r0
  | SStoreV y => o' = o /\ (exists x, o = ShVec x) /\ seq_call H o c = (ShVec y, Ok ADone)
  | SStoreT s => o' = o /\ exists t s0, o = ShAdt t s0 /\ seq_call H o c = (ShAdt t s, Ok ADone)
  | SStoreTag k => exists t a x y, o = ShAdt t (STag a x) /\ o' = ShAdt t (STag a y) /\ seq_call H o c = (ShAdt t (STag k y), Ok ADone)
  | SMatch m => o' = o /\ exists t s x, o = ShAdt t s /\ (s = SSum x \/ exists a, s = STag a x) /\ seq_call H o c = (o, Ok (AMatch m x))
  end.
Definition goes (H : Z -> Z -> bool) (o : sobj) (c : scall) (o' : sobj) (r : sout) : Prop :=
  match r with SEnd a => seq_call H o c = (o', a) | SGo ctl => ctl <> SIdle /\ mid H o c ctl o' end.

Lemma tag_set_tag {X} H (typ : X -> ty) fs n x s : tag_set H typ fs n x = Ok s -> exists k, s = STag k x.
Proof. unfold tag_set. destruct (index_of _ _); [|discriminate]. destruct (assoc _ _); [|discriminate]. destruct (isinstance _ _ _ _); [|discriminate]. intros E. injection E as <-. eauto. Qed.
Lemma setattr_tag {X} H (typ : X -> ty) t a x n v s : setattr H typ t (STag a x) n v = Ok s -> exists k, s = STag k v.
Proof.
  unfold setattr. destruct (node_of t) as [[k fs]|]; [|discriminate]. destruct k; try discriminate. apply tag_set_tag.
Qed.
Lemma setitem_tag {X} H (typ : X -> ty) t a x k v s : ADTModel.setitem H typ t (STag a x) k v = Ok s -> False.
Proof. unfold ADTModel.setitem. destruct (node_of t) as [[[]]|]; discriminate. Qed.
Lemma setitem_vec x i b : BVModel.setitem x (IInt i) (VBool b) =
  (i' <- set_index x i ;; r <- bvor x (VBV (set_mask x i')) ;; f <- bvand x (VBV (bvnot (set_mask x i'))) ;;
   Ok (BV (bcls x) (bval (mk (bcls x) (bval (if b then rv_val x r else rv_val x f)))))).
Proof.
  cbn [BVModel.setitem]. unfold setitem_int, set_index. cbn [bit_like negb]. cbv zeta.
  destruct (negb _) eqn:E; [reflexivity|]. cbn [bind]. unfold set_mask.
  destruct (bvor _ _); [|reflexivity]. cbn [bind]. destruct (bvand _ _); [|reflexivity]. reflexivity.
Qed.

Lemma start_goes H o c o' r : sh_start H o c = (o', r) -> goes H o c o' r.
Proof.
  intros E. destruct o as [x|t s].
  - destruct c as [i b|i|k v|n v|i|u|n]; cbn [sh_start] in E; try (injection E as <- <-; reflexivity).
    + destruct (set_index x i) as [i'|] eqn:I; cbn [bind] in *.
      2:{ injection E as <- <-. cbn [goes seq_call]. rewrite setitem_vec, I. reflexivity. }
      destruct (bvor x _) as [r0|] eqn:R; cbn [bind] in *.
      2:{ injection E as <- <-. cbn [goes seq_call]. rewrite setitem_vec, I. cbn [bind]. rewrite R. reflexivity. }
      injection E as <- <-. split; [discriminate|]. split; [reflexivity|]. exists x, i, r0. auto.
    + injection E as <- <-. cbn [goes seq_call]. cbn [getitem]. destruct (getitem_int x i); reflexivity.
  - destruct s as [b xs|x|a x]; destruct c as [i b0|i|k v|n v|i|u|n]; cbn [sh_start] in E; try (injection E as <- <-; reflexivity).
    + destruct (ADTModel.setitem _ _ _ _ _ _) eqn:S; injection E as <- <-.
      * split; [discriminate|]. split; [reflexivity|]. exists t, (STup b xs). split; [reflexivity|]. cbn [seq_call]. rewrite S. reflexivity.
      * cbn [goes seq_call]. rewrite S. reflexivity.
    + destruct (setattr _ _ _ _ _ _) eqn:S; injection E as <- <-.
      * split; [discriminate|]. split; [reflexivity|]. exists t, (STup b xs). split; [reflexivity|]. cbn [seq_call]. rewrite S. reflexivity.
      * cbn [goes seq_call]. rewrite S. reflexivity.
    + destruct (ADTModel.setitem _ _ _ _ _ _) eqn:S; injection E as <- <-; cbn [goes seq_call]; rewrite S; reflexivity.
    + destruct (sum_get _ _ _ _ _) as [[m y]|] eqn:S; injection E as <- <-.
      * split; [discriminate|]. split; [reflexivity|]. exists t, (SSum x), x. split; [reflexivity|]. split; [now left|]. cbn [seq_call]. rewrite S. cbn.
        revert S. unfold sum_get. destruct (node_of t) as [[? fs]|]; [|discriminate]. destruct (existsb _ _); [|discriminate]. intros S. injection S as _ <-. reflexivity.
      * cbn [goes seq_call]. rewrite S. reflexivity.
    + destruct (ADTModel.setitem _ _ _ _ _ _) eqn:S; injection E as <- <-; [now apply setitem_tag in S|]. cbn [goes seq_call]. rewrite S. reflexivity.
    + destruct (setattr _ _ _ _ _ _) as [s|] eqn:S.
      2:{ injection E as <- <-. cbn [goes seq_call]. rewrite S. reflexivity. }
      destruct (setattr_tag _ _ _ _ _ _ _ _ S) as (k & ->). injection E as <- <-. split; [discriminate|].
      exists t, a, x, v. split; [reflexivity|]. split; [reflexivity|]. cbn [seq_call]. rewrite S. reflexivity.
    + destruct (tag_get _ _ _) as [[m y]|] eqn:S; injection E as <- <-.
      * split; [discriminate|]. split; [reflexivity|]. exists t, (STag a x), x. split; [reflexivity|]. split; [right; eauto|]. cbn [seq_call]. rewrite S. cbn.
        revert S. unfold tag_get. destruct (node_of t) as [[? fs]|]; [|discriminate]. destruct (index_of _ _); [|discriminate]. intros S. injection S as _ <-. reflexivity.
      * cbn [goes seq_call]. rewrite S. reflexivity.
Qed.
Lemma resume_goes H o c ctl o' o'' r : mid H o c ctl o' -> ctl <> SIdle -> sh_resume o' ctl = (o'', r) -> goes H o c o'' r.
Proof.
  intros M N E. destruct ctl as [|i b r0|y|s|k|m]; [congruence| | | | |]; cbn [mid] in M.
  - destruct M as (-> & x & i0 & r1 & -> & -> & I & R & ->). cbn [sh_resume] in E.
    destruct (bvand x _) as [f|] eqn:F; injection E as <- <-.
    + split; [discriminate|]. split; [reflexivity|]. split; [eauto|]. cbn [seq_call]. rewrite setitem_vec, I. cbn [bind]. rewrite R. cbn [bind]. rewrite F. reflexivity.
    + cbn [goes seq_call]. rewrite setitem_vec, I. cbn [bind]. rewrite R. cbn [bind]. rewrite F. reflexivity.
  - destruct M as (-> & (x & ->) & S). injection E as <- <-. exact S.
  - destruct M as (-> & t & s0 & -> & S). cbn [sh_resume] in E. destruct s0; injection E as <- <-; exact S.
  - destruct M as (t & a & x & y & -> & -> & S). injection E as <- <-. exact S.
  - destruct M as (-> & t & s & x & -> & [->|(a & ->)] & S); injection E as <- <-; exact S.
Qed.

(** ** Logs *)
Lemma explains_app H sk o l o' : forall i c r, explains H sk o l o' -> (sk i c = true \/ snd (seq_call H o' c) = r) ->
  explains H sk o (l ++ [(i, c, r)]) (fst (seq_call H o' c)).
Proof.
  revert o. induction l as [|[[j d] q] l IH]; intros o i c r E K; cbn [explains app] in *.
  - subst o'. auto.
  - destruct E as (E1 & E2). split; [exact E1|]. now apply IH.
Qed.
Lemma nth_update {A} n m (a : A) l : nth_error (update n a l) m = if Nat.eqb n m then (match nth_error l m with Some _ => Some a | None => None end) else nth_error l m.
Proof. apply update_nth. Qed.

Lemma run_app H p l e : sh_run H p (l ++ [e]) = sh_event H (sh_run H p l) e.
Proof. unfold sh_run. now rewrite fold_left_app. Qed.
Lemma exclusive_app H p l e : exclusive H p (l ++ [e]) -> exclusive H p l /\
  match e with EStep i => forall j, j <> i -> outside (sh_run H p l) j | EInt _ => False end.
Proof.
  revert p. induction l as [|d l IH]; intros p E; cbn [exclusive app] in *; [cbn; tauto|]. destruct E as (E1 & E2). destruct (IH _ E2). auto.
Qed.

(** ** Calls that do not overlap *)
Definition linv (H : Z -> Z -> bool) (o0 : sobj) (p : spool) : Prop :=
  exists o, explains H no_skip o0 (p_log p) o /\
    (((forall j, outside p j) /\ p_obj p = o) \/
     exists i c l ctl, nth_error (p_thr p) i = Some (SThread (c :: l) ctl) /\ ctl <> SIdle /\ mid H o c ctl (p_obj p) /\ forall j, j <> i -> outside p j).
Lemma outside_upd p i t o l : (forall j, j <> i -> outside p j) -> forall j, (j <> i \/ s_ctl t = SIdle) -> outside (SPool o (update i t (p_thr p)) l) j.
Proof.
  intros F j K u Hu. cbn [p_thr] in Hu. rewrite nth_update in Hu. destruct (Nat.eqb_spec i j) as [->|N].
  - destruct (nth_error (p_thr p) j); [|discriminate]. injection Hu as <-. destruct K; [congruence|assumption].
  - apply (F j); [congruence|exact Hu].
Qed.
Lemma linv_step H o0 p i : linv H o0 p -> (forall j, j <> i -> outside p j) -> linv H o0 (sh_event H p (EStep i)).
Proof.
  intros (o & X & D) F. cbn [sh_event]. destruct (nth_error (p_thr p) i) as [[[|c l] ctl]|] eqn:T; [now exists o| |now exists o].
  assert (M : mid H o c ctl (p_obj p)).
  { destruct D as [(A & <-)|(k & d & m & ctl' & K1 & K2 & K3 & K4)].
    - specialize (A i _ T). cbn [s_ctl] in A. subst ctl. reflexivity.
    - destruct (Nat.eq_dec k i) as [->|N].
      + rewrite T in K1. injection K1 as -> -> ->. exact K3.
      + exfalso. apply K2. exact (F k N _ K1). }
  assert (G : forall o' r, (match ctl with SIdle => sh_start H (p_obj p) c | _ => sh_resume (p_obj p) ctl end) = (o', r) -> goes H o c o' r).
  { intros o' r E. destruct ctl; try (eapply resume_goes; [exact M|discriminate|exact E]). cbn [mid] in M. rewrite M in E. now apply start_goes. }
  destruct (match ctl with SIdle => _ | _ => _ end) as [o' r]. specialize (G _ _ eq_refl).
  destruct r as [a|ctl']; cbn [goes] in G.
  - exists o'. split.
    + cbn [p_log]. replace o' with (fst (seq_call H o c)) by now rewrite G. apply explains_app; [exact X|]. right. now rewrite G.
    + left. split; [|reflexivity]. intros j. apply outside_upd; [exact F|]. now right.
  - destruct G as (G1 & G2). exists o. split; [exact X|]. right. exists i, c, l, ctl'. cbn [p_thr p_obj].
    split; [rewrite nth_update, Nat.eqb_refl, T; reflexivity|]. split; [exact G1|]. split; [exact G2|].
    intros j N. apply outside_upd; [exact F|]. now left.
Qed.
Lemma linv_run H o progs l : exclusive H (sh_spawn o progs) l -> linv H o (sh_run H (sh_spawn o progs) l).
Proof.
  induction l as [|e l IH] using rev_ind; intros E.
  - exists o. split; [reflexivity|]. left. split; [|reflexivity]. intros j t Ht. cbn in Ht.
    rewrite nth_error_map in Ht. destruct (nth_error progs j); [|discriminate]. injection Ht as <-. reflexivity.
  - apply exclusive_app in E as (E1 & E2). rewrite run_app. destruct e as [i|i]; [|contradiction]. apply linv_step; auto.
Qed.

(** ** One writer *)
Definition winv (H : Z -> Z -> bool) (w : nat) (o0 : sobj) (p : spool) : Prop :=
  exists o, explains H (reader_skip w) o0 (p_log p) o /\ is_tagged o = is_tagged o0 /\
    (match nth_error (p_thr p) w with
     | Some (SThread (c :: l) ctl) => mid H o c ctl (p_obj p)
     | Some (SThread [] ctl) => ctl = SIdle /\ p_obj p = o
     | None => p_obj p = o
     end) /\
    forall i l ctl, i <> w -> nth_error (p_thr p) i = Some (SThread l ctl) ->
      (forall c, In c l -> is_get c = true) /\ (ctl = SIdle \/ exists m, ctl = SMatch m).
Lemma mid_obj H o c ctl o' : mid H o c ctl o' -> is_tagged o = false -> o' = o.
Proof.
  destruct ctl; cbn [mid]; try tauto. intros (t & a & x & y & -> & _). discriminate.
Qed.
Lemma mid_tagged H o c ctl o' : mid H o c ctl o' -> is_tagged o' = is_tagged o.
Proof.
  intros M. destruct ctl; cbn [mid] in M; try (destruct M as (-> & _); reflexivity); [now subst|].
  destruct M as (t & a & x & y & -> & -> & _). reflexivity.
Qed.
Lemma setitem_tagged {X} H (typ : X -> ty) t s k v s' : ADTModel.setitem H typ t s k v = Ok s' ->
  match s, s' with STup _ _, STup _ _ | SSum _, SSum _ | STag _ _, STag _ _ => True | _, _ => False end.
Proof.
  unfold ADTModel.setitem, tuple_setitem. intros E. destruct s as [b xs|x|a x].
  - assert (F : forall i fs, (p <- py_index (length fs) i ;; (if isinstance H typ v (nth p (types fs) (TLeaf LObject)) then q <- py_index (length xs) i ;; Ok (STup false (update q v xs)) else Raise ETypeError)) = Ok s' ->
        exists ys, s' = STup false ys).
    { intros i fs. destruct (py_index (length fs) i); cbn [bind]; [|discriminate]. destruct (isinstance _ _ _ _); [|discriminate].
      destruct (py_index (length xs) i); cbn [bind]; [|discriminate]. intros Q. injection Q as <-. eauto. }
    destruct (node_of t) as [[[] fs]|]; try discriminate; destruct k; try discriminate.
    + destruct (F _ _ E) as (ys & ->). exact I.
    + destruct (F _ _ E) as (ys & ->). exact I.
    + destruct (F _ _ E) as (ys & ->). exact I.
    + destruct (assoc _ _); discriminate.
  - destruct (node_of t) as [[[] fs]|]; try discriminate. destruct k; try discriminate. destruct (existsb _ _); [|discriminate].
    destruct (isinstance _ _ _ _); [|discriminate]. injection E as <-. exact I.
  - destruct (node_of t) as [[[] fs]|]; discriminate.
Qed.
Lemma setattr_tagged {X} H (typ : X -> ty) t s n v s' : setattr H typ t s n v = Ok s' ->
  match s, s' with STup _ _, STup _ _ | SSum _, SSum _ | STag _ _, STag _ _ => True | _, _ => False end.
Proof.
  intros E. destruct s as [b xs|x|a x].
  - unfold setattr in E. unfold tuple_setitem in E. destruct (node_of t) as [[[] fs]|]; try discriminate.
    all: destruct (index_of _ _); [|discriminate]; destruct (assoc _ _); [|discriminate]; destruct (isinstance _ _ _ _); [|discriminate];
      destruct (py_index _ _); cbn [bind] in E; [|discriminate]; destruct (isinstance _ _ _ _); [|discriminate];
      destruct (py_index _ _); cbn [bind] in E; [|discriminate]; injection E as <-; exact I.
  - unfold setattr in E. destruct (node_of t) as [[[] fs]|]; discriminate.
  - apply setattr_tag in E as (k & ->). exact I.
Qed.
Lemma seq_tagged H o c : is_tagged (fst (seq_call H o c)) = is_tagged o.
Proof.
  destruct o as [x|t s]; [destruct c; try reflexivity; cbn [seq_call]; destruct (BVModel.setitem _ _ _); reflexivity|].
  destruct s as [b xs|x|a x]; destruct c as [i b0|i|k v|n v|i|u|n]; try reflexivity; cbn [seq_call];
    match goal with
    | |- context [ADTModel.setitem ?a1 ?a2 ?a3 ?a4 ?a5 ?a6] => destruct (ADTModel.setitem a1 a2 a3 a4 a5 a6) as [s'|] eqn:S; [apply setitem_tagged in S; destruct s'; try contradiction; reflexivity|reflexivity]
    | |- context [setattr ?a1 ?a2 ?a3 ?a4 ?a5 ?a6] => destruct (setattr a1 a2 a3 a4 a5 a6) as [s'|] eqn:S; [apply setattr_tagged in S; destruct s'; try contradiction; reflexivity|reflexivity]
    end.
Qed.
Lemma seq_get H o c : is_get c = true -> fst (seq_call H o c) = o.
Proof. destruct c; try discriminate; intros _; destruct o as [x|t [b xs|x|a x]]; reflexivity. Qed.
Lemma start_get H o c o' r : is_get c = true -> sh_start H o c = (o', r) ->
  o' = o /\ match r with SGo ctl => exists m, ctl = SMatch m | SEnd a => is_match c = true \/
    forall o1, (o1 = o \/ is_tagged o = true /\ is_tagged o1 = true) -> snd (seq_call H o1 c) = a end.
Proof.
  intros G E. destruct c; try discriminate.
  - destruct o as [x|t s].
    + cbn [sh_start] in E. injection E as <- <-. split; [reflexivity|]. right. intros o1 [->|(? & ?)]; [|discriminate].
      cbn [seq_call snd getitem]. destruct (getitem_int x i); reflexivity.
    + destruct s; cbn [sh_start] in E; injection E as <- <-; (split; [reflexivity|]); right; intros o1 [->|(K1 & K2)]; try reflexivity; try discriminate.
      destruct o1 as [|? []]; try discriminate; reflexivity.
  - destruct o as [x|t s]; [cbn [sh_start] in E; injection E as <- <-; split; [reflexivity|]; right; intros o1 [->|(? & ?)]; [reflexivity|discriminate]|].
    destruct s; cbn [sh_start] in E; injection E as <- <-; (split; [reflexivity|]); right; intros o1 [->|(K1 & K2)]; try reflexivity; try discriminate.
    destruct o1 as [|? []]; try discriminate; reflexivity.
  - destruct o as [x|t [b xs|x|a x]]; cbn [sh_start] in E; try (injection E as <- <-; split; [reflexivity|]; now left).
    destruct (sum_get _ _ _ _ _) as [[m y]|]; injection E as <- <-; split; eauto.
  - destruct o as [x|t [b xs|x|a x]]; cbn [sh_start] in E; try (injection E as <- <-; split; [reflexivity|]; now left).
    destruct (tag_get _ _ _) as [[m y]|]; injection E as <- <-; split; eauto.
Qed.
Lemma resume_match o m o' r : sh_resume o (SMatch m) = (o', r) -> o' = o /\ exists a, r = SEnd a.
Proof. destruct o as [x|t [b xs|x|a x]]; cbn [sh_resume]; intros E; injection E as <- <-; eauto. Qed.
(** A Match in progress belongs to a call that returns one. *)
Definition matching (p : spool) : Prop := forall i c l m, nth_error (p_thr p) i = Some (SThread (c :: l) (SMatch m)) -> is_match c = true.
Lemma matching_step H p e : matching p -> matching (sh_event H p e).
Proof.
  intros M. destruct e as [i|i]; cbn [sh_event]; destruct (nth_error (p_thr p) i) as [[[|c l] ctl]|] eqn:T; try exact M.
  - destruct (match ctl with SIdle => _ | _ => _ end) as [o r] eqn:E. destruct r as [a|ctl']; intros j d k m Hj; cbn [p_thr] in Hj; rewrite nth_update in Hj;
      destruct (Nat.eqb_spec i j) as [->|N]; try (exact (M _ _ _ _ Hj)); rewrite T in Hj; [discriminate|]. injection Hj as <- <- ->.
    destruct ctl as [|i b r0|y|s|k|m'].
    + destruct (p_obj p) as [x|t [b xs|x|a x]], c; cbn [sh_start] in E; try discriminate; try reflexivity.
      all: try match type of E with context [match ?z with _ => _ end] => destruct z as [[? ?]|] end; try discriminate.
      all: try match type of E with context [match ?z with _ => _ end] => destruct z as [?|] end; try discriminate.
      all: try match type of E with context [match ?z with _ => _ end] => destruct z end; try discriminate.
    + destruct (p_obj p) as [x|t [b1 xs|x|a x]]; cbn [sh_resume] in E; try discriminate. destruct (bvand _ _); discriminate.
    + destruct (p_obj p) as [x|t [b1 xs|x|a x]]; cbn [sh_resume] in E; discriminate.
    + destruct (p_obj p) as [x|t [b1 xs|x|a x]]; cbn [sh_resume] in E; discriminate.
    + destruct (p_obj p) as [x|t [b1 xs|x|a x]]; cbn [sh_resume] in E; discriminate.
    + apply resume_match in E as (_ & a & E). discriminate.
  - intros j d k m Hj; cbn [p_thr] in Hj; rewrite nth_update in Hj. destruct (Nat.eqb_spec i j) as [->|N]; [rewrite T in Hj; discriminate|exact (M _ _ _ _ Hj)].
Qed.
Lemma matching_run H o progs l : matching (sh_run H (sh_spawn o progs) l).
Proof.
  induction l as [|e l IH] using rev_ind.
  - intros i c k m Hi. cbn in Hi. rewrite nth_error_map in Hi. destruct (nth_error progs i); discriminate.
  - rewrite run_app. now apply matching_step.
Qed.
Lemma upd_other {A} (w i : nat) (a : A) l : i <> w -> nth_error (update i a l) w = nth_error l w.
Proof. intros N. rewrite nth_update. destruct (Nat.eqb_spec i w); [congruence|reflexivity]. Qed.
Lemma winv_step H w o0 p e : winv H w o0 p -> matching p -> (is_tagged o0 = true -> e <> EInt w) -> winv H w o0 (sh_event H p e).
Proof.
  intros (o & X & Tg & W & R) MT NE. destruct e as [i|i].
  - cbn [sh_event]. destruct (nth_error (p_thr p) i) as [[[|c l] ctl]|] eqn:T; [now exists o| |now exists o].
    destruct (Nat.eq_dec i w) as [->|N].
    + rewrite T in W.
      assert (G : forall o' r, (match ctl with SIdle => sh_start H (p_obj p) c | _ => sh_resume (p_obj p) ctl end) = (o', r) -> goes H o c o' r).
      { intros o' r E. destruct ctl; try (eapply resume_goes; [exact W|discriminate|exact E]). cbn [mid] in W. rewrite W in E. now apply start_goes. }
      destruct (match ctl with SIdle => _ | _ => _ end) as [o' r]. specialize (G _ _ eq_refl).
      destruct r as [a|ctl']; cbn [goes] in G.
      * exists o'. cbn [p_log p_thr p_obj]. assert (O : o' = fst (seq_call H o c)) by now rewrite G.
        split; [rewrite O; apply explains_app; [exact X|]; right; now rewrite G|].
        split; [rewrite O, seq_tagged; exact Tg|].
        split; [rewrite nth_update, Nat.eqb_refl, T; destruct l; [now split|reflexivity]|].
        intros j m k Nj Hj. rewrite upd_other in Hj by congruence. exact (R _ _ _ Nj Hj).
      * destruct G as (G1 & G2). exists o. cbn [p_log p_thr p_obj]. split; [exact X|]. split; [exact Tg|].
        split; [rewrite nth_update, Nat.eqb_refl, T; exact G2|].
        intros j m k Nj Hj. rewrite upd_other in Hj by congruence. exact (R _ _ _ Nj Hj).
    + destruct (R _ _ _ N T) as (Rg & Rc).
      assert (TT : is_tagged (p_obj p) = is_tagged o /\ (is_tagged o = false -> p_obj p = o)).
      { destruct (nth_error (p_thr p) w) as [[[|d k] ctl']|]; [destruct W as (_ & ->); auto| |rewrite W; auto].
        split; [eapply mid_tagged; exact W|eapply mid_obj; exact W]. }
      destruct TT as (T1 & T2).
      assert (G : forall o' r, (match ctl with SIdle => sh_start H (p_obj p) c | _ => sh_resume (p_obj p) ctl end) = (o', r) ->
                o' = p_obj p /\ match r with SGo ctl => exists m, ctl = SMatch m | SEnd a => is_match c = true \/ snd (seq_call H o c) = a end).
      { intros o' r E. pose proof (Rg c (or_introl eq_refl)) as Gc. destruct Rc as [->|(m & ->)].
        - destruct (start_get _ _ _ _ _ Gc E) as (S1 & S2). split; [exact S1|]. destruct r as [a|ctl']; [|exact S2].
          destruct S2 as [S2|S2]; [now left|]. right. apply S2. destruct (is_tagged o) eqn:Q; [right; split; [now rewrite T1|reflexivity]|left; symmetry; auto].
        - apply resume_match in E as (E1 & a & ->). split; [exact E1|]. left. exact (MT _ _ _ _ T). }
      destruct (match ctl with SIdle => _ | _ => _ end) as [o' r]. destruct (G _ _ eq_refl) as (-> & G2).
      destruct r as [a|ctl'].
      * exists o. cbn [p_log p_thr p_obj]. pose proof (Rg c (or_introl eq_refl)) as Gc.
        assert (Q : explains H (reader_skip w) o0 (p_log p ++ [(i, c, a)]) (fst (seq_call H o c))).
        { apply explains_app; [exact X|]. unfold reader_skip. destruct G2 as [->|G2]; [left; cbn; destruct (Nat.eqb_spec i w); [congruence|reflexivity]|now right]. }
        rewrite (seq_get H o c Gc) in Q. split; [exact Q|].
        split; [exact Tg|]. split; [rewrite upd_other by congruence; exact W|].
        intros j m k Nj Hj. rewrite nth_update in Hj. destruct (Nat.eqb_spec i j) as [->|Nij]; [|exact (R _ _ _ Nj Hj)].
        rewrite T in Hj. injection Hj as <- <-. split; [intros d Hd; apply Rg; now right|now left].
      * exists o. cbn [p_log p_thr p_obj]. split; [exact X|]. split; [exact Tg|]. split; [rewrite upd_other by congruence; exact W|].
        intros j m k Nj Hj. rewrite nth_update in Hj. destruct (Nat.eqb_spec i j) as [->|Nij]; [|exact (R _ _ _ Nj Hj)].
        rewrite T in Hj. injection Hj as <- <-. split; [exact Rg|now right].
  - cbn [sh_event]. destruct (nth_error (p_thr p) i) as [[[|c l] ctl]|] eqn:T; [now exists o| |now exists o].
    exists o. cbn [p_log p_thr p_obj]. split; [exact X|]. split; [exact Tg|]. split.
    + destruct (Nat.eq_dec i w) as [->|N].
      * rewrite T in W. rewrite nth_update, Nat.eqb_refl, T. assert (Q : p_obj p = o).
        { apply (mid_obj H o c ctl); [exact W|]. rewrite Tg. destruct (is_tagged o0); [exfalso; now apply NE|reflexivity]. }
        destruct l; [now split|exact Q].
      * rewrite upd_other by congruence. exact W.
    + intros j m k Nj Hj. rewrite nth_update in Hj. destruct (Nat.eqb_spec i j) as [->|Nij]; [|exact (R _ _ _ Nj Hj)].
      rewrite T in Hj. injection Hj as <- <-. destruct (R _ _ _ Nj T) as (Rg & _). split; [intros d Hd; apply Rg; now right|now left].
Qed.
Lemma winv_run H w o progs l : one_writer w progs -> (is_tagged o = true -> ~ In (EInt w) l) -> winv H w o (sh_run H (sh_spawn o progs) l).
Proof.
  intros OW. induction l as [|e l IH] using rev_ind; intros NI.
  - exists o. split; [reflexivity|]. split; [reflexivity|]. cbn [sh_run fold_left sh_spawn p_thr p_obj]. split.
    + rewrite nth_error_map. destruct (nth_error progs w) as [[|c k]|]; cbn; auto.
    + intros i m ctl N Hi. rewrite nth_error_map in Hi. destruct (nth_error progs i) as [k|] eqn:K; [|discriminate]. injection Hi as <- <-.
      split; [intros c Hc; exact (OW _ _ _ N K Hc)|now left].
  - rewrite run_app. apply winv_step.
    + apply IH. intros T K. apply (NI T). apply in_or_app. now left.
    + apply matching_run.
    + intros T ->. apply (NI T). apply in_or_app. right. now left.
Qed.
