(** Invariants of heap programs: well-formedness, class stability, freshness. *)
From Coq Require Import Lia ZifyBool.
From Verif Require Import PyBase BVModel BVSpec BVFacts BVOps SliceFacts OpModel OpFacts HeapModel HeapSpec.

(** ** Results of single calls are well formed *)
Ltac chop := repeat match goal with
  | H : bind ?r _ = Ok _ |- _ => let E := fresh "E" in destruct r eqn:E; cbn [bind] in H; [|discriminate H]
  | H : rmap _ ?r = Ok _ |- _ => let E := fresh "E" in destruct r eqn:E; cbn [rmap] in H; [|discriminate H]
  | H : Ok _ = Ok _ |- _ => inv H
  | H : Raise _ = Ok _ |- _ => discriminate H
  | H : (if ?b then _ else _) = Ok _ |- _ => let E := fresh "E" in destruct b eqn:E
  end.

Lemma wf_size x : wf x -> 0 <= csize (bcls x).
Proof. now intros [H _]. Qed.
Lemma renew_wf x z : wf x -> wf (rv_val x (renew x z)).
Proof. intros H. now apply mk_wf, wf_size. Qed.

Lemma getitem_slice_wf x a b s y : getitem_slice x a b s = Ok y -> wf y.
Proof. unfold getitem_slice. intros H. chop. eapply construct_wf; eauto. Qed.
Lemma concat_wf x v y : concat x v = Ok y -> wf y.
Proof. unfold concat. destruct v; intros H; chop; try discriminate. eapply construct_wf; eauto. Qed.
Lemma repeat_wf x r y : bv_repeat x r = Ok y -> wf y.
Proof. unfold bv_repeat. intros H. chop. eapply construct_wf; eauto. Qed.
Lemma sext_wf x e y : sext x e = Ok y -> wf y.
Proof. unfold sext. intros H. chop. eapply concat_wf; eauto. Qed.
Lemma zext_wf x e y : zext x e = Ok y -> wf y.
Proof. unfold zext. intros H. chop. eapply concat_wf; eauto. Qed.
Lemma ext_wf x e y : ext x e = Ok y -> wf y.
Proof. unfold ext. destruct (bkind x); eauto using sext_wf, zext_wf. Qed.

Definition rv_ok (m : bv -> pyval -> res rv) : Prop :=
  forall x v r, wf x -> m x v = Ok r -> wf (rv_val x r).

Lemma rot_split_wf x k r : wf x -> rot_split x k = Ok r -> wf (rv_val x r).
Proof. unfold rot_split. intros Hx H. chop. cbn. eapply concat_wf; eauto. Qed.

Lemma cast_ok fn : (forall x y r, wf x -> fn x y = Ok r -> wf (rv_val x r)) -> rv_ok (bv_cast fn).
Proof. intros Hf x v r Hx H. unfold bv_cast in H. chop. eauto. Qed.

Lemma meth2_ok m : rv_ok (meth2_fn m).
Proof.
  assert (QN : forall f, rv_ok f -> rv_ok (fun x v => r <- f x v ;; Ok (New (bvnot (rv_val x r))))).
  { intros f Hf x v r Hx H. chop. apply Hf in E; auto. cbn [rv_val]. now apply mk_wf, wf_size. }
  assert (Q : forall m, match m with MNand | MNor | MXnor => True | _ => rv_ok (meth2_fn m) end).
  { intros []; cbn [meth2_fn]; auto; apply cast_ok; intros x y r Hx H; cbv zeta in H; chop; auto using renew_wf;
      try (eapply rot_split_wf; eauto; fail).
    cbn. eapply construct_wf; eauto. }
  destruct m; try (exact (Q MAnd)) ; try (match goal with |- rv_ok (meth2_fn ?m) => exact (Q m) end).
  - apply (QN bvand), (Q MAnd).
  - apply (QN bvor), (Q MOr).
  - apply (QN bvxor), (Q MXor).
Qed.

Lemma op_method_meth op k : exists m, op_method op k = meth2_fn m.
Proof.
  destruct op; [exists MAnd|exists MOr|exists MXor|exists MShl| |exists MAdd|exists MSub|exists MMul| |]; auto.
  - destruct k; [exists MLshr|exists MLshr|exists MLshr|exists MAshr]; auto.
  - destruct k; [exists MUdiv|exists MUdiv|exists MUdiv|exists MSdiv]; auto.
  - destruct k; [exists MUrem|exists MUrem|exists MUrem|exists MSrem]; auto.
Qed.

Lemma op_method_ok op k : rv_ok (op_method op k).
Proof. destruct (op_method_meth op k) as [m ->]. apply meth2_ok. Qed.

(** An operator result is new and well formed, or one of the operands. *)
Definition oret_wf (r : oret) : Prop := match r with ONew v => arg_wf v | _ => True end.

Lemma dispatch_wf m x v r : rv_ok m -> wf x -> dispatch_oper m x v = Ok r -> oret_wf r.
Proof.
  intros Hm Hx. unfold dispatch_oper. destruct (m x v) as [[y|]|e] eqn:E.
  - intros H; inv H. cbn. exact (Hm _ _ _ Hx E).
  - intros H; inv H. exact I.
  - destruct e; intros H; inv H; exact I.
Qed.
Lemma roper_wf op k x v r : wf x -> arg_wf v -> dispatch_roper op k x v = Ok r -> oret_wf r.
Proof.
  intros Hx Hv. unfold dispatch_roper. destruct (coerce (bcls x) v) as [o|] eqn:E; [|discriminate].
  destruct (coerce_wf _ _ _ (wf_size x Hx) Hv E) as [Ho _].
  destruct (dispatch_oper (op_method op k) o (VBV x)) as [[| | |w]|e] eqn:F; destruct v; intros H; inv H; try exact I; try (cbn; exact Ho);
    exact (dispatch_wf _ _ _ _ (op_method_ok op k) Ho F).
Qed.
Lemma reflected_wf op x v r : wf x -> arg_wf v -> reflected op x v = Ok r -> oret_wf r.
Proof.
  intros Hx Hv. unfold reflected.
  assert (Q : forall k, dispatch_roper op k x v = Ok r -> oret_wf r) by (intros; eapply roper_wf; eauto).
  assert (R : match dispatch_oper bvlshr x v with Ok OLeft => Ok ORight | r => r end = Ok r -> oret_wf r).
  { destruct (dispatch_oper bvlshr x v) as [[| | |w]|] eqn:F; intros H; inv H; try exact I.
    exact (dispatch_wf _ _ _ _ (meth2_ok MLshr) Hx F). }
  destruct op; try apply Q; destruct (bkind x); auto; apply Q.
Qed.
Lemma bit_method_wf op b v r : bit_method op b v = Ok r \/ bit_rmethod op b v = Ok r -> oret_wf r.
Proof.
  unfold bit_method, bit_rmethod. destruct (bit_fn op); [|intros [H|H]; inv H; exact I].
  destruct (bit_init v) as [|e]; [intros [H|H]; inv H; exact I|].
  destruct (is_type_error e); intros [H|H]; inv H; exact I.
Qed.

Lemma first_of_wf l r : first_of l = Ok r -> (forall m, In m l -> forall r, m tt = Ok r -> oret_wf r) -> oret_wf r.
Proof.
  induction l as [|m l IH]; cbn [first_of]; [discriminate|]. intros H Hl.
  destruct (m tt) as [[| | |w]|] eqn:E; try (inv H); try exact I.
  - apply IH; auto. intros m' Hm'. apply Hl. now right.
  - apply (Hl m); auto. now left.
Qed.

Lemma py_binop_wf op a b r : arg_wf a -> arg_wf b -> py_binop op a b = Ok r -> oret_wf r.
Proof.
  intros Ha Hb H.
  assert (QF : forall x v r, wf x -> forward op x v = Ok r -> oret_wf r)
    by (intros x v r'; intros; eapply dispatch_wf; eauto; apply op_method_ok).
  assert (QR : forall x v r, wf x -> arg_wf v -> reflected op x v = Ok r -> oret_wf r)
    by (intros; eapply reflected_wf; eauto).
  assert (QB : forall x v r, bit_method op x v = Ok r -> oret_wf r)
    by (intros; eapply bit_method_wf; eauto).
  assert (QBR : forall x v r, bit_rmethod op x v = Ok r -> oret_wf r)
    by (intros; eapply bit_method_wf; eauto).
  unfold py_binop in H.
  destruct a, b; try discriminate;
    repeat match type of H with
    | (if ?c then _ else _) = _ => destruct c
    | match op with _ => _ end = _ => destruct op; try discriminate
    end;
    eapply first_of_wf; try exact H; cbn [In]; intros m Hm r' Hr';
    repeat match goal with
    | H : _ \/ _ |- _ => destruct H
    | H : False |- _ => destruct H
    end; subst m; cbn beta in Hr'; eauto.
Qed.

Lemma py_cmp_wf c a b r : py_cmp c a b = Ok r -> exists v, r = ONew v /\ arg_wf v.
Proof.
  assert (F : forall c x v r, cmp_forward c x v = Ok r -> r = NotImpl \/ exists v, r = ONew v /\ arg_wf v).
  { intros c' x v r'. unfold cmp_forward. destruct (cmp_method c' (bkind x) x v) as [|[]]; intros H; inv H; eauto;
    right; eexists; split; eauto; exact I. }
  assert (B : forall c x v r, bit_cmp c x v = Ok r -> r = NotImpl \/ exists v, r = ONew v /\ arg_wf v).
  { intros c' x v r'. unfold bit_cmp. destruct c'; try (intros H; inv H; auto; fail);
    (destruct (bit_init v) as [|e]; [|destruct (is_type_error e)]); intros H; inv H; auto;
    right; eexists; split; eauto; exact I. }
  assert (L : forall l r, cmp_first_of c l = Ok r ->
     (forall m, In m l -> forall r, m tt = Ok r -> r = NotImpl \/ exists v, r = ONew v /\ arg_wf v) ->
     exists v, r = ONew v /\ arg_wf v).
  { induction l as [|m l IH]; intros r' H Hl.
    - cbn in H. destruct c; inv H; eexists; split; eauto; exact I.
    - cbn in H. destruct (m tt) as [o|] eqn:E; [|discriminate].
      destruct (Hl m (or_introl eq_refl) o E) as [->|(v & -> & Hv)].
      + apply IH; auto. intros m' Hm'. apply Hl. now right.
      + inv H. eauto. }
  intros H. unfold py_cmp in H.
  destruct a, b; try discriminate; try match type of H with (if ?c then _ else _) = _ => destruct c end;
    eapply L; try exact H; cbn [In]; intros m Hm r' Hr';
    repeat match goal with
    | H : _ \/ _ |- _ => destruct H
    | H : False |- _ => destruct H
    end; subst m; cbn beta in Hr'; eauto.
Qed.

Lemma adc_wf x v c p : wf x -> adc x v c = Ok p -> wf (fst p).
Proof. unfold adc. intros Hx H. chop. cbn [fst]. eapply getitem_slice_wf; eauto. Qed.
Lemma random_wf k d n y : bv_random k d n = Ok y -> wf y.
Proof.
  unfold bv_random. destruct k; intros H; try (eapply construct_wf; eauto; fail). chop.
  apply sized_inv in E as [Hn ->]. exact (bv_init_wf (BVC KSInt n) _ _ Hn H).
Qed.
Lemma implicit_wf k v y : construct_implicit k v = Ok y -> wf y.
Proof. unfold construct_implicit. intros H. chop. eapply construct_wf; eauto. Qed.
Lemma make_constant_wf x v n y : wf x -> make_constant (bcls x) v n = Ok y -> wf y.
Proof.
  unfold make_constant. intros Hx. destruct n; intros H; [eapply construct_wf; eauto|].
  eapply bv_init_wf; eauto using wf_size.
Qed.
Lemma getitem_wf x i v : getitem x i = Ok v -> arg_wf v.
Proof.
  unfold getitem. destruct i; intros H; chop; try exact I. cbn. eapply getitem_slice_wf; eauto.
Qed.
Lemma setitem_wf x i v y : wf x -> setitem x i v = Ok y -> wf y /\ bcls y = bcls x.
Proof.
  intros Hx. unfold setitem, setitem_int. destruct i; intros H; cbv zeta in H; chop.
  split; [|reflexivity]. change (wf (mk (bcls x) (bval (if a1 then rv_val x a else rv_val x a0)))).
  now apply mk_wf, wf_size.
Qed.

(** ** Heap invariant *)
(** All references are below n. *)
Fixpoint below (n : nat) (v : hval) : Prop :=
  match v with
  | HRef r => (r < n)%nat
  | HList l => (fix all (l : list hval) : Prop := match l with [] => True | v :: l => below n v /\ all l end) l
  | HImm _ => True
  end.
Fixpoint hval_ind' (P : hval -> Prop) (Hr : forall r, P (HRef r)) (Hl : forall l, Forall P l -> P (HList l))
  (Hi : forall v, P (HImm v)) (v : hval) : P v :=
  match v with
  | HRef r => Hr r
  | HList l => Hl l ((fix go l : Forall P l := match l with
                       | [] => Forall_nil P
                       | v :: l => Forall_cons v (hval_ind' P Hr Hl Hi v) (go l) end) l)
  | HImm v => Hi v
  end.
Fixpoint pyval_ind' (P : pyval -> Prop) (H0 : forall v, match v with VSeq _ => True | _ => P v end)
  (Hl : forall l, Forall P l -> P (VSeq l)) (v : pyval) : P v :=
  match v with
  | VSeq l => Hl l ((fix go l : Forall P l := match l with
                       | [] => Forall_nil P
                       | v :: l => Forall_cons v (pyval_ind' P H0 Hl v) (go l) end) l)
  | v => H0 v
  end.

Lemma below_list n l : below n (HList l) <-> Forall (below n) l.
Proof.
  induction l; cbn; [split; auto|]. rewrite <- Forall_cons_iff || idtac.
  split; [intros [A B]; constructor; auto; now apply IHl|intros H; inv H; split; auto; now apply IHl].
Qed.
Lemma arg_wf_list l : arg_wf (VSeq l) <-> Forall arg_wf l.
Proof.
  induction l; cbn; [split; auto|].
  split; [intros [A B]; constructor; auto; now apply IHl|intros H; inv H; split; auto; now apply IHl].
Qed.
Lemma below_mono n m v : (n <= m)%nat -> below n v -> below m v.
Proof.
  intros Hnm. induction v as [r|l IH|v] using hval_ind'; [cbn; lia| |auto].
  rewrite !(below_list _ l). intros H. apply Forall_forall. intros v Hv.
  rewrite Forall_forall in IH, H. auto.
Qed.

Definition inv_ok (s : state) : Prop :=
  Forall wf (st_heap s) /\ Forall (below (length (st_heap s))) (st_env s).

Lemma deref_wf h v : Forall wf h -> arg_wf (deref h v).
Proof.
  intros Hh. induction v as [r|l IH|v] using hval_ind'; cbn [deref].
  - destruct (nth_error h r) eqn:E; [|exact I]. cbn. rewrite Forall_forall in Hh. eapply Hh, nth_error_In, E.
  - apply arg_wf_list. induction IH; cbn [map]; auto.
  - destruct v; exact I.
Qed.

Lemma fresh_list n l : fresh_from n (HList l) <-> Forall (fresh_from n) l.
Proof.
  induction l; cbn; [split; auto|].
  split; [intros [A B]; constructor; auto; now apply IHl|intros H; inv H; split; auto; now apply IHl].
Qed.
Lemma fresh_mono n m v : (n <= m)%nat -> fresh_from m v -> fresh_from n v.
Proof.
  intros Hnm. induction v as [r|l IH|v] using hval_ind'; [cbn; lia| |auto].
  rewrite !(fresh_list _ l). intros H. apply Forall_forall. intros v Hv.
  rewrite Forall_forall in IH, H. auto.
Qed.

Lemma alloc_spec v : forall h h' a, alloc h v = (h', a) -> arg_wf v ->
  exists e, h' = h ++ e /\ Forall wf e /\ below (length h') a /\ fresh_from (length h) a /\ deref h' a = v.
Proof.
  revert v. refine (pyval_ind' _ _ _).
  - intros v. destruct v; try exact I; cbn [alloc]; intros h h' a H Hw; inv H; try (exists []; rewrite app_nil_r; repeat split; auto; fail).
    exists [x]. repeat split; auto.
    + cbn. rewrite app_length. cbn. lia.
    + cbn. lia.
    + cbn [deref]. rewrite nth_error_app2 by lia. now rewrite Nat.sub_diag.
  - intros l IH h h' a H Hw. apply arg_wf_list in Hw. cbn [alloc] in H.
    set (go := fix go (h : heap) (l : list pyval) : heap * list hval :=
        match l with
        | [] => (h, [])
        | v :: l => let (h, a) := alloc h v in let (h, l) := go h l in (h, a :: l)
        end) in *.
    assert (Q : forall h h' hl, go h l = (h', hl) ->
       exists e, h' = h ++ e /\ Forall wf e /\ Forall (below (length h')) hl /\
         Forall (fresh_from (length h)) hl /\ map (deref h') hl = l).
    { clear H h h' a. induction l as [|v l IHl]; intros h h' hl H; cbn [go] in H.
      - inv H. exists []. rewrite app_nil_r. auto.
      - inv IH. inv Hw. destruct (alloc h v) as [h1 a1] eqn:E1.
        destruct (go h1 l) as [h2 l2] eqn:E2. inv H.
        destruct (H2 _ _ _ E1 H4) as (e1 & -> & W1 & B1 & F1 & D1).
        destruct (IHl H3 H5 _ _ _ E2) as (e2 & -> & W2 & B2 & F2 & D2).
        exists (e1 ++ e2). rewrite app_assoc. repeat split; auto.
        + now apply Forall_app.
        + constructor; auto. eapply below_mono; [|exact B1]. rewrite (app_length (h ++ e1)). lia.
        + constructor; auto. eapply Forall_impl; [|exact F2]. intros z. apply fresh_mono. rewrite app_length. lia.
        + cbn [map]. f_equal; auto. rewrite <- D1.
          assert (Z : forall v, below (length (h ++ e1)) v -> deref ((h ++ e1) ++ e2) v = deref (h ++ e1) v).
          { induction v0 as [r|l0 IH0|v0] using hval_ind'; cbn [deref]; auto.
            - cbn [below]. intros. now rewrite nth_error_app1.
            - rewrite below_list. intros HB. f_equal. apply map_ext_in. intros w Hin.
              rewrite Forall_forall in IH0, HB. auto. }
          now apply Z. }
    destruct (go h l) as [h1 l1] eqn:E. inv H.
    destruct (Q _ _ _ E) as (e & -> & W & B & F & D). exists e. repeat split; auto.
    + now apply below_list.
    + now apply fresh_list.
    + cbn [deref]. now rewrite D.
Qed.

Lemma on_bv_ok {A} h env x (k : bv -> res A) r : Forall wf h -> on_bv h env x k = Ok r ->
  exists b, wf b /\ deref h (var env x) = VBV b /\ k b = Ok r.
Proof.
  intros Hh. unfold on_bv. pose proof (deref_wf h (var env x) Hh) as W.
  destruct (deref h (var env x)); try discriminate. intros H. eauto.
Qed.

Lemma eval_wf h env c v : Forall wf h -> eval h env c = Ok (CNew v) -> arg_wf v.
Proof.
  intros Hh H. unfold eval in H. cbv zeta in H.
  assert (N : forall r, new_bv r = Ok (CNew v) -> exists y, r = Ok y /\ v = VBV y).
  { intros [y|]; cbn; intros E; inv E; eauto. }
  assert (O : forall a b r, (forall w, r = ONew w -> arg_wf w) -> of_oret a b r = Ok (CNew v) -> arg_wf v).
  { intros a b [] Hr E; inv E; auto. }
  destruct c;
    try (apply on_bv_ok in H as (b & Wb & Db & H); [|assumption]);
    try (apply N in H as (y & H & ->); cbn [arg_wf];
         eauto using implicit_wf, make_constant_wf, concat_wf, repeat_wf, sext_wf, zext_wf, ext_wf, random_wf; fail).
  - inv H. now destruct v0.
  - inv H. exact I.
  - inv H. exact I.
  - apply N in H as (y & H & ->). eapply construct_wf; eauto.
  - destruct (py_binop op _ _) eqn:E; cbn [bind] in H; [|discriminate].
    eapply O; [|exact H]. intros w ->. apply (py_binop_wf op _ _ _ (deref_wf h _ Hh) (deref_wf h _ Hh) E).
  - destruct (py_cmp c _ _) eqn:E; cbn [bind] in H; [|discriminate].
    eapply O; [|exact H]. apply py_cmp_wf in E as (w & -> & Hw). intros w' Ew. now inv Ew.
  - chop. destruct a0; cbn in H1; inv H1. cbn. exact (meth2_ok m _ _ _ Wb E).
  - inv H. cbn. now apply mk_wf, wf_size.
  - inv H. cbn. now apply mk_wf, wf_size.
  - chop. eapply getitem_wf; eauto.
  - chop. cbn. split; auto. eapply adc_wf; eauto.
  - inv H. apply arg_wf_list. apply Forall_map, Forall_forall. intros z _. exact I.
  - inv H. exact I.
  - chop. exact I.
  - chop. apply on_bv_ok in H as (x & Wx & Dx & H); auto. apply on_bv_ok in H as (y & Wy & Dy & H); auto.
    destruct (cls_eqb (bcls x) (bcls y)); [|discriminate]. apply N in H as (z & H & ->). cbn.
    exact (bv_init_wf _ _ _ (wf_size x Wx) H).
  - inv H. exact I.
Qed.

Lemma var_below s x : inv_ok s -> below (length (st_heap s)) (var (st_env s) x).
Proof.
  intros [_ He]. unfold var. destruct (nth_in_or_default x (st_env s) (HImm (LOther None None true))) as [H|H].
  - rewrite Forall_forall in He. auto.
  - rewrite H. exact I.
Qed.

Lemma update_length {A} (l : list A) i a : length (update l i a) = length l.
Proof. revert i. induction l; intros []; cbn; auto. Qed.
Lemma update_same {A} (l : list A) i a : (i < length l)%nat -> nth_error (update l i a) i = Some a.
Proof. revert i. induction l; intros [] H; cbn in *; auto; try lia. apply IHl. lia. Qed.
Lemma update_other {A} (l : list A) i j a : i <> j -> nth_error (update l i a) j = nth_error l j.
Proof. revert i j. induction l; intros [] [] H; cbn; auto; try congruence. Qed.
Lemma update_Forall {A} (P : A -> Prop) l i a : P a -> Forall P l -> Forall P (update l i a).
Proof. intros Ha H. revert i. induction H; intros []; cbn; constructor; auto. Qed.

(** One call keeps the invariant, keeps existing objects' classes and only appends objects. *)
Lemma step_ok s c : inv_ok s ->
  inv_ok (step s c) /\
  forall r b, nth_error (st_heap s) r = Some b ->
    exists b', nth_error (st_heap (step s c)) r = Some b' /\ bcls b' = bcls b.
Proof.
  intros Hs. pose proof Hs as [Hh He].
  assert (Same : forall r b, nth_error (st_heap s) r = Some b ->
     exists b', nth_error (st_heap s) r = Some b' /\ bcls b' = bcls b) by eauto.
  assert (G : forall r, eval (st_heap s) (st_env s) c = r ->
    let s' := match r with
      | Ok (CAlias x) => State (st_heap s) (st_env s ++ [var (st_env s) x])
      | Ok (CNew v) => let (h', a) := alloc (st_heap s) v in State h' (st_env s ++ [a])
      | Raise _ => s end in
    inv_ok s' /\ forall r b, nth_error (st_heap s) r = Some b ->
      exists b', nth_error (st_heap s') r = Some b' /\ bcls b' = bcls b).
  { intros [[x|v]|e] E; cbv zeta; auto.
    - split; [|auto]. split; [exact Hh|]. cbn [st_heap st_env]. apply Forall_app. split; auto.
      constructor; auto. now apply var_below.
    - destruct (alloc (st_heap s) v) as [h' a] eqn:F.
      destruct (alloc_spec _ _ _ _ F (eval_wf _ _ _ _ Hh E)) as (e & -> & W & B & _ & _).
      split; [split|]; cbn [st_heap st_env].
      + now apply Forall_app.
      + apply Forall_app. split; [|constructor; auto]. eapply Forall_impl; [|exact He].
        intros z. apply below_mono. rewrite app_length. lia.
      + intros r b Hr. exists b. split; auto. rewrite nth_error_app1; auto. apply nth_error_Some. congruence. }
  destruct c; try (exact (G _ eq_refl)); cbn [step].
  - split; [|auto]. split; [exact Hh|]. cbn [st_heap st_env]. apply Forall_app. split; auto.
    constructor; auto. apply below_list. apply Forall_forall. intros v Hv.
    apply in_map_iff in Hv as (x & <- & _). now apply var_below.
  - pose proof (var_below s x Hs) as Hb. destruct (var (st_env s) x) as [| l |] eqn:Ev; auto.
    destruct (nth_error l i) as [v|] eqn:Ei; auto. split; [|auto]. split; [exact Hh|]. cbn [st_heap st_env].
    apply Forall_app. split; auto. constructor; auto. apply below_list in Hb. rewrite Forall_forall in Hb.
    eapply Hb, nth_error_In, Ei.
  - destruct (var (st_env s) x) as [r| |] eqn:Ev; auto.
    destruct (nth_error (st_heap s) r) as [b|] eqn:Er; auto.
    destruct (setitem b i _) as [b'|] eqn:Es; auto.
    assert (Wb : wf b) by (rewrite Forall_forall in Hh; eapply Hh, nth_error_In, Er).
    destruct (setitem_wf _ _ _ _ Wb Es) as [W C].
    split; [split|]; cbn [st_heap st_env].
    + now apply update_Forall.
    + now rewrite update_length.
    + intros r' b0 Hr'. destruct (Nat.eq_dec r r') as [<-|N].
      * exists b'. rewrite update_same; [|apply nth_error_Some; congruence]. split; auto. congruence.
      * exists b0. now rewrite update_other.
Qed.

(** ** Aliasing *)
Lemma coerce_operand_inv c v y : 0 <= csize c -> arg_wf v -> coerce c v = Ok y -> operand (csize c) v (bval y).
Proof.
  intros Hc Hw H. destruct v as [| | |z| | |]; cbn [coerce] in H;
    try (apply Op_conv; [discriminate|now apply bv_init_converts_inv]).
  destruct (Z.eqb_spec (bsize z) (csize c)); cbn [negb] in H; inv H. now apply Op_bv.
Qed.

Lemma cast_self fn x v : wf x -> arg_wf v -> bv_cast fn x v = Ok Self ->
  exists y, operand (bsize x) v (bval y) /\ wf y /\ bsize y = bsize x /\ fn x y = Ok Self.
Proof.
  intros Hx Hv H. unfold bv_cast in H. chop. exists a.
  pose proof (coerce_wf _ _ _ (wf_size x Hx) Hv E) as [Wa Sa].
  pose proof (coerce_operand_inv _ _ _ (wf_size x Hx) Hv E). auto.
Qed.

Lemma as_sint_0 y : wf y -> as_sint y = Ok 0 -> bval y = 0.
Proof.
  intros Hy H. destruct (Z.eq_dec (bsize y) 0) as [E|E]; [rewrite as_sint_zero in H by auto; discriminate|].
  destruct Hy as [H1 H2]. fold (bsize y) in *.
  rewrite as_sint_spec in H by (auto; try (split; auto); lia). injection H as H.
  pose proof (signed_zero (bsize y) (bval y)). lia.
Qed.

Lemma meth_self m x v : wf x -> arg_wf v -> meth2_fn m x v = Ok Self ->
  (m = MUrem \/ m = MSrem) /\ operand (bsize x) v 0.
Proof.
  intros Hx Hv H. destruct m; cbn [meth2_fn] in H;
    try (unfold bvnand, bvnor, bvxnor in H; chop; discriminate);
    apply cast_self in H as (y & Ho & Wy & Sy & H); auto; cbv zeta in H;
    try (unfold renew, rot_split in H; chop; discriminate).
  - destruct (Z.eqb_spec (as_uint y) 0) as [E|E]; [|discriminate]. unfold as_uint in E. rewrite E in Ho. auto.
  - destruct (as_sint y) as [o|] eqn:E; cbn [bind] in H; [|discriminate].
    destruct (Z.eqb_spec o 0) as [->|F]; [|chop; discriminate].
    apply as_sint_0 in E; auto. rewrite E in Ho. auto.
Qed.

Lemma meth_oper op k : op_method op k = match op, k with
  | OAnd, _ => meth2_fn MAnd | OOr, _ => meth2_fn MOr | OXor, _ => meth2_fn MXor | OShl, _ => meth2_fn MShl
  | OShr, KSInt => meth2_fn MAshr | OShr, _ => meth2_fn MLshr
  | OAdd, _ => meth2_fn MAdd | OSub, _ => meth2_fn MSub | OMul, _ => meth2_fn MMul
  | OFloorDiv, KSInt => meth2_fn MSdiv | OFloorDiv, _ => meth2_fn MUdiv
  | OMod, KSInt => meth2_fn MSrem | OMod, _ => meth2_fn MUrem end.
Proof. destruct op, k; reflexivity. Qed.

Lemma oper_self op k x v : wf x -> arg_wf v -> dispatch_oper (op_method op k) x v = Ok OLeft ->
  op = OMod /\ operand (bsize x) v 0.
Proof.
  intros Hx Hv H. unfold dispatch_oper in H.
  destruct (op_method op k x v) as [[y|]|[]] eqn:E; try discriminate.
  rewrite meth_oper in E. destruct op, k; apply meth_self in E as [[E|E] Ho]; auto; discriminate.
Qed.
Lemma oper_not_right m x v : dispatch_oper m x v <> Ok ORight.
Proof. unfold dispatch_oper. destruct (m x v) as [[]|[]]; discriminate. Qed.

Lemma roper_left op k x v : wf x -> arg_wf v -> dispatch_roper op k x v = Ok OLeft ->
  op = OMod /\ exists z, v = VBV z /\ operand (bsize z) (VBV x) 0.
Proof.
  intros Hx Hv H. unfold dispatch_roper in H. destruct (coerce (bcls x) v) as [o|] eqn:E; [|discriminate].
  destruct (coerce_wf _ _ _ (wf_size x Hx) Hv E) as [Ho _].
  destruct (dispatch_oper (op_method op k) o (VBV x)) as [[| | |w]|e] eqn:F; try (destruct v; discriminate).
  destruct v; try discriminate. cbn [coerce] in E. destruct (negb _); inv E.
  apply oper_self in F as [-> F]; eauto.
Qed.
Lemma roper_not_right op k x v : dispatch_roper op k x v <> Ok ORight.
Proof.
  unfold dispatch_roper. destruct (coerce (bcls x) v) as [o|]; [|discriminate].
  pose proof (oper_not_right (op_method op k) o (VBV x)).
  destruct (dispatch_oper _ o (VBV x)) as [[]|]; destruct v; congruence.
Qed.
Lemma lshr_not_left x v : wf x -> arg_wf v -> dispatch_oper bvlshr x v <> Ok OLeft.
Proof. intros Hx Hv H. apply (oper_self OShr KBV) in H as [H _]; auto. discriminate. Qed.

Lemma reflected_self op x v : wf x -> arg_wf v ->
  (reflected op x v = Ok OLeft -> op = OMod /\ exists z, v = VBV z /\ operand (bsize z) (VBV x) 0) /\
  reflected op x v <> Ok ORight.
Proof.
  intros Hx Hv. unfold reflected.
  pose proof (lshr_not_left x v Hx Hv) as L. pose proof (oper_not_right bvlshr x v) as R.
  assert (Q : forall k, (dispatch_roper op k x v = Ok OLeft -> op = OMod /\ exists z, v = VBV z /\ operand (bsize z) (VBV x) 0) /\
    dispatch_roper op k x v <> Ok ORight)
    by (intros k; split; [now apply roper_left|apply roper_not_right]).
  assert (S : (match dispatch_oper bvlshr x v with Ok OLeft => Ok ORight | r => r end = Ok OLeft ->
      op = OMod /\ exists z, v = VBV z /\ operand (bsize z) (VBV x) 0) /\
      match dispatch_oper bvlshr x v with Ok OLeft => Ok ORight | r => r end <> Ok ORight).
  { destruct (dispatch_oper bvlshr x v) as [[]|]; split; congruence. }
  destruct op; try apply Q; destruct (bkind x); try apply Q; exact S.
Qed.

Lemma bit_not_self op b v : bit_method op b v <> Ok OLeft /\ bit_method op b v <> Ok ORight /\
  bit_rmethod op b v <> Ok OLeft /\ bit_rmethod op b v <> Ok ORight.
Proof.
  unfold bit_method, bit_rmethod. destruct (bit_fn op); [|repeat split; discriminate].
  destruct (bit_init v) as [|e]; [repeat split; discriminate|]. destruct (is_type_error e); repeat split; discriminate.
Qed.

Lemma first_of_in l r : first_of l = Ok r -> exists m, In m l /\ m tt = Ok r.
Proof.
  induction l as [|m l IH]; cbn [first_of]; [discriminate|]. intros H.
  assert (C : m tt = Ok NotImpl \/ m tt = Ok r).
  { destruct (m tt) as [[]|]; auto. }
  destruct C as [C|C]; [|exists m; split; [now left|auto]].
  rewrite C in H. destruct (IH H) as (m' & A & B). exists m'. split; [now right|auto].
Qed.

Lemma py_binop_self op a b : arg_wf a -> arg_wf b ->
  (py_binop op a b = Ok OLeft -> op = OMod /\ exists x, a = VBV x /\ operand (bsize x) b 0) /\
  py_binop op a b <> Ok ORight.
Proof.
  intros Ha Hb.
  assert (F : forall x v, wf x -> arg_wf v -> (forward op x v = Ok OLeft -> op = OMod /\ operand (bsize x) v 0) /\
     forward op x v <> Ok ORight)
    by (intros; split; [now apply oper_self|apply oper_not_right]).
  pose proof (reflected_self op) as R. pose proof (bit_not_self op) as B.
  split; intros H; unfold py_binop in H;
  (destruct a, b; try discriminate;
    repeat match type of H with
    | (if ?c then _ else _) = _ => destruct c
    | match op with _ => _ end = _ => destruct op; try discriminate
    end;
    apply first_of_in in H as (m & Hm & Hr); cbn [In] in Hm;
    repeat match goal with
    | H : _ \/ _ |- _ => destruct H
    | H : False |- _ => destruct H
    end; subst m; cbn beta in Hr;
    try (apply F in Hr; auto; intuition eauto; fail);
    try (apply B in Hr; destruct Hr; fail);
    try (apply R in Hr as [-> (z & Ez & Hz)]; [|assumption|assumption]; first [discriminate|inv Ez; eauto]; fail);
    try (apply R in Hr; auto; fail)).
Qed.

Lemma eval_alias h env c x : Forall wf h -> eval h env c = Ok (CAlias x) ->
  zero_remainder (State h env) c.
Proof.
  intros Hh H. unfold eval in H. cbv zeta in H.
  assert (N : forall r, new_bv r <> Ok (CAlias x)) by (intros [|]; discriminate).
  destruct c; try discriminate;
    try (apply on_bv_ok in H as (b & Wb & Db & H); [|assumption]);
    try (apply N in H; destruct H; fail); try (chop; discriminate).
  - destruct (py_binop op _ _) as [r|] eqn:E; cbn [bind] in H; [|discriminate].
    destruct (py_binop_self op _ _ (deref_wf h (var env a) Hh) (deref_wf h (var env b) Hh)) as [A B].
    destruct r; cbn [of_oret] in H; try discriminate; [|congruence].
    destruct (A E) as (-> & z & Ez & Hz). exists a, b, z. auto.
  - destruct (py_cmp c _ _) eqn:E; cbn [bind] in H; [|discriminate].
    apply py_cmp_wf in E as (w & -> & Hw). discriminate.
  - chop. destruct a0; cbn in H1; inv H1.
    apply meth_self in E as [Em Ho]; auto using deref_wf. eexists _, a, b. split; [|split; eauto].
    destruct Em; subst m; reflexivity.
  - chop. apply on_bv_ok in H as (y & Wy & Dy & H); auto. apply on_bv_ok in H as (z & Wz & Dz & H); auto.
    destruct (cls_eqb (bcls y) (bcls z)); [|discriminate]. apply N in H. destruct H.
Qed.

Lemma step_fresh s c : inv_ok s -> expression c ->
  ~ zero_remainder s c ->
  (exists e, st_heap (step s c) = st_heap s ++ e) /\
  (st_env (step s c) = st_env s \/
   exists a, st_env (step s c) = st_env s ++ [a] /\ fresh_from (length (st_heap s)) a).
Proof.
  intros [Hh He] Hc Hd.
  assert (G : forall r, eval (st_heap s) (st_env s) c = r ->
    let s' := match r with
      | Ok (CAlias x) => State (st_heap s) (st_env s ++ [var (st_env s) x])
      | Ok (CNew v) => let (h', a) := alloc (st_heap s) v in State h' (st_env s ++ [a])
      | Raise _ => s end in
    (exists e, st_heap s' = st_heap s ++ e) /\ (st_env s' = st_env s \/
   exists a, st_env s' = st_env s ++ [a] /\ fresh_from (length (st_heap s)) a)).
  { intros [[x|v]|e] E; cbv zeta.
    - destruct s. destruct (Hd (eval_alias _ _ _ _ Hh E)).
    - destruct (alloc (st_heap s) v) as [h' a] eqn:F.
      destruct (alloc_spec _ _ _ _ F (eval_wf _ _ _ _ Hh E)) as (e & -> & W & B & Fr & _).
      cbn [st_heap st_env]. split; eauto.
    - split; auto. exists []. now rewrite app_nil_r. }
  destruct c; try (destruct Hc; fail); exact (G _ eq_refl).
Qed.

(** Assignment changes at most the object the target variable refers to. *)
Lemma step_set s x i a r : var (st_env s) x <> HRef r ->
  nth_error (st_heap (step s (KSet x i a))) r = nth_error (st_heap s) r.
Proof.
  intros H. cbn [step]. destruct (var (st_env s) x) as [q| |] eqn:E; auto.
  destruct (nth_error (st_heap s) q) eqn:Eq; auto. destruct (setitem _ _ _); auto.
  cbn [st_heap]. apply update_other. congruence.
Qed.

Lemma run_ok p : forall s, inv_ok s ->
  inv_ok (run s p) /\
  forall r b, nth_error (st_heap s) r = Some b ->
    exists b', nth_error (st_heap (run s p)) r = Some b' /\ bcls b' = bcls b.
Proof.
  induction p as [|c p IH]; intros s Hs; cbn [run fold_left].
  - split; eauto.
  - destruct (step_ok s c Hs) as [H1 C1]. destruct (IH _ H1) as [H2 C2]. split; [exact H2|].
    intros r b Hr. destruct (C1 r b Hr) as (b1 & E1 & <-). destruct (C2 r b1 E1) as (b2 & E2 & <-). eauto.
Qed.
Lemma start_ok : inv_ok start.
Proof. split; constructor. Qed.
