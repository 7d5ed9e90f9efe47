(** Lemmas about ite and polymorphic dispatch. *)
From Coq Require Import Lia ZifyBool.
From Verif Require Import PyBase BVModel BVSpec BVFacts BVOps OpModel BVPropFacts OpSpec OpFacts OpProofs HeapFacts IteModel IteSpec.

Fixpoint branch_ind' (P : branch -> Prop) (Ht : forall l, Forall P l -> P (BrTuple l))
  (Hb : forall b, P (BrBit b)) (Hv : forall x, P (BrVec x)) (Hp : forall i a, P (BrProto i a)) (Ho : P BrOther)
  (b : branch) : P b :=
  match b with
  | BrTuple l => Ht l ((fix go l : Forall P l := match l with
                       | [] => Forall_nil P
                       | v :: l => Forall_cons v (branch_ind' P Ht Hb Hv Hp Ho v) (go l) end) l)
  | BrBit b => Hb b
  | BrVec x => Hv x
  | BrProto i a => Hp i a
  | BrOther => Ho
  end.

Lemma pcls_eqb_refl c : pcls_eqb c c = true.
Proof. destruct c; cbn; [apply kind_eqb_refl|apply Nat.eqb_refl]. Qed.
Lemma same_cls_refl x : same_cls x x = true.
Proof. unfold same_cls. rewrite pcls_eqb_refl. lia. Qed.
Lemma recast_id x : pwf x -> recast (pc x) (pn x) (pv x) = x.
Proof.
  intros [H1 H2]. unfold recast. change (Z.land (pv x) (Z.shiftl 1 (pn x) - 1)) with (bval (mk (BVC KBV (pn x)) (pv x))).
  rewrite mk_val by auto. cbn [csize]. rewrite Z.mod_small by lia. now destruct x.
Qed.
Lemma recast_val c n v : 0 <= n -> recast c n v = PObj c n (v mod 2 ^ n).
Proof.
  intros Hn. unfold recast. change (Z.land v (Z.shiftl 1 n - 1)) with (bval (mk (BVC KBV n) v)).
  now rewrite mk_val by auto.
Qed.
Lemma branch_ok_list l : branch_ok (BrTuple l) <-> Forall branch_ok l.
Proof.
  induction l; cbn; [split; auto|].
  split; [intros [A B]; constructor; auto; now apply IHl|intros H; inv H; split; auto; now apply IHl].
Qed.

Section Ite.
  Variable tab : ptypes.
  Variable sel : bool.

  Definition go_ret := fix go (id : nat) (lt lf : list branch) : res (list rtype * nat) :=
        match lt, lf with
        | [], [] => Ok ([], id)
        | t :: lt, f :: lf =>
            r <- return_type id sel t f ;;
            rs <- go (snd r) lt lf ;;
            Ok (fst r :: fst rs, snd rs)
        | _, _ => Raise ETypeError
        end.
  Definition go_push := fix go (lt lf : list branch) : res (list branch) :=
        match lt, lf with
        | [], [] => Ok []
        | t :: lt, f :: lf => r <- push_ite tab sel t f ;; rs <- go lt lf ;; Ok (r :: rs)
        | _, _ => Raise EAssertion
        end.
  Definition go_coerce := fix go (lr : list rtype) (lb : list branch) : res (list branch) :=
        match lr, lb with
        | [], [] => Ok []
        | r :: lr, b :: lb => x <- coerce_branch tab r b ;; xs <- go lr lb ;; Ok (x :: xs)
        | _, _ => Raise EAssertion
        end.

  (** Everything ite does on one compatible pair. *)
  Lemma ite_step t : forall f id, branch_ok t -> branch_ok f -> total_protocols tab -> compatible t f ->
    exists r id' v w, return_type id sel t f = Ok (r, id') /\ push_ite tab sel t f = Ok v /\
      coerce_branch tab r v = Ok w /\ carries tab (if sel then t else f) w /\
      (same_type t f -> id' = id /\ w = if sel then t else f).
  Proof.
    induction t as [l IH|b|x|i a|] using branch_ind'; intros f id Hok1 Hok2 Htab Hc; inversion Hc; subst.
    - (* tuple *)
      apply branch_ok_list in Hok1, Hok2.
      assert (Q : forall id, exists rs id' vs ws, go_ret id l m = Ok (rs, id') /\ go_push l m = Ok vs /\
        go_coerce rs vs = Ok ws /\ Forall2 (carries tab) (if sel then l else m) ws /\
        (Forall2 same_type l m -> id' = id /\ ws = if sel then l else m)).
      { clear Hc id. match goal with H : Forall2 compatible l m |- _ => revert IH Hok1 Hok2; induction H as [|t f l m Htf Hlm IHl] end;
          intros IH Hok1 Hok2 id.
        - exists [], id, [], []. repeat split; auto; destruct sel; auto.
        - inv IH. inv Hok1. inv Hok2.
          destruct (H1 f id) as (r & id' & v & w & E1 & E2 & E3 & V & S); auto.
          destruct (IHl H2 H4 H6 id') as (rs & id'' & vs & ws & F1 & F2 & F3 & Vs & Ss).
          exists (r :: rs), id'', (v :: vs), (w :: ws). cbn [go_ret go_push go_coerce].
          rewrite E1. cbn [bind fst snd]. rewrite F1. cbn [bind fst snd]. rewrite E2, E3. cbn [bind].
          rewrite F2, F3. cbn [bind]. repeat split; auto.
          + destruct sel; constructor; auto.
          + inv H. destruct (S H9) as [-> ->]. now destruct (Ss H11) as [-> ->].
          + inv H. destruct (S H9) as [-> ->]. destruct (Ss H11) as [-> ->]. now destruct sel. }
      destruct (Q id) as (rs & id' & vs & ws & E1 & E2 & E3 & V & S).
      exists (RTuple rs), id', (BrTuple vs), (BrTuple ws). cbn [return_type push_ite coerce_branch].
      fold (go_ret id l m) (go_push l m) (go_coerce rs vs). rewrite E1, E2, E3. cbn [rmap]. repeat split; auto.
      + destruct sel; now constructor.
      + inv H. now destruct (S H3).
      + inv H. destruct (S H3) as [_ ->]. now destruct sel.
    - exists RBit, id, (BrBit (if sel then b else b0)), (BrBit (if sel then b else b0)).
      destruct sel; repeat split; auto; constructor.
    - cbn [branch_ok] in Hok1, Hok2. cbn [return_type push_ite].
      assert (Hz : pwf (if sel then x else y)) by (destruct sel; auto).
      destruct (same_cls x y) eqn:E.
      + exists (RVec (pc x) (pn x)), id, (BrVec (if sel then x else y)),
          (BrVec (recast (pc x) (pn x) (pv (if sel then x else y)))).
        split; [reflexivity|]. split; [now destruct sel|]. split; [reflexivity|]. split.
        * destruct Hz as [Z1 Z2]. rewrite recast_val by (destruct Hok1; auto).
          replace (pn (if sel then x else y)) with (pn x) in Z2 by (destruct sel; auto).
          rewrite Z.mod_small by lia. destruct sel; constructor; auto.
        * intros H. inversion H; subst. split; auto. pose proof (recast_id _ Hz) as R. destruct sel; f_equal; exact R.
      + rewrite (proj2 (Z.eqb_eq (pn x) (pn y)) ltac:(assumption)). cbn [negb].
        exists (RVec (PPoly id (pc x) (pc y) sel) (pn x)), (S id), (BrVec (if sel then x else y)),
          (BrVec (recast (PPoly id (pc x) (pc y) sel) (pn x) (pv (if sel then x else y)))).
        split; [reflexivity|]. split; [now destruct sel|]. split; [reflexivity|]. split.
        * destruct Hz as [Z1 Z2]. rewrite recast_val by (destruct Hok1; auto).
          replace (pn (if sel then x else y)) with (pn x) in Z2 by (destruct sel; auto).
          rewrite Z.mod_small by lia. destruct sel; constructor; auto.
        * intros H. inversion H; subst. exfalso. unfold same_cls in E. cbn in E. rewrite pcls_eqb_refl in E. lia.
    - cbn [return_type push_ite]. rewrite Nat.eqb_refl. cbn [negb].
      destruct (Htab i) as [Hs Hf]. set (a' := if sel then a else b).
      destruct (Hf (BV (p_cls (tab i)) (bval (p_to (tab i) a') mod 2 ^ csize (p_cls (tab i))))) as [z Ez].
      exists (RProto i), id. do 2 eexists. split; [reflexivity|]. split; [reflexivity|].
      split; [|split].
      + cbn [coerce_branch pv]. rewrite mk_eq by auto. rewrite Ez. reflexivity.
      + destruct sel; constructor; exact Ez.
      + intros H. inversion H.
  Qed.

  Lemma ite_compatible t f id : branch_ok t -> branch_ok f -> total_protocols tab -> compatible t f ->
    exists w id', ite tab id sel t f = Ok (w, id') /\ carries tab (if sel then t else f) w.
  Proof.
    intros H1 H2 H3 H4. destruct (ite_step t f id H1 H2 H3 H4) as (r & id' & v & w & E1 & E2 & E3 & V & _).
    exists w, id'. unfold ite. rewrite E1, E2. cbn [bind fst snd]. rewrite E3. auto.
  Qed.
  Lemma same_compatible t : forall f, same_type t f -> compatible t f.
  Proof.
    induction t as [l IH|b|x|i a|] using branch_ind'; intros f H; inversion H; subst; constructor; auto.
    clear H. induction H1; constructor; inv IH; auto.
  Qed.
  Lemma ite_same t f id : branch_ok t -> branch_ok f -> total_protocols tab -> same_type t f ->
    ite tab id sel t f = Ok (if sel then t else f, id).
  Proof.
    intros H1 H2 H3 H4. destruct (ite_step t f id H1 H2 H3 (same_compatible t f H4)) as (r & id' & v & w & E1 & E2 & E3 & V & S).
    destruct (S H4) as [-> ->]. unfold ite. rewrite E1, E2. cbn [bind fst snd]. rewrite E3. auto.
  Qed.

  (** Incompatible branches raise a TypeError. *)
  Lemma return_error t : forall f id e, return_type id sel t f = Raise e -> is_type_error e = true.
  Proof.
    induction t as [l IH|b|x|i a|] using branch_ind'; intros f id e; destruct f as [m|b'|y|j a'|]; cbn [return_type];
      try (intros H; inv H; reflexivity).
    - fold (go_ret id l m). destruct (go_ret id l m) as [[rs id']|e'] eqn:E; [discriminate|].
      assert (Q : is_type_error e' = true).
      { revert m id E. induction l as [|t l IHl]; intros [|f m] id; cbn [go_ret]; try discriminate;
          try (intros H; inv H; reflexivity). inv IH.
        destruct (return_type id sel t f) as [[r id']|e1] eqn:E1; cbn [bind fst snd].
        - destruct (go_ret id' l m) as [[rs id'']|e2] eqn:E2; cbn [bind]; [discriminate|].
          intros H; inv H. eauto.
        - intros H; inv H. eauto. }
      rewrite Q. intros H. inv H. reflexivity.
    - destruct (same_cls x y); [discriminate|]. destruct (negb _); [|discriminate]. intros H; inv H; reflexivity.
    - destruct (Nat.eqb i j); [discriminate|]. intros H; inv H; reflexivity.
  Qed.
  Lemma return_compatible t : forall f id r, return_type id sel t f = Ok r -> compatible t f.
  Proof.
    induction t as [l IH|b|x|i a|] using branch_ind'; intros f id r; destruct f as [m|b'|y|j a'|]; cbn [return_type];
      try discriminate; try (intros; constructor).
    - fold (go_ret id l m) in H. destruct (go_ret id l m) as [[rs id']|e'] eqn:E;
        [|destruct (is_type_error e'); discriminate]. clear H r.
      revert m id rs id' E. induction l as [|t l IHl]; intros [|f m] id rs id'; cbn [go_ret]; try discriminate; intros H.
      + constructor.
      + inv IH. destruct (return_type id sel t f) as [[r id1]|e1] eqn:E1; cbn [bind fst snd] in H; [|discriminate].
        destruct (go_ret id1 l m) as [[rs' id'']|e2] eqn:E2; cbn [bind] in H; [|discriminate]. constructor; eauto.
    - destruct (same_cls x y) eqn:E; [unfold same_cls in E; lia|].
      destruct (Z.eqb_spec (pn x) (pn y)); auto. discriminate.
    - destruct (Nat.eqb_spec i j); [subst; constructor|discriminate].
  Qed.
  Lemma ite_incompatible t f id : ~ compatible t f ->
    exists e, ite tab id sel t f = Raise e /\ is_type_error e = true.
  Proof.
    intros Hn. unfold ite. destruct (return_type id sel t f) as [r|e] eqn:E; cbn [bind].
    - exfalso. eauto using return_compatible.
    - exists e. split; auto. eauto using return_error.
  Qed.
End Ite.

(** ** Methods of polymorphic classes *)
Lemma resolve_base k : kind_eqb k KSInt = is_signed k.
Proof. now destruct k. Qed.

Lemma ite_vec_inv tab id sel x y v id' : ite tab id sel (BrVec x) (BrVec y) = Ok (v, id') ->
  pn x = pn y /\
  ((same_cls x y = true /\ id' = id /\ v = BrVec (recast (pc x) (pn x) (pv (if sel then x else y)))) \/
   (same_cls x y = false /\ id' = S id /\ v = BrVec (recast (PPoly id (pc x) (pc y) sel) (pn x) (pv (if sel then x else y))))).
Proof.
  unfold ite. cbn [return_type push_ite]. destruct (same_cls x y) eqn:E.
  - cbn [bind fst snd]. replace (if sel then BrVec x else BrVec y) with (BrVec (if sel then x else y)) by now destruct sel.
    cbn [coerce_branch bind]. intros H; inv H. split; [unfold same_cls in E; lia|]. left. auto.
  - destruct (Z.eqb_spec (pn x) (pn y)); [|discriminate]. cbn [negb bind fst snd].
    replace (if sel then BrVec x else BrVec y) with (BrVec (if sel then x else y)) by now destruct sel.
    cbn [coerce_branch bind]. intros H; inv H. split; auto.
Qed.

Lemma ite_vec_same tab id sel c n v w : 0 <= n -> 0 <= v < 2 ^ n -> 0 <= w < 2 ^ n ->
  ite tab id sel (BrVec (PObj c n v)) (BrVec (PObj c n w)) = Ok (BrVec (PObj c n (if sel then v else w)), id).
Proof.
  intros Hn Hv Hw. unfold ite. cbn [return_type push_ite]. unfold same_cls. cbn [pc pn].
  rewrite pcls_eqb_refl, Z.eqb_refl. cbn [andb bind fst snd].
  destruct sel; cbn [coerce_branch bind pv]; rewrite recast_val, Z.mod_small by auto; reflexivity.
Qed.

Lemma run_resolve leaf ov g c n x a : 0 <= n -> (forall s, 0 <= g s < 2 ^ n) ->
  (forall s, leaf s x a = Ok (PVec (PObj c n (g s)))) -> forall cl id,
  run_meth leaf (resolve ov cl) id x a = Ok (PVec (PObj c n (g (ov && is_signed (selected_kind cl)))), id).
Proof.
  intros Hn Hg Hl. induction cl as [k|i t0 IH0 t1 IH1 sel]; intros id; cbn [resolve selected_kind].
  - cbn [run_meth]. now rewrite Hl, resolve_base.
  - assert (Q : run_meth leaf (MVCall sel (resolve ov t0) (resolve ov t1)) id x a =
      Ok (PVec (PObj c n (g (ov && is_signed (if sel then selected_kind t0 else selected_kind t1)))), id)).
    { cbn [run_meth]. rewrite IH0. cbn [bind fst snd]. rewrite IH1. cbn [bind fst snd]. unfold vcall. cbn [as_branch].
      rewrite ite_vec_same by auto. cbn [bind fst snd as_ret]. now destruct sel. }
    destruct (resolve ov t0) as [s0|s0 m0 m0'] eqn:E0; destruct (resolve ov t1) as [s1|s1 m1 m1'] eqn:E1;
      cbn [build_vcall]; try exact Q.
    destruct (Bool.eqb_spec s0 s1) as [->|]; [|exact Q]. destruct sel; auto.
Qed.
Lemma run_resolve_bit leaf ov g x a : (forall s, leaf s x a = Ok (PBit (g s))) -> forall cl id,
  run_meth leaf (resolve ov cl) id x a = Ok (PBit (g (ov && is_signed (selected_kind cl))), id).
Proof.
  intros Hl. induction cl as [k|i t0 IH0 t1 IH1 sel]; intros id; cbn [resolve selected_kind].
  - cbn [run_meth]. now rewrite Hl, resolve_base.
  - assert (Q : run_meth leaf (MVCall sel (resolve ov t0) (resolve ov t1)) id x a =
      Ok (PBit (g (ov && is_signed (if sel then selected_kind t0 else selected_kind t1))), id)).
    { cbn [run_meth]. rewrite IH0. cbn [bind fst snd]. rewrite IH1. cbn [bind fst snd]. destruct sel; reflexivity. }
    destruct (resolve ov t0) as [s0|s0 m0 m0'] eqn:E0; destruct (resolve ov t1) as [s1|s1 m1 m1'] eqn:E1;
      cbn [build_vcall]; try exact Q.
    destruct (Bool.eqb_spec s0 s1) as [->|]; [|exact Q]. destruct sel; auto.
Qed.
Lemma run_resolve_none leaf ov x a : (forall s, leaf s x a = Ok PNotImpl) -> forall cl id,
  run_meth leaf (resolve ov cl) id x a = Ok (PNotImpl, id).
Proof.
  intros Hl. induction cl as [k|i t0 IH0 t1 IH1 sel]; intros id; cbn [resolve].
  - cbn [run_meth]. now rewrite Hl.
  - unfold build_vcall. destruct (resolve ov t0) as [s0|s0 m0 m0']; destruct (resolve ov t1) as [s1|s1 m1 m1'];
      try destruct (Bool.eqb _ _); auto;
      cbn -[run_meth]; change (run_meth leaf (MVCall sel ?a ?b) id x ?z) with
        (v0 <- run_meth leaf a id x z ;; v1 <- run_meth leaf b (snd v0) x z ;; vcall sel (fst v0) (fst v1) (snd v1));
      rewrite IH0; cbn [bind fst snd]; rewrite IH1; reflexivity.
Qed.

Lemma as_bv_wf x : pwf x -> wf (as_bv x).
Proof. intros [H1 H2]. split; auto. Qed.

(** The two built-in variants of an operator on one receiver. *)
Lemma leaf_forward_value op s x a u : pwf x -> 1 <= pn x -> operand (pn x) (arg_val a) u ->
  leaf_forward op s x a = Ok (PVec (PObj (pc x) (pn x) (op_value op s (pn x) (pv x) u))) /\
  0 <= op_value op s (pn x) (pv x) u < 2 ^ pn x.
Proof.
  intros Hx Hn Ho. pose proof (as_bv_wf x Hx) as Hw.
  destruct (op_method_value op (variant s) (as_bv x) (arg_val a) u Hw Ho) as (r & E & V); [auto|].
  replace (is_signed (variant s)) with s in V by now destruct s.
  pose proof (op_method_ok op (variant s) _ _ _ Hw E) as Hr. rewrite V in Hr. destruct Hr as [_ Hr]. split; [|exact Hr].
  unfold leaf_forward, dispatch_oper. rewrite E. destruct r as [b|]; cbn [rv_val] in V.
  - subst b. reflexivity.
  - do 2 f_equal. unfold as_bv in V. inversion V as [V1]. cbn [bval csize bsize bcls] in V1 |- *.
    destruct x as [c n v]; cbn [pc pn pv] in *. now rewrite <- V1.
Qed.
Lemma leaf_cmp_value c s x a u : pwf x -> 1 <= pn x -> operand (pn x) (arg_val a) u ->
  leaf_cmp c s x a = Ok (PBit (cmp_value c s (pn x) (pv x) u)).
Proof.
  intros Hx Hn Ho. unfold leaf_cmp.
  rewrite (cmp_method_spec c (variant s) (as_bv x) (arg_val a) u (as_bv_wf x Hx) Ho) by auto.
  destruct s; reflexivity.
Qed.
Lemma leaf_forward_unsupported op s x v : unsupported v -> leaf_forward op s x (AOther v) = Ok PNotImpl.
Proof.
  intros Hv. unfold leaf_forward, dispatch_oper. cbn [arg_val].
  destruct op, s; cbn [op_method variant];
      unfold bvand, bvor, bvxor, bvshl, bvlshr, bvashr, bvadd, bvsub, bvmul, bvudiv, bvurem, bvsdiv, bvsrem;
      rewrite bv_cast_unsupported by (try apply unsupported_other; try apply unsupported_init; auto); reflexivity.
Qed.

Lemma op_overridden_value op sg n a b :
  op_value op (op_overridden op && sg) n a b = op_value op sg n a b.
Proof. now destruct op. Qed.
Lemma cmp_overridden_value c sg n a b :
  cmp_value c (cmp_overridden c && sg) n a b = cmp_value c sg n a b.
Proof. now destruct c. Qed.

Lemma p_forward_value op id x a u : pwf x -> 1 <= pn x -> operand (pn x) (arg_val a) u ->
  p_forward op id x a =
    Ok (PVec (PObj (pc x) (pn x) (op_value op (is_signed (selected_kind (pc x))) (pn x) (pv x) u)), id).
Proof.
  intros Hx Hn Ho. unfold p_forward.
  rewrite (run_resolve (leaf_forward op) _ (fun s => op_value op s (pn x) (pv x) u) (pc x) (pn x)).
  - now rewrite op_overridden_value.
  - lia.
  - intros s. apply (leaf_forward_value op s x a u); auto.
  - intros s. apply (leaf_forward_value op s x a u); auto.
Qed.
Lemma p_cmp_value c id x a u : pwf x -> 1 <= pn x -> operand (pn x) (arg_val a) u ->
  p_cmp c id x a = Ok (PBit (cmp_value c (is_signed (selected_kind (pc x))) (pn x) (pv x) u), id).
Proof.
  intros Hx Hn Ho. unfold p_cmp.
  rewrite (run_resolve_bit (leaf_cmp c) _ (fun s => cmp_value c s (pn x) (pv x) u)).
  - now rewrite cmp_overridden_value.
  - intros s. now apply leaf_cmp_value.
Qed.
Lemma p_forward_unsupported op id x v : unsupported v -> p_forward op id x (AOther v) = Ok (PNotImpl, id).
Proof. intros Hv. apply run_resolve_none. intros. now apply leaf_forward_unsupported. Qed.

(** ** Histories *)
(** A table giving the class behind every identity used in a class. *)
Fixpoint knows (T : nat -> pcls) (nxt : nat) (c : pcls) : Prop :=
  match c with
  | PBase _ => True
  | PPoly id t0 t1 _ => T id = c /\ (id < nxt)%nat /\ knows T nxt t0 /\ knows T nxt t1
  end.
Lemma knows_eqb T n a b : knows T n a -> knows T n b -> pcls_eqb a b = true -> a = b.
Proof.
  destruct a as [k|i a0 a1 s], b as [l|j b0 b1 s']; cbn [pcls_eqb knows]; try discriminate.
  - intros _ _ H. now apply kind_eqb_eq in H as ->.
  - intros (A & _) (B & _) H. apply Nat.eqb_eq in H as ->. congruence.
Qed.
Lemma knows_grow T n c t : knows T n c -> knows (fun i => if Nat.eqb i n then t else T i) (S n) c.
Proof.
  induction c as [|i c0 IH0 c1 IH1 s]; cbn [knows]; auto. intros (A & B & C & D).
  destruct (Nat.eqb_spec i n) as [->|]; [exfalso; lia|]. repeat split; auto; lia.
Qed.

Lemma knows_ext T T' n n' c : (forall i, (i < n)%nat -> T' i = T i) -> (n <= n')%nat -> knows T n c -> knows T' n' c.
Proof.
  intros HT Hn. induction c as [|i c0 IH0 c1 IH1 s]; cbn [knows]; auto. intros (A & B & C & D).
  rewrite HT by auto. repeat split; auto; lia.
Qed.

(** Objects of a pool: in range, of known classes. *)
Definition okay (T : nat -> pcls) (n : nat) (x : pobj) : Prop := pwf x /\ knows T n (pc x).
Definition pool_ok (p : pool) : Prop := exists T, Forall (okay T (next_id p)) (objs p).

(** A step from supply n to n' that yields r, extending the table. *)
Definition yields (T : nat -> pcls) (n : nat) (r : pret) (n' : nat) : Prop :=
  exists T', (forall i, (i < n)%nat -> T' i = T i) /\ (n <= n')%nat /\
    match r with PVec x => okay T' n' x | _ => True end.

Lemma recast_wf c n z : 0 <= n -> pwf (recast c n z).
Proof. intros. rewrite recast_val by auto. split; cbn; auto. apply Z.mod_pos_bound, Z.pow_pos_nonneg; lia. Qed.

Lemma ite_okay T tab n sel x y v n' : okay T n x -> okay T n y ->
  ite tab n sel (BrVec x) (BrVec y) = Ok (v, n') -> exists r, v = BrVec r /\ yields T n (PVec r) n'.
Proof.
  intros [Wx Kx] [Wy Ky] H. apply ite_vec_inv in H as (En & [(Es & -> & ->)|(Es & -> & ->)]); eexists; split; try reflexivity.
  - exists T. repeat split; auto; try (apply recast_wf; apply Wx).
  - exists (fun i => if Nat.eqb i n then PPoly n (pc x) (pc y) sel else T i).
    split; [intros i Hi; destruct (Nat.eqb_spec i n); [lia|auto]|]. split; [lia|].
    split; [apply recast_wf, Wx|]. cbn [recast pc knows]. rewrite Nat.eqb_refl.
    repeat split; auto; now apply knows_grow.
Qed.

Lemma leaf_forward_ok op s x a r : pwf x -> leaf_forward op s x a = Ok (PVec r) -> pwf r /\ pc r = pc x.
Proof.
  intros Hx. unfold leaf_forward.
  destruct (dispatch_oper _ _ _) as [[| | |w]|e] eqn:E; try discriminate.
  - intros H; inv H. auto.
  - apply dispatch_wf in E; [|apply op_method_ok|now apply as_bv_wf].
    destruct w; try discriminate. intros H; inv H. cbn in E. destruct E. split; [split|]; auto.
Qed.
Lemma leaf_reflected_ok op s x y r : pwf x -> pwf y -> leaf_reflected op s x (AVec y) = Ok (PVec r) ->
  pwf r /\ (pc r = pc x \/ pc r = pc y).
Proof.
  intros Hx Hy H. unfold leaf_reflected in H.
  assert (Q1 : match coerce (BVC KBV (pn x)) (arg_val (AVec y)) with
      | Raise _ => Raise ENameError
      | Ok o => let o := y in leaf_forward op s o (AVec x) end = Ok (PVec r) -> pwf r /\ (pc r = pc x \/ pc r = pc y)).
  { destruct (coerce _ _); [|discriminate]. intros H'. apply leaf_forward_ok in H' as [A B]; auto. }
  destruct op; auto; destruct s; auto.
  destruct (dispatch_oper _ _ _) as [[| | |w]|e] eqn:E; try discriminate.
  - inv H. auto.
  - apply dispatch_wf in E; [|apply (meth2_ok HeapModel.MLshr)|now apply as_bv_wf].
    destruct w; try discriminate. inv H. cbn in E. destruct E. split; [split|]; auto.
Qed.
Lemma run_meth_ok leaf x a : forall m T n r n',
  (forall T', (forall i, (i < n)%nat -> T' i = T i) -> forall n1, (n <= n1)%nat ->
     forall s y, leaf s x a = Ok (PVec y) -> okay T' n1 y) ->
  run_meth leaf m n x a = Ok (r, n') -> yields T n r n'.
Proof.
  induction m as [s|sel m0 IH0 m1 IH1]; cbn [run_meth]; intros T n r n' Hl H.
  - destruct (leaf s x a) as [r'|] eqn:E; [|discriminate]. inv H. exists T. repeat split; auto.
    destruct r; auto. eapply Hl; eauto.
  - destruct (run_meth leaf m0 n x a) as [[v0 n0]|] eqn:E0; [|discriminate]. cbn [bind fst snd] in H.
    destruct (run_meth leaf m1 n0 x a) as [[v1 n1]|] eqn:E1; [|discriminate]. cbn [bind fst snd] in H.
    destruct (IH0 T n v0 n0 Hl E0) as (T0 & A0 & B0 & C0).
    destruct (IH1 T0 n0 v1 n1) as (T1 & A1 & B1 & C1); auto.
    { intros T' HT' k Hk s y Hy. apply (Hl T') with (s := s); auto; try lia. intros i Hi. rewrite HT' by lia. auto. }
    assert (HT : forall i, (i < n)%nat -> T1 i = T i) by (intros i Hi; rewrite A1 by lia; auto).
    unfold vcall in H. destruct v0 as [|x0|b0].
    + inv H. exists T1. repeat split; auto; lia.
    + cbn [as_branch] in H. destruct v1 as [|x1|b1]; cbn [as_branch] in H; try discriminate.
      destruct (ite no_protocols n1 sel (BrVec x0) (BrVec x1)) as [[v n2]|] eqn:E; [|discriminate]. cbn [bind fst snd] in H. inv H.
      assert (Q0 : okay T1 n1 x0) by (split; [apply C0|]; eapply knows_ext; [exact A1|exact B1|apply C0]).
      destruct (ite_okay T1 _ _ _ _ _ _ _ Q0 C1 E) as (y & -> & (T2 & A2 & B2 & C2)). cbn [as_ret].
      exists T2. repeat split; auto; try lia; try apply C2. intros i Hi. rewrite A2 by lia. auto.
    + cbn [as_branch] in H. destruct v1 as [|x1|b1]; destruct sel; cbn in H; try discriminate; inv H;
      exists T1; repeat split; auto; lia.
Qed.
Lemma p_binop_ok T op n x a r n' : okay T n x -> match a with AVec y => okay T n y | _ => True end ->
  p_binop op n x a = Ok (r, n') -> yields T n r n'.
Proof.
  intros Hx Ha H.
  assert (QE : forall T' n1 c, (forall i, (i < n)%nat -> T' i = T i) -> (n <= n1)%nat -> okay T n c -> okay T' n1 c).
  { intros T' n1 c A B [C D]. split; auto. eapply knows_ext; eauto. }
  assert (QF : forall T x a r n n', okay T n x -> p_forward op n x a = Ok (r, n') -> yields T n r n').
  { clear. intros T x a r n n' [Wx Kx] H. eapply run_meth_ok; [|exact H].
    intros T' HT' n1 Hn1 s y Hy. apply leaf_forward_ok in Hy as [A B]; auto. split; auto. rewrite B. eapply knows_ext; eauto. }
  assert (QR : forall T x y r n n', okay T n x -> okay T n y -> p_reflected op n x (AVec y) = Ok (r, n') -> yields T n r n').
  { clear. intros T x y r n n' [Wx Kx] [Wy Ky] H. eapply run_meth_ok; [|exact H].
    intros T' HT' n1 Hn1 s z Hz. apply leaf_reflected_ok in Hz as [A B]; auto. split; auto.
    destruct B as [-> | ->]; eapply knows_ext; eauto. }
  (* trying one method, then another *)
  assert (Q2 : forall m1 m2,
     (forall r n', m1 n = Ok (r, n') -> yields T n r n') ->
     (forall T1 n1 r n', (forall i, (i < n)%nat -> T1 i = T i) -> (n <= n1)%nat -> m2 n1 = Ok (r, n') -> yields T1 n1 r n') ->
     forall l, l = [m1] \/ l = [m1; m2] -> p_first n l = Ok (r, n') -> yields T n r n').
  { clear H. intros m1 m2 H1 H2 l Hl H. destruct Hl as [-> | ->]; cbn [p_first] in H.
    - destruct (m1 n) as [[[|z|b] k]|] eqn:E; try discriminate; inv H; auto.
    - destruct (m1 n) as [[[|z|b] k]|] eqn:E; try discriminate; try (inv H; auto; fail).
      destruct (H1 _ _ eq_refl) as (T1 & A1 & B1 & _).
      destruct (m2 k) as [[[|z|b] k']|] eqn:E'; try discriminate; inv H;
        (destruct (H2 T1 k _ _ A1 B1 E') as (T2 & A2 & B2 & C2); exists T2; split; [intros i Hi; rewrite A2 by lia; auto|split; [lia|exact C2]]). }
  unfold p_binop in H. destruct a as [y|w].
  - assert (QF' : forall r n', p_forward op n x (AVec y) = Ok (r, n') -> yields T n r n') by (intros; eapply (QF T x); eauto).
    assert (QR' : forall r n', p_reflected op n y (AVec x) = Ok (r, n') -> yields T n r n') by (intros; eapply (QR T y x); eauto).
    destruct (same_cls x y); [|destruct (sub_cls y x && r_overloaded op x y)].
    + eapply (Q2 (fun n => p_forward op n x (AVec y)) (fun n => p_forward op n x (AVec y))); [exact QF'| |now left|exact H].
      intros T1 n1 r1 n1' A B. apply (QF T1 x). eauto.
    + eapply (Q2 (fun n => p_reflected op n y (AVec x)) (fun n => p_forward op n x (AVec y))); [exact QR'| |now right|exact H].
      intros T1 n1 r1 n1' A B. apply (QF T1 x). eauto.
    + eapply (Q2 (fun n => p_forward op n x (AVec y)) (fun n => p_reflected op n y (AVec x))); [exact QF'| |now right|exact H].
      intros T1 n1 r1 n1' A B. apply (QR T1 y x); eauto.
  - eapply (Q2 (fun n => p_forward op n x (AOther w)) (fun n => p_forward op n x (AOther w))); [| |now left|exact H].
    + intros. eapply QF; eauto.
    + intros T1 n1 r1 n1' A B. apply (QF T1 x). eauto.
Qed.

Lemma hstep_ok p c : pool_ok p -> pool_ok (hstep p c).
Proof.
  intros [T HT]. assert (Hself : pool_ok p) by (now exists T).
  assert (N : forall i x, nth_error (objs p) i = Some x -> okay T (next_id p) x).
  { intros i x H. apply nth_error_In in H. rewrite Forall_forall in HT. auto. }
  assert (P : forall v n, yields T (next_id p) (PVec v) n -> pool_ok (push_vec p n v)).
  { intros v n (T' & A & B & C). exists T'. apply Forall_app. cbn [objs next_id push_vec]. split.
    - eapply Forall_impl; [|exact HT]. intros y [Y1 Y2]. split; auto. eapply knows_ext; eauto.
    - repeat constructor; apply C. }
  destruct c as [k n z|sel i j|op i w|op i j]; cbn [hstep].
  - destruct (Z.ltb_spec n 0); auto. apply P. exists T. repeat split; auto; now apply recast_wf.
  - destruct (nth_error (objs p) i) as [x|] eqn:Ei; auto. destruct (nth_error (objs p) j) as [y|] eqn:Ej; auto.
    destruct (ite _ _ _ _ _) as [[v id']|] eqn:E; auto.
    destruct (ite_okay _ _ _ _ _ _ _ _ (N _ _ Ei) (N _ _ Ej) E) as (r & -> & Y). auto.
  - destruct (nth_error (objs p) i) as [x|] eqn:Ei; auto.
    destruct (p_binop op _ x (AOther w)) as [[[|v|] n]|] eqn:E; auto.
    apply P. eapply p_binop_ok; [exact (N _ _ Ei)| |exact E]. exact I.
  - destruct (nth_error (objs p) i) as [x|] eqn:Ei; auto. destruct (nth_error (objs p) j) as [y|] eqn:Ej; auto.
    destruct (p_binop op _ x (AVec y)) as [[[|v|] n]|] eqn:E; auto.
    apply P. eapply p_binop_ok; [exact (N _ _ Ei)| |exact E]. exact (N _ _ Ej).
Qed.
Lemma hrun_ok h : pool_ok (hrun h).
Proof.
  unfold hrun. assert (Q : forall h p, pool_ok p -> pool_ok (fold_left hstep h p)).
  { induction h0; cbn; auto using hstep_ok. }
  apply Q. exists (fun _ => PBase KBV). constructor.
Qed.

(** What a selection of two reachable vectors is. *)
Lemma reachable_ite h tab sel i j a b v id' :
  nth_error (objs (hrun h)) i = Some a -> nth_error (objs (hrun h)) j = Some b ->
  ite tab (next_id (hrun h)) sel (BrVec a) (BrVec b) = Ok (v, id') ->
  exists r, v = BrVec r /\ pwf a /\ pwf b /\ pwf r /\ pn a = pn b /\ pn r = pn a /\ pv r = pv (if sel then a else b) /\
    selected_kind (pc r) = selected_kind (pc (if sel then a else b)) /\
    (same_cls a b = true -> r = if sel then a else b) /\
    (same_cls a b = false -> pc r = PPoly (next_id (hrun h)) (pc a) (pc b) sel).
Proof.
  intros Ha Hb H. destruct (hrun_ok h) as [T HT]. rewrite Forall_forall in HT.
  apply nth_error_In in Ha, Hb. apply HT in Ha as [Wa Ka]. apply HT in Hb as [Wb Kb].
  assert (Ws : pwf (if sel then a else b)) by now destruct sel.
  apply ite_vec_inv in H as (En & Q).
  assert (Hn : pn (if sel then a else b) = pn a) by now destruct sel.
  destruct Ws as [W1 W2]. rewrite Hn in W1, W2.
  destruct Q as [(Es & -> & ->)|(Es & -> & ->)]; rewrite recast_val by auto; rewrite Z.mod_small by auto;
    eexists; split; try reflexivity; (repeat (split; [auto; fail|])); (split; [split; auto|]);
    (repeat (split; [auto; fail|])); cbn [pc pn pv selected_kind].
  - assert (Ec : pc a = pc b) by (unfold same_cls in Es; apply andb_prop in Es as [Es _]; eapply knows_eqb; eauto).
    split; [destruct sel; congruence|]. split; [|congruence]. intros _.
    destruct a as [ca na va], b as [cb nb vb]; cbn in *. destruct sel; cbn; congruence.
  - split; [now destruct sel|]. split; [congruence|reflexivity].
Qed.
