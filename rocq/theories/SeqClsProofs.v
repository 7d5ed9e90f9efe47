(** Proofs of the theorems stated in SeqClsProps.v. *)
From Coq Require Import Lia.
From Verif Require Import PyBase BVFacts MetaModel MetaSpec MetaFacts MetaProofs SeqModel SeqFacts SeqClsModel.
From Verif Require HierModel HierSpec NewModel ItemProofs.





Lemma later_sub s s' a b : minv s -> minv s' -> later s s' -> (a < len s)%nat -> sub s' a b -> sub s a b /\ (b < len s)%nat.
Proof.
  intros I I' L La H. revert La. induction H as [a|a b c Hb H IH]; intros La; [split; [constructor|exact La]|].
  rewrite (later_get s s' a L La) in Hb. pose proof (i_bases s I a b La Hb). destruct IH as [A B]; [lia|]. split; [econstructor; eauto|exact B].
Qed.

Lemma idx_later h l k : is_bv (mrun h) k -> unsized (mrun h) k -> mixins_last (mrun h) k -> alive (mrun (h ++ l)) k = true ->
  is_bv (mrun (h ++ l)) k /\ unsized (mrun (h ++ l)) k /\ mixins_last (mrun (h ++ l)) k.
Proof.
  intros (A & B) U M A2. pose proof (mrun_later h l) as L. pose proof (mrun_minv h) as I. pose proof (mrun_minv (h ++ l)) as I2.
  assert (Lk : (k < len (mrun h))%nat) by now apply alive_spec in A.
  assert (G : forall x, (x < len (mrun h))%nat -> get_cls (mrun (h ++ l)) x = get_cls (mrun h) x) by (intros x X; now apply later_get).
  split; [split; [exact A2|now rewrite G]|]. split; [unfold unsized; now rewrite G|].
  intros x X Bx. destruct (later_sub _ _ k x I I2 L Lk X) as (X1 & X2). rewrite G in Bx |- * by exact X2.
  destruct (M x X1 Bx) as (bvs & mix & E & F1 & F2).
  exists bvs, mix. split; [exact E|]. rewrite Forall_forall in F1, F2.
  split; apply Forall_forall; intros b Hb; (rewrite G; [auto|]); pose proof (i_bases (mrun h) I x b X2) as Q; (assert (b < x)%nat; [apply Q; rewrite E; apply in_or_app; auto|lia]).
Qed.

Lemma get_step h k n : is_bv (mrun h) k -> unsized (mrun h) k -> mixins_last (mrun h) k -> 0 <= n ->
  let g := h ++ [MIndex k (XInt n)] in
  exists t, cls_get k h n = Ok (g, t) /\ find_cache (mrun g) k n = Some t /\ alive (mrun g) k = true
    /\ (t < len (mrun g))%nat /\ c_size (get_cls (mrun g) t) = Some n /\ c_unsized (get_cls (mrun g) t) = Some k
    /\ vars (mrun g) = t :: vars (mrun h).
Proof.
  intros B U M N g. destruct (C67_total_partial_pf h k n B U M N) as (s & t & E & _). destruct B as [Ba Bb].
  assert (Eg : mrun g = hold s t). { unfold g. rewrite mrun_app. cbn [fold_left mstep]. rewrite Ba, Bb, E. reflexivity. }
  pose proof (getitem_ok (mrun h) k (XInt n) (mrun_minv h) Ba Bb) as Q. rewrite E in Q. destruct Q as (A & X & C & n' & [En|En] & F); inv En.
  exists t. split; [unfold cls_get; rewrite E; reflexivity|]. rewrite Eg. change (find_cache (hold s t) k n') with (find_cache s k n').
  pose proof (find_cache_In _ _ _ _ F) as C1. destruct (i_cache _ A _ _ _ C1) as (_ & _ & _ & _ & _ & P1 & P2 & _).
  split; [exact F|]. split; [|split; [apply alive_spec in C; apply C|split; [exact P1|split; [exact P2|cbn [vars hold]; now rewrite (e_vars _ _ X)]]]].
  change (alive (hold s t) k) with (alive s k). apply (cache_key s A k n' t C1).
Qed.

Lemma C106_unsized_loop_pf : forall k body h fuel, is_bv (mrun h) k -> unsized (mrun h) k -> mixins_last (mrun h) k ->
  (forall g t, alive (mrun g) k = true -> exists l, body g t = Ok (g ++ l) /\ alive (mrun (g ++ l)) k = true) ->
  exists l ts, for_loop (cls_get k) fuel body h (Some 0) = (h ++ l, ts, LMore) /\ length ts = fuel /\ NoDup ts
    /\ forall n t, nth_error ts n = Some t ->
         c_size (get_cls (mrun (h ++ l)) t) = Some (Z.of_nat n) /\ c_unsized (get_cls (mrun (h ++ l)) t) = Some k /\ issub (mrun (h ++ l)) t k = true.
Proof.
  intros k body h fuel B U M Bd.
  assert (Q : forall fuel p h, is_bv (mrun h) k -> unsized (mrun h) k -> mixins_last (mrun h) k ->
     exists l ts, for_loop (cls_get k) fuel body h (Some (Z.of_nat p)) = (h ++ l, ts, LMore) /\ length ts = fuel /\
       forall n t, nth_error ts n = Some t -> (t < len (mrun (h ++ l)))%nat /\
         c_size (get_cls (mrun (h ++ l)) t) = Some (Z.of_nat (p + n)) /\ c_unsized (get_cls (mrun (h ++ l)) t) = Some k /\ issub (mrun (h ++ l)) t k = true).
  { clear h fuel B U M. induction fuel as [|fuel IH]; intros p h B U M.
    - exists [], []. cbn [for_loop]. rewrite app_nil_r. split; [reflexivity|]. split; [reflexivity|]. intros [|n] t; discriminate.
    - cbn [for_loop it_next]. destruct (get_step h k (Z.of_nat p) B U M ltac:(lia)) as (t & E & F & A & Lt & S1 & S2 & _). rewrite E.
      destruct (Bd _ t A) as (l0 & Eb & A0). rewrite Eb. replace (Z.of_nat p + 1) with (Z.of_nat (S p)) by lia.
      set (g := (h ++ [MIndex k (XInt (Z.of_nat p))]) ++ l0) in *.
      destruct (idx_later h ([MIndex k (XInt (Z.of_nat p))] ++ l0) k B U M) as (B' & U' & M'); [rewrite app_assoc; exact A0|].
      rewrite app_assoc in B', U', M'. fold g in B', U', M'.
      destruct (IH (S p) g B' U' M') as (l1 & ts & E1 & Ln & Q). rewrite E1.
      exists ([MIndex k (XInt (Z.of_nat p))] ++ l0 ++ l1), (t :: ts).
      assert (Eh : h ++ [MIndex k (XInt (Z.of_nat p))] ++ l0 ++ l1 = g ++ l1) by (unfold g; rewrite <- !app_assoc; reflexivity).
      rewrite Eh. split; [reflexivity|]. split; [cbn [length]; now rewrite Ln|]. intros n u Hn. destruct n as [|n]; cbn [nth_error] in Hn.
      + inv Hn. pose proof (mrun_later (h ++ [MIndex k (XInt (Z.of_nat p))]) (l0 ++ l1)) as L. rewrite app_assoc in L. fold g in L.
        rewrite (later_get _ _ u L Lt). rewrite Nat.add_0_r. split; [destruct L as [[l El] _ _]; unfold len in *; rewrite El, app_length; lia|].
        split; [exact S1|]. split; [exact S2|]. 
        pose proof (mrun_minv (h ++ [MIndex k (XInt (Z.of_nat p))])) as I.
        unfold issub. rewrite (later_get _ _ u L Lt). apply (issub_sub _ I u k Lt). apply find_cache_In in F. destruct (i_cache _ I _ _ _ F) as (_ & _ & _ & _ & _ & _ & _ & Eb8).
        apply (sub_step _ u k k); [rewrite Eb8; now left|constructor].
      + replace (p + S n)%nat with (S p + n)%nat by lia. now apply Q. }
  destruct (Q fuel 0%nat h B U M) as (l & ts & E & Ln & R). exists l, ts. split; [exact E|]. split; [exact Ln|]. split.
  - apply NoDup_nth_error. intros i j Hi Eij. destruct (nth_error ts i) as [t|] eqn:Ei; [|apply nth_error_Some in Hi; congruence].
    destruct (R i t Ei) as (_ & Si & _). destruct (R j t (eq_sym Eij)) as (_ & Sj & _). rewrite Si in Sj. injection Sj as Sj. lia.
  - intros n t Hn. destruct (R n t Hn) as (_ & X). exact X.
Qed.

Lemma C106_unsized_in_pf : forall k x h, is_bv (mrun h) k -> unsized (mrun h) k -> mixins_last (mrun h) k ->
  (forall n s, getitem_cls (mrun h) k (XInt n) = Ok (s, x) -> cls_in (S (Z.to_nat n)) k x (h ++ [MIndex k (XInt n)]) = Some (Ok true)) /\
  ((x < length (classes (mrun h)))%nat -> c_unsized (get_cls (mrun h) x) <> Some k -> forall fuel, cls_in fuel k x h = None).
Proof.
  intros k x h B U M. split.
  - intros n s E.
    destruct (Z.ltb_spec n 0) as [L|L]; [destruct (C29_errors_pf h k B) as (X & _); rewrite X in E by lia; discriminate|].
    destruct (get_step h k n B U M L) as (t & Eg & F & A & Lt & S1 & S2 & V0). unfold cls_get in Eg. rewrite E in Eg. injection Eg as <-.
    set (h1 := h ++ [MIndex k (XInt n)]) in *.
    destruct (idx_later h [MIndex k (XInt n)] k B U M A) as (B1 & U1 & M1). fold h1 in B1, U1, M1. unfold cls_in.
    assert (Q : forall d p l, Z.of_nat p + Z.of_nat d = n -> alive (mrun (h1 ++ l)) k = true -> In x (vars (mrun (h1 ++ l))) -> snd (seq_in (cls_get k) (S d) (fun t => Ok (Nat.eqb t x)) (h1 ++ l) (Some (Z.of_nat p))) = Some (Ok true)).
    { induction d as [|d IH]; intros p l D A1 V; cbn [seq_in it_next].
      all: destruct (idx_later h1 l k B1 U1 M1 A1) as (Bl & Ul & Ml).
      all: destruct (get_step (h1 ++ l) k (Z.of_nat p) Bl Ul Ml ltac:(lia)) as (t & Et & Ft & At & Lt2 & T1 & T2 & V2).
      + assert (Ep : Z.of_nat p = n) by lia. rewrite Ep in *.
        pose proof (mrun_later h1 l) as L1. pose proof (l_cache _ _ L1 k n x F (i_vars _ (mrun_minv _) x V)) as F1.
        unfold cls_get. rewrite (getitem_cached _ _ _ _ F1). rewrite Nat.eqb_refl. reflexivity.
      + rewrite Et. destruct (Nat.eqb_spec t x) as [->|Ne]; [reflexivity|]. rewrite <- app_assoc in *.
        replace (Z.of_nat p + 1) with (Z.of_nat (S p)) by lia. apply IH; [lia|exact At|].
        rewrite V2. now right. }
    specialize (Q (Z.to_nat n) 0%nat []). rewrite app_nil_r in Q. apply Q; [lia|exact A|]. rewrite V0. now left.
  - intros Lx Nx. unfold cls_in.
    assert (Q : forall fuel p l, alive (mrun (h ++ l)) k = true -> snd (seq_in (cls_get k) fuel (fun t => Ok (Nat.eqb t x)) (h ++ l) (Some (Z.of_nat p))) = None).
    { induction fuel as [|fuel IH]; intros p l A; cbn [seq_in it_next]; [reflexivity|].
      destruct (idx_later h l k B U M A) as (Bl & Ul & Ml).
      destruct (get_step (h ++ l) k (Z.of_nat p) Bl Ul Ml ltac:(lia)) as (t & Et & Ft & At & Lt2 & T1 & T2 & V2). rewrite Et.
      destruct (Nat.eqb_spec t x) as [->|Ne].
      - exfalso. rewrite <- app_assoc in T2. pose proof (mrun_later h (l ++ [MIndex k (XInt (Z.of_nat p))])) as L1. rewrite (later_get _ _ x L1 Lx) in T2. congruence.
      - rewrite <- app_assoc in *. replace (Z.of_nat p + 1) with (Z.of_nat (S p)) by lia. now apply IH. }
    intros fuel. specialize (Q fuel 0%nat []). rewrite app_nil_r in Q. apply Q. apply B.
Qed.

Lemma C106_unsized_refuted_pf : forall k h, is_bv (mrun h) k -> unsized (mrun h) k ->
  cls_len (mrun h) k = Raise EAttributeError /\ cls_truth (mrun h) k = Raise EAttributeError /\
  (forall fuel, cls_list fuel k h = (h, [], LExc EAttributeError)) /\ cls_reversed k h = (h, [], LExc EAttributeError) /\
  (mixins_last (mrun h) k -> forall m, seq_unpack (cls_get k) m h = Raise EValueError).
Proof.
  intros k h B U. unfold unsized in U. destruct B as [Ba Bb]. split; [unfold cls_len; now rewrite U|].
  split; [unfold cls_truth, cls_len; rewrite Bb, U; reflexivity|]. split; [intros fuel; unfold cls_list, cls_len; now rewrite U|].
  split; [unfold cls_reversed, cls_len; now rewrite U|]. intros M m. unfold seq_unpack, seq_list.
  destruct (C106_unsized_loop_pf k (fun s _ => Ok s) h (S m) (conj Ba Bb) U M) as (l & ts & E & _).
  - intros g t A. exists []. rewrite app_nil_r. auto.
  - rewrite E. reflexivity.
Qed.

Lemma C106_sized_pf : forall k h n, is_bv (mrun h) k -> c_size (get_cls (mrun h) k) = Some n ->
  cls_len (mrun h) k = Ok n /\ (cls_truth (mrun h) k = Ok false <-> n = 0) /\ (cls_truth (mrun h) k = Ok true <-> n <> 0) /\
  (forall fuel body, for_loop (cls_get k) (S fuel) body h (Some 0) = (h, [], LExc ETypeError)) /\
  (forall fuel, cls_list (S fuel) k h = (h, [], LExc ETypeError)) /\
  (forall fuel x, cls_in (S fuel) k x h = Some (Raise ETypeError)).
Proof.
  intros k h n B E.
  assert (X : cls_get k h 0 = Raise ETypeError).
  { unfold cls_get. destruct (C29_errors_pf h k B) as (_ & X & _). rewrite X; [reflexivity|lia|]. unfold unsized. congruence. }
  split; [unfold cls_len; now rewrite E|]. split; [|split; [|split; [|split]]].
  - unfold cls_truth, cls_len. rewrite (proj2 B), E. cbn [rmap]. destruct (Z.eqb_spec n 0); cbn [negb]; split; (congruence || discriminate).
  - unfold cls_truth, cls_len. rewrite (proj2 B), E. cbn [rmap]. destruct (Z.eqb_spec n 0); cbn [negb]; split; (congruence || discriminate).
  - intros fuel body. cbn [for_loop it_next]. now rewrite X.
  - intros fuel. unfold cls_list, cls_len, seq_list. rewrite E. cbn [for_loop it_next]. now rewrite X.
  - intros fuel x. unfold cls_in. cbn [seq_in it_next]. now rewrite X.
Qed.

Lemma C106_truth_pf : forall h k n s t, is_bv (mrun h) k -> getitem_cls (mrun h) k (XInt n) = Ok (s, t) ->
  cls_len s t = Ok n /\ cls_truth s t = Ok (negb (n =? 0)).
Proof.
  intros h k n s t B E. destruct (C29_attributes_pf h k n s t B E) as (S1 & _ & _ & S2). unfold cls_truth, cls_len. rewrite S2, S1. auto.
Qed.

Lemma C106_fields_pf : forall h c l fuel, HierSpec.fields_of (HierModel.hrun h) c = Some l ->
  let s := HierModel.hrun h in
  (HierModel.hkind s c = HierModel.KTuple \/ HierModel.hkind s c = HierModel.KAnon \/ HierModel.hkind s c = HierModel.KProd -> (length l < fuel)%nat ->
     seq_list (bound_get c) fuel s = (s, l, LStop) /\
     (forall m, seq_unpack (bound_get c) m s = if Nat.eqb m (length l) then Ok l else Raise EValueError) /\
     forall x, exists r, snd (seq_in (bound_get c) fuel (fun t => Ok (Nat.eqb t x)) s (Some 0)) = Some (Ok r) /\ (r = true <-> In x l)) /\
  (HierModel.hkind s c = HierModel.KSum \/ HierModel.hkind s c = HierModel.KTag -> (0 < fuel)%nat ->
     seq_list (bound_get c) fuel s = (s, [], LExc EKeyError)).
Proof.
  intros h c l fuel Fl s. split.
  - intros K Lf.
    assert (P : forall z, NewModel.bound_item s c (NewModel.BPos z) = if ((- Z.of_nat (length l) <=? z) && (z <? Z.of_nat (length l)))%Z then match nth_error l (Z.to_nat (z mod Z.of_nat (length l))) with Some t => Ok t | None => Raise EOutOfModel end
     else Raise EIndexError) by (intros z; apply (ItemProofs.C98_position_pf h c l z K Fl)).
    assert (G : forall y k, y = s -> (k < length l)%nat -> bound_get c y (Z.of_nat k) = Ok (y, nth k l 0%nat)).
    { intros y k -> Lk. unfold bound_get. rewrite P. rewrite Z.mod_small by lia. rewrite Nat2Z.id.
      destruct (Z.leb_spec (- Z.of_nat (length l)) (Z.of_nat k)); [|lia]. destruct (Z.ltb_spec (Z.of_nat k) (Z.of_nat (length l))); [|lia].
      cbn [andb]. rewrite (nth_error_nth' l 0%nat Lk). reflexivity. }
    assert (E : forall y, y = s -> bound_get c y (Z.of_nat (length l)) = Raise EIndexError).
    { intros y ->. unfold bound_get. rewrite P. rewrite Z.ltb_irrefl, andb_false_r. reflexivity. }
    assert (N : map (fun k => nth k l 0%nat) (seq 0 (length l)) = l).
    { clear. induction l as [|a l IH]; [reflexivity|]. cbn [length seq map nth]. f_equal. rewrite <- seq_shift, map_map. exact IH. }
    split; [|split].
    + rewrite (list_items (bound_get c) (fun _ k => nth k l 0%nat) (fun y => y = s) (length l) G E s fuel eq_refl Lf). now rewrite N.
    + intros m. rewrite (unpack_items (bound_get c) (fun _ k => nth k l 0%nat) (fun y => y = s) (length l) G E s m eq_refl). now rewrite N.
    + intros x. exists (existsb (fun t => Nat.eqb t x) l). split.
      * change 0 with (Z.of_nat 0).
        rewrite (in_first (bound_get c) (fun _ k => nth k l 0%nat) (fun y => y = s) (length l) G E (fun t => Ok (Nat.eqb t x)) s eq_refl (length l) 0%nat fuel eq_refl Lf).
        rewrite N. f_equal. apply go_total. reflexivity.
      * rewrite existsb_exists. split; [intros (t & Ht & Et); apply Nat.eqb_eq in Et; now subst|intros Hx; exists x; now rewrite Nat.eqb_refl].
  - intros K Lf. destruct fuel as [|fuel]; [lia|]. unfold seq_list. cbn [for_loop it_next]. unfold bound_get.
    destruct (ItemProofs.C98_sum_pf h c l 0%nat K Fl) as (_ & _ & X). fold s in X. rewrite X by discriminate. reflexivity.
Qed.
