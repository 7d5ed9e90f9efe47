(** Lemmas about the C3 merge of MetaModel.v. *)
From Coq Require Import Lia.
From Verif Require Import PyBase BVFacts MetaModel.

Lemma mem_In x l : mem x l = true <-> In x l.
Proof.
  unfold mem. rewrite existsb_exists. split.
  - intros (y & H & E). apply Nat.eqb_eq in E. now subst.
  - intros H. exists x. split; auto. apply Nat.eqb_refl.
Qed.
Lemma mem_false x l : mem x l = false <-> ~ In x l.
Proof. rewrite <- mem_In. destruct (mem x l); split; congruence. Qed.
Lemma in_tail_In x l : in_tail x l = true -> In x l.
Proof. destruct l; cbn; [discriminate|]. intros H. right. now apply mem_In. Qed.

Lemma heads_In ls h : In h (heads ls) <-> exists t, In (h :: t) ls.
Proof.
  unfold heads. rewrite in_flat_map. split.
  - intros ([|a t] & H & E); cbn in E; [tauto|]. destruct E as [<-|[]]. eauto.
  - intros (t & H). exists (h :: t). split; auto. now left.
Qed.
Lemma heads_app a b : heads (a ++ b) = heads a ++ heads b.
Proof. apply flat_map_app. Qed.
Lemma heads_nil ls : heads ls = [] <-> Forall (fun l => l = []) ls.
Proof.
  induction ls as [|[|a l] ls IH]; cbn; split; auto; intros H.
  - constructor; auto. now apply IH.
  - inv H. now apply IH.
  - discriminate.
  - inv H. discriminate.
Qed.

Lemma pick_spec ls c : pick ls = Some c ->
  In c (heads ls) /\ forall l, In l ls -> in_tail c l = false.
Proof.
  intros H. apply find_some in H as [H1 H2]. split; auto. rewrite forallb_forall in H2.
  intros l Hl. apply H2 in Hl. now destruct (in_tail c l).
Qed.

Lemma strip1_incl x y l : In y (strip1 x l) -> In y l.
Proof. destruct l as [|h t]; cbn; auto. destruct (Nat.eqb h x); cbn; auto. Qed.
Lemma strip1_keeps x y l : In y l -> y = x \/ In y (strip1 x l).
Proof.
  destruct l as [|h t]; cbn; auto. destruct (Nat.eqb_spec h x); cbn; auto. intros [->|H]; auto.
Qed.
Lemma strip1_gone x l : in_tail x l = false -> ~ In x (strip1 x l).
Proof.
  destruct l as [|h t]; cbn; auto. intros H. apply mem_false in H. destruct (Nat.eqb_spec h x); cbn; auto.
  intros [->|K]; auto.
Qed.

Lemma merge_In f : forall ls r, merge f ls = Some r -> forall x, In x r <-> exists l, In l ls /\ In x l.
Proof.
  induction f as [|f IH]; intros ls r; cbn [merge]; destruct (heads ls) as [|h hs] eqn:E; try discriminate.
  - intros H x. inv H. apply heads_nil in E. rewrite Forall_forall in E. split; [intros []|].
    intros (l & Hl & Hx). apply E in Hl as ->. destruct Hx.
  - intros H x. inv H. apply heads_nil in E. rewrite Forall_forall in E. split; [intros []|].
    intros (l & Hl & Hx). apply E in Hl as ->. destruct Hx.
  - destruct (pick ls) as [c|] eqn:P; [|discriminate].
    destruct (merge f (map (strip1 c) ls)) as [r'|] eqn:M; [|discriminate]. intros H x. inv H.
    apply pick_spec in P as [P1 P2]. cbn [In]. rewrite (IH _ _ M). split.
    + intros [<-|(l & Hl & Hx)].
      * apply heads_In in P1 as (t & Ht). exists (c :: t). split; auto. now left.
      * apply in_map_iff in Hl as (l' & <- & Hl'). exists l'. split; auto. now apply strip1_incl in Hx.
    + intros (l & Hl & Hx). destruct (strip1_keeps c x l Hx) as [->|Hs]; [now left|].
      right. exists (strip1 c l). split; auto. now apply in_map.
Qed.

(** The picked element does not come again. *)
Lemma merge_cons f ls r : merge f ls = Some r ->
  match r with
  | [] => heads ls = []
  | c :: r' => pick ls = Some c /\ ~ In c r' /\ exists f', f = S f' /\ merge f' (map (strip1 c) ls) = Some r'
  end.
Proof.
  destruct f as [|f]; cbn [merge]; destruct (heads ls) as [|h hs] eqn:E; try discriminate.
  - intros H. inv H. auto.
  - intros H. inv H. auto.
  - destruct (pick ls) as [c|] eqn:P; [|discriminate].
    destruct (merge f (map (strip1 c) ls)) as [r'|] eqn:M; [|discriminate]. intros H. inv H.
    split; auto. split; [|eauto]. apply pick_spec in P as [P1 P2].
    rewrite (merge_In _ _ _ M). intros (l & Hl & Hx). apply in_map_iff in Hl as (l' & <- & Hl').
    now apply (strip1_gone c l' (P2 _ Hl')).
Qed.
Lemma merge_NoDup f : forall ls r, merge f ls = Some r -> NoDup r.
Proof.
  induction f as [|f IH]; intros ls r H; pose proof (merge_cons _ _ _ H) as Q; destruct r as [|c r]; try constructor.
  - destruct Q as (_ & _ & f' & ? & _). discriminate.
  - destruct Q as (_ & _ & f' & ? & _). discriminate.
  - tauto.
  - destruct Q as (_ & _ & f' & Ef & Q). inv Ef. eauto.
Qed.

(** Fuel: any amount that is at least the length of the result gives the same result. *)
Lemma merge_more f : forall ls r f', merge f ls = Some r -> (length r <= f')%nat -> merge f' ls = Some r.
Proof.
  induction f as [|f IH]; intros ls r f' H Hf; pose proof (merge_cons _ _ _ H) as Q; destruct r as [|c r].
  - destruct f'; cbn [merge]; now rewrite Q.
  - destruct Q as (_ & _ & f1 & ? & _). discriminate.
  - destruct f'; cbn [merge]; now rewrite Q.
  - destruct Q as (P & _ & f1 & Ef & M). inv Ef. cbn [length] in Hf. destruct f' as [|f']; [lia|].
    cbn [merge]. destruct (heads ls) as [|h hs] eqn:E.
    + apply pick_spec in P as [P1 _]. rewrite E in P1. destruct P1.
    + rewrite P. rewrite (IH _ _ f' M) by lia. reflexivity.
Qed.
Lemma total_len_strip x ls : In x (heads ls) -> (total_len (map (strip1 x) ls) < total_len ls)%nat.
Proof.
  assert (Q : forall l, (length (strip1 x l) <= length l)%nat).
  { intros [|h t]; cbn; auto. destruct (Nat.eqb h x); cbn; lia. }
  assert (Q2 : forall ls, (total_len (map (strip1 x) ls) <= total_len ls)%nat).
  { induction ls0; cbn; auto. specialize (Q a). unfold total_len in *. lia. }
  induction ls as [|l ls IH]; [intros []|]. rewrite heads_In. intros (t & [->|H]).
  - cbn [map total_len fold_right]. cbn [strip1]. rewrite Nat.eqb_refl. specialize (Q2 ls).
    unfold total_len in Q2. cbn [length]. lia.
  - assert (In x (heads ls)) by (apply heads_In; eauto). specialize (IH H0). cbn [map total_len fold_right] in *.
    unfold total_len in *. cbn [fold_right]. specialize (Q l). lia.
Qed.
Lemma merge_length f : forall ls r, merge f ls = Some r -> (length r <= total_len ls)%nat.
Proof.
  induction f as [|f IH]; intros ls r H; pose proof (merge_cons _ _ _ H) as Q; destruct r as [|c r]; cbn [length]; try lia.
  - destruct Q as (_ & _ & f' & ? & _). discriminate.
  - destruct Q as (P & _ & f' & Ef & M). inv Ef. apply IH in M. apply pick_spec in P as [P1 _].
    apply total_len_strip in P1. lia.
Qed.
Lemma merge_fuel f ls r : merge f ls = Some r -> merge (total_len ls) ls = Some r.
Proof. intros H. eapply merge_more; eauto. eapply merge_length; eauto. Qed.

Lemma find_app {A} p (l1 l2 : list A) : find p (l1 ++ l2) = match find p l1 with Some x => Some x | None => find p l2 end.
Proof. induction l1; cbn; auto. destruct (p a); auto. Qed.
Lemma find_map {A B} (g : A -> B) p q l c : find p l = Some c ->
  (forall h, In h l -> p h = false -> q (g h) = false) -> q (g c) = true -> find q (map g l) = Some (g c).
Proof.
  induction l as [|a l IH]; cbn; [discriminate|]. destruct (p a) eqn:E; intros H Hf Hc.
  - inv H. now rewrite Hc.
  - rewrite Hf by auto. auto.
Qed.

(** ** The merge of the doubled lists *)
Section Double.
  Variable bvp : nat -> bool.
  Variable f : nat -> nat.
  Variable U : nat -> Prop.
  Hypothesis f_inj : forall x y, U x -> U y -> bvp x = true -> bvp y = true -> f x = f y -> x = y.
  Hypothesis f_out : forall x y, U x -> U y -> bvp x = true -> f x <> y.

  Definition dbl (l : list nat) : list nat := flat_map (fun x => if bvp x then [f x; x] else [x]) l.
  Definition g (x : nat) : nat := if bvp x then f x else x.

  Lemma dbl_cons x l : dbl (x :: l) = (if bvp x then [f x; x] else [x]) ++ dbl l.
  Proof. reflexivity. Qed.
  Lemma dbl_In_plain l x : Forall U l -> U x -> (In x (dbl l) <-> In x l).
  Proof.
    intros Hl Hx. unfold dbl. rewrite in_flat_map. rewrite Forall_forall in Hl. split.
    - intros (y & Hy & H). destruct (bvp y) eqn:E; cbn in H.
      + destruct H as [H|[<-|[]]]; auto. exfalso. apply (f_out y x); auto.
      + destruct H as [<-|[]]; auto.
    - intros H. exists x. split; auto. destruct (bvp x); cbn; auto.
  Qed.
  Lemma dbl_In_f l x : Forall U l -> U x -> bvp x = true -> (In (f x) (dbl l) <-> In x l).
  Proof.
    intros Hl Hx Hb. unfold dbl. rewrite in_flat_map. rewrite Forall_forall in Hl. split.
    - intros (y & Hy & H). destruct (bvp y) eqn:E; cbn in H.
      + destruct H as [H|[H|[]]]; [|exfalso; apply (f_out x y); auto].
        apply f_inj in H; auto. now subst.
      + destruct H as [H|[]]. exfalso. apply (f_out x y); auto.
    - intros H. exists x. split; auto. rewrite Hb. now left.
  Qed.
  Lemma heads_dbl ls : heads (map dbl ls) = map g (heads ls).
  Proof.
    induction ls as [|[|a l] ls IH]; cbn [map]; auto.
    change (heads (dbl (a :: l) :: map dbl ls)) with ((match dbl (a :: l) with [] => [] | h :: _ => [h] end) ++ heads (map dbl ls)).
    rewrite IH. rewrite dbl_cons. unfold g. cbn. now destruct (bvp a).
  Qed.

  (** strip1 and dbl *)
  Lemma strip_plain c l : Forall U l -> U c -> bvp c = false -> strip1 c (dbl l) = dbl (strip1 c l).
  Proof.
    intros Hl Hc Hb. destruct l as [|a l]; auto. inv Hl. cbn [strip1]. rewrite dbl_cons.
    destruct (Nat.eqb_spec a c) as [->|N].
    - rewrite Hb. cbn. now rewrite Nat.eqb_refl.
    - rewrite dbl_cons. destruct (bvp a) eqn:E; cbn.
      + destruct (Nat.eqb_spec (f a) c) as [K|]; auto. exfalso. eapply f_out; [| | |exact K]; auto.
      + destruct (Nat.eqb_spec a c); [congruence|auto].
  Qed.
  Lemma strip_both c l : Forall U l -> U c -> bvp c = true ->
    strip1 c (strip1 (f c) (dbl l)) = dbl (strip1 c l).
  Proof.
    intros Hl Hc Hb. destruct l as [|a l]; auto. inv Hl. cbn [strip1]. rewrite dbl_cons.
    destruct (Nat.eqb_spec a c) as [->|N].
    - rewrite Hb. cbn. rewrite Nat.eqb_refl. cbn. now rewrite Nat.eqb_refl.
    - rewrite dbl_cons. destruct (bvp a) eqn:E; cbn.
      + destruct (Nat.eqb_spec (f a) (f c)) as [K|]; [exfalso; apply f_inj in K; auto|].
        cbn. destruct (Nat.eqb_spec (f a) c) as [K|]; auto. exfalso. eapply f_out; [| | |exact K]; auto.
      + destruct (Nat.eqb_spec a (f c)) as [K|]; [exfalso; eapply f_out; [| | |symmetry; exact K]; auto|].
        cbn. destruct (Nat.eqb_spec a c); [congruence|auto].
  Qed.
  Lemma strip_map c A : Forall U A -> Forall (fun x => bvp x = true) A -> U c -> bvp c = true ->
    strip1 (f c) (map f A) = map f (strip1 c A).
  Proof.
    intros Hl Hb Hc Hbc. destruct A as [|a A]; auto. inv Hl. inv Hb. cbn.
    destruct (Nat.eqb_spec a c) as [->|N].
    - now rewrite Nat.eqb_refl.
    - destruct (Nat.eqb_spec (f a) (f c)) as [K|]; auto. exfalso. apply f_inj in K; auto.
  Qed.
  Lemma strip_map_plain c A : Forall U A -> Forall (fun x => bvp x = true) A -> U c ->
    strip1 c (map f A) = map f A.
  Proof.
    intros Hl Hb Hc. destruct A as [|a A]; auto. inv Hl. inv Hb. cbn.
    destruct (Nat.eqb_spec (f a) c) as [K|]; auto. exfalso. eapply f_out; [| | |exact K]; auto.
  Qed.

  Lemma forall_strip c P ls : Forall (Forall P) ls -> Forall (Forall P) (map (strip1 c) ls).
  Proof.
    intros H. rewrite Forall_forall in *. intros l Hl. apply in_map_iff in Hl as (l' & <- & Hl').
    specialize (H _ Hl'). rewrite Forall_forall in *. intros x Hx. apply H. now apply strip1_incl in Hx.
  Qed.

  Lemma good_all (h : nat) ls : forallb (fun l => negb (in_tail h l)) ls = true <-> forall l, In l ls -> in_tail h l = false.
  Proof.
    rewrite forallb_forall. split; intros H l Hl; specialize (H l Hl); destruct (in_tail h l); auto; discriminate.
  Qed.
  Lemma good_not (h : nat) ls : forallb (fun l => negb (in_tail h l)) ls = false <-> exists l, In l ls /\ in_tail h l = true.
  Proof.
    split.
    - induction ls as [|l ls IH]; cbn; [discriminate|]. destruct (in_tail h l) eqn:E.
      + intros _. exists l. auto.
      + cbn. intros H. destruct (IH H) as (l' & A & B). eauto.
    - intros (l & A & B). destruct (forallb _ ls) eqn:E; auto. rewrite good_all in E. rewrite E in B; auto.
  Qed.

  Lemma merge_double fuel : forall Ls1 Ls2 A B M,
    merge fuel (Ls1 ++ Ls2 ++ [A ++ B]) = Some M ->
    Forall (Forall U) Ls1 -> Forall (Forall U) Ls2 -> Forall U A -> Forall U B ->
    Forall (Forall (fun x => bvp x = false)) Ls2 -> Forall (fun x => bvp x = true) A -> Forall (fun x => bvp x = false) B ->
    (forall x, In x A -> exists l, In l Ls1 /\ In x l) ->
    (forall x, In x M -> bvp x = true -> exists l, In l Ls1 /\ In x l) ->
    exists fuel', merge fuel' (M :: map dbl Ls1 ++ [map f A]) = Some (dbl M).
  Proof.
    induction fuel as [|fuel IH]; intros Ls1 Ls2 A B M H U1 U2 UA UB N2 NA NB HA HM;
      pose proof (merge_cons _ _ _ H) as Q; destruct M as [|c M].
    1,3: exists 0%nat; rewrite !heads_app in Q; apply app_eq_nil in Q as [Q1 Q]; apply app_eq_nil in Q as [_ Q3];
      assert (EH : heads ([] :: map dbl Ls1 ++ [map f A]) = []);
      [ change (heads (map dbl Ls1 ++ [map f A]) = []); rewrite heads_app, heads_dbl, Q1; cbn [map app];
        destruct A; [reflexivity|discriminate]
      | cbn [merge]; rewrite EH; reflexivity ].
    { destruct Q as (_ & _ & f' & ? & _). discriminate. }
    destruct Q as (P & Nc & f' & Ef & Mr). inv Ef.
    assert (IM : forall x, In x (c :: M) -> U x).
    { intros x Hx. rewrite (merge_In _ _ _ H) in Hx. destruct Hx as (l & Hl & Hx).
      rewrite !in_app_iff in Hl. rewrite Forall_forall in *. destruct Hl as [Hl|[Hl|[<-|[]]]].
      - specialize (U1 _ Hl). rewrite Forall_forall in U1. auto.
      - specialize (U2 _ Hl). rewrite Forall_forall in U2. auto.
      - apply in_app_iff in Hx as [Hx|Hx]; auto. }
    assert (Uc : U c) by (apply IM; now left).
    assert (UM : Forall U M) by (apply Forall_forall; intros; apply IM; now right).
    pose proof (pick_spec _ _ P) as [Ph Pt].
    (* the rest of the run *)
    assert (REST : bvp c = true -> exists fuel', merge fuel' (M :: map dbl (map (strip1 c) Ls1) ++ [map f (strip1 c A)]) = Some (dbl M)).
    { intros Hb. apply (IH (map (strip1 c) Ls1) (map (strip1 c) Ls2) (strip1 c A) B M).
      - rewrite !map_app in Mr. cbn [map] in Mr.
        replace (strip1 c (A ++ B)) with (strip1 c A ++ B) in Mr; auto.
        destruct A as [|a A]; cbn [strip1 app]; [|destruct (Nat.eqb a c); reflexivity].
        destruct B as [|b B]; auto. inv NB. cbn. destruct (Nat.eqb_spec b c); congruence.
      - now apply forall_strip.
      - now apply forall_strip.
      - rewrite Forall_forall in *. intros x Hx. apply strip1_incl in Hx. auto.
      - auto.
      - now apply forall_strip.
      - rewrite Forall_forall in *. intros x Hx. apply strip1_incl in Hx. auto.
      - auto.
      - intros x Hx. assert (x <> c).
        { intros ->. apply (strip1_gone c A); auto. destruct A as [|a A]; auto. cbn.
          specialize (Pt (a :: A ++ B)). cbn in Pt. rewrite mem_false in Pt |- *. intros K. apply Pt; [|apply in_app_iff; auto].
          rewrite !in_app_iff. right; right. now left. }
        apply strip1_incl in Hx. destruct (HA x Hx) as (l & Hl & Hx'). exists (strip1 c l). split; [now apply in_map|].
        destruct (strip1_keeps c x l Hx'); congruence.
      - intros x Hx Hbx. assert (x <> c) by congruence. destruct (HM x) as (l & Hl & Hx'); auto; [now right|].
        exists (strip1 c l). split; [now apply in_map|]. destruct (strip1_keeps c x l Hx'); congruence. }
    destruct (bvp c) eqn:Hb.
    - (* a bit-vector class: its sized class first *)
      destruct (REST eq_refl) as (fl & Efl). clear REST.
      destruct (HM c) as (lc & Hlc & Hcl); [now left|auto|].
      assert (Hd : exists t, lc = c :: t).
      { destruct lc as [|a t]; [destruct Hcl|]. destruct Hcl as [->|Hcl]; eauto.
        exfalso. specialize (Pt (a :: t)). cbn in Pt. rewrite mem_false in Pt. apply Pt; auto. rewrite in_app_iff. auto. }
      destruct Hd as (tc & ->).
      set (ls2 := (c :: M) :: map dbl Ls1 ++ [map f A]).
      assert (Ginv : forall h, In h (heads Ls1) ->
        forallb (fun l => negb (in_tail h l)) (Ls1 ++ Ls2 ++ [A ++ B]) = false ->
        forallb (fun l => negb (in_tail (g h) l)) ls2 = false).
      { intros h Hh Hg. apply good_not in Hg as (l & Hl & Ht). apply good_not.
        assert (Uh : U h).
        { apply IM. rewrite (merge_In _ _ _ H). apply heads_In in Hh as (t & Hh). exists (h :: t). split; [apply in_app_iff; auto|now left]. }
        unfold g. destruct (bvp h) eqn:Ebh.
        - rewrite !in_app_iff in Hl. destruct Hl as [Hl|[Hl|[<-|[]]]].
          + exists (dbl l). split; [right; apply in_app_iff; left; now apply in_map|].
            destruct l as [|a t]; [discriminate|]. cbn in Ht. apply mem_In in Ht. rewrite dbl_cons.
            assert (Ut : Forall U t) by (rewrite Forall_forall in U1; specialize (U1 _ Hl); inv U1; auto).
            assert (In (f h) (dbl t)) by (apply dbl_In_f; auto).
            destruct (bvp a); cbn [app in_tail]; apply mem_In; auto. now right.
          + exfalso. apply in_tail_In in Ht. rewrite Forall_forall in N2. specialize (N2 _ Hl).
            rewrite Forall_forall in N2. rewrite N2 in Ebh; auto. discriminate.
          + exists (map f A). split; [right; apply in_app_iff; right; now left|].
            destruct A as [|a A]; cbn [app] in Ht.
            * exfalso. apply in_tail_In in Ht. rewrite Forall_forall in NB. rewrite NB in Ebh; auto. discriminate.
            * cbn in Ht |- *. apply mem_In in Ht. apply mem_In. apply in_app_iff in Ht as [Ht|Ht]; [now apply in_map|].
              exfalso. rewrite Forall_forall in NB. rewrite NB in Ebh; auto. discriminate.
        - exists (c :: M). split; [now left|]. cbn. apply mem_In.
          assert (In h (c :: M)).
          { rewrite (merge_In _ _ _ H). apply heads_In in Hh as (t & Hh). exists (h :: t). split; [apply in_app_iff; auto|now left]. }
          destruct H0 as [<-|]; auto. congruence. }
      assert (Gc : forallb (fun l => negb (in_tail (f c) l)) ls2 = true).
      { apply good_all. intros l Hl. unfold ls2 in Hl. destruct Hl as [<-|Hl].
        - cbn [in_tail]. apply mem_false. intros K. rewrite Forall_forall in UM. eapply (f_out c (f c)); auto.
        - apply in_app_iff in Hl as [Hl|[<-|[]]].
          + apply in_map_iff in Hl as (l' & <- & Hl). destruct l' as [|a t]; auto.
            assert (Ut : U a /\ Forall U t) by (rewrite Forall_forall in U1; specialize (U1 _ Hl); inv U1; auto).
            destruct Ut as [Ua Ut]. rewrite dbl_cons.
            assert (K : ~ In (f c) (dbl t)).
            { rewrite dbl_In_f by auto. specialize (Pt (a :: t)). cbn in Pt. rewrite mem_false in Pt. apply Pt. apply in_app_iff. auto. }
            destruct (bvp a); cbn [app in_tail]; apply mem_false; auto. intros [K'|K']; auto. symmetry in K'. revert K'. now apply f_out.
          + destruct A as [|a A]; auto. cbn. apply mem_false. rewrite in_map_iff. intros (y & E & Hy).
            rewrite Forall_forall in UA, NA. apply f_inj in E; auto; try (apply UA; now right); try (apply NA; now right). subst y.
            specialize (Pt (a :: A ++ B)). cbn in Pt. rewrite mem_false in Pt. apply Pt; [|apply in_app_iff; auto].
            rewrite !in_app_iff. right; right; now left. }
      assert (P1 : pick ls2 = Some (f c)).
      { unfold pick, ls2 at 2. change (heads ((c :: M) :: map dbl Ls1 ++ [map f A])) with (c :: heads (map dbl Ls1 ++ [map f A])).
        cbn [find]. replace (forallb (fun l => negb (in_tail c l)) ls2) with false.
        - rewrite heads_app, find_app, heads_dbl.
          rewrite (find_map g (fun h => forallb (fun l => negb (in_tail h l)) (Ls1 ++ Ls2 ++ [A ++ B])) _ (heads Ls1) c).
          + unfold g. now rewrite Hb.
          + unfold pick in P. rewrite heads_app, find_app in P.
            destruct (find _ (heads Ls1)) as [x|] eqn:E; auto. exfalso.
            eapply find_none in E; [|apply heads_In; eauto]. cbn beta in E. apply good_not in E as (l & Hl & Ht).
            rewrite Pt in Ht; auto. discriminate.
          + exact Ginv.
          + unfold g. now rewrite Hb.
        - symmetry. apply good_not. exists (dbl (c :: tc)). split; [right; apply in_app_iff; left; now apply in_map|].
          rewrite dbl_cons, Hb. cbn. now rewrite Nat.eqb_refl. }
      set (ls3 := map (strip1 (f c)) ls2).
      assert (E3 : ls3 = (c :: M) :: map (fun l => strip1 (f c) (dbl l)) Ls1 ++ [map f (strip1 c A)]).
      { unfold ls3, ls2. cbn [map]. f_equal.
        - cbn. destruct (Nat.eqb_spec c (f c)); auto. exfalso. apply (f_out c c); auto.
        - rewrite map_app, map_map. f_equal. cbn [map]. f_equal. now apply strip_map. }
      assert (P2 : pick ls3 = Some c).
      { unfold pick. replace (heads ls3) with (c :: heads (map (fun l => strip1 (f c) (dbl l)) Ls1 ++ [map f (strip1 c A)])) by (rewrite E3; reflexivity).
        cbn [find]. replace (forallb (fun l => negb (in_tail c l)) ls3) with true; auto. symmetry. apply good_all.
        rewrite E3. intros l [<-|Hl].
        - cbn [in_tail]. now apply mem_false.
        - apply in_app_iff in Hl as [Hl|[<-|[]]].
          + apply in_map_iff in Hl as (l' & <- & Hl). destruct l' as [|a t]; auto.
            assert (Ut : U a /\ Forall U t) by (rewrite Forall_forall in U1; specialize (U1 _ Hl); inv U1; auto).
            destruct Ut as [Ua Ut].
            assert (K : ~ In c (dbl t)).
            { rewrite dbl_In_plain by auto. specialize (Pt (a :: t)). cbn in Pt. rewrite mem_false in Pt. apply Pt. apply in_app_iff. auto. }
            rewrite dbl_cons. destruct (bvp a) eqn:Ea; cbn [app strip1].
            * destruct (Nat.eqb_spec (f a) (f c)) as [Ef|Nf]; cbn [in_tail]; apply mem_false; auto.
              intros [->|K']; auto.
            * destruct (Nat.eqb_spec a (f c)); [exfalso; eapply (f_out c a); auto|]. cbn [in_tail]. now apply mem_false.
          + destruct (in_tail c (map f (strip1 c A))) eqn:Et; auto. apply in_tail_In in Et.
            apply in_map_iff in Et as (y & Ey & Hy). apply strip1_incl in Hy. exfalso.
            rewrite Forall_forall in UA, NA. eapply (f_out y c); auto. }
      assert (E4 : map (strip1 c) ls3 = M :: map dbl (map (strip1 c) Ls1) ++ [map f (strip1 c A)]).
      { rewrite E3. cbn [map]. cbn [strip1]. rewrite Nat.eqb_refl. f_equal. rewrite map_app, !map_map. f_equal.
        - apply map_ext_in. intros l Hl. apply strip_both; auto. rewrite Forall_forall in U1. auto.
        - cbn [map]. f_equal. apply strip_map_plain; auto.
          + rewrite Forall_forall in *. intros x Hx. apply strip1_incl in Hx. auto.
          + rewrite Forall_forall in *. intros x Hx. apply strip1_incl in Hx. auto. }
      exists (S (S fl)). fold ls2. cbn [merge].
      replace (heads ls2) with (c :: heads (map dbl Ls1 ++ [map f A])) by reflexivity.
      rewrite P1. fold ls3.
      replace (heads ls3) with (c :: heads (map (fun l => strip1 (f c) (dbl l)) Ls1 ++ [map f (strip1 c A)])) by (rewrite E3; reflexivity).
      rewrite P2, E4, Efl. rewrite dbl_cons, Hb. reflexivity.
    - (* a mixin *)
      assert (REST' : exists fuel', merge fuel' (M :: map dbl (map (strip1 c) Ls1) ++ [map f A]) = Some (dbl M)).
      { apply (IH (map (strip1 c) Ls1) (map (strip1 c) Ls2) A (match A with [] => strip1 c B | _ => B end) M).
        - rewrite !map_app in Mr. cbn [map] in Mr. destruct A as [|a A]; auto.
          cbn [app strip1] in Mr. inv NA. destruct (Nat.eqb_spec a c); [congruence|auto].
        - now apply forall_strip.
        - now apply forall_strip.
        - auto.
        - destruct A; auto. rewrite Forall_forall in *. intros x Hx. apply strip1_incl in Hx. auto.
        - now apply forall_strip.
        - auto.
        - destruct A; auto. rewrite Forall_forall in *. intros x Hx. apply strip1_incl in Hx. auto.
        - intros x Hx. assert (x <> c) by (rewrite Forall_forall in NA; specialize (NA _ Hx); congruence).
          destruct (HA x Hx) as (l & Hl & Hx'). exists (strip1 c l). split; [now apply in_map|].
          destruct (strip1_keeps c x l Hx'); congruence.
        - intros x Hx Hbx. assert (x <> c) by congruence. destruct (HM x) as (l & Hl & Hx'); auto; [now right|].
          exists (strip1 c l). split; [now apply in_map|]. destruct (strip1_keeps c x l Hx'); congruence. }
      destruct REST' as (fl & Efl). exists (S fl). cbn [merge].
      set (ls2 := (c :: M) :: map dbl Ls1 ++ [map f A]).
      replace (heads ls2) with (c :: heads (map dbl Ls1 ++ [map f A])) by reflexivity.
      assert (P2 : pick ls2 = Some c).
      { unfold pick. replace (heads ls2) with (c :: heads (map dbl Ls1 ++ [map f A])) by reflexivity.
        cbn [find]. replace (forallb (fun l => negb (in_tail c l)) ls2) with true; auto. symmetry. apply good_all.
        intros l [<-|Hl].
        - cbn [in_tail]. now apply mem_false.
        - apply in_app_iff in Hl as [Hl|[<-|[]]].
          + apply in_map_iff in Hl as (l' & <- & Hl). destruct l' as [|a t]; auto.
            assert (Ut : U a /\ Forall U t) by (rewrite Forall_forall in U1; specialize (U1 _ Hl); inv U1; auto).
            destruct Ut as [Ua Ut].
            assert (K : ~ In c (dbl t)).
            { rewrite dbl_In_plain by auto. specialize (Pt (a :: t)). cbn in Pt. rewrite mem_false in Pt. apply Pt. apply in_app_iff. auto. }
            rewrite dbl_cons. destruct (bvp a) eqn:Ea; cbn [app in_tail]; apply mem_false; auto. intros [->|K']; auto. congruence.
          + destruct (in_tail c (map f A)) eqn:Et; auto. apply in_tail_In in Et.
            apply in_map_iff in Et as (y & Ey & Hy). exfalso.
            rewrite Forall_forall in UA, NA. eapply (f_out y c); auto. }
      rewrite P2. replace (map (strip1 c) ls2) with (M :: map dbl (map (strip1 c) Ls1) ++ [map f A]).
      + rewrite Efl. rewrite dbl_cons, Hb. reflexivity.
      + unfold ls2. cbn [map]. cbn [strip1]. rewrite Nat.eqb_refl. f_equal. rewrite map_app, !map_map. f_equal.
        * apply map_ext_in. intros l Hl. symmetry. apply strip_plain; auto. rewrite Forall_forall in U1. auto.
        * cbn [map]. f_equal. symmetry. now apply strip_map_plain.
  Qed.
End Double.

(** The merge keeps the order of every list. *)
Lemma merge_order f : forall ls r q1 a q2 b, merge f ls = Some r -> In (q1 ++ a :: q2) ls -> In b q2 ->
  forall r1 r2, r = r1 ++ b :: r2 -> In a r1.
Proof.
  induction f as [|f IH]; intros ls r q1 a q2 b H Hq Hb r1 r2 E; pose proof (merge_cons _ _ _ H) as Q; destruct r as [|c r]; try (destruct r1; discriminate).
  - destruct Q as (_ & _ & f' & ? & _). discriminate.
  - destruct Q as (P & Nc & f' & Ef & M). inv Ef. apply pick_spec in P as [_ P].
    destruct r1 as [|c' r1]; cbn [app] in E; inv E.
    + exfalso. specialize (P _ Hq). destruct q1 as [|x q1]; cbn [app in_tail] in P; apply mem_false in P; apply P; auto.
      apply in_app_iff. right. now right.
    + destruct (Nat.eq_dec a c') as [->|Na]; [now left|]. right.
      assert (Hs : In (strip1 c' (q1 ++ a :: q2)) (map (strip1 c') ls)) by now apply in_map.
      assert (exists q1', strip1 c' (q1 ++ a :: q2) = q1' ++ a :: q2) as (q1' & Es).
      { destruct q1 as [|x q1]; cbn [app strip1].
        - destruct (Nat.eqb_spec a c'); [contradiction|]. now exists [].
        - destruct (Nat.eqb x c'); [now exists q1|now exists (x :: q1)]. }
      rewrite Es in Hs. eapply (IH _ _ q1' a q2 b M Hs Hb); eauto.
Qed.
Lemma merge_one l : NoDup l -> exists f, merge f [l; []] = Some l.
Proof.
  induction 1 as [|x l N H IH]; [exists 0%nat; reflexivity|]. destruct IH as (f & E). exists (S f). cbn [merge heads flat_map app].
  unfold pick. cbn [heads flat_map app find forallb in_tail]. assert (M : mem x l = false) by now apply mem_false. rewrite M. cbn [negb andb].
  cbn [map strip1]. rewrite Nat.eqb_refl. now rewrite E.
Qed.
