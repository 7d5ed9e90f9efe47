(** Lemmas on types: induction, injectivity of the code, equality, sets of types. *)
From Coq Require Import Lia Sorted Permutation.
From Verif Require Import PyBase BVModel ADTTy.

(** ** Induction *)
Lemma ty_ind' (P : ty -> Prop) :
  (forall l, P (TLeaf l)) -> (forall n ms, P (TEnum n ms)) ->
  (forall k u fs, Forall (fun f => P (snd f)) fs -> P (TNode k u fs)) ->
  (forall m t, P t -> P (TMod m t)) -> forall t, P t.
Proof.
  intros H1 H2 H3 H4. fix IH 1. intros [l|n ms|k u fs|m t]; [apply H1|apply H2| |apply H4, IH].
  apply H3. induction fs as [|f fs IHf]; constructor; auto.
Qed.

(** ** The code is injective *)
Definition pinj {A} (f : A -> list Z) (a : A) : Prop := forall b r s, f a ++ r = f b ++ s -> a = b /\ r = s.
Lemma cons_inv {A} (x y : A) l m : x :: l = y :: m -> x = y /\ l = m.
Proof. intros E. split; congruence. Qed.
Lemma pinj_list {A} (f : A -> list Z) l : Forall (pinj f) l -> pinj (list_code f) l.
Proof.
  intros Hl m r s. unfold list_code. cbn [app]. intros E.
  assert (El : length l = length m) by (apply Nat2Z.inj; congruence).
  assert (E' : flat_map f l ++ r = flat_map f m ++ s) by congruence. clear E. revert m r s El E'.
  induction Hl as [|a l Ha Hl IH]; intros [|b m] r s El E'; cbn in El; try discriminate; auto.
  cbn [flat_map] in E'. rewrite <- !app_assoc in E'. apply Ha in E' as [<- E']. apply IH in E' as [<- <-]; auto.
Qed.
Lemma pinj_str s : pinj str_code s.
Proof.
  intros s' r r' E. unfold str_code in E. apply pinj_list in E as [E <-].
  - split; auto. rewrite <- (string_of_list_ascii_of_string s), E. apply string_of_list_ascii_of_string.
  - apply Forall_forall. intros a _ b u v Q. cbn in Q. injection Q as Q ->. split; auto.
    apply Nat2Z.inj in Q. rewrite <- (ascii_nat_embedding a), Q. apply ascii_nat_embedding.
Qed.
Lemma pinj_pair {A B} (f : A -> list Z) (g : B -> list Z) a b :
  pinj f a -> pinj g b -> pinj (fun p => f (fst p) ++ g (snd p)) (a, b).
Proof.
  intros Ha Hb [a' b'] r s E. cbn [fst snd] in E. rewrite <- !app_assoc in E.
  apply Ha in E as [<- E]. apply Hb in E as [<- <-]. auto.
Qed.
Lemma kind_num_inj a b : kind_num a = kind_num b -> a = b.
Proof. destruct a, b; cbn; congruence. Qed.
Lemma pinj_leaf l : pinj leaf_code l.
Proof.
  intros l' r s E. destruct l as [f k [n|]|f| | | |i], l' as [f' k' [n'|]|f'| | | |i']; cbn in E; try discriminate;
    injection E; intros; subst; auto; try (match goal with H : kind_num _ = kind_num _ |- _ => apply kind_num_inj in H end; subst; auto).
Qed.
Lemma pinj_kind k : pinj kind_code k.
Proof.
  intros k' r s E. destruct k as [| |n x| |n x], k' as [| |n' x'| |n' x']; cbn [kind_code app] in E; try discriminate;
    try (split; congruence).
  - apply cons_inv in E as [_ E]. apply cons_inv in E as [-> E]. apply pinj_str in E as [-> ->]. auto.
  - apply cons_inv in E as [_ E]. apply cons_inv in E as [-> E]. apply pinj_str in E as [-> ->]. auto.
Qed.
Lemma pinj_evalue v : pinj evalue_code v.
Proof. intros w r s E. destruct v, w; cbn in E; try discriminate; split; congruence. Qed.

Lemma pinj_code t : pinj code t.
Proof.
  induction t as [l|n ms|k u fs IH|m t IH] using ty_ind'; intros [l'|n' ms'|k' u' fs'|m' t'] r s E; cbn [code app] in E; try discriminate.
  - apply cons_inv in E as [_ E]. apply pinj_leaf in E as [-> ->]. auto.
  - apply cons_inv in E as [_ E]. rewrite <- !app_assoc in E. apply pinj_str in E as [<- E].
    apply pinj_list in E as [<- <-]; auto. apply Forall_forall. intros [a b] _. apply pinj_pair; [apply pinj_str|apply pinj_evalue].
  - apply cons_inv in E as [_ E]. rewrite <- !app_assoc in E. apply pinj_kind in E as [<- E]. apply pinj_list in E as [<- E].
    + apply pinj_list in E as [<- <-]; auto. eapply Forall_impl; [|exact IH]. intros [a b] Q. apply pinj_pair; [apply pinj_str|exact Q].
    + apply Forall_forall. intros a _ b x y Q. cbn in Q. split; congruence.
  - apply cons_inv in E as [_ E]. apply cons_inv in E as [-> E]. apply IH in E as [<- <-]. auto.
Qed.
Lemma code_inj a b : code a = code b -> a = b.
Proof. intros E. apply (pinj_code a b [] []). now rewrite !app_nil_r. Qed.

(** ** The order *)
Lemma lex_eq a : forall b, lex a b = Eq <-> a = b.
Proof.
  induction a as [|x a IH]; intros [|y b]; cbn; split; try discriminate; auto.
  - destruct (Z.compare_spec x y); try discriminate. intros E. apply IH in E. congruence.
  - intros E. injection E as -> ->. rewrite Z.compare_refl. now apply IH.
Qed.
Lemma lex_opp a : forall b, lex b a = CompOpp (lex a b).
Proof.
  induction a as [|x a IH]; intros [|y b]; cbn; auto. rewrite (Z.compare_antisym x y). destruct (x ?= y); cbn; auto.
Qed.
Lemma lex_trans a : forall b c, lex a b = Lt -> lex b c = Lt -> lex a c = Lt.
Proof.
  induction a as [|x a IH]; intros [|y b] [|z c]; cbn; try discriminate; auto.
  destruct (Z.compare_spec x y), (Z.compare_spec y z), (Z.compare_spec x z); try discriminate; try lia; eauto.
Qed.
Definition tlt (a b : ty) : Prop := lex (code a) (code b) = Lt.
Lemma ty_eqb_spec a b : reflect (a = b) (ty_eqb a b).
Proof.
  unfold ty_eqb. destruct (lex (code a) (code b)) eqn:E; constructor.
  - now apply code_inj, lex_eq.
  - intros ->. assert (Q : lex (code b) (code b) = Eq) by now apply lex_eq. congruence.
  - intros ->. assert (Q : lex (code b) (code b) = Eq) by now apply lex_eq. congruence.
Qed.
Lemma ty_eqb_refl a : ty_eqb a a = true.
Proof. now destruct (ty_eqb_spec a a). Qed.
Lemma ty_eqb_eq a b : ty_eqb a b = true <-> a = b.
Proof. destruct (ty_eqb_spec a b); split; congruence. Qed.
Lemma ty_dec (a b : ty) : {a = b} + {a <> b}.
Proof. destruct (ty_eqb_spec a b); auto. Qed.

(** ** Sets *)
Lemma set_add_In x l y : In y (set_add x l) <-> y = x \/ In y l.
Proof.
  induction l as [|z l IH]; cbn [set_add]; [cbn; intuition congruence|].
  destruct (lex (code x) (code z)) eqn:E.
  - apply lex_eq, code_inj in E. subst z. cbn. intuition congruence.
  - cbn. intuition congruence.
  - cbn. rewrite IH. intuition congruence.
Qed.
Lemma type_set_In l y : In y (type_set l) <-> In y l.
Proof. induction l as [|x l IH]; cbn [type_set fold_right]; [reflexivity|]. fold (type_set l). rewrite set_add_In, IH. cbn. intuition congruence. Qed.

Lemma HdRel_add x y l : HdRel tlt y l -> tlt y x -> HdRel tlt y (set_add x l).
Proof.
  intros H1 H2. destruct l as [|z l]; cbn [set_add]; [now constructor|]. inversion H1; subst.
  destruct (lex (code x) (code z)); constructor; auto.
Qed.
Lemma set_add_sorted x l : Sorted tlt l -> Sorted tlt (set_add x l).
Proof.
  induction 1 as [|y l Hl IH Hy]; cbn [set_add]; [repeat constructor|].
  destruct (lex (code x) (code y)) eqn:E; [now constructor| |].
  - constructor; [now constructor|]. now constructor.
  - constructor; auto. apply HdRel_add; auto. unfold tlt. rewrite lex_opp, E. reflexivity.
Qed.
Lemma type_set_sorted l : Sorted tlt (type_set l).
Proof. induction l as [|x l IH]; cbn [type_set fold_right]; [constructor|]. now apply set_add_sorted. Qed.
Lemma tlt_trans a b c : tlt a b -> tlt b c -> tlt a c.
Proof. apply lex_trans. Qed.
Lemma tlt_irrefl a : ~ tlt a a.
Proof. intros H. assert (Q : lex (code a) (code a) = Eq) by now apply lex_eq. unfold tlt in H. congruence. Qed.
Lemma sorted_strong l : Sorted tlt l -> StronglySorted tlt l.
Proof. apply Sorted_StronglySorted. intros a b c. apply tlt_trans. Qed.
Lemma type_set_id l : Sorted tlt l -> type_set l = l.
Proof.
  induction 1 as [|y l Hl IH Hy]; cbn [type_set fold_right]; auto. fold (type_set l). rewrite IH.
  destruct Hy as [|z l Hz]; cbn [set_add]; auto. unfold tlt in Hz. now rewrite Hz.
Qed.
Lemma sorted_ext l m : Sorted tlt l -> Sorted tlt m -> (forall x, In x l <-> In x m) -> l = m.
Proof.
  intros Hl Hm. apply sorted_strong in Hl, Hm. revert m Hm. induction Hl as [|a l Hl IH Ha]; intros m Hm E.
  - destruct m as [|b m]; auto. destruct (proj2 (E b) (or_introl eq_refl)).
  - destruct Hm as [|b m Hm Hb]. { destruct (proj1 (E a) (or_introl eq_refl)). }
    rewrite Forall_forall in Ha, Hb.
    assert (a = b).
    { destruct (proj1 (E a) (or_introl eq_refl)) as [->|Q]; auto. destruct (proj2 (E b) (or_introl eq_refl)) as [->|Q']; auto.
      destruct (tlt_irrefl a). eapply tlt_trans; eauto. }
    subst b. f_equal. apply IH; auto. intros x. split; intros Hx.
    + destruct (proj1 (E x) (or_intror Hx)) as [<-|Q]; auto. destruct (tlt_irrefl a); auto.
    + destruct (proj2 (E x) (or_intror Hx)) as [<-|Q]; auto. destruct (tlt_irrefl a); auto.
Qed.
Lemma type_set_ext l m : (forall x, In x l <-> In x m) -> type_set l = type_set m.
Proof. intros E. apply sorted_ext; auto using type_set_sorted. intros x. rewrite !type_set_In. apply E. Qed.
Lemma sorted_NoDup l : Sorted tlt l -> NoDup l.
Proof.
  intros H. apply sorted_strong in H. induction H as [|a l Hl IH Ha]; constructor; auto.
  intros Q. rewrite Forall_forall in Ha. exact (tlt_irrefl a (Ha a Q)).
Qed.
Lemma type_set_NoDup l : NoDup (type_set l).
Proof. apply sorted_NoDup, type_set_sorted. Qed.

Lemma types_unnamed l : types (unnamed l) = l.
Proof. unfold types, unnamed. rewrite map_map. apply map_id. Qed.

(** ** issubclass *)
Lemma sub_refl H t : sub H t t = true.
Proof. destruct t; cbn [sub]; now rewrite ty_eqb_refl. Qed.
Lemma sub_mod H m t : sub H (TMod m t) t = true.
Proof. cbn [sub]. rewrite sub_refl. cbn. now rewrite !orb_true_r. Qed.
