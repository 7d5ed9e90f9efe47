(** The list-slice algorithm of PyBase.v computes the positions of the specification, and
    facts about text representations. *)
From Coq Require Import Lia ZifyBool Sorting.Sorted.
From Verif Require Import PyBase BVModel BVSpec BVFacts BVOps.

Lemma sorted_ext {A} (R : A -> A -> Prop) (l1 : list A) :
  (forall x, ~ R x x) -> (forall x y z, R x y -> R y z -> R x z) ->
  forall l2, StronglySorted R l1 -> StronglySorted R l2 ->
  (forall x, In x l1 <-> In x l2) -> l1 = l2.
Proof.
  intros Hirr Htr. induction l1 as [|a l1 IH]; intros l2 S1 S2 H.
  - destruct l2 as [|b l2]; [reflexivity|]. exfalso. apply (H b). now left.
  - destruct l2 as [|b l2].
    { exfalso. apply (H a). now left. }
    apply StronglySorted_inv in S1 as [S1 F1]. apply StronglySorted_inv in S2 as [S2 F2].
    rewrite Forall_forall in F1, F2.
    assert (a = b).
    { destruct (proj1 (H a) (or_introl eq_refl)) as [|Ha]; [auto|].
      destruct (proj2 (H b) (or_introl eq_refl)) as [|Hb]; [auto|].
      exfalso. apply (Hirr a). apply Htr with b; auto. }
    subst b. f_equal. apply IH; auto. intros x. split; intros Hx.
    + destruct (proj1 (H x) (or_intror Hx)) as [->|]; auto. exfalso. apply (Hirr x), F1, Hx.
    + destruct (proj2 (H x) (or_intror Hx)) as [->|]; auto. exfalso. apply (Hirr x), F2, Hx.
Qed.

Lemma sorted_filter {A} (R : A -> A -> Prop) f (l : list A) :
  StronglySorted R l -> StronglySorted R (filter f l).
Proof.
  induction l as [|a l IH]; intros S; cbn [filter]; [constructor|].
  apply StronglySorted_inv in S as [S F]. destruct (f a); [|auto].
  constructor; [auto|]. rewrite Forall_forall in *. intros x Hx. apply filter_In in Hx as [Hx _]. auto.
Qed.

Lemma sorted_map {A B} (R : A -> A -> Prop) (Q : B -> B -> Prop) (f : A -> B) l :
  (forall x y, R x y -> Q (f x) (f y)) -> StronglySorted R l -> StronglySorted Q (map f l).
Proof.
  intros H S. induction S as [|a l S IH F]; cbn [map]; constructor; auto.
  rewrite Forall_forall in *. intros y Hy. apply in_map_iff in Hy as (x & <- & Hx). auto.
Qed.

Lemma sorted_seq a n : StronglySorted lt (seq a n).
Proof.
  revert a; induction n as [|n IH]; intros a; cbn [seq]; constructor; auto.
  apply Forall_forall. intros x Hx. apply in_seq in Hx. lia.
Qed.

Lemma sorted_zrange n : StronglySorted Z.lt (zrange n).
Proof. unfold zrange. eapply sorted_map; [|apply sorted_seq]. lia. Qed.

Lemma sorted_app {A} (R : A -> A -> Prop) (l1 l2 : list A) :
  StronglySorted R l1 -> StronglySorted R l2 ->
  (forall x y, In x l1 -> In y l2 -> R x y) -> StronglySorted R (l1 ++ l2).
Proof.
  intros S1 S2 H. induction S1 as [|a l S IH F]; cbn [app]; auto.
  constructor.
  - apply IH. intros; apply H; auto. now right.
  - apply Forall_app. split; auto. apply Forall_forall. intros; apply H; auto. now left.
Qed.

Lemma sorted_rev {A} (R : A -> A -> Prop) (l : list A) :
  StronglySorted R l -> StronglySorted (fun x y => R y x) (rev l).
Proof.
  intros S. induction S as [|a l S IH F]; cbn [rev]; [constructor|].
  apply sorted_app; auto.
  - constructor; constructor.
  - intros x y Hx [<-|[]]. rewrite Forall_forall in F. apply F. now apply in_rev.
Qed.

Lemma slice_indices_correct n a b s : 0 <= n -> s <> Some 0 ->
  slice_indices n a b s = Ok (slice_positions n a b s).
Proof.
  intros Hn Hs. unfold slice_indices, slice_positions. fold (zrange n).
  set (step := match s with None => 1 | Some s => s end).
  assert (Hstep : step <> 0) by (subst step; destruct s; [congruence|lia]).
  destruct (Z.eqb_spec step 0); [lia|]. f_equal.
  destruct (Z.ltb_spec step 0) as [Hneg|Hpos].
  - destruct (Z.ltb_spec 0 step); [lia|].
    set (first := match a with None => n - 1 | Some i => clip _ _ _ end).
    set (last := match b with None => -1 | Some i => clip _ _ _ end).
    replace (match a with None => n - 1 | Some i => clamp_index n step i end) with first.
    2:{ subst first. destruct a as [i|]; [|reflexivity]. unfold clamp_index, clip.
        destruct (Z.ltb_spec i 0), (Z.ltb_spec step 0); try lia;
        repeat match goal with |- context[if ?b then _ else _] => destruct b eqn:? end; lia. }
    replace (match b with None => -1 | Some i => clamp_index n step i end) with last.
    2:{ subst last. destruct b as [i|]; [|reflexivity]. unfold clamp_index, clip.
        destruct (Z.ltb_spec i 0), (Z.ltb_spec step 0); try lia;
        repeat match goal with |- context[if ?b then _ else _] => destruct b eqn:? end; lia. }
    assert (Hf : -1 <= first <= n - 1) by (subst first; unfold clip; destruct a; lia).
    assert (Hl : -1 <= last <= n - 1) by (subst last; unfold clip; destruct b; lia).
    apply (sorted_ext (fun x y => y < x)); try lia.
    + eapply sorted_map; [|apply sorted_zrange]. cbn. nia.
    + apply sorted_filter, sorted_rev, sorted_zrange.
    + intros p. rewrite in_map_iff, filter_In, <- in_rev. rewrite zrange_In. split.
      * intros (j & <- & Hj). apply zrange_In in Hj.
        destruct (Z.ltb_spec last first) as [Hlt|]; [|lia].
        assert (j * (- step) <= first - last - 1).
        { assert (j <= (first - last - 1) / (- step)) by lia.
          pose proof (Z.mul_div_le (first - last - 1) (- step)). nia. }
        replace (first - (first + j * step)) with (j * (- step)) by lia.
        rewrite Z.mod_mul by lia. split; [nia|]. rewrite Z.eqb_refl, andb_true_r. nia.
      * intros [Hp Hc]. apply andb_true_iff in Hc as [Hc Hm]. apply Z.eqb_eq in Hm.
        apply Z.mod_divide in Hm as [j Hj]; [|lia]. exists j. split; [lia|].
        apply zrange_In. destruct (Z.ltb_spec last first) as [Hlt|]; [|lia].
        split; [nia|]. apply Z.lt_succ_r. apply Z.div_le_lower_bound; lia.
  - destruct (Z.ltb_spec 0 step); [|lia].
    set (first := match a with None => 0 | Some i => clip _ _ _ end).
    set (last := match b with None => n | Some i => clip _ _ _ end).
    replace (match a with None => 0 | Some i => clamp_index n step i end) with first.
    2:{ subst first. destruct a as [i|]; [|reflexivity]. unfold clamp_index, clip.
        destruct (Z.ltb_spec i 0), (Z.ltb_spec step 0); try lia;
        repeat match goal with |- context[if ?b then _ else _] => destruct b eqn:? end; lia. }
    replace (match b with None => n | Some i => clamp_index n step i end) with last.
    2:{ subst last. destruct b as [i|]; [|reflexivity]. unfold clamp_index, clip.
        destruct (Z.ltb_spec i 0), (Z.ltb_spec step 0); try lia;
        repeat match goal with |- context[if ?b then _ else _] => destruct b eqn:? end; lia. }
    assert (Hf : 0 <= first <= n) by (subst first; unfold clip; destruct a; lia).
    assert (Hl : 0 <= last <= n) by (subst last; unfold clip; destruct b; lia).
    apply (sorted_ext Z.lt); try lia.
    + eapply sorted_map; [|apply sorted_zrange]. cbn. nia.
    + apply sorted_filter, sorted_zrange.
    + intros p. rewrite in_map_iff, filter_In. rewrite zrange_In. split.
      * intros (j & <- & Hj). apply zrange_In in Hj.
        destruct (Z.ltb_spec first last) as [Hlt|]; [|lia].
        assert (j * step <= last - first - 1).
        { assert (j <= (last - first - 1) / step) by lia.
          pose proof (Z.mul_div_le (last - first - 1) step). nia. }
        replace (first + j * step - first) with (j * step) by lia.
        rewrite Z.mod_mul by lia. split; [nia|]. rewrite Z.eqb_refl, andb_true_r. nia.
      * intros [Hp Hc]. apply andb_true_iff in Hc as [Hc Hm]. apply Z.eqb_eq in Hm.
        apply Z.mod_divide in Hm as [j Hj]; [|lia]. exists j. split; [lia|].
        apply zrange_In. destruct (Z.ltb_spec first last) as [Hlt|]; [|lia].
        split; [nia|]. apply Z.lt_succ_r. apply Z.div_le_lower_bound; lia.
Qed.

Lemma slice_step0 n a b : slice_indices n a b (Some 0) = Raise EValueError.
Proof. reflexivity. Qed.

(** ** binary strings *)
Lemma read_binary_digits l : forall acc,
  read_binary acc (string_of_list_ascii (map digit (map b2z (rev l)))) =
  Some (acc * 2 ^ Z.of_nat (length l) + bits_value l).
Proof.
  induction l as [|b l IH] using rev_ind; intros acc.
  - cbn [rev map string_of_list_ascii read_binary length bits_value]. f_equal.
    change (2 ^ Z.of_nat 0) with 1. lia.
  - rewrite rev_app_distr. cbn [rev app map string_of_list_ascii read_binary].
    assert (E : bits_value (l ++ [b]) = bits_value l + (if b then 1 else 0) * 2 ^ Z.of_nat (length l)).
    { clear. induction l as [|c l IH]; cbn [app bits_value length].
      - change (2 ^ Z.of_nat 0) with 1. destruct b; lia.
      - rewrite IH. replace (Z.of_nat (S (length l))) with (Z.succ (Z.of_nat (length l))) by lia.
        rewrite Z.pow_succ_r by lia. lia. }
    rewrite E, app_length. cbn [length].
    replace (Z.of_nat (length l + 1)) with (Z.succ (Z.of_nat (length l))) by lia.
    rewrite Z.pow_succ_r by lia.
    destruct b; cbn [b2z digit Z.eqb Ascii.eqb Bool.eqb]; rewrite IH; f_equal; lia.
Qed.

Lemma binary_string_spec x : wf x ->
  read_binary 0 (binary_string x) = Some (bval x) /\
  String.length (binary_string x) = Z.to_nat (bsize x).
Proof.
  intros [W1 W2]. fold (bsize x) in *. unfold binary_string. split.
  - rewrite bits_tbits, <- map_rev, read_binary_digits, bits_value_tbits by lia.
    rewrite Z.mod_small by lia. f_equal.
  - rewrite <- bits_length, <- rev_length, <- (map_length digit).
    generalize (map digit (rev (bits x))). intros l.
    induction l; cbn; congruence.
Qed.
