(** Invariants of the protocol model. *)
From Coq Require Import Lia.
From Verif Require Import PyBase BVFacts MetaModel MergeFacts ProtoModel ProtoSpec.

Local Open Scope nat_scope.
Lemma memIn x l : mem x l = true <-> In x l.
Proof. unfold mem. rewrite existsb_exists. split; [intros (y & H & E); apply Nat.eqb_eq in E; now subst|intros H; exists x; split; auto; apply Nat.eqb_refl]. Qed.

(** ** Reachable worlds *)
Record pinv (w : world) : Prop := {
  V_len : 5 <= length w;
  V_init : forall i, i < 5 -> get w i = get w_init i;
  V_type : forall x, 2 <= x < length w -> typeof w x < x;
  V_tcls : forall x, x < length w -> is_class w (typeof w x) = true;
  V_mro : forall x y, x < length w -> In y (mro w x) -> y <= x;
  V_self : forall x y, x < length w -> In y (mro w x) -> In x (mro w x);
  V_trans : forall x y z, x < length w -> In y (mro w x) -> In z (mro w y) -> In z (mro w x);
  V_mono : forall x y, x < length w -> In y (mro w x) -> In (typeof w y) (mro w (typeof w x));
  V_meta : forall x, x < length w -> is_class w x = true -> In 1 (mro w (typeof w x));
  V_cls : forall x y, x < length w -> In y (mro w x) -> is_class w y = true
}.
Lemma get_app w o x : x < length w -> get (w ++ [o]) x = get w x.
Proof. intros H. unfold get. now rewrite app_nth1. Qed.
Lemma get_new w o : get (w ++ [o]) (length w) = o.
Proof. unfold get. rewrite app_nth2, Nat.sub_diag; auto. Qed.
Lemma typeof_lt w x : pinv w -> x < length w -> typeof w x < length w.
Proof.
  intros I H. pose proof (V_len w I). destruct (Nat.lt_ge_cases x 2) as [L|L].
  - unfold typeof. rewrite (V_init w I) by lia. destruct x as [|[|x]]; cbn; lia.
  - pose proof (V_type w I x). lia.
Qed.
Lemma class_mro w x : is_class w x = true -> mro w x <> [].
Proof. unfold is_class. destruct (mro w x); [discriminate|congruence]. Qed.
Lemma class_self w x : pinv w -> x < length w -> is_class w x = true -> In x (mro w x).
Proof. intros I L H. apply class_mro in H. destruct (mro w x) as [|y l] eqn:E; [tauto|]. rewrite <- E. apply (V_self w I x y); auto. rewrite E. now left. Qed.
Lemma mro_class w x y : In y (mro w x) -> is_class w x = true.
Proof. unfold is_class. destruct (mro w x); [intros []|auto]. Qed.

Lemma init_pinv : pinv w_init.
Proof.
  split; cbn [length w_init]; auto; try lia.
  - intros x H. assert (x = 2 \/ x = 3 \/ x = 4) as [->|[->| ->]] by lia; cbn; lia.
  - intros x H. destruct x as [|[|[|[|[|x]]]]]; try reflexivity; lia.
  - intros x y H K. destruct x as [|[|[|[|[|x]]]]]; cbn in K; lia.
  - intros x y H K. destruct x as [|[|[|[|[|x]]]]]; cbn in *; auto; lia.
  - intros x y z H K M. destruct x as [|[|[|[|[|x]]]]]; cbn in K; try lia; repeat (destruct K as [<-|K]; [cbn in *; tauto|]); destruct K.
  - intros x y H K. destruct x as [|[|[|[|[|x]]]]]; cbn in K; try lia; repeat (destruct K as [<-|K]; [cbn; tauto|]); destruct K.
  - intros x H K. destruct x as [|[|[|[|[|x]]]]]; cbn; try tauto; lia.
  - intros x y H K. destruct x as [|[|[|[|[|x]]]]]; cbn in K; try lia; repeat (destruct K as [<-|K]; [reflexivity|]); destruct K.
Qed.
(** Adding an object. *)
Lemma add_pinv w o : pinv w -> q_type o < length w -> is_class w (q_type o) = true ->
  (forall y, In y (q_mro o) -> In (length w) (q_mro o)) ->
  (forall y, In y (q_mro o) -> y = length w \/ (y < length w /\ is_class w y = true /\ In (typeof w y) (mro w (q_type o)))) ->
  (forall y z, In y (q_mro o) -> y < length w -> In z (mro w y) -> In z (q_mro o)) ->
  (q_mro o <> [] -> In 1 (mro w (q_type o))) ->
  pinv (w ++ [o]).
Proof.
  intros I T TC S M X U. pose proof I as [].
  assert (N : forall x, x < length (w ++ [o]) -> x < length w \/ x = length w) by (intros x H; rewrite app_length in H; cbn in H; lia).
  assert (Go : forall x, x < length w -> typeof (w ++ [o]) x = typeof w x /\ mro (w ++ [o]) x = mro w x).
  { intros x H. unfold typeof, mro. rewrite get_app; auto. }
  assert (Gn : typeof (w ++ [o]) (length w) = q_type o /\ mro (w ++ [o]) (length w) = q_mro o).
  { unfold typeof, mro. now rewrite get_new. }
  assert (Ic : forall x, x < length w -> is_class (w ++ [o]) x = is_class w x).
  { intros x H. unfold is_class. now rewrite (proj2 (Go x H)). }
  assert (Gt : forall x, x < length w -> mro (w ++ [o]) (typeof w x) = mro w (typeof w x)).
  { intros x H. apply Go. now apply typeof_lt. }
  split.
  - rewrite app_length. lia.
  - intros i H. rewrite get_app by lia. auto.
  - intros x [H1 H2]. destruct (N x H2) as [L| ->]; [rewrite (proj1 (Go x L)); auto|]. rewrite (proj1 Gn). exact T.
  - intros x H. destruct (N x H) as [L| ->].
    + rewrite (proj1 (Go x L)), Ic by (apply typeof_lt; auto). auto.
    + rewrite (proj1 Gn), Ic; auto.
  - intros x y H K. destruct (N x H) as [L| ->].
    + rewrite (proj2 (Go x L)) in K. eauto.
    + rewrite (proj2 Gn) in K. destruct (M y K) as [->|(L & _)]; lia.
  - intros x y H K. destruct (N x H) as [L| ->].
    + rewrite (proj2 (Go x L)) in *. eauto.
    + rewrite (proj2 Gn) in *. eauto.
  - intros x y z H K Z. destruct (N x H) as [L| ->].
    + rewrite (proj2 (Go x L)) in *. assert (y < length w) by (pose proof (V_mro0 x y L K); lia).
      rewrite (proj2 (Go y ltac:(auto))) in Z. eauto.
    + rewrite (proj2 Gn) in *. destruct (M y K) as [->|(L & _)]; [now rewrite (proj2 Gn) in Z|]. rewrite (proj2 (Go y L)) in Z. eauto.
  - intros x y H K. destruct (N x H) as [L| ->].
    + rewrite (proj2 (Go x L)) in K. assert (y < length w) by (pose proof (V_mro0 x y L K); lia).
      rewrite (proj1 (Go x L)), (proj1 (Go y ltac:(auto))), Gt by auto. auto.
    + rewrite (proj2 Gn) in K. rewrite (proj1 Gn), (proj2 (Go _ T)). destruct (M y K) as [->|(L & _ & Q)].
      * rewrite (proj1 Gn). now apply class_self.
      * now rewrite (proj1 (Go y L)).
  - intros x H K. destruct (N x H) as [L| ->].
    + rewrite Ic in K by auto. rewrite (proj1 (Go x L)), Gt by auto. auto.
    + rewrite (proj1 Gn), (proj2 (Go _ T)). apply U. intros E. unfold is_class in K. now rewrite (proj2 Gn), E in K.
  - intros x y H K. destruct (N x H) as [L| ->].
    + rewrite (proj2 (Go x L)) in K. assert (y < length w) by (pose proof (V_mro0 x y L K); lia). rewrite Ic; eauto.
    + rewrite (proj2 Gn) in K. destruct (M y K) as [->|(L & Q & _)]; [|now rewrite Ic].
      unfold is_class. rewrite (proj2 Gn). destruct (q_mro o); [destruct K|auto].
Qed.
Lemma winner_spec w bs : forall m t, pinv w -> m < length w -> is_class w m = true -> In 1 (mro w m) -> (forall b, In b bs -> b < length w) ->
  winner w m bs = Some t ->
  t < length w /\ is_class w t = true /\ In m (mro w t) /\ In 1 (mro w t) /\ forall b, In b bs -> In (typeof w b) (mro w t).
Proof.
  induction bs as [|b bs IH]; intros m t I L C O B H; cbn in H.
  - injection H as <-. split; [auto|]. split; [auto|]. split; [now apply class_self|]. split; [auto|]. intros b [].
  - destruct (mem (typeof w b) (mro w m)) eqn:E.
    + apply memIn in E. destruct (IH m t I L C O ltac:(intros; apply B; now right) H) as (A1 & A2 & A3 & A4 & A5).
      split; [auto|]. split; [auto|]. split; [auto|]. split; [auto|]. intros c [<-|K]; [|auto]. apply (V_trans w I t m); auto.
    + destruct (mem m (mro w (typeof w b))) eqn:E2; [|discriminate]. apply memIn in E2.
      assert (Lb : typeof w b < length w) by (apply typeof_lt; auto; apply B; now left).
      destruct (IH (typeof w b) t I Lb) as (A1 & A2 & A3 & A4 & A5); auto.
      * apply (V_tcls w I). apply B. now left.
      * apply (V_trans w I _ m); auto.
      * intros; apply B; now right.
      * split; [auto|]. split; [auto|]. split; [apply (V_trans w I t (typeof w b)); auto|]. split; [auto|].
        intros c [<-|K]; auto.
Qed.
Lemma step_pinv w o : pinv w -> pinv (pstep w o).
Proof.
  intros I. destruct o as [bs meta body|c]; cbn [pstep].
  - set (bases := match bs with [] => [w_object] | _ => bs end). set (m := match meta with Some m => m | None => _ end).
    destruct (forallb _ bases && _ && _) eqn:E; [|exact I].
    destruct (winner w m bases) as [t|] eqn:W; [|exact I]. destruct (merge _ _) as [l|] eqn:M; [|exact I].
    apply andb_true_iff in E. destruct E as [E E3]. apply andb_true_iff in E. destruct E as [E1 E2].
    apply memIn in E3. apply Nat.ltb_lt in E2. rewrite forallb_forall in E1.
    assert (B : forall b, In b bases -> b < length w /\ is_class w b = true).
    { intros b H. apply E1 in H. apply andb_true_iff in H. destruct H as [H1 H2]. apply Nat.ltb_lt in H1. auto. }
    destruct (winner_spec w bases m t I E2 (mro_class _ _ _ E3) E3 ltac:(intros b H; apply (B b H)) W) as (A1 & A2 & A3 & A4 & A5).
    assert (Q : forall y, In y l -> exists b, In b bases /\ In y (mro w b)).
    { intros y H. apply (merge_In _ _ _ M) in H. destruct H as (q & Hq & Hy). apply in_app_iff in Hq. destruct Hq as [Hq|[<-|[]]].
      - apply in_map_iff in Hq. destruct Hq as (b & <- & Hb). eauto.
      - exists y. split; auto. destruct (B y Hy). now apply class_self. }
    apply add_pinv; cbn [q_type q_mro]; auto.
    + intros y _. now left.
    + intros y [<-|H]; [auto|]. right. destruct (Q y H) as (b & Hb & Hy). destruct (B b Hb) as [L1 L2].
      pose proof (V_mro w I b y L1 Hy). split; [lia|]. split; [apply (V_cls w I b y); auto|].
      apply (V_trans w I t (typeof w b)); auto. apply (V_mono w I); auto.
    + intros y z [<-|H] Ly Z; [lia|]. right. destruct (Q y H) as (b & Hb & Hy). destruct (B b Hb) as [L1 L2].
      apply (merge_In _ _ _ M). exists (mro w b). split; [apply in_app_iff; left; now apply in_map|]. apply (V_trans w I b y); auto.
  - destruct (_ && _ && _) eqn:E; [|exact I]. apply andb_true_iff in E. destruct E as [E E3]. apply andb_true_iff in E. destruct E as [E1 E2].
    apply Nat.ltb_lt in E1. apply add_pinv; cbn [q_type q_mro]; auto; try (intros y []); tauto.
Qed.
Lemma run_pinv h : pinv (prun h).
Proof.
  unfold prun. assert (G : forall l w, pinv w -> pinv (fold_left pstep l w)).
  { induction l as [|o l IH]; intros w I; [exact I|]. cbn. apply IH, step_pinv, I. }
  apply G, init_pinv.
Qed.

(** ** The checks *)
Definition rank (x : nat) : nat := match x with 0 => 2 | _ => x end.
Lemma rank_type w x : pinv w -> x < length w -> x <> 1 -> rank (typeof w x) < rank x.
Proof.
  intros I L N. destruct (Nat.lt_ge_cases x 5) as [H|H].
  - unfold typeof. rewrite (V_init w I) by auto. destruct x as [|[|[|[|[|x]]]]]; cbn; lia.
  - pose proof (V_type w I x). destruct (typeof w x) as [|y] eqn:E; cbn; destruct x; cbn; lia.
Qed.
Lemma init_mro w i : pinv w -> i < 5 -> mro w i = mro w_init i.
Proof. intros I H. unfold mro. now rewrite (V_init w I). Qed.
Lemma init_typeof w i : pinv w -> i < 5 -> typeof w i = typeof w_init i.
Proof. intros I H. unfold typeof. now rewrite (V_init w I). Qed.
Lemma check_out w c : length w <= c -> pinv w -> check_of w c = Some 1.
Proof.
  intros H I. unfold check_of. replace (typeof w c) with 1 by (unfold typeof, get; now rewrite nth_overflow by auto).
  rewrite init_mro by (auto; lia). reflexivity.
Qed.
Lemma check_3 w c : pinv w -> check_of w c = Some 3 -> 4 <= c < length w.
Proof.
  intros I H. destruct (Nat.lt_ge_cases c (length w)) as [L|L]; [|rewrite check_out in H by auto; discriminate].
  split; auto. destruct (Nat.lt_ge_cases c 4) as [K|K]; auto. exfalso. revert H. unfold check_of. rewrite (init_typeof w c) by (auto; lia).
  rewrite init_mro; auto; destruct c as [|[|[|[|c]]]]; try lia; vm_compute; try discriminate; lia.
Qed.
Lemma type_hasattr w a : pinv w -> hasattr w 1 a = false.
Proof.
  intros I. unfold hasattr. rewrite init_typeof by (auto; lia). change (typeof w_init 1) with 1. rewrite init_mro by (auto; lia).
  change (existsb (defines w a) [1; 1; 0; 1; 0] = false). cbn [existsb]. unfold defines. now rewrite !(V_init w I) by lia.
Qed.
Lemma typeof_1 w : pinv w -> typeof w 1 = 1.
Proof. intros I. now rewrite init_typeof by (auto; lia). Qed.
Lemma isinst_stable w : pinv w -> forall f x c, x < length w -> rank x + rank c <= f -> isinst f w x c = isinst (S f) w x c.
Proof.
  intros I. induction f as [|f IH]; intros x c L R; [destruct x as [|[|]], c; cbn in R; lia|].
  assert (U : forall n, isinst (S n) w x c = if typeof w x =? c then true else match check_of w c with
      | Some 2%nat => hasattr w (typeof w x) ABvT && negb (isinst n w (typeof w x) c)
      | Some 3%nat => isinst n w (typeof w x) (typeof w c) && hasattr w (typeof w x) AFrom && hasattr w (typeof w x) ATo
      | _ => mem c (mro w (typeof w x)) end) by reflexivity.
  rewrite (U f), (U (S f)). destruct (typeof w x =? c); auto.
  pose proof (typeof_lt w x I L) as Lt.
  destruct (check_of w c) as [[|[|[|[|k]]]]|] eqn:K; auto.
  - destruct (Nat.eq_dec x 1) as [->|N].
    + rewrite typeof_1, type_hasattr by auto. reflexivity.
    + rewrite IH; auto. pose proof (rank_type w x I L N). lia.
  - apply check_3 in K; auto. pose proof (rank_type w c I ltac:(lia) ltac:(lia)) as Rc. rewrite IH; auto.
    destruct (Nat.eq_dec x 1) as [->|N]; [rewrite typeof_1 by auto; lia|]. pose proof (rank_type w x I L N). lia.
Qed.
Lemma isinst_enough w : pinv w -> forall f g x c, x < length w -> rank x + rank c <= f -> rank x + rank c <= g -> isinst f w x c = isinst g w x c.
Proof.
  intros I. assert (A : forall d f x c, x < length w -> rank x + rank c <= f -> isinst f w x c = isinst (d + f) w x c).
  { induction d as [|d IH]; intros f x c L R; auto. rewrite (IH f) by auto. change (S d + f) with (S (d + f)). apply isinst_stable; auto. lia. }
  intros f g x c L F G. destruct (Nat.le_ge_cases f g).
  - replace g with ((g - f) + f) by lia. now apply A.
  - symmetry. replace f with ((f - g) + g) by lia. now apply A.
Qed.
Lemma rank_le x : rank x <= x + 2.
Proof. destruct x; cbn; lia. Qed.
(** isinstance(x, c) is True if type(x) is c, and issubclass(type(x), c) otherwise. *)
Lemma isinstance_eq w x c : pinv w -> x < length w ->
  isinstance w x c = if typeof w x =? c then true else issubclass w (typeof w x) c.
Proof.
  intros I L. unfold isinstance at 1. change (4 + x + c) with (S (3 + x + c)). cbn [isinst]. destruct (typeof w x =? c); auto.
  pose proof (typeof_lt w x I L) as Lt. pose proof (rank_le x) as Rx. pose proof (rank_le c) as Rc. pose proof (rank_le (typeof w x)) as Rt.
  unfold issubclass. destruct (check_of w c) as [[|[|[|[|k]]]]|] eqn:K; auto.
  - destruct (Nat.eq_dec x 1) as [->|N].
    + rewrite typeof_1, type_hasattr by auto. reflexivity.
    + unfold isinstance. f_equal. f_equal. apply isinst_enough; auto; [|lia].
      pose proof (rank_type w x I L N). destruct x as [|[|x]]; cbn [rank] in *; lia.
  - apply check_3 in K; auto. pose proof (rank_type w c I ltac:(lia) ltac:(lia)) as Rk. pose proof (rank_le (typeof w c)).
    f_equal. f_equal. unfold isinstance. apply isinst_enough; auto; [|lia].
    destruct (Nat.eq_dec x 1) as [->|N]; [rewrite typeof_1 by auto; cbn [rank]; destruct c; cbn [rank] in *; lia|].
    pose proof (rank_type w x I L N). destruct x, c; cbn [rank] in *; lia.
Qed.
Lemma check_meta w : pinv w -> check_of w w_meta = Some 2.
Proof. intros I. unfold check_of, w_meta. rewrite init_typeof by (auto; lia). change (typeof w_init 3) with 2. now rewrite init_mro by (auto; lia). Qed.
Lemma check_protocol w : pinv w -> check_of w w_protocol = Some 3.
Proof. intros I. unfold check_of, w_protocol. rewrite init_typeof by (auto; lia). change (typeof w_init 4) with 3. now rewrite init_mro by (auto; lia). Qed.
Lemma typeof_protocol w : pinv w -> typeof w w_protocol = w_meta.
Proof. intros I. unfold w_protocol. now rewrite init_typeof by (auto; lia). Qed.

Lemma attr_eqb_eq a b : attr_eqb a b = true <-> a = b.
Proof. destruct a, b; cbn; split; congruence. Qed.
Lemma defines_in w a x : defines w a x = true <-> In a (q_dict (get w x)).
Proof.
  unfold defines. rewrite existsb_exists. split; [intros (b & H & E); apply attr_eqb_eq in E; now subst|].
  intros H. exists a. split; auto. now apply attr_eqb_eq.
Qed.
(** hasattr of a class: it or its metaclass provides the attribute. *)
Lemma hasattr_class w x a : pinv w -> x < length w -> is_class w x = true ->
  (hasattr w x a = true <-> provides w x a \/ provides w (typeof w x) a).
Proof.
  intros I L C. pose proof (class_self w x I L C) as S. unfold hasattr. rewrite existsb_exists. unfold provides. split.
  - intros (y & H & E). apply defines_in in E. destruct H as [<-|H]; [eauto|]. apply in_app_iff in H. destruct H; eauto.
  - intros [(k & H & E)|(k & H & E)]; exists k; rewrite defines_in; split; auto; right; apply in_app_iff; auto.
Qed.
Lemma provides_meta w : pinv w -> provides w w_meta ABvT.
Proof. intros I. exists 3. unfold w_meta. rewrite init_mro, (V_init w I) by (auto; lia). cbn. auto. Qed.
Lemma provides_mono w x y a : pinv w -> x < length w -> In y (mro w x) -> provides w y a -> provides w x a.
Proof. intros I L H (k & K & E). exists k. split; auto. apply (V_trans w I x y); auto. Qed.
(** isinstance(c, BitVectorProtocolMeta). *)
Lemma instance_meta w c : pinv w -> c < length w -> plain_meta w c -> (isinstance w c w_meta = true <-> provides w (typeof w c) ABvT).
Proof.
  intros I L P. rewrite isinstance_eq by auto. destruct (Nat.eqb_spec (typeof w c) w_meta) as [E|E].
  { split; auto. intros _. rewrite E. now apply provides_meta. }
  pose proof (typeof_lt w c I L) as L1. pose proof (typeof_lt w _ I L1) as L2. pose proof (typeof_lt w _ I L2) as L3.
  pose proof (V_tcls w I c L) as C1. pose proof (V_tcls w I _ L1) as C2. destruct P as [P1 P2].
  assert (N2 : typeof w (typeof w c) <> w_meta) by (intros X; apply P1; rewrite X; now apply provides_meta).
  assert (F : isinstance w (typeof w c) w_meta = false).
  { rewrite isinstance_eq by auto. rewrite (proj2 (Nat.eqb_neq _ _) N2). unfold issubclass. rewrite check_meta by auto.
    destruct (hasattr w (typeof w (typeof w c)) ABvT) eqn:H; auto. apply hasattr_class in H; auto. destruct H; tauto. }
  unfold issubclass. rewrite check_meta, F by auto. rewrite andb_true_r, hasattr_class by auto. tauto.
Qed.
Lemma sub_protocol w c : pinv w -> issubclass w c w_protocol = isinstance w c w_meta && hasattr w c AFrom && hasattr w c ATo.
Proof. intros I. unfold issubclass. now rewrite check_protocol, typeof_protocol. Qed.
Lemma sub_implements w c : pinv w -> c < length w -> is_class w c = true -> plain_meta w c -> (issubclass w c w_protocol = true <-> implements w c).
Proof.
  intros I L C P. rewrite sub_protocol by auto. rewrite !andb_true_iff, instance_meta by auto. rewrite !hasattr_class by auto. unfold implements. tauto.
Qed.

(** ** Later operations *)
Definition extends (w w' : world) : Prop := exists m, w' = w ++ m.
Lemma step_extends w o : extends w (pstep w o).
Proof.
  assert (Z : extends w w) by (exists []; symmetry; apply app_nil_r).
  destruct o as [bs meta body|c]; cbn [pstep].
  - destruct (forallb _ _ && _ && _); auto. destruct (winner _ _ _); auto. destruct (merge _ _); auto. eexists; reflexivity.
  - destruct (_ && _ && _); auto. eexists; reflexivity.
Qed.
Lemma run_extends h h' : extends (prun h) (prun (h ++ h')).
Proof.
  unfold prun. rewrite fold_left_app. generalize (fold_left pstep h w_init) as w. induction h' as [|o l IH]; intros w; cbn.
  - exists []. symmetry. apply app_nil_r.
  - destruct (step_extends w o) as (m & E). destruct (IH (pstep w o)) as (m' & E'). exists (m ++ m'). rewrite E', E. now rewrite app_assoc.
Qed.
Section Ext.
Variables (w w' : world) (I : pinv w) (I' : pinv w') (X : extends w w').
Lemma ext_get x : x < length w -> get w' x = get w x.
Proof. destruct X as (m & ->). intros H. unfold get. now rewrite app_nth1. Qed.
Lemma ext_typeof x : x < length w -> typeof w' x = typeof w x.
Proof. intros H. unfold typeof. now rewrite ext_get. Qed.
Lemma ext_mro x : x < length w -> mro w' x = mro w x.
Proof. intros H. unfold mro. now rewrite ext_get. Qed.
Lemma existsb_ext' {A} (f g : A -> bool) l : (forall x, In x l -> f x = g x) -> existsb f l = existsb g l.
Proof. induction l as [|a l IH]; cbn; intros H; auto. rewrite H by auto. now rewrite IH by auto. Qed.
Lemma ext_hasattr x a : x < length w -> hasattr w' x a = hasattr w x a.
Proof.
  intros H. unfold hasattr. rewrite ext_typeof, ext_mro by auto. rewrite ext_mro by (apply typeof_lt; auto).
  apply existsb_ext'. intros y K. unfold defines. rewrite ext_get; auto. destruct K as [<-|K]; auto. apply in_app_iff in K.
  destruct K as [K|K]; [apply (V_mro w I) in K; auto; lia|]. pose proof (typeof_lt w x I H). apply (V_mro w I) in K; auto. lia.
Qed.
Lemma ext_check c : c < length w -> check_of w' c = check_of w c.
Proof. intros H. unfold check_of. rewrite ext_typeof by auto. rewrite ext_mro; auto. now apply typeof_lt. Qed.
Lemma ext_isinst f : forall x c, x < length w -> c < length w -> isinst f w' x c = isinst f w x c.
Proof.
  induction f as [|f IH]; intros x c Lx Lc; cbn [isinst]; rewrite ext_typeof by auto; auto.
  pose proof (typeof_lt w x I Lx). pose proof (typeof_lt w c I Lc).
  rewrite ext_check, !ext_hasattr, ext_mro, ext_typeof by auto. destruct (typeof w x =? c); auto.
  destruct (check_of w c) as [[|[|[|[|k]]]]|]; rewrite ?IH; auto.
Qed.
Lemma ext_isinstance x c : x < length w -> c < length w -> isinstance w' x c = isinstance w x c.
Proof. intros. unfold isinstance. now apply ext_isinst. Qed.
Lemma ext_issubclass x c : x < length w -> c < length w -> issubclass w' x c = issubclass w x c.
Proof.
  intros Lx Lc. unfold issubclass. pose proof (typeof_lt w c I Lc). rewrite ext_check, !ext_hasattr, ext_mro, ext_typeof by auto.
  now rewrite !ext_isinstance by auto.
Qed.
End Ext.
