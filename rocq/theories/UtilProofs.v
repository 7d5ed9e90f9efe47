(** Proofs of the theorems stated in UtilProps.v. *)
From Coq Require Import Lia Permutation.
From Verif Require Import PyBase BVFacts UtilModel UtilSpec.

Section Facts.
  Context {K V : Type} (keq : K -> K -> bool) (veq : V -> V -> bool).
  Hypothesis EK : equivalence keq.
  Hypothesis EV : equivalence veq.
  Notation lookup := (@lookup K V keq). Notation assign := (@assign K V keq). Notation of_pairs := (@of_pairs K V keq).

  Lemma keq_congr a b c : keq a b = true -> keq a c = keq b c.
  Proof.
    intros H. destruct (keq a c) eqn:A, (keq b c) eqn:B; auto.
    - apply (eqv_sym _ EK) in H. pose proof (eqv_trans _ EK _ _ _ H A). congruence.
    - pose proof (eqv_trans _ EK _ _ _ H B). congruence.
  Qed.
  Lemma keq_congr_r a b c : keq a b = true -> keq c a = keq c b.
  Proof.
    intros H. destruct (keq c a) eqn:A, (keq c b) eqn:B; auto.
    - pose proof (eqv_trans _ EK _ _ _ A H). congruence.
    - apply (eqv_sym _ EK) in H. pose proof (eqv_trans _ EK _ _ _ B H). congruence.
  Qed.
  Lemma keq_comm a b : keq a b = keq b a.
  Proof.
    destruct (keq a b) eqn:A, (keq b a) eqn:B; auto; [apply (eqv_sym _ EK) in A|apply (eqv_sym _ EK) in B]; congruence.
  Qed.

  (** Distinct keys *)
  Fixpoint distinct (d : dict K V) : Prop :=
    match d with [] => True | (k, _) :: d => lookup d k = None /\ distinct d end.

  Lemma lookup_assign d k v x : lookup (assign d k v) x = if keq k x then Some v else lookup d x.
  Proof.
    induction d as [|[k' v'] d IH]; cbn; auto. destruct (keq k' k) eqn:E; cbn.
    - rewrite (keq_congr _ _ x E). now destruct (keq k x).
    - rewrite IH. destruct (keq k' x) eqn:Ex; auto. destruct (keq k x) eqn:Ek; auto.
      rewrite (keq_comm k x) in Ek. pose proof (eqv_trans _ EK _ _ _ Ex Ek). congruence.
  Qed.
  Lemma lookup_congr d k k' : keq k k' = true -> lookup d k = lookup d k'.
  Proof. intros H. induction d as [|[a v] d IH]; cbn; auto. rewrite (keq_congr_r _ _ a H). now rewrite IH. Qed.
  Lemma lookup_none d k : lookup d k = None <-> forall p, In p d -> keq (fst p) k = false.
  Proof.
    induction d as [|[a v] d IH]; cbn; [split; auto; intros _ p []|]. destruct (keq a k) eqn:E.
    - split; [discriminate|]. intros H. specialize (H (a, v) (or_introl eq_refl)). cbn in H. congruence.
    - rewrite IH. split; [intros H p [<-|Hp]; auto|auto].
  Qed.
  Lemma distinct_assign d k v : distinct d -> distinct (assign d k v).
  Proof.
    induction d as [|[a x] d IH]; cbn; auto. intros [A B]. destruct (keq a k) eqn:E; cbn; auto. split; auto.
    rewrite lookup_assign. rewrite keq_comm in E. now rewrite E.
  Qed.
  Lemma of_pairs_app l p : of_pairs (l ++ [p]) = assign (of_pairs l) (fst p) (snd p).
  Proof. unfold UtilModel.of_pairs. now rewrite fold_left_app. Qed.
  Lemma distinct_of l : distinct (of_pairs l).
  Proof. induction l as [|p l IH] using rev_ind; [exact I|]. rewrite of_pairs_app. now apply distinct_assign. Qed.
  Lemma lookup_of l k : last_value keq l k (lookup (of_pairs l) k).
  Proof.
    induction l as [|[a v] l IH] using rev_ind; [intros p []|]. rewrite of_pairs_app, lookup_assign. cbn [fst snd].
    destruct (keq a k) eqn:E.
    - cbn. exists l, a, []. split; auto. split; auto. intros p [].
    - destruct (lookup (of_pairs l) k) as [w|]; cbn in *.
      + destruct IH as (l1 & k' & l2 & -> & A & B). exists l1, k', (l2 ++ [(a, v)]). rewrite <- app_assoc. split; auto. split; auto.
        intros p Hp. apply in_app_iff in Hp as [Hp|[<-|[]]]; auto.
      + intros p Hp. apply in_app_iff in Hp as [Hp|[<-|[]]]; auto.
  Qed.
  Lemma keys_assign d k v : map fst (assign d k v) = if existsb (fun a => keq a k) (map fst d) then map fst d else map fst d ++ [k].
  Proof.
    induction d as [|[a x] d IH]; cbn; auto. destruct (keq a k) eqn:E; cbn; auto. rewrite IH.
    now destruct (existsb _ (map fst d)).
  Qed.
  Lemma first_keys_app (l : list (K * V)) p : first_keys keq (l ++ [p]) =
    if existsb (fun a => keq a (fst p)) (map fst l) then first_keys keq l else first_keys keq l ++ [fst p].
  Proof.
    induction l as [|q l IH]; cbn; auto. rewrite IH. destruct (existsb _ (map fst l)) eqn:E.
    - now rewrite orb_true_r.
    - rewrite orb_false_r, filter_app. cbn. destruct (keq (fst q) (fst p)); cbn; auto. now rewrite app_nil_r.
  Qed.
  Lemma first_keys_mem (l : list (K * V)) x : existsb (fun a => keq a x) (first_keys keq l) = existsb (fun a => keq a x) (map fst l).
  Proof.
    induction l as [|p l IH]; cbn; auto. destruct (keq (fst p) x) eqn:E; cbn; auto. rewrite <- IH.
    clear IH. induction (first_keys keq l) as [|a f IH]; cbn; auto. destruct (keq (fst p) a) eqn:A; cbn; rewrite IH; auto.
    rewrite <- (keq_congr _ _ x A), E. reflexivity.
  Qed.
  Lemma keys_of l : map fst (of_pairs l) = first_keys keq l.
  Proof.
    induction l as [|p l IH] using rev_ind; auto. rewrite of_pairs_app, keys_assign, first_keys_app, IH.
    now rewrite first_keys_mem.
  Qed.

  Lemma lookup_split d k v : lookup d k = Some v -> exists d1 k' d2, d = d1 ++ (k', v) :: d2 /\ keq k' k = true.
  Proof.
    induction d as [|[a x] d IH]; cbn; [discriminate|]. destruct (keq a k) eqn:E.
    - intros H. inv H. now exists [], a, d.
    - intros H. destruct (IH H) as (d1 & k' & d2 & -> & A). now exists ((a, x) :: d1), k', d2.
  Qed.
  Lemma distinct_mid d1 k v d2 : distinct (d1 ++ (k, v) :: d2) ->
    distinct (d1 ++ d2) /\ forall x, lookup (d1 ++ (k, v) :: d2) x = if keq k x then Some v else lookup (d1 ++ d2) x.
  Proof.
    induction d1 as [|[a y] d1 IH]; cbn.
    - intros [A B]. split; auto.
    - intros [A B]. destruct (IH B) as [C D]. rewrite D in A. destruct (keq k a) eqn:E; [discriminate|]. split; [auto|].
      intros x. rewrite D. destruct (keq a x) eqn:Ex; auto. rewrite <- (keq_congr_r _ _ k Ex), E. reflexivity.
  Qed.
  Lemma dict_eqb_cons k v a b : distinct ((k, v) :: a) -> distinct b -> dict_eqb keq veq ((k, v) :: a) b = true ->
    exists b1 k' v' b2, b = b1 ++ (k', v') :: b2 /\ keq k k' = true /\ veq v v' = true /\ dict_eqb keq veq a (b1 ++ b2) = true
      /\ distinct (b1 ++ b2).
  Proof.
    intros [Na Da] Db H. unfold dict_eqb in *. apply andb_true_iff in H as [L H]. cbn [forallb fst snd] in H.
    apply andb_true_iff in H as [H1 H2]. destruct (lookup b k) as [v'|] eqn:E; [|discriminate].
    destruct (lookup_split b k v' E) as (b1 & k' & b2 & -> & Ek). exists b1, k', v', b2. split; auto.
    destruct (distinct_mid _ _ _ _ Db) as [D1 D2]. split; [now rewrite keq_comm|]. split; auto. split; auto.
    apply andb_true_iff. split.
    - apply Nat.eqb_eq in L. rewrite app_length in L. cbn in L. apply Nat.eqb_eq. rewrite app_length. lia.
    - rewrite forallb_forall in *. intros p Hp. specialize (H2 p Hp). rewrite D2 in H2.
      destruct (keq k' (fst p)) eqn:Ep; auto. exfalso. rewrite (keq_congr _ _ (fst p) Ek) in Ep.
      rewrite lookup_none in Na. specialize (Na p Hp). rewrite keq_comm in Na. congruence.
  Qed.
  Lemma dict_eqb_perm item a : respects keq veq item -> forall b, distinct a -> distinct b -> dict_eqb keq veq a b = true ->
    Permutation (map item a) (map item b).
  Proof.
    intros R. induction a as [|[k v] a IH]; intros b Da Db H.
    - destruct b; [constructor|discriminate].
    - destruct (dict_eqb_cons k v a b Da Db H) as (b1 & k' & v' & b2 & -> & A & B & C & D).
      rewrite map_app. cbn [map]. rewrite (R _ _ _ _ A B). apply Permutation_cons_app. rewrite <- map_app. apply IH; auto. apply Da.
  Qed.
  Lemma dict_eqb_same a : forall b, distinct a -> distinct b ->
    (dict_eqb keq veq a b = true <-> forall k, match lookup a k, lookup b k with
       Some v, Some v' => veq v v' = true | None, None => True | _, _ => False end).
  Proof.
    induction a as [|[k v] a IH]; intros b Da Db.
    - split.
      + intros H k. destruct b; [exact I|discriminate].
      + intros H. destruct b as [|[k v] b]; auto. specialize (H k). cbn in H. now rewrite (eqv_refl _ EK) in H.
    - split.
      + intros H. destruct (dict_eqb_cons k v a b Da Db H) as (b1 & k' & v' & b2 & -> & A & B & C & D).
        intros x. destruct (distinct_mid _ _ _ _ Db) as [_ E]. rewrite E. cbn [UtilModel.lookup]. rewrite (keq_congr _ _ x A).
        destruct (keq k' x); auto. apply IH; auto. apply Da.
      + intros H. pose proof (H k) as Hk. cbn in Hk. rewrite (eqv_refl _ EK) in Hk. destruct (lookup b k) as [v'|] eqn:E; [|tauto].
        destruct (lookup_split b k v' E) as (b1 & k' & b2 & -> & Ek). destruct (distinct_mid _ _ _ _ Db) as [D1 D2].
        destruct Da as [Na Da].
        assert (Q : dict_eqb keq veq a (b1 ++ b2) = true).
        { apply IH; auto. intros x. specialize (H x). rewrite D2 in H. cbn in H. rewrite (keq_congr _ _ x Ek) in H.
          destruct (keq k x) eqn:Ex; auto. rewrite <- (lookup_congr a _ _ Ex), Na. 
          rewrite <- (lookup_congr (b1 ++ b2) _ _ Ex). rewrite <- (lookup_congr (b1 ++ b2) _ _ Ek).
          assert (N : lookup (b1 ++ b2) k' = None); [|now rewrite N].
          clear -Db EK. induction b1 as [|[c w] b1 IHb]; cbn in *; [apply Db|]. destruct Db as [A B].
          destruct (keq c k') eqn:E; [|auto]. exfalso. rewrite lookup_none in A. specialize (A (k', v')). cbn in A.
          rewrite keq_comm in E. rewrite A in E; [discriminate|]. apply in_app_iff. right. now left. }
        unfold dict_eqb in *. apply andb_true_iff in Q as [Q1 Q2]. apply andb_true_iff. split.
        * apply Nat.eqb_eq in Q1. rewrite app_length in Q1. apply Nat.eqb_eq. rewrite app_length. cbn. lia.
        * cbn [forallb fst snd]. rewrite E, Hk. cbn. rewrite forallb_forall in *. intros p Hp. specialize (Q2 p Hp). rewrite D2.
          destruct (keq k' (fst p)) eqn:Ep; auto. exfalso. rewrite (keq_congr _ _ (fst p) Ek) in Ep.
          rewrite lookup_none in Na. specialize (Na p Hp). rewrite keq_comm in Na. congruence.
  Qed.
  Lemma odict_eqb_items a : forall b, distinct a -> distinct b -> (odict_eqb keq veq a b = true <-> same_items keq veq a b).
  Proof.
    unfold odict_eqb. intros b Da Db. rewrite andb_true_iff. split.
    - intros [H Kb]. revert b Db H Kb. induction a as [|[k v] a IH]; intros b Db H Kb; destruct b as [|[k' v'] b]; try discriminate; [constructor|].
      cbn [keys_eqb] in Kb. apply andb_true_iff in Kb as [Kk Kb]. pose proof H as H0. rewrite dict_eqb_same in H0 by auto.
      specialize (H0 k) as Hk. cbn in Hk. rewrite (eqv_refl _ EK), (keq_comm k' k), Kk in Hk. constructor; [auto|].
      destruct Da as [Na Da], Db as [Nb Db]. apply IH; auto. apply dict_eqb_same; auto. intros x. specialize (H0 x). cbn in H0.
      rewrite (keq_congr _ _ x Kk) in H0. destruct (keq k' x) eqn:E; auto.
      rewrite <- (lookup_congr a _ _ E), <- (lookup_congr b _ _ E), Nb. rewrite <- (lookup_congr a _ _ Kk), Na. exact I.
    - intros H. split.
      + apply dict_eqb_same; auto. clear Da Db. intros x. induction H as [|[k v] [k' v'] a b [A B] H IH]; cbn in *; auto.
        rewrite (keq_congr _ _ x A). destruct (keq k' x); auto.
      + clear Da Db. induction H as [|[k v] [k' v'] a b [A B] H IH]; cbn in *; auto. now rewrite A.
  Qed.
End Facts.



Lemma C54_mapping_pf : forall K V keq veq (l : list (K * V)), equivalence keq -> @equivalence V veq ->
  forall x, In x [Frozen (of_pairs keq l); Ordered (of_pairs keq l)] ->
  iter x = first_keys keq l /\ len x = length (first_keys keq l) /\
  forall k, match getitem keq x k with
            | Ok v => last_value keq l k (Some v)
            | Raise e => e = EKeyError /\ last_value keq l k None
            end.
Proof.
  intros K V keq veq l EK EV x Hx. assert (E : items x = of_pairs keq l) by (destruct Hx as [<-|[<-|[]]]; reflexivity).
  unfold iter, len, getitem. rewrite E. split; [now apply keys_of|]. split; [rewrite <- (keys_of keq EK l); now rewrite map_length|].
  intros k. pose proof (lookup_of keq EK l k) as H. destruct (lookup keq (of_pairs keq l) k); auto.
Qed.

Lemma C54_equal_pf : forall K V keq veq (l l' : list (K * V)), equivalence keq -> equivalence veq ->
  let F := Frozen (of_pairs keq l) in let F' := Frozen (of_pairs keq l') in
  let O := Ordered (of_pairs keq l) in let O' := Ordered (of_pairs keq l') in
  (frozen_eqb keq veq F F' = true <-> same_mapping keq veq l l') /\
  (frozen_eqb keq veq F O' = true <-> same_mapping keq veq l l') /\
  (frozen_eqb keq veq O F' = true <-> same_mapping keq veq l' l) /\
  forall x y, frozen_neb keq veq x y = negb (frozen_eqb keq veq x y).
Proof.
  intros K V keq veq l l' EK EV F F' O O'. pose proof (distinct_of keq EK l) as D. pose proof (distinct_of keq EK l') as D'.
  split; [|split; [|split]]; try (apply (dict_eqb_same keq veq EK); auto). reflexivity.
Qed.

Lemma C54_order_sensitive_pf : forall K V keq veq (l l' : list (K * V)), equivalence keq -> equivalence veq ->
  (frozen_eqb keq veq (Ordered (of_pairs keq l)) (Ordered (of_pairs keq l')) = true <->
   same_items keq veq (of_pairs keq l) (of_pairs keq l')).
Proof.
  intros K V keq veq l l' EK EV. apply (odict_eqb_items keq veq EK); now apply distinct_of.
Qed.

Lemma C54_hash_partial_pf : forall K V keq veq (l l' : list (K * V)) item fset tup, equivalence keq -> equivalence veq ->
  respects keq veq item -> unordered fset ->
  forall wrap, In wrap [Frozen; Ordered] ->
  frozen_eqb keq veq (wrap (of_pairs keq l)) (wrap (of_pairs keq l')) = true ->
  frozen_hash item fset tup (wrap (of_pairs keq l)) = frozen_hash item fset tup (wrap (of_pairs keq l')).
Proof.
  intros K V keq veq l l' item fset tup EK EV R U wrap Hw H.
  pose proof (distinct_of keq EK l) as D. pose proof (distinct_of keq EK l') as D'. destruct Hw as [<-|[<-|[]]]; cbn in *.
  - apply U. eapply dict_eqb_perm; eauto.
  - f_equal. apply (odict_eqb_items keq veq EK) in H; auto. clear -H R.
    induction H as [|[k v] [k' v'] a b [A B] H IH]; cbn; auto. rewrite (R k v k' v'); auto. now rewrite IH.
Qed.

Lemma C54_equivalence_pf : forall K V keq veq, equivalence keq -> equivalence veq ->
  forall wrap, In wrap [Frozen; Ordered] ->
  equivalence (fun l l' : list (K * V) => frozen_eqb keq veq (wrap (of_pairs keq l)) (wrap (of_pairs keq l'))).
Proof.
  intros K V keq veq EK EV wrap Hw. destruct Hw as [<-|[<-|[]]].
  - assert (Q : forall l l' : list (K * V), frozen_eqb keq veq (Frozen (of_pairs keq l)) (Frozen (of_pairs keq l')) = true <-> same_mapping keq veq l l').
    { intros l l'. apply (dict_eqb_same keq veq EK); now apply distinct_of. }
    split; intros *; rewrite ?Q; unfold same_mapping.
    + intros k. destruct (lookup keq (of_pairs keq a) k); auto. apply (eqv_refl _ EV).
    + intros H k. specialize (H k). destruct (lookup keq (of_pairs keq a) k), (lookup keq (of_pairs keq b) k); auto. now apply (eqv_sym _ EV).
    + intros H1 H2 k. specialize (H1 k). specialize (H2 k).
      destruct (lookup keq (of_pairs keq a) k), (lookup keq (of_pairs keq b) k), (lookup keq (of_pairs keq c) k); try tauto.
      eapply (eqv_trans _ EV); eauto.
  - assert (Q : forall l l' : list (K * V), frozen_eqb keq veq (Ordered (of_pairs keq l)) (Ordered (of_pairs keq l')) = true <-> same_items keq veq (of_pairs keq l) (of_pairs keq l')).
    { intros l l'. apply (odict_eqb_items keq veq EK); now apply distinct_of. }
    split; intros *; rewrite ?Q; unfold same_items.
    + induction (of_pairs keq a); constructor; auto. split; [apply (eqv_refl _ EK)|apply (eqv_refl _ EV)].
    + intros H. induction H as [|p q x y [A B] H IH]; constructor; auto. split; [now apply (eqv_sym _ EK)|now apply (eqv_sym _ EV)].
    + intros H1. revert c. generalize (of_pairs keq a) (of_pairs keq b) H1. clear H1 a b. intros x y H1 c. generalize (of_pairs keq c).
      induction H1 as [|p q x y [A B] H1 IH]; intros z H2; inversion H2 as [|q' r y' z' [C D] H3]; subst; constructor; auto.
      split; [eapply (eqv_trans _ EK); eauto|eapply (eqv_trans _ EV); eauto].
Qed.

Lemma C54_cross_refuted_pf : forall item fset tup (p q : Z * Z), fst p <> fst q ->
  tup [item p; item q] <> tup [item q; item p] ->
  exists x y : frozen Z Z, frozen_eqb Z.eqb Z.eqb x y = true /\ frozen_hash item fset tup x <> frozen_hash item fset tup y.
Proof.
  intros item fset tup [k v] [k' v'] N H. cbn in N.
  set (l := [(k, v); (k', v')]). set (l' := [(k', v'); (k, v)]).
  assert (A : frozen_eqb Z.eqb Z.eqb (Frozen l) (Ordered l) = true).
  { cbn. rewrite !Z.eqb_refl. cbn. destruct (Z.eqb_spec k k'); [congruence|]. rewrite !Z.eqb_refl. reflexivity. }
  assert (B : frozen_eqb Z.eqb Z.eqb (Frozen l) (Ordered l') = true).
  { cbn. rewrite !Z.eqb_refl. destruct (Z.eqb_spec k' k); [congruence|]. rewrite !Z.eqb_refl. reflexivity. }
  destruct (Z.eq_dec (fset (map item l)) (tup (map item l))) as [E|E].
  - exists (Frozen l), (Ordered l'). split; auto. cbn [frozen_hash]. rewrite E. exact H.
  - exists (Frozen l), (Ordered l). auto.
Qed.

Lemma C54_transitive_refuted_pf : exists x y z : frozen Z Z,
  frozen_eqb Z.eqb Z.eqb x y = true /\ frozen_eqb Z.eqb Z.eqb y z = true /\ frozen_eqb Z.eqb Z.eqb x z = false.
Proof.
  exists (Ordered [(1, 2); (3, 4)]), (Frozen [(1, 2); (3, 4)]), (Ordered [(3, 4); (1, 2)]). vm_compute. auto.
Qed.

Lemma Zeqb_equivalence : equivalence Z.eqb.
Proof. split; intros *; rewrite ?Z.eqb_eq; congruence. Qed.
