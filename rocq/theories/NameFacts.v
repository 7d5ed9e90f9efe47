(** Invariants of the naming model. *)
From Coq Require Import FinFun String Ascii DecimalString DecimalNat DecimalFacts Decimal Lia.
From Verif Require Import NameModel NameSpec.

(** ** Generated names *)
Fixpoint has_underscore (s : string) : bool :=
  match s with EmptyString => false | String c s => Ascii.eqb c "_" || has_underscore s end.
Lemma uint_no_underscore d : has_underscore (NilEmpty.string_of_uint d) = false.
Proof. induction d; cbn; auto. Qed.
Lemma dec_no_underscore n : has_underscore (dec n) = false.
Proof. unfold dec, NilZero.string_of_uint. destruct (Nat.to_uint n) eqn:E; rewrite <- ?E; try reflexivity; apply uint_no_underscore. Qed.
Lemma to_uint_nonnil k : Nat.to_uint k <> Nil.
Proof. rewrite <- (DecimalNat.Unsigned.of_to k) at 1. rewrite DecimalNat.Unsigned.to_of. apply unorm_nonnil. Qed.
Lemma dec_inj n m : dec n = dec m -> n = m.
Proof.
  unfold dec. intros H.
  apply (f_equal NilZero.uint_of_string) in H. rewrite !NilZero.usu in H by apply to_uint_nonnil. injection H as H.
  now apply DecimalNat.Unsigned.to_uint_inj.
Qed.
Lemma underscore_app a b : has_underscore (a ++ b)%string = has_underscore a || has_underscore b.
Proof. induction a as [|c a IH]; cbn; auto. rewrite IH. apply orb_assoc. Qed.
Lemma split_last p q a b : has_underscore a = false -> has_underscore b = false ->
  (p ++ String "_" a = q ++ String "_" b)%string -> p = q /\ a = b.
Proof.
  revert q. induction p as [|c p IH]; intros q Ha Hb H; destruct q as [|d q]; cbn in H.
  - injection H as H. auto.
  - injection H as H1 H2. subst. rewrite underscore_app in Ha. cbn in Ha. rewrite orb_true_r in Ha. discriminate.
  - injection H as H1 H2. subst. rewrite underscore_app in Hb. cbn in Hb. rewrite orb_true_r in Hb. discriminate.
  - injection H as H1 H2. destruct (IH q Ha Hb H2). subst. auto.
Qed.
Lemma gen_inj p q n m : gen p n = gen q m -> p = q /\ n = m.
Proof.
  unfold gen. cbn. intros H. apply split_last in H; auto using dec_no_underscore. destruct H as [-> H]. split; auto using dec_inj.
Qed.
Lemma fresh_inj n m : fresh_name n = fresh_name m -> n = m.
Proof. unfold fresh_name. cbn. intros H. injection H as H. now apply dec_inj. Qed.

(** ** The invariant *)
Record inv (s : state) : Prop := {
  I_ids : forall o, In o (heap s) -> o_id o < next s;
  I_nodup : NoDup (map o_id (heap s));
  I_bound : forall f n i, find_tab (tab s) f n = Some i -> i < next s;
  I_tab : forall o n, In o (heap s) -> o_name o = Some n -> find_tab (tab s) (o_fam o) n = Some (o_id o);
  I_back : forall f n o, find_tab (tab s) f n = Some (o_id o) -> In o (heap s) -> o_name o = Some n /\ o_fam o = f;
  I_gen : forall p n, In (Some p, n) (created s) -> exists k, n = gen (ptext p) k /\ k < counter (counters s) p;
  I_syms : forall o n, In o (heap s) -> In n (o_syms o) -> In n (map snd (created s));
  I_symtab : forall o n, In o (heap s) -> In n (o_syms o) -> find_sym (symtab s) n <> None;
  I_known : forall n, find_sym (symtab s) n <> None -> In n (map snd (created s))
}.

Lemma fam_eqb_refl f : fam_eqb f f = true. Proof. now destruct f. Qed.
Lemma fam_eqb_eq f g : fam_eqb f g = true -> f = g. Proof. now destruct f, g. Qed.
Lemma live_in s i : live s i = true <-> exists o, In o (heap s) /\ o_id o = i.
Proof.
  unfold live. rewrite existsb_exists. split; intros (o & H1 & H2); exists o; split; auto; now apply Nat.eqb_eq.
Qed.
Lemma in_table_var s f n : inv s -> (in_table s f n = true <-> exists o, In o (heap s) /\ o_name o = Some n /\ o_fam o = f).
Proof.
  intros I. unfold in_table. split.
  - destruct (find_tab (tab s) f n) as [i|] eqn:E; [|discriminate]. intros H. apply live_in in H. destruct H as (o & H1 & <-).
    destruct (I_back s I f n o E H1). exists o. auto.
  - intros (o & H1 & H2 & <-). rewrite (I_tab s I o n H1 H2). apply live_in. eauto.
Qed.

Definition opt_list {A} (o : option A) : list A := match o with Some a => [a] | None => [] end.
Lemma opt_list_length (l : list obj) : length (flat_map (fun o => opt_list (o_name o)) l) <= length l.
Proof. induction l as [|o l IH]; cbn; auto. rewrite app_length. destruct (o_name o); cbn; lia. Qed.
Lemma search_none used txt fuel k : search used txt fuel k = None -> forall j, j < fuel -> used (gen txt (k + j)) = true.
Proof.
  revert k. induction fuel as [|fuel IH]; intros k H j Hj; [lia|]. cbn in H.
  destruct (used (gen txt k)) eqn:E; [|discriminate]. destruct j as [|j]; [now rewrite Nat.add_0_r|].
  rewrite Nat.add_succ_r. apply (IH (S k) H). lia.
Qed.
Lemma search_found used txt fuel k j : search used txt fuel k = Some j -> k <= j /\ used (gen txt j) = false.
Proof.
  revert k. induction fuel as [|fuel IH]; intros k H; [discriminate|]. cbn in H.
  destruct (used (gen txt k)) eqn:E; [apply IH in H; split; [lia|tauto]|]. injection H as <-. auto.
Qed.
Lemma seq_nodup {A} (f : nat -> A) k n : (forall i j, f i = f j -> i = j) -> NoDup (map (fun j => f (k + j)) (seq 0 n)).
Proof.
  intros Hf. apply FinFun.Injective_map_NoDup; [|apply seq_NoDup]. intros i j H. apply Hf in H. lia.
Qed.
Lemma gen_name_some s p : inv s -> exists k, gen_name s p = Some (S k, gen (ptext p) k) /\
  counter (counters s) p <= k /\ in_table s Core (gen (ptext p) k) = false.
Proof.
  intros I. unfold gen_name. set (c := counter (counters s) p).
  destruct (search (in_table s Core) (ptext p) (S (length (heap s))) c) as [k|] eqn:E.
  - exists k. apply search_found in E. tauto.
  - exfalso. pose proof (search_none _ _ _ _ E) as H.
    pose (L := map (fun j => gen (ptext p) (c + j)) (seq 0 (S (length (heap s))))).
    assert (ND : NoDup L). { apply (seq_nodup (gen (ptext p))). intros i j Hg. apply gen_inj in Hg. tauto. }
    assert (IN : incl L (flat_map (fun o => opt_list (o_name o)) (heap s))).
    { intros n Hn. unfold L in Hn. rewrite in_map_iff in Hn. destruct Hn as (j & <- & Hj). apply in_seq in Hj.
      specialize (H j ltac:(lia)). apply in_table_var in H; auto. destruct H as (o & H1 & H2 & _). apply in_flat_map. exists o.
      rewrite H2. cbn. auto. }
    pose proof (NoDup_incl_length ND IN) as Hl. pose proof (opt_list_length (heap s)). unfold L in Hl. rewrite map_length, seq_length in Hl. lia.
Qed.
Lemma find_sym_in l n : find_sym l n <> None -> In n (map fst l).
Proof. induction l as [|[m t] l IH]; cbn; auto. destruct (String.eqb_spec n m); auto. Qed.
Definition fresh_go (s : state) := fix go fuel k := match fuel with
   | 0 => None
   | S fuel => match find_sym (symtab s) (fresh_name k) with Some _ => go fuel (S k) | None => Some k end
   end.
Lemma fresh_go_none s fuel k : fresh_go s fuel k = None -> forall j, j < fuel -> find_sym (symtab s) (fresh_name (k + j)) <> None.
Proof.
  revert k. induction fuel as [|fuel IH]; intros k H j Hj; [lia|]. cbn [fresh_go] in H.
  destruct (find_sym (symtab s) (fresh_name k)) eqn:E; [|discriminate]. destruct j as [|j]; [rewrite Nat.add_0_r; congruence|].
  rewrite Nat.add_succ_r. apply (IH (S k) H). lia.
Qed.
Lemma fresh_go_found s fuel k j : fresh_go s fuel k = Some j -> find_sym (symtab s) (fresh_name j) = None.
Proof.
  revert k. induction fuel as [|fuel IH]; intros k H; [discriminate|]. cbn [fresh_go] in H.
  destruct (find_sym (symtab s) (fresh_name k)) eqn:E; [eauto|]. now injection H as <-.
Qed.
Lemma search_fresh_some s : exists k, search_fresh s = Some k /\ find_sym (symtab s) (fresh_name k) = None.
Proof.
  change (search_fresh s) with (fresh_go s (S (length (symtab s))) (fresh s)).
  destruct (fresh_go s (S (length (symtab s))) (fresh s)) as [k|] eqn:E; [exists k; split; auto; eapply fresh_go_found; eauto|].
  exfalso. pose proof (fresh_go_none _ _ _ E) as H.
  pose (L := map (fun j => fresh_name (fresh s + j)) (seq 0 (S (length (symtab s))))).
  assert (ND : NoDup L) by (apply (seq_nodup fresh_name); apply fresh_inj).
  assert (IN : incl L (map fst (symtab s))).
  { intros n Hn. unfold L in Hn. rewrite in_map_iff in Hn. destruct Hn as (j & <- & Hj). apply in_seq in Hj. apply find_sym_in, H. lia. }
  pose proof (NoDup_incl_length ND IN) as Hl. unfold L in Hl. rewrite !map_length, seq_length in Hl. lia.
Qed.

(** ** Preservation *)
Lemma init_inv : inv init.
Proof. split; cbn; try tauto; try discriminate. constructor. Qed.
Lemma counter_set l p k q : counter ((p, k) :: l) q = if same_key q p then k else counter l q.
Proof. reflexivity. Qed.
Lemma same_key_refl p : same_key p p = true.
Proof. destruct p; cbn; [apply String.eqb_refl|apply Nat.eqb_refl]. Qed.
Lemma counter_key l p q : same_key p q = true -> counter l p = counter l q.
Proof.
  intros E. assert (X : forall r, same_key p r = same_key q r).
  { intros r. destruct p as [a|i a], q as [b|j b]; try discriminate; cbn in E.
    - apply String.eqb_eq in E. now subst.
    - apply Nat.eqb_eq in E. now subst. }
  induction l as [|[r n] l IH]; cbn; auto. now rewrite X, IH.
Qed.
Lemma note_inv s p k n : inv s -> counter (counters s) p <= k -> n = gen (ptext p) k ->
  inv (note (set_counter s p (S k)) (Some p) n).
Proof.
  intros I Hk Hn. destruct I. split; cbn; auto.
  - intros q m H. change (if same_key q p then S k else counter (counters s) q) with (counter ((p, S k) :: counters s) q).
    rewrite counter_set. destruct H as [H|H].
    + injection H as -> ->. rewrite same_key_refl. exists k. auto.
    + destruct (I_gen0 q m H) as (j & -> & Hj). exists j. split; auto. destruct (same_key q p) eqn:E; auto.
      rewrite (counter_key _ _ _ E) in Hj. lia.
  - intros o m H1 H2. right. eauto.
Qed.
Lemma note_none_inv s n : inv s -> inv (note s None n).
Proof.
  intros I. destruct I. split; cbn; auto.
  - intros q m [H|H]; [discriminate|eauto].
  - intros o m H1 H2. right. eauto.
Qed.
Lemma find_sym_new l n t m : find_sym l m <> None -> find_sym (match find_sym l n with Some _ => l | None => (n, t) :: l end) m <> None.
Proof. intros H. destruct (find_sym l n); auto. cbn. destruct (String.eqb m n); auto. discriminate. Qed.
Lemma register_inv s f n t : inv s -> in_table s f n = false -> In n (map snd (created s)) -> inv (fst (register s f n t)).
Proof.
  intros I Hn Hc. pose proof I as I0. destruct I. unfold register. cbn [fst].
  set (clash := match find_sym (symtab s) n with Some u => negb (sort_eqb t u) | None => false end).
  split; cbn [heap tab counters symtab fresh next created].
  - intros o H. apply in_app_iff in H. destruct H as [H|[<-|[]]]; cbn; auto. specialize (I_ids0 o H). lia.
  - rewrite map_app. cbn. apply NoDup_Add with (a := next s) (l := map o_id (heap s)).
    + apply Add_app || (rewrite <- (app_nil_r (map o_id (heap s))) at 1; apply Add_app).
    + split; auto. intros H. apply in_map_iff in H. destruct H as (o & H1 & H2). specialize (I_ids0 o H2). lia.
  - intros g m i H. cbn in H. destruct (fam_eqb g f && String.eqb m n); [injection H as <-; lia|]. specialize (I_bound0 g m i H). lia.
  - intros o m H Ho. apply in_app_iff in H. cbn [find_tab]. destruct H as [H|[<-|[]]].
    + destruct (fam_eqb (o_fam o) f && String.eqb m n) eqn:E; auto. exfalso.
      apply andb_true_iff in E. destruct E as [E1 E2]. apply fam_eqb_eq in E1. apply String.eqb_eq in E2. subst.
      assert (X : in_table s (o_fam o) n = true) by (apply in_table_var; eauto). congruence.
    + cbn in *. injection Ho as <-. now rewrite fam_eqb_refl, String.eqb_refl.
  - intros g m o H Ho. cbn in H. apply in_app_iff in Ho.
    destruct (fam_eqb g f && String.eqb m n) eqn:E.
    + injection H as H. apply andb_true_iff in E. destruct E as [E1 E2]. apply fam_eqb_eq in E1. apply String.eqb_eq in E2. subst.
      destruct Ho as [Ho|[<-|[]]]; [|auto]. specialize (I_ids0 o Ho). lia.
    + destruct Ho as [Ho|[<-|[]]]; [eauto|]. cbn in H. specialize (I_bound0 g m _ H). lia.
  - exact I_gen0.
  - intros o m H Hm. apply in_app_iff in H. destruct H as [H|[<-|[]]]; [eauto|]. cbn in Hm. destruct clash; [destruct Hm|].
    destruct Hm as [<-|[]]. exact Hc.
  - intros o m H Hm. apply in_app_iff in H. destruct H as [H|[<-|[]]]; [apply find_sym_new; eauto|]. cbn in Hm.
    destruct clash; [destruct Hm|]. destruct Hm as [<-|[]]. destruct (find_sym (symtab s) n) eqn:E; [congruence|]. cbn.
    rewrite String.eqb_refl. discriminate.
  - intros m H. destruct (find_sym (symtab s) n) eqn:E; [auto|]. cbn in H. destruct (String.eqb_spec m n); [now subst|auto].
Qed.
Lemma anon_inv s f ok syms st fr cr : inv s ->
  (forall n, In n syms -> In n (map snd cr) /\ find_sym st n <> None) ->
  (forall n, In n (map snd (created s)) -> In n (map snd cr)) -> (forall n, find_sym (symtab s) n <> None -> find_sym st n <> None) ->
  (forall p n, In (Some p, n) cr -> In (Some p, n) (created s)) ->
  (forall n, find_sym st n <> None -> In n (map snd cr)) ->
  inv (St (heap s ++ [Obj (next s) None f ok syms]) (tab s) (counters s) st fr (S (next s)) cr).
Proof.
  intros I H1 H2 H3 H4 H5. destruct I. split; cbn [heap tab counters symtab fresh next created].
  - intros o H. apply in_app_iff in H. destruct H as [H|[<-|[]]]; cbn; auto. specialize (I_ids0 o H). lia.
  - rewrite map_app. cbn. apply NoDup_Add with (a := next s) (l := map o_id (heap s)).
    + rewrite <- (app_nil_r (map o_id (heap s))) at 1; apply Add_app.
    + split; auto. intros H. apply in_map_iff in H. destruct H as (o & E1 & E2). specialize (I_ids0 o E2). lia.
  - intros g m i H. specialize (I_bound0 g m i H). lia.
  - intros o m H Ho. apply in_app_iff in H. destruct H as [H|[<-|[]]]; [eauto|discriminate].
  - intros g m o H Ho. apply in_app_iff in Ho. destruct Ho as [Ho|[<-|[]]]; [eauto|]. cbn in H. specialize (I_bound0 g m _ H). lia.
  - intros p n H. eauto.
  - intros o m H Hm. apply in_app_iff in H. destruct H as [H|[<-|[]]]; [eauto|]. apply H1, Hm.
  - intros o m H Hm. apply in_app_iff in H. destruct H as [H|[<-|[]]]; [eauto|]. apply H1, Hm.
  - exact H5.
Qed.
Lemma in_filter_map {A B} (f : A -> B) g l x : In x (map f (filter g l)) -> In x (map f l).
Proof. rewrite !in_map_iff. intros (y & <- & H). apply filter_In in H. exists y. tauto. Qed.
Lemma nodup_filter {A B} (f : A -> B) g l : NoDup (map f l) -> NoDup (map f (filter g l)).
Proof.
  induction l as [|a l IH]; cbn; intros H; auto. inversion H; subst. destruct (g a); cbn; auto. constructor; auto.
  intros X. apply in_filter_map in X. auto.
Qed.
Lemma collect_inv s i : inv s -> inv (collect s i).
Proof.
  intros I. destruct I. unfold collect. split; cbn [heap tab counters symtab fresh next created]; auto.
  - intros o H. apply filter_In in H. destruct H. auto.
  - now apply nodup_filter.
  - intros o n H. apply filter_In in H. destruct H. auto.
  - intros f n o H Ho. apply filter_In in Ho. destruct Ho. eauto.
  - intros o n H. apply filter_In in H. destruct H. eauto.
  - intros o n H. apply filter_In in H. destruct H. eauto.
Qed.
Lemma syms_of_in s is n : In n (syms_of s is) -> exists o, In o (heap s) /\ In n (o_syms o).
Proof. unfold syms_of. rewrite in_flat_map. intros (o & H1 & H2). apply filter_In in H1. exists o. tauto. Qed.

Lemma note_table s p k q n f m : in_table (note (set_counter s p k) q n) f m = in_table s f m. Proof. reflexivity. Qed.
Lemma note_table' s q n f m : in_table (note s q n) f m = in_table s f m. Proof. reflexivity. Qed.

(** What one creation by generated name does. *)
Lemma gen_step s pf t : inv s -> let p := match pf with Some p => p | None => PStr "V" end in
  exists k, counter (counters s) p <= k /\ in_table s Core (gen (ptext p) k) = false /\
    new_var s NAuto pf false t = register (note (set_counter s p (S k)) (Some p) (gen (ptext p) k)) Core (gen (ptext p) k) t.
Proof.
  intros I p. destruct (gen_name_some s p I) as (k & E & H1 & H2). exists k. split; [exact H1|]. split; [exact H2|]. unfold new_var.
  destruct pf; subst p; now rewrite E.
Qed.

Lemma step_inv s o : inv s -> inv (fst (step s o)).
Proof.
  intros I. destruct o as [nm pf v t|nm t|is keep|i]; cbn [step].
  - destruct v; [destruct nm, pf; exact I|]. destruct nm as [|n|].
    + destruct (gen_step s pf t I) as (k & H1 & H2 & ->). apply register_inv; [now apply note_inv|exact H2|cbn; auto].
    + destruct pf; [exact I|]. cbn [new_var]. destruct (in_table s Core n) eqn:E; [exact I|].
      apply register_inv; [now apply note_none_inv|exact E|cbn; auto].
    + destruct pf; exact I.
  - destruct nm as [|n|]; cbn [new_fp]; [|destruct (in_table s FP n) eqn:E; [exact I|]|exact I].
    + destruct (search_fresh_some s) as (k & -> & H). cbn [fst]. apply anon_inv; auto.
      * intros n [<-|[]]. cbn. rewrite String.eqb_refl. split; [auto|discriminate].
      * cbn. auto.
      * intros n Hn. cbn. destruct (String.eqb n _); [discriminate|auto].
      * intros p n [Hp|Hp]; [discriminate|auto].
      * intros n Hn. cbn [find_sym map snd In] in *. destruct (String.eqb_spec n (fresh_name k)); [auto|apply (I_known s I) in Hn; auto].
    + apply register_inv; [now apply note_none_inv|exact E|cbn; auto].
  - cbn [new_expr fst]. apply anon_inv; auto; [|apply (I_known s I)].
    intros n H. apply filter_In in H. destruct H as [H _]. apply syms_of_in in H. destruct H as (o & H1 & H2). destruct I. eauto.
  - now apply collect_inv.
Qed.
Lemma run_inv l : forall s, inv s -> inv (run s l).
Proof. induction l as [|o l IH]; intros s I; cbn [run]; auto. apply IH, step_inv, I. Qed.
Lemma run_app l m s : run s (l ++ m) = run (run s l) m.
Proof. revert s. induction l as [|o l IH]; intros s; cbn; auto. Qed.

(** ** What is recorded in [created] *)
Definition created_ok (ns : list string) (cr : list (option prefix * string)) : Prop :=
  NoDup (flat_map (fun x => match x with (Some _, n) => [n] | _ => [] end) cr) /\
  (forall i t n, ~ In (Some (PObj i t), n) cr) /\
  (forall n, In (None, n) cr -> In n ns \/ exists k, n = fresh_name k).
Lemma register_created s f n t : created (fst (register s f n t)) = created s. Proof. reflexivity. Qed.
Lemma created_weaken ns ms cr : created_ok ns cr -> (forall n, In n ns -> In n ms) -> created_ok ms cr.
Proof. intros (A & B & C) H. split; auto. split; auto. intros n Hn. destruct (C n Hn) as [X|X]; auto. Qed.
Lemma generated_in cr n : In n (flat_map (fun x : option prefix * string => match x with (Some _, n) => [n] | _ => [] end) cr) ->
  exists p, In (Some p, n) cr.
Proof. rewrite in_flat_map. intros ([[p|] m] & H1 & H2); [|destruct H2]. destruct H2 as [<-|[]]. eauto. Qed.
Lemma step_created s o ns : inv s -> created_ok ns (created s) -> string_prefixes [o] ->
  created_ok (explicit_names [o] ++ ns) (created (fst (step s o))).
Proof.
  intros I C P. inversion P as [|? ? P1 _]; subst.
  assert (W : created_ok (explicit_names [o] ++ ns) (created s)) by (apply (created_weaken ns); auto; intros; apply in_app_iff; auto).
  destruct o as [nm pf v t|nm t|is keep|i]; cbn [step]; try exact W.
  - destruct v; [destruct nm, pf; exact W|]. destruct nm as [|n|].
    + destruct (gen_step s pf t I) as (k & H1 & H2 & ->). rewrite register_created. cbn [note created set_counter].
      destruct C as (C1 & C2 & C3).
      assert (Q : exists q, match pf with Some p => p | None => PStr "V" end = PStr q) by (destruct pf as [[q|]|]; [eauto|destruct P1|eauto]).
      destruct Q as [q Q]. rewrite Q in *. cbn [ptext] in *. split; [|split].
      * cbn. constructor; auto. intros X. apply generated_in in X. destruct X as ([p|j p] & X); [|now apply C2 in X].
        destruct (I_gen s I (PStr p) _ X) as (j & E & Hj). cbn [ptext] in E. apply gen_inj in E. destruct E as [-> ->]. lia.
      * intros j u n [H|H]; [congruence|]. now apply C2 in H.
      * intros n [H|H]; [congruence|]. destruct (C3 n H); auto.
    + destruct pf; [exact W|]. cbn [new_var]. destruct (in_table s Core n); [exact W|]. rewrite register_created. cbn [note created].
      destruct W as (W1 & W2 & W3). split; [exact W1|]. split.
      * intros j u m [H|H]; [discriminate|]. now apply W2 in H.
      * intros m [H|H]; [|auto]. injection H as ->. left. cbn. auto.
    + destruct pf; exact W.
  - destruct nm as [|n|]; cbn [new_fp]; [|destruct (in_table s FP n); [exact W|]|exact W].
    + destruct (search_fresh_some s) as (k & -> & H). cbn [fst created].
      destruct W as (W1 & W2 & W3). split; [exact W1|]. split.
      * intros j u m [X|X]; [discriminate|]. now apply W2 in X.
      * intros m [X|X]; [|auto]. injection X as <-. right. eauto.
    + rewrite register_created. cbn [note created].
      destruct W as (W1 & W2 & W3). split; [exact W1|]. split.
      * intros j u m [H|H]; [discriminate|]. now apply W2 in H.
      * intros m [H|H]; [|auto]. injection H as ->. left. cbn. auto.
Qed.
Lemma run_created l : forall s ns, inv s -> created_ok ns (created s) -> string_prefixes l ->
  created_ok (explicit_names l ++ ns) (created (run s l)).
Proof.
  induction l as [|o l IH]; intros s ns I C P; cbn [run]; auto. inversion P as [|? ? P1 P2]; subst.
  pose proof (step_created s o ns I C ltac:(repeat constructor; auto)) as D.
  specialize (IH _ _ (step_inv s o I) D P2). eapply created_weaken; [exact IH|]. intros n H. rewrite !in_app_iff in *.
  destruct o as [[|m|] ? ? ?|[|m|] ?|? ?|?]; cbn in *; tauto.
Qed.
Lemma run_init_created l : string_prefixes l -> created_ok (explicit_names l) (created (run init l)).
Proof.
  intros P. eapply created_weaken; [apply (run_created l init [] init_inv); auto|].
  - split; [constructor|]. split; cbn; tauto.
  - intros n H. rewrite app_nil_r in H. exact H.
Qed.
Lemma gen_not_fresh p k j : gen p k <> fresh_name j.
Proof.
  intros H. apply (f_equal has_underscore) in H. unfold gen, fresh_name in H. rewrite !underscore_app in H. cbn in H.
  rewrite dec_no_underscore, orb_true_r in H. discriminate.
Qed.

Lemma step_string_names s o : inv s -> NoDup (flat_map string_name (created s)) ->
  NoDup (flat_map string_name (created (fst (step s o)))).
Proof.
  intros I C. destruct o as [nm pf v t|nm t|is keep|i]; cbn [step]; try exact C.
  - destruct v; [destruct nm, pf; exact C|]. destruct nm as [|n|].
    + destruct (gen_step s pf t I) as (k & H1 & H2 & ->). rewrite register_created. cbn [note created set_counter flat_map].
      destruct (match pf with Some p => p | None => PStr "V" end) as [q|j q] eqn:Q; cbn [string_name ptext app]; [|exact C].
      constructor; auto. intros X. apply in_flat_map in X. destruct X as ([[[p|]|] m] & X & Y); cbn in Y; try tauto.
      destruct Y as [->|[]]. destruct (I_gen s I (PStr p) _ X) as (j & E & Hj). cbn [ptext] in E. apply gen_inj in E. destruct E as [-> ->]. lia.
    + destruct pf; [exact C|]. cbn [new_var]. destruct (in_table s Core n); exact C.
    + destruct pf; exact C.
  - destruct nm as [|n|]; cbn [new_fp]; [|destruct (in_table s FP n); exact C|exact C].
    destruct (search_fresh s); exact C.
Qed.
Lemma run_string_names l : forall s, inv s -> NoDup (flat_map string_name (created s)) -> NoDup (flat_map string_name (created (run s l))).
Proof. induction l as [|o l IH]; intros s I C; cbn [run]; auto. apply IH; [now apply step_inv|now apply step_string_names]. Qed.

Lemma step_one_prefix p s o : inv s -> NoDup (generated_with p s) -> NoDup (generated_with p (fst (step s o))).
Proof.
  unfold generated_with. intros I C. destruct o as [nm pf v t|nm t|is keep|i]; cbn [step]; try exact C.
  - destruct v; [destruct nm, pf; exact C|]. destruct nm as [|n|].
    + destruct (gen_step s pf t I) as (k & H1 & H2 & ->). rewrite register_created. cbn [note created set_counter flat_map].
      destruct (prefix_eq_dec (match pf with Some p => p | None => PStr "V" end) p) as [Q|Q]; [|exact C].
      rewrite Q in *. constructor; auto. intros X. apply in_flat_map in X. destruct X as ([[q|] m] & X & Y); cbn in Y; try tauto.
      destruct (prefix_eq_dec q p) as [->|]; [|destruct Y]. destruct Y as [->|[]].
      destruct (I_gen s I p _ X) as (j & E & Hj). apply gen_inj in E. destruct E as [_ ->]. lia.
    + destruct pf; [exact C|]. cbn [new_var]. destruct (in_table s Core n); exact C.
    + destruct pf; exact C.
  - destruct nm as [|n|]; cbn [new_fp]; [|destruct (in_table s FP n); exact C|exact C].
    destruct (search_fresh s); exact C.
Qed.
Lemma run_one_prefix p l : forall s, inv s -> NoDup (generated_with p s) -> NoDup (generated_with p (run s l)).
Proof. induction l as [|o l IH]; intros s I C; cbn [run]; auto. apply IH; [now apply step_inv|now apply step_one_prefix]. Qed.

(** A variable just created is live. *)
Lemma register_ok s f n t i m : snd (register s f n t) = Created i m ->
  i = next s /\ m = n /\ variable (fst (register s f n t)) f (next s) n.
Proof.
  unfold register. cbn [fst snd]. set (clash := match find_sym (symtab s) n with Some u => negb (sort_eqb t u) | None => false end).
  destruct clash eqn:E; [discriminate|]. intros H. injection H as <- <-. split; auto. split; auto.
  eexists. split; [apply in_app_iff; right; left; reflexivity|]. cbn. auto.
Qed.

(** Every name in a table was created. *)
Definition named (s : state) : Prop := forall f n, find_tab (tab s) f n <> None -> In n (map snd (created s)).
Lemma register_named s f n t : named s -> In n (map snd (created s)) -> named (fst (register s f n t)).
Proof.
  intros H Hn g m Hm. cbn in *. destruct (fam_eqb g f && String.eqb m n) eqn:E; [|eauto].
  apply andb_true_iff in E. destruct E as [_ E]. apply String.eqb_eq in E. now subst.
Qed.
Lemma step_named s o : inv s -> named s -> named (fst (step s o)).
Proof.
  intros I N. destruct o as [nm pf v t|nm t|is keep|i]; cbn [step]; try exact N.
  - destruct v; [destruct nm, pf; exact N|]. destruct nm as [|n|].
    + destruct (gen_step s pf t I) as (k & H1 & H2 & ->). apply register_named; [|cbn; auto]. intros f n H. cbn. right. eapply N, H.
    + destruct pf; [exact N|]. cbn [new_var]. destruct (in_table s Core n); [exact N|]. apply register_named; [|cbn; auto].
      intros f m H. cbn. right. eapply N, H.
    + destruct pf; exact N.
  - destruct nm as [|n|]; cbn [new_fp]; [|destruct (in_table s FP n); [exact N|]|exact N].
    + destruct (search_fresh s); [|exact N]. intros f m H. cbn. right. eapply N, H.
    + apply register_named; [|cbn; auto]. intros f m H. cbn. right. eapply N, H.
Qed.
Lemma run_named h : named (run init h).
Proof.
  assert (G : forall l s, inv s -> named s -> named (run s l)).
  { induction l as [|o l IH]; intros s I N; cbn [run]; auto. apply IH; [now apply step_inv|now apply step_named]. }
  apply G; [apply init_inv|]. intros f n H. now destruct H.
Qed.
