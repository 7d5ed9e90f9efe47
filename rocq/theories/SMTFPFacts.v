(** The function symbols of the symbolic floating-point classes along every history. *)
From Coq Require Import Lia.
From Verif Require Import PyBase BVModel FPModel SMTFPModel SMTFPSpec.
From Verif Require NameModel NameFacts.
Open Scope string_scope.
Open Scope Z_scope.

(** ** Strings *)
Lemma app_nil_s s : (s ++ "" = s)%string.
Proof. induction s as [|a s IH]; cbn; congruence. Qed.
Lemma app_assoc_s a b c : ((a ++ b) ++ c = a ++ (b ++ c))%string.
Proof. induction a as [|x a IH]; cbn; congruence. Qed.
Lemma app_inv_s a b c : (a ++ b = a ++ c -> b = c)%string.
Proof. induction a as [|x a IH]; cbn; auto. intros H. injection H as H. auto. Qed.

(** Splitting at the last dot. *)
Fixpoint split_dot (s : string) : option (string * string) :=
  match s with
  | EmptyString => None
  | String a s =>
      match split_dot s with
      | Some (u, v) => Some (String a u, v)
      | None => if is_dot a then Some ("", s) else None
      end
  end.
Lemma split_no_dot s : no_dot s = true -> split_dot s = None.
Proof.
  induction s as [|a s IH]; cbn; auto. intros H. apply andb_true_iff in H as [H1 H2]. rewrite IH by exact H2.
  destruct (is_dot a); [discriminate|reflexivity].
Qed.
Lemma split_uf c m : no_dot m = true -> split_dot (uf_name c m) = Some (c, m).
Proof.
  intros H. unfold uf_name. induction c as [|a c IH]; cbn.
  - now rewrite (split_no_dot m H).
  - cbn in IH. now rewrite IH.
Qed.
Lemma uf_name_inj c c' m m' : no_dot m = true -> no_dot m' = true -> uf_name c m = uf_name c' m' -> c = c' /\ m = m'.
Proof. intros H H' E. pose proof (split_uf c m H) as A. rewrite E, (split_uf c' m' H') in A. injection A; auto. Qed.

Definition ubv_method (n : Z) : string := "to_ubv[" ++ NameModel.dec (Z.to_nat n) ++ "]".
Fixpoint digits_only (s : string) : bool :=
  match s with
  | EmptyString => true
  | String a s => existsb (Ascii.eqb a) ["0"; "1"; "2"; "3"; "4"; "5"; "6"; "7"; "8"; "9"]%char && digits_only s
  end.
Lemma digits_uint u : digits_only (DecimalString.NilEmpty.string_of_uint u) = true.
Proof. induction u; cbn; auto. Qed.
Lemma dec_digits n : digits_only (NameModel.dec n) = true.
Proof.
  unfold NameModel.dec, DecimalString.NilZero.string_of_uint. destruct (Nat.to_uint n) eqn:E; try reflexivity; apply digits_uint.
Qed.
Lemma digits_no_dot s t : digits_only s = true -> no_dot (s ++ t) = no_dot t.
Proof.
  induction s as [|a s IH]; cbn [digits_only no_dot append]; auto. intros H. apply andb_true_iff in H as [H1 H2]. rewrite IH by exact H2.
  apply existsb_exists in H1 as (d & I & E). apply Ascii.eqb_eq in E. subst a. cbn [In] in I.
  repeat destruct I as [<-|I]; try reflexivity. contradiction.
Qed.
Lemma ubv_no_dot n : no_dot (ubv_method n) = true.
Proof. unfold ubv_method. cbn [append no_dot is_dot Ascii.eqb Bool.eqb negb andb]. now rewrite digits_no_dot by apply dec_digits. Qed.

(** Cutting at a character the left parts do not contain. *)
Fixpoint lacks (a : ascii) (s : string) : bool :=
  match s with EmptyString => true | String b s => negb (Ascii.eqb b a) && lacks a s end.
Lemma cut_inj a s s' t t' : lacks a s = true -> lacks a s' = true ->
  (s ++ String a t = s' ++ String a t')%string -> s = s' /\ t = t'.
Proof.
  revert s'. induction s as [|b s IH]; intros [|b' s']; cbn; intros H H' E.
  - injection E; auto.
  - injection E as -> E. apply andb_true_iff in H' as [H' _]. rewrite Ascii.eqb_refl in H'. discriminate.
  - injection E as -> E. apply andb_true_iff in H as [H _]. rewrite Ascii.eqb_refl in H. discriminate.
  - injection E as -> E. apply andb_true_iff in H as [_ H], H' as [_ H']. destruct (IH s' H H' E) as [-> ->]. auto.
Qed.
Lemma digits_lack a s : digits_only s = true ->
  existsb (Ascii.eqb a) ["0"; "1"; "2"; "3"; "4"; "5"; "6"; "7"; "8"; "9"]%char = false -> lacks a s = true.
Proof.
  intros H N. induction s as [|b s IH]; cbn [digits_only lacks] in *; auto. apply andb_true_iff in H as [H1 H2]. rewrite IH by exact H2.
  destruct (Ascii.eqb_spec b a) as [->|]; [congruence|reflexivity].
Qed.
Lemma ubv_method_inj n m : 0 <= n -> 0 <= m -> ubv_method n = ubv_method m -> n = m.
Proof.
  intros Hn Hm E. unfold ubv_method in E. cbn [append] in E. injection E as E.
  apply cut_inj in E as [E _]; try (apply digits_lack; [apply dec_digits|reflexivity]).
  apply NameFacts.dec_inj in E. lia.
Qed.

(** ** Symbols *)
Lemma fsort_eqb_iff a b : fsort_eqb a b = true <-> a = b.
Proof. destruct a, b; cbn; try (split; congruence). rewrite Z.eqb_eq. split; congruence. Qed.
Lemma fsorts_eqb_iff a b : fsorts_eqb a b = true <-> a = b.
Proof.
  revert b. induction a as [|x a IH]; intros [|y b]; cbn; try (split; congruence).
  rewrite andb_true_iff, fsort_eqb_iff, IH. split; [intros [-> ->]; reflexivity|intros E; injection E; auto].
Qed.
Lemma fty_eqb_iff a b : fty_eqb a b = true <-> a = b.
Proof.
  destruct a, b. unfold fty_eqb. cbn [fst snd]. rewrite andb_true_iff, fsorts_eqb_iff, fsort_eqb_iff.
  split; [intros [-> ->]; reflexivity|intros E; injection E; auto].
Qed.

Definition keeps (l l' : list fsym) : Prop := forall n t, find_symbol l n = Some t -> find_symbol l' n = Some t.
Lemma keeps_refl l : keeps l l.
Proof. intros n t H; exact H. Qed.
Lemma keeps_trans a b c : keeps a b -> keeps b c -> keeps a c.
Proof. intros H H' n t E. auto. Qed.
Lemma Symbol_spec l n t l' r : Symbol l n t = (l', r) ->
  keeps l l' /\
  (forall m u, find_symbol l' m = Some u -> find_symbol l m = Some u \/ (m = n /\ u = t)) /\
  ((r = Ok (n, t) /\ find_symbol l' n = Some t) \/ (r = Raise ETypeError /\ exists u, find_symbol l n = Some u /\ u <> t)).
Proof.
  unfold Symbol. destruct (find_symbol l n) as [u|] eqn:F; intros E; injection E as <- <-.
  - split; [apply keeps_refl|]. split; [auto|]. destruct (fty_eqb t u) eqn:T.
    + apply fty_eqb_iff in T. subst u. auto.
    + right. split; [reflexivity|]. exists u. split; [reflexivity|]. intros ->. assert (X : fty_eqb t t = true) by now apply fty_eqb_iff. congruence.
  - split; [|split].
    + intros m u H. cbn. destruct (String.eqb_spec n m); [congruence|exact H].
    + intros m u. cbn. destruct (String.eqb_spec n m) as [->|]; [intros X; injection X as <-; auto|auto].
    + left. split; [reflexivity|]. cbn. now rewrite String.eqb_refl.
Qed.

Definition table (name : string) (size : Z) (l : list (string * list (option fsort))) : list (string * fsym) :=
  map (fun p => (fst p, (uf_name name (fst p), sig_type size (snd p)))) l.
Lemma make_ufs_spec name size l : forall syms syms' r, make_ufs syms name size l = (syms', r) ->
  keeps syms syms' /\
  (forall n u, find_symbol syms' n = Some u -> find_symbol syms n = Some u \/
     exists m sg, In (m, sg) l /\ n = uf_name name m /\ u = sig_type size sg) /\
  forall ufs, r = Ok ufs -> ufs = table name size l /\
    forall m sg, In (m, sg) l -> find_symbol syms' (uf_name name m) = Some (sig_type size sg).
Proof.
  induction l as [|[m sg] l IH]; intros syms syms' r; cbn [make_ufs].
  - intros E. injection E as <- <-. split; [apply keeps_refl|]. split; [auto|]. intros ufs H. injection H as <-. split; [reflexivity|intros ? ? []].
  - destruct (Symbol syms (uf_name name m) (sig_type size sg)) as [s1 r1] eqn:S1.
    destruct (Symbol_spec _ _ _ _ _ S1) as (K1 & B1 & C1). destruct r1 as [f|e].
    + destruct (make_ufs s1 name size l) as [s2 r2] eqn:S2. destruct (IH _ _ _ S2) as (K2 & B2 & C2). intros E. injection E as <- <-.
      split; [eapply keeps_trans; eauto|]. split.
      * intros n u H. destruct (B2 n u H) as [H'|(m' & sg' & I & -> & ->)].
        -- destruct (B1 n u H') as [H''|[-> ->]]; [auto|]. right. exists m, sg. cbn. auto.
        -- right. exists m', sg'. cbn. auto.
      * intros ufs H. destruct r2 as [u2|]; [|discriminate]. cbn in H. injection H as <-.
        destruct (C2 u2 eq_refl) as [-> C3]. destruct C1 as [[C1 C1']|[C1 _]]; [|discriminate]. injection C1 as ->.
        split; [reflexivity|]. intros m' sg' [I|I]; [injection I as <- <-; apply K2; exact C1'|now apply C3].
    + intros E. injection E as <- <-. split; [exact K1|]. split; [|discriminate].
      intros n u H. destruct (B1 n u H) as [H'|[-> ->]]; [auto|]. right. exists m, sg. cbn. auto.
Qed.

(** The methods in _SIGS have distinct names without dots, none of them a to_ubv[n]. *)
Lemma sigs_no_dot m sg : In (m, sg) sigs -> no_dot m = true.
Proof. intros H. unfold sigs in H. cbn [In] in H. repeat destruct H as [H|H]; try (injection H as <- <-; reflexivity). contradiction. Qed.
Lemma sigs_not_ubv m sg n : In (m, sg) sigs -> m <> ubv_method n.
Proof.
  intros H. unfold sigs in H. cbn [In] in H. unfold ubv_method. cbn [append].
  repeat destruct H as [H|H]; try (injection H as <- <-; discriminate). contradiction.
Qed.
Lemma sigs_fun m sg sg' : In (m, sg) sigs -> In (m, sg') sigs -> sg = sg'.
Proof.
  intros H H'. unfold sigs in H. cbn [In] in H. repeat destruct H as [H|H]; try contradiction; injection H as <- <-;
    unfold sigs in H'; cbn [In] in H'; repeat destruct H' as [H'|H']; try contradiction; try discriminate H'; injection H' as <-; reflexivity.
Qed.
Lemma table_find name size m sg : In (m, sg) sigs ->
  assoc_str (table name size sigs) m = Some (uf_name name m, sig_type size sg).
Proof.
  intros H. unfold sigs in H. cbn [In] in H. repeat destruct H as [H|H]; try contradiction; injection H as <- <-; reflexivity.
Qed.

(** ** The invariant; vars are the names of the variables made so far *)
Record inv (vars : list string) (st : fstate) : Prop := {
  i_ufs : forall c, In c (fs_cls st) -> assoc_nat (fs_ufs st) (fc_id c) = Some (table (fc_name c) (fc_size c) sigs);
  i_sym : forall c m sg, In c (fs_cls st) -> In (m, sg) sigs ->
    find_symbol (fs_syms st) (uf_name (fc_name c) m) = Some (sig_type (fc_size c) sg);
  i_ubv : forall c i n f, In c (fs_cls st) -> In (i, n, f) (fs_ubv st) -> i = fc_id c ->
    f = (uf_name (fc_name c) (ubv_method n), ([FBV (fc_size c)], FBV n));
  i_pos : forall i n f, In (i, n, f) (fs_ubv st) -> (i < fs_next st)%nat;
  i_uniq : forall c d, In c (fs_cls st) -> In d (fs_cls st) -> fc_id c = fc_id d -> c = d;
  i_next : forall c, In c (fs_cls st) -> (fc_id c < fs_next st)%nat;
  i_nextu : forall i u, In (i, u) (fs_ufs st) -> (i < fs_next st)%nat;
  i_old : forall name n t, find_symbol (fs_syms st) (uf_name name (ubv_method n)) = Some t -> 0 <= n ->
    ~ In (uf_name name (ubv_method n)) vars ->
    exists sz, t = ([FBV sz], FBV n) /\ find_symbol (fs_syms st) (uf_name name "fp_abs") = Some ([FBV sz], FBV sz) }.

Definition op_vars (o : fop) : list string := match o with OpVar n _ => [n] | _ => [] end.

Lemma assoc_nat_in {A} (l : list (nat * A)) i a : assoc_nat l i = Some a -> In (i, a) l.
Proof.
  induction l as [|[j b] l IH]; cbn; [discriminate|]. destruct (Nat.eqb_spec j i) as [->|]; [intros H; injection H as <-; auto|auto].
Qed.
Lemma assoc_nat_filter {A} (l : list (nat * A)) i j : i <> j ->
  assoc_nat (filter (fun p => negb (Nat.eqb (fst p) j)) l) i = assoc_nat l i.
Proof.
  intros N. induction l as [|[k a] l IH]; cbn; auto. destruct (Nat.eqb_spec k j) as [->|]; cbn.
  - destruct (Nat.eqb_spec j i); [congruence|exact IH].
  - now rewrite IH.
Qed.
Lemma assoc_size_in l i n f : assoc_size l i n = Some f -> In (i, n, f) l.
Proof.
  induction l as [|[[j m] g] l IH]; cbn; [discriminate|]. destruct (Nat.eqb_spec j i) as [->|]; cbn; [|auto].
  destruct (Z.eqb_spec m n) as [->|]; [intros H; injection H as <-; auto|auto].
Qed.
Lemma find_cls_in l i c : find_cls l i = Some c -> In c l /\ fc_id c = i.
Proof.
  induction l as [|d l IH]; cbn; [discriminate|]. destruct (Nat.eqb_spec (fc_id d) i) as [E|]; [intros H; injection H as <-; auto|].
  intros H. destruct (IH H). auto.
Qed.

Lemma abs_sig : In ("fp_abs", [None; None]) sigs.
Proof. left. reflexivity. Qed.

Lemma inv_class simp vars st name info bases : inv vars st -> inv vars (fstep simp st (OpClass name info bases)).
Proof.
  intros I. cbn [fstep]. unfold new_class.
  set (bs := flat_map _ bases). destruct (new_binding info _) as [[f|]|e]; try exact I.
  destruct (make_ufs (fs_syms st) name (f_size f) sigs) as [syms r] eqn:M. destruct (make_ufs_spec _ _ _ _ _ _ M) as (K & B & C).
  assert (OLD : forall nm n t, find_symbol syms (uf_name nm (ubv_method n)) = Some t -> 0 <= n ->
    ~ In (uf_name nm (ubv_method n)) vars ->
    exists sz, t = ([FBV sz], FBV n) /\ find_symbol syms (uf_name nm "fp_abs") = Some ([FBV sz], FBV sz)).
  { intros nm n t H Hn HV. destruct (B _ _ H) as [H'|(m & sg & IN & E & _)].
    - destruct (i_old _ _ I nm n t H' Hn HV) as (sz & E & F). exists sz. auto.
    - apply uf_name_inj in E as [_ E]; [|apply ubv_no_dot|eapply sigs_no_dot; eauto]. symmetry in E. now apply (sigs_not_ubv m sg n) in E. }
  destruct r as [ufs|e]; cbn [fst].
  - destruct (C ufs eq_refl) as [-> CS]. split; cbn [fs_cls fs_ufs fs_syms fs_ubv fs_next].
    + intros c [<-|H]; cbn [assoc_nat fc_id].
      * now rewrite Nat.eqb_refl.
      * pose proof (i_next _ _ I c H). destruct (Nat.eqb_spec (fs_next st) (fc_id c)); [lia|]. now apply (i_ufs _ _ I).
    + intros c m sg [<-|H] HS; [now apply CS|]. apply K. now apply (i_sym _ _ I).
    + intros c i n g [<-|H] IN E; [cbn [fc_id] in E; subst i; apply (i_pos _ _ I) in IN; lia|]. now apply (i_ubv _ _ I c i).
    + intros i n g IN. apply (i_pos _ _ I) in IN. lia.
    + intros c d [<-|H] [<-|H'] E; cbn [fc_id] in E; auto.
      * apply (i_next _ _ I) in H'. lia.
      * apply (i_next _ _ I) in H. lia.
      * now apply (i_uniq _ _ I).
    + intros c [<-|H]; cbn [fc_id]; [lia|]. apply (i_next _ _ I) in H. lia.
    + intros i u [H|H]; [injection H; lia|]. apply (i_nextu _ _ I) in H. lia.
    + exact OLD.
  - split; cbn [fs_cls fs_ufs fs_syms fs_ubv fs_next]; try apply I; [|exact OLD]. intros c m sg H HS. apply K. now apply (i_sym _ _ I).
Qed.

Lemma inv_step simp vars st o : inv vars st -> inv (op_vars o ++ vars) (fstep simp st o).
Proof.
  intros I. destruct o as [name info bases|i|name s|i t size].
  - now apply inv_class.
  - cbn [op_vars app fstep]. split; cbn [fs_cls fs_ufs fs_syms fs_ubv fs_next].
    + intros c H. apply filter_In in H as [H1 H2]. rewrite assoc_nat_filter; [now apply (i_ufs _ _ I)|].
      destruct (Nat.eqb_spec (fc_id c) i); [discriminate|auto].
    + intros c m sg H. apply filter_In in H as [H1 H2]. now apply (i_sym _ _ I).
    + intros c j n f H H' E. apply filter_In in H as [H1 H2], H' as [H3 _]. now apply (i_ubv _ _ I c j).
    + intros j n f H. apply filter_In in H as [H _]. eapply (i_pos _ _ I); eauto.
    + intros c d H H'. apply filter_In in H as [H _], H' as [H' _]. now apply (i_uniq _ _ I).
    + intros c H. apply filter_In in H as [H _]. now apply (i_next _ _ I).
    + intros j u H. apply filter_In in H as [H _]. eapply (i_nextu _ _ I); eauto.
    + apply I.
  - cbn [op_vars app fstep]. destruct (Symbol (fs_syms st) name ([], s)) as [syms r] eqn:S1. destruct (Symbol_spec _ _ _ _ _ S1) as (K & B & _).
    cbn [fst]. split; cbn [fs_cls fs_ufs fs_syms fs_ubv fs_next]; try apply I.
    + intros c m sg H HS. apply K. now apply (i_sym _ _ I).
    + intros nm n t H Hn HV. destruct (B _ _ H) as [H'|[E _]].
      * destruct (i_old _ _ I nm n t H' Hn) as (sz & E & F); [intros X; apply HV; now right|]. exists sz. auto.
      * exfalso. apply HV. left. now symmetry.
  - cbn [op_vars app fstep]. destruct (find_cls (fs_cls st) i) as [c|] eqn:FC; [|exact I]. apply find_cls_in in FC as [HC <-].
    unfold to_ubv. cbn [sf_cls sf_term]. destruct (Z.ltb_spec size 1) as [LS|LS]; [exact I|]. destruct (assoc_size (fs_ubv st) (fc_id c) size); [exact I|].
    change (fc_name c ++ "." ++ "to_ubv[" ++ NameModel.dec (Z.to_nat size) ++ "]") with (uf_name (fc_name c) (ubv_method size)).
    destruct (Symbol (fs_syms st) _ _) as [syms r] eqn:S1. destruct (Symbol_spec _ _ _ _ _ S1) as (K & B & C).
    assert (OLD : forall nm n u, find_symbol syms (uf_name nm (ubv_method n)) = Some u -> 0 <= n ->
      ~ In (uf_name nm (ubv_method n)) vars -> exists sz, u = ([FBV sz], FBV n) /\ find_symbol syms (uf_name nm "fp_abs") = Some ([FBV sz], FBV sz)).
    { intros nm n u H Hn HV. destruct (B _ _ H) as [H'|[E ->]].
      - destruct (i_old _ _ I nm n u H' Hn HV) as (sz & E & F). exists sz. auto.
      - apply uf_name_inj in E as [-> E]; try apply ubv_no_dot.
        apply ubv_method_inj in E; [|lia|lia]. subst n. exists (fc_size c). split; [reflexivity|].
        apply K. exact (i_sym _ _ I c "fp_abs" _ HC abs_sig). }
    destruct r as [g|e]; cbn [fst]; split; cbn [fs_cls fs_ufs fs_syms fs_ubv fs_next]; try apply I; try exact OLD.
    + intros d m sg H HS. apply K. now apply (i_sym _ _ I).
    + intros d j n h Hd [E|IN] EJ; [|now apply (i_ubv _ _ I d j)]. injection E as <- <- <-.
      destruct C as [[C _]|[C _]]; [|discriminate]. injection C as ->. now rewrite (i_uniq _ _ I c d HC Hd EJ).
    + intros j n h [E|IN]; [injection E as <- <- <-; now apply (i_next _ _ I)|now apply (i_pos _ _ I) in IN].
    + intros d m sg H HS. apply K. now apply (i_sym _ _ I).
Qed.

Lemma inv_init : inv [] fs_init.
Proof. split; cbn; try contradiction; try discriminate. Qed.
Lemma inv_run simp l : inv (rev (flat_map op_vars l)) (frun simp l).
Proof.
  unfold frun. induction l as [|o l IH] using rev_ind; [exact inv_init|].
  rewrite fold_left_app, flat_map_app. cbn [fold_left flat_map]. rewrite app_nil_r, rev_app_distr.
  replace (rev (op_vars o)) with (op_vars o) by (destruct o; reflexivity). now apply inv_step.
Qed.
Lemma run_vars l n : In n (rev (flat_map op_vars l)) <-> exists s, In (OpVar n s) l.
Proof.
  rewrite <- in_rev, in_flat_map. split.
  - intros (o & H & I). destruct o; cbn in I; try contradiction. destruct I as [->|[]]. eauto.
  - intros [s H]. exists (OpVar n s). split; [exact H|]. now left.
Qed.

(** ** Calls *)
Lemma sort_app (f : fsym) args : sort_of (TApp f args) = if sorts_match (fst (snd f)) (map sort_of args) then Some (snd (snd f)) else None.
Proof. reflexivity. Qed.
Lemma match_repeat s ts k : length ts = k -> Forall (fun t => sort_of t = Some s) ts -> sorts_match (repeat s k) (map sort_of ts) = true.
Proof.
  intros <-. induction 1 as [|t ts H _ IH]; cbn; auto. rewrite H, IH, andb_true_r. now apply fsort_eqb_iff.
Qed.
Lemma fcall_ok (f : fsym) s ts k : fst (snd f) = repeat s k -> length ts = k -> Forall (fun t => sort_of t = Some s) ts ->
  fcall f ts = Ok (TApp f ts) /\ sort_of (TApp f ts) = Some (snd (snd f)).
Proof.
  intros F L H. unfold fcall. pose proof (match_repeat s ts k L H) as M. rewrite <- F in M. rewrite sort_app. rewrite M, L, F, repeat_length, Nat.eqb_refl. cbn [negb]. auto.
Qed.
Lemma fcall_inv (f : fsym) ts t : fcall f ts = Ok t -> t = TApp f ts.
Proof. unfold fcall. destruct (negb _); [discriminate|]. destruct (sort_of _); [|discriminate]. intros H. now injection H. Qed.
Lemma arg_terms c args : Forall (fun a => exists y, a = FAFp y /\ of_class c y) args ->
  exists ts, mapM arg_value args = Ok ts /\ length ts = length args /\ Forall (fun t => sort_of t = Some (FBV (fc_size c))) ts.
Proof.
  induction 1 as [|a args (y & -> & _ & S) _ IH]; cbn; [exists []; auto|]. destruct IH as (ts & -> & L & F).
  exists (sf_term y :: ts). cbn. split; [reflexivity|]. split; [now rewrite L|]. now constructor.
Qed.
Lemma find_uf_spec vars st c m sg : inv vars st -> In c (fs_cls st) -> In (m, sg) sigs ->
  find_uf st c m = Ok (uf_name (fc_name c) m, sig_type (fc_size c) sg).
Proof. intros I H HS. unfold find_uf. rewrite (i_ufs _ _ I c H), (table_find _ _ m sg HS). reflexivity. Qed.

(** What a successful method call returns. *)
Lemma call_inv simp vars st c m x args r : faithful_simp simp -> inv vars st -> In c (fs_cls st) -> sf_cls x = c ->
  call_method simp st m x args = Ok r ->
  exists k bit ts, assoc_str methods m = Some (k, bit) /\ mapM arg_value args = Ok ts /\
    forall J, eval J (res_term r) =
      norm (if bit then FBool else FBV (fc_size c)) (ifn J (uf_name (fc_name c) m) (map (eval J) (sf_term x :: ts))).
Proof.
  intros FS I HC X H. unfold call_method in H. destruct (assoc_str methods m) as [[k bit]|] eqn:A; [|discriminate].
  destruct (negb (Nat.eqb (length args) k)); [discriminate|]. destruct (mapM arg_value args) as [ts|] eqn:M; [|discriminate]. cbn [bind] in H.
  exists k, bit, ts. split; [reflexivity|]. split; [reflexivity|]. rewrite X in H.
  assert (SG : exists sg, In (m, sg) sigs).
  { unfold methods in A. unfold sigs. clear - A. cbn [assoc_str] in A.
    repeat match type of A with (if String.eqb ?a m then _ else _) = _ => destruct (String.eqb_spec a m) as [<-|] end;
      try discriminate A; clear A; (eexists; cbn [In]; repeat (first [left; reflexivity|right])). }
  destruct SG as [sg HS]. intros J. unfold bit_method, fp_method in H. rewrite (find_uf_spec _ _ c m sg I HC HS) in H. cbn [bind] in H.
  destruct bit.
  - destruct (fcall _ _) as [t|] eqn:FC; [|discriminate]. apply fcall_inv in FC. cbn [bind] in H. unfold smt_bit in H.
    destruct (sort_of t) as [[|n]|] eqn:S; try discriminate. cbn [rmap] in H. injection H as <-. cbn [res_term].
    rewrite (proj2 (FS t _ S) J). subst t. cbn [eval fst snd]. rewrite sort_app in S. destruct (sorts_match _ _); [|discriminate].
    assert (S' : snd (sig_type (fc_size c) sg) = FBool) by (cbn [snd] in S; congruence). rewrite S'. reflexivity.
  - destruct (fcall _ _) as [t|] eqn:FC; [|discriminate]. apply fcall_inv in FC. cbn [bind] in H. unfold sfp_init in H.
    destruct (sort_of t) as [[|n]|] eqn:S; try discriminate. destruct (Z.eqb_spec n (fc_size c)) as [->|]; [|discriminate].
    cbn [rmap] in H. injection H as <-. cbn [res_term sf_term]. subst t. cbn [eval fst snd]. rewrite sort_app in S.
    destruct (sorts_match _ _); [|discriminate]. assert (S' : snd (sig_type (fc_size c) sg) = FBV (fc_size c)) by (cbn [snd] in S; congruence). rewrite S'. reflexivity.
Qed.
