(** Checkers for the predicates of ADTSpec.v and RebindSpec.v, used in the examples. *)
From Coq Require Import Lia Sorted Permutation.
From Verif Require Import PyBase BVModel ADTTy ADTModel ADTSpec ADTTyFacts ADTFacts RebindModel RebindSpec RebindFacts RebindBVFacts RebindTypeFacts.

Fixpoint nodupb (l : list string) : bool := match l with [] => true | x :: l => negb (existsb (String.eqb x) l) && nodupb l end.
Lemma nodupb_ok l : nodupb l = true -> NoDup l.
Proof.
  induction l as [|x l IH]; cbn [nodupb]; [constructor|]. rewrite andb_true_iff, negb_true_iff. intros [E N]. constructor; auto.
  intros I. assert (existsb (String.eqb x) l = true); [|congruence]. apply existsb_exists. exists x. split; auto. apply String.eqb_refl.
Qed.
Fixpoint incb {A} (R : A -> A -> bool) (l : list A) : bool :=
  match l with [] => true | x :: l => match l with y :: _ => R x y | _ => true end && incb R l end.
Lemma incb_ok {A} (R : A -> A -> bool) l : incb R l = true -> Sorted (fun a b => R a b = true) l.
Proof.
  induction l as [|x l IH]; cbn [incb]; [constructor|]. rewrite andb_true_iff. intros [E N]. constructor; auto. destruct l; constructor; auto.
Qed.
Lemma ltb_trans : Relations_1.Transitive (fun a b => String.ltb a b = true).
Proof.
  intros a b c. unfold String.ltb. revert b c. induction a as [|x a IH]; intros [|y b] [|z c]; cbn [String.compare]; auto; try discriminate.
  unfold Ascii.compare. destruct (N.compare_spec (N_of_ascii x) (N_of_ascii y)) as [E1|E1|E1]; try discriminate;
  destruct (N.compare_spec (N_of_ascii y) (N_of_ascii z)) as [E2|E2|E2]; try discriminate; intros X Y;
  destruct (N.compare_spec (N_of_ascii x) (N_of_ascii z)) as [E3|E3|E3]; auto; try lia. now apply (IH b c).
Qed.
Definition namesb (l : list string) : bool := nodupb l && incb String.ltb l && match l with [] => false | _ => true end.
Lemma namesb_ok l : namesb l = true -> NoDup l /\ l <> [] /\ StronglySorted (fun a b => String.ltb a b = true) l.
Proof.
  unfold namesb. rewrite !andb_true_iff. intros [[A B] C]. split; [now apply nodupb_ok|]. split; [now destruct l|].
  apply Sorted_StronglySorted; [apply ltb_trans|now apply incb_ok].
Qed.
Definition unnamedb (fs : list (string * ty)) : bool := forallb (fun f => String.eqb (fst f) EmptyString) fs.
Lemma unnamedb_ok fs : unnamedb fs = true -> Forall (fun f => fst f = EmptyString) fs.
Proof. unfold unnamedb. rewrite forallb_forall, Forall_forall. intros X f I. apply String.eqb_eq. auto. Qed.
Definition kind_okb (k : nkind) (fs : list (string * ty)) : bool :=
  match k with
  | KTuple => unnamedb fs
  | KAnon => nodupb (names fs)
  | KProd _ _ => nodupb (names fs) && match fs with [] => false | _ => true end
  | KSum => unnamedb fs && incb (fun a b => match lex (code a) (code b) with Lt => true | _ => false end) (types fs)
  | KTag _ _ => namesb (names fs)
  end.
Lemma kind_okb_ok k fs : kind_okb k fs = true -> kind_ok k fs.
Proof.
  destruct k; cbn [kind_okb kind_ok]; rewrite ?andb_true_iff.
  - apply unnamedb_ok.
  - apply nodupb_ok.
  - intros [A B]. split; [now apply nodupb_ok|now destruct fs].
  - intros [A B]. split; [now apply unnamedb_ok|]. apply incb_ok in B. revert B. generalize (types fs). induction l as [|x l IH]; intros S; constructor; inversion S; subst; auto.
    match goal with X : HdRel _ _ _ |- _ => inversion X; subst; constructor end. unfold before. destruct (lex (code x) (code b)); easy.
  - intros X. apply namesb_ok in X as (A & B & C). split; auto. split; auto. now destruct fs.
Qed.
Fixpoint twfb (t : ty) : bool :=
  match t with
  | TLeaf _ => true
  | TEnum _ ms => namesb (map fst ms)
  | TNode k _ fs => kind_okb k fs && forallb (fun f => twfb (snd f)) fs
  | TMod _ t => twfb t
  end.
Lemma twfb_ok t : twfb t = true -> twf t.
Proof.
  induction t as [l|n ms|k u fs IH|m t IH] using ty_ind'; cbn [twfb]; rewrite ?andb_true_iff; intros E.
  - constructor.
  - apply namesb_ok in E as (A & B & C). constructor; auto. now destruct ms.
  - destruct E as [K F]. constructor; [now apply kind_okb_ok|]. rewrite forallb_forall in F. rewrite Forall_forall in *. auto.
  - constructor; auto.
Qed.
Definition not_anon (k : nkind) : bool := match k with KAnon => false | _ => true end.
Lemma not_anon_ok k : not_anon k = true -> k <> KAnon. Proof. destruct k; easy. Qed.
Definition no_methods (k : nkind) : bool := match k with KProd _ x | KTag _ x => x =? 0 | _ => true end.
Lemma no_methods_ok k : no_methods k = true -> without_methods k = k.
Proof. destruct k; cbn; auto; intros E; apply Z.eqb_eq in E; now subst. Qed.
Fixpoint plainb (t : ty) : bool :=
  match t with
  | TNode k _ fs => not_anon k && forallb (fun f => plainb (snd f)) fs
  | _ => match node_of t with None => true | _ => false end
  end.
Lemma plainb_ok t : plainb t = true -> plain t.
Proof.
  induction t as [l|n ms|k u fs IH|m t IH] using ty_ind'; cbn [plainb]; rewrite ?andb_true_iff; intros E; try (now apply plain_atom).
  - destruct E as [K F]. apply plain_node; [now apply not_anon_ok|]. rewrite forallb_forall in F. rewrite Forall_forall in *. auto.
  - apply plain_atom. destruct (node_of (TMod m t)); easy.
Qed.
Fixpoint plain_modb (t : ty) : bool :=
  match t with
  | TNode k _ fs => not_anon k && forallb (fun f => plain_modb (snd f)) fs
  | TMod m t => negb (has_mod m t) && plain_modb t
  | _ => true
  end.
Lemma plain_modb_ok t : plain_modb t = true -> plain_mod t.
Proof.
  induction t as [l|n ms|k u fs IH|m t IH] using ty_ind'; cbn [plain_modb]; rewrite ?andb_true_iff; intros E; try constructor.
  - now apply not_anon_ok.
  - destruct E as [_ F]. rewrite forallb_forall in F. rewrite Forall_forall in *. auto.
  - destruct E as [E _]. intros C. apply has_mod_carries in C. rewrite C in E. discriminate.
  - apply IH, E.
Qed.
Fixpoint boundb (t : ty) : bool :=
  match t with
  | TNode k [] fs => not_anon k && no_methods k && forallb (fun f => boundb (snd f)) fs
  | TNode _ _ _ => false
  | TMod _ t => boundb t
  | _ => true
  end.
Lemma boundb_ok t : boundb t = true -> bound_only t.
Proof.
  induction t as [l|n ms|k u fs IH|m t IH] using ty_ind'; cbn [boundb]; intros E; try (constructor; auto; fail).
  destruct u; [|discriminate]. rewrite !andb_true_iff in E. destruct E as [[A B] F]. constructor; [now apply not_anon_ok|now apply no_methods_ok|].
  rewrite forallb_forall in F. rewrite Forall_forall in *. auto.
Qed.
Fixpoint overb (f : Z) (t : ty) : bool :=
  match t with
  | TLeaf (LVec g k _) => (f =? g) && match k with KBV => true | _ => false end
  | TLeaf (LBit g) => f =? g
  | TLeaf LObject | TLeaf (LOther _) | TEnum _ _ => true
  | TNode k _ fs => not_anon k && no_methods k && forallb (fun a => overb f (snd a)) fs
  | _ => false
  end.
Lemma overb_ok f t : overb f t = true -> over f t.
Proof.
  induction t as [l|n ms|k u fs IH|m t IH] using ty_ind'; cbn [overb]; intros E; try discriminate.
  - destruct l; try discriminate; try constructor.
    + apply andb_true_iff in E as [A B]. apply Z.eqb_eq in A as ->. destruct k; try discriminate. constructor.
    + apply Z.eqb_eq in E as ->. constructor.
  - constructor.
  - rewrite !andb_true_iff in E. destruct E as [[A B] F]. constructor; [now apply not_anon_ok|now apply no_methods_ok|].
    rewrite forallb_forall in F. rewrite Forall_forall in *. auto.
Qed.
(** All components. *)
Fixpoint components (t : ty) : list ty :=
  match t with
  | TNode _ _ fs => flat_map (fun f => snd f :: components (snd f)) fs
  | TMod _ t => components t
  | _ => []
  end.
Lemma components_ok P t : occurs P t -> exists s, In s (components t) /\ P s.
Proof.
  induction t as [l|n ms|k u fs IH|m t IH] using ty_ind'; intros O.
  - now apply occurs_atom in O.
  - now apply occurs_atom in O.
  - apply occurs_node in O as (a & I & [Y|Y]); cbn [components].
    + exists (snd a). split; auto. apply in_flat_map. exists a. split; auto. now left.
    + rewrite Forall_forall in IH. destruct (IH a I Y) as (s & J & Z). exists s. split; auto. apply in_flat_map. exists a. split; auto. now right.
  - apply IH. inversion O; subst; [eapply occ_here|eapply occ_deep]; eauto.
Qed.
Lemma not_occurs H A st t : forallb (fun s => negb (hit H A st s)) (components t) = true -> ~ occurs (matches H A st) t.
Proof.
  intros F O. apply components_ok in O as (s & I & M). rewrite forallb_forall in F. specialize (F s I). rewrite negb_true_iff in F.
  assert (X : hitg H A A st s = None) by (unfold hitg; now rewrite F). now apply hitg_None in X.
Qed.
Lemma not_matches H A st t : hit H A st t = false -> ~ matches H A st t.
Proof. intros F. apply (hitg_None H A A st t). unfold hitg. now rewrite F. Qed.
