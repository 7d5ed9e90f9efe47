(** Facts about readings of a heap of ADT instances. *)
From Coq Require Import Lia.
From Verif Require Import PyBase BVModel ADTTy ADTTyFacts ADTModel ADTSpec ADTFacts AliasModel AliasSpec.

(** ** Operations on related components *)
Section Rel.
Context {X Y : Type} (H : Z -> Z -> bool) (tx : X -> ty) (tY : Y -> ty) (R : X -> Y -> Prop) (RT : forall a b, R a b -> tx a = tY b).
Definition srel (s : shape X) (s' : shape Y) : Prop :=
  match s, s' with
  | STup b xs, STup b' ys => b = b' /\ Forall2 R xs ys
  | SSum x, SSum y => R x y
  | STag k x, STag k' y => k = k' /\ R x y
  | _, _ => False
  end.
Definition rrel {A B} (P : A -> B -> Prop) (r : res A) (r' : res B) : Prop :=
  match r, r' with Ok a, Ok b => P a b | Raise e, Raise e' => e = e' | _, _ => False end.
Definition krel (p : string * X) (q : string * Y) : Prop := fst p = fst q /\ R (snd p) (snd q).

Lemma forallb_rel xs ys : Forall2 R xs ys -> forall ts,
  forallb (fun p => isinstance H tx (fst p) (snd p)) (combine xs ts) = forallb (fun p => isinstance H tY (fst p) (snd p)) (combine ys ts).
Proof.
  induction 1 as [|x y xs ys E F IH]; intros [|t ts]; cbn [combine forallb]; auto. unfold isinstance at 1 3. cbn [fst snd].
  rewrite (RT _ _ E), IH. reflexivity.
Qed.
Lemma tuple_init_rel fs xs ys : Forall2 R xs ys -> rrel srel (tuple_init H tx fs xs) (tuple_init H tY fs ys).
Proof.
  intros F. unfold tuple_init. rewrite (Forall2_length _ _ _ F). destruct (negb _); [reflexivity|]. rewrite (forallb_rel _ _ F).
  destruct (forallb _ _); cbn [rrel srel]; auto.
Qed.
Lemma assoc_rel n kw kw' : Forall2 krel kw kw' -> match assoc n kw, assoc n kw' with Some a, Some b => R a b | None, None => True | _, _ => False end.
Proof.
  induction 1 as [|[m a] [m' b] kw kw' [E1 E2] F IH]; cbn [assoc]; auto. cbn [fst snd] in *. subst m'. destruct (String.eqb n m); auto.
Qed.
Lemma bind_args_rel ns pos pos' kw kw' : Forall2 R pos pos' -> Forall2 krel kw kw' -> rrel (Forall2 R) (bind_args ns pos kw) (bind_args ns pos' kw').
Proof.
  intros F G. unfold bind_args. rewrite (Forall2_length _ _ _ F). destruct (Nat.ltb _ _); [reflexivity|].
  assert (E : forall l, forallb (fun p : string * X => existsb (String.eqb (fst p)) l) kw = forallb (fun p : string * Y => existsb (String.eqb (fst p)) l) kw').
  { intros l. clear F. induction G as [|p q kw kw' [E1 E2] G IH]; cbn [forallb]; auto. rewrite E1, IH. reflexivity. }
  rewrite E. destruct (negb _); [reflexivity|].
  assert (M : forall l, rrel (Forall2 R) (mapM (fun n => match assoc n kw with Some x => Ok x | None => Raise ETypeError end) l)
                                         (mapM (fun n => match assoc n kw' with Some x => Ok x | None => Raise ETypeError end) l)).
  { induction l as [|n l IH]; cbn [mapM]; [constructor|]. pose proof (assoc_rel n kw kw' G) as A.
    destruct (assoc n kw), (assoc n kw'); try contradiction; cbn [bind]; [|reflexivity].
    destruct (mapM _ l), (mapM _ l); cbn [rrel bind] in IH |- *; try contradiction; auto. }
  specialize (M (skipn (length pos') ns)). destruct (mapM _ _), (mapM _ _); cbn [rrel bind] in M |- *; try contradiction; auto.
  now apply Forall2_app.
Qed.
Lemma tag_set_rel fs n x y : R x y -> rrel srel (tag_set H tx fs n x) (tag_set H tY fs n y).
Proof.
  intros E. unfold tag_set, isinstance. rewrite (RT _ _ E). destruct (index_of n (names fs)), (assoc n fs); try reflexivity. destruct (sub _ _ _); cbn [rrel srel]; auto.
Qed.
Lemma call_rel t pos pos' kw kw' : Forall2 R pos pos' -> Forall2 krel kw kw' -> rrel srel (call H tx t pos kw) (call H tY t pos' kw').
Proof.
  intros F G. unfold call. destruct (node_of t) as [[[| |n x| |n x] fs]|]; [| | | | |reflexivity].
  - inversion G; subst; [now apply tuple_init_rel|reflexivity].
  - pose proof (bind_args_rel (names fs) _ _ _ _ F G) as B. destruct (bind_args _ _ _), (bind_args _ _ _); cbn [rrel bind] in B |- *; try contradiction; auto. now apply tuple_init_rel.
  - pose proof (bind_args_rel (names fs) _ _ _ _ F G) as B. destruct (bind_args _ _ _), (bind_args _ _ _); cbn [rrel bind] in B |- *; try contradiction; auto. now apply tuple_init_rel.
  - unfold sum_init.
    assert (A : match (match pos, kw with [x], [] => Some x | [], [(n, x)] => if String.eqb n "value" then Some x else None | _, _ => None end),
                      (match pos', kw' with [x], [] => Some x | [], [(n, x)] => if String.eqb n "value" then Some x else None | _, _ => None end) with
                | Some a, Some b => R a b | None, None => True | _, _ => False end).
    { destruct F as [|p p' pos pos' F0 F]; [|destruct F]; destruct G as [|[m a] [m' b] kw kw' [E1 E2] G]; auto.
      cbn [fst snd] in *. subst m'. destruct G; auto. destruct (String.eqb m "value"); auto. }
    destruct (match pos with [] => _ | _ => _ end), (match pos' with [] => _ | _ => _ end); try contradiction; [|reflexivity].
    rewrite (RT _ _ A). destruct (existsb _ _); cbn [rrel srel]; auto.
  - unfold tag_init. destruct F; [|reflexivity]. destruct G as [|[m a] [m' b] kw kw' [E1 E2] G]; [reflexivity|]. cbn [fst snd] in *. subst m'.
    destruct G; [|reflexivity]. destruct (assoc m fs); [|reflexivity]. now apply tag_set_rel.
Qed.
Lemma update_rel xs ys n x y : Forall2 R xs ys -> R x y -> Forall2 R (update n x xs) (update n y ys).
Proof. intros F E. revert n. induction F as [|a b xs ys E0 F IH]; intros [|n]; cbn [update]; constructor; auto. Qed.
Lemma tuple_setitem_rel fs xs ys i x y : Forall2 R xs ys -> R x y -> rrel srel (tuple_setitem H tx fs xs i x) (tuple_setitem H tY fs ys i y).
Proof.
  intros F E. unfold tuple_setitem. destruct (py_index (length fs) i); cbn [bind]; [|reflexivity]. unfold isinstance. rewrite (RT _ _ E), (Forall2_length _ _ _ F).
  destruct (sub _ _ _); [|reflexivity]. destruct (py_index _ i); cbn [bind rrel srel]; auto using update_rel.
Qed.
Lemma setitem_rel t s s' k x y : srel s s' -> R x y -> rrel srel (setitem H tx t s k x) (setitem H tY t s' k y).
Proof.
  intros S E. unfold setitem. destruct (node_of t) as [[kd fs]|]; [|reflexivity].
  destruct s as [b xs|a|j a], s' as [b' ys|a'|j' a']; cbn [srel] in S; try contradiction.
  - destruct S as [_ F]. destruct kd; try reflexivity.
    1,2: destruct k; try reflexivity; now apply tuple_setitem_rel.
    destruct k; try reflexivity; [now apply tuple_setitem_rel|]. match goal with |- context [assoc ?a fs] => now destruct (assoc a fs) end.
  - destruct kd; try reflexivity. destruct k; try reflexivity. destruct (existsb _ _); [|reflexivity]. unfold isinstance. rewrite (RT _ _ E). destruct (sub _ _ _); cbn [rrel srel]; auto.
  - destruct kd; reflexivity.
Qed.
Lemma setattr_rel t s s' n x y : srel s s' -> R x y -> rrel srel (setattr H tx t s n x) (setattr H tY t s' n y).
Proof.
  intros S E. unfold setattr. destruct (node_of t) as [[kd fs]|]; [|reflexivity].
  destruct s as [b xs|a|j a], s' as [b' ys|a'|j' a']; cbn [srel] in S; try contradiction.
  - destruct S as [_ F]. destruct kd; try reflexivity.
    all: destruct (index_of n (names fs)), (assoc n fs); try reflexivity; unfold isinstance; rewrite (RT _ _ E); destruct (sub _ _ _); try reflexivity; now apply tuple_setitem_rel.
  - destruct kd; reflexivity.
  - destruct kd; try reflexivity. now apply tag_set_rel.
Qed.
End Rel.

(** ** Readings *)
Section ReadsInd.
  Variables (h : heap) (P : nat -> val -> Prop).
  Hypothesis PA : forall r t z, nth_error h r = Some (OAtom t z) -> P r (VAtom t z).
  Hypothesis PT : forall r t b xs vs, nth_error h r = Some (ONode t (STup b xs)) -> Forall2 (reads h) xs vs -> Forall2 P xs vs -> P r (VTup t b vs).
  Hypothesis PS : forall r t x v, nth_error h r = Some (ONode t (SSum x)) -> reads h x v -> P x v -> P r (VSum t v).
  Hypothesis PG : forall r t k x v, nth_error h r = Some (ONode t (STag k x)) -> reads h x v -> P x v -> P r (VTag t k v).
  Fixpoint reads_ind' r v (p : reads h r v) {struct p} : P r v :=
    match p with
    | reads_atom _ r t z e => PA r t z e
    | reads_tup _ r t b xs vs e f =>
        PT r t b xs vs e f
          ((fix go xs vs (f : Forall2 (reads h) xs vs) : Forall2 P xs vs :=
              match f with
              | Forall2_nil _ => Forall2_nil _
              | Forall2_cons x v a f => Forall2_cons x v (reads_ind' x v a) (go _ _ f)
              end) xs vs f)
    | reads_sum _ r t x v e q => PS r t x v e q (reads_ind' x v q)
    | reads_tag _ r t k x v e q => PG r t k x v e q (reads_ind' x v q)
    end.
End ReadsInd.
Section ReadsWithInd.
  Variables (h : heap) (r0 : nat) (v0 : val) (P : nat -> val -> Prop).
  Hypothesis PH : P r0 v0.
  Hypothesis PA : forall r t z, r <> r0 -> nth_error h r = Some (OAtom t z) -> P r (VAtom t z).
  Hypothesis PT : forall r t b xs vs, r <> r0 -> nth_error h r = Some (ONode t (STup b xs)) -> Forall2 (reads_with h r0 v0) xs vs -> Forall2 P xs vs -> P r (VTup t b vs).
  Hypothesis PS : forall r t x v, r <> r0 -> nth_error h r = Some (ONode t (SSum x)) -> reads_with h r0 v0 x v -> P x v -> P r (VSum t v).
  Hypothesis PG : forall r t k x v, r <> r0 -> nth_error h r = Some (ONode t (STag k x)) -> reads_with h r0 v0 x v -> P x v -> P r (VTag t k v).
  Fixpoint reads_with_ind' r v (p : reads_with h r0 v0 r v) {struct p} : P r v :=
    match p with
    | rw_here _ _ _ => PH
    | rw_atom _ _ _ r t z n e => PA r t z n e
    | rw_tup _ _ _ r t b xs vs n e f =>
        PT r t b xs vs n e f
          ((fix go xs vs (f : Forall2 (reads_with h r0 v0) xs vs) : Forall2 P xs vs :=
              match f with
              | Forall2_nil _ => Forall2_nil _
              | Forall2_cons x v a f => Forall2_cons x v (reads_with_ind' x v a) (go _ _ f)
              end) xs vs f)
    | rw_sum _ _ _ r t x v n e q => PS r t x v n e q (reads_with_ind' x v q)
    | rw_tag _ _ _ r t k x v n e q => PG r t k x v n e q (reads_with_ind' x v q)
    end.
End ReadsWithInd.

Lemma Forall2_det {A B} (R : A -> B -> Prop) l m m' : Forall2 (fun a b => forall b', R a b' -> b' = b) l m -> Forall2 R l m' -> m' = m.
Proof. intros F. revert m'. induction F as [|a b l m E F IH]; intros m' G; inversion G; subst; auto. f_equal; auto. Qed.
Lemma reads_det h r v : reads h r v -> forall w, reads h r w -> w = v.
Proof.
  intros Q. induction Q as [r t z E|r t b xs vs E F IH|r t x v E Q IH|r t k x v E Q IH] using reads_ind'; intros w W; inversion W; subst; try congruence.
  - rewrite E in H. injection H as <- <- <-. f_equal. eapply Forall2_det; eauto.
  - rewrite E in H. injection H as <- <-. f_equal. auto.
  - rewrite E in H. injection H as <- <- <-. f_equal. auto.
Qed.
Lemma reads_live h r v : reads h r v -> (r < length h)%nat.
Proof. intros Q. apply nth_error_Some. inversion Q; congruence. Qed.
Lemma reads_type h r v : reads h r v -> rtype h r = vtype v.
Proof. intros Q. unfold rtype. inversion Q as [? ? ? E|? ? ? ? ? E|? ? ? ? E|? ? ? ? ? E]; subst; rewrite E; reflexivity. Qed.
(** Readings depend on the objects of [h] only. *)
Lemma reads_mono h h' : (forall r o, nth_error h r = Some o -> nth_error h' r = Some o) -> forall r v, reads h r v -> reads h' r v.
Proof.
  intros M r v Q. induction Q as [r t z E|r t b xs vs E F IH|r t x v E Q IH|r t k x v E Q IH] using reads_ind'.
  - apply reads_atom. auto.
  - eapply reads_tup; eauto.
  - eapply reads_sum; eauto.
  - eapply reads_tag; eauto.
Qed.
Lemma app_keeps {A} (h l : list A) r o : nth_error h r = Some o -> nth_error (h ++ l) r = Some o.
Proof. intros E. rewrite nth_error_app1; auto. apply nth_error_Some. congruence. Qed.

Lemma refs_shape t s : refs (ONode t s) = shape_refs s.
Proof. now destruct s. Qed.

(** ** Heights: the nesting of fields in a type *)
Fixpoint height (t : ty) : nat :=
  match t with
  | TLeaf _ | TEnum _ _ => 0
  | TNode _ _ fs => S (fold_right Nat.max 0%nat (map (fun f => height (snd f)) fs))
  | TMod _ t => height t
  end.
Definition tops (l : list ty) : nat := fold_right Nat.max 0%nat (map height l).
Lemma tops_le l n : (tops l <= n)%nat <-> forall t, In t l -> (height t <= n)%nat.
Proof.
  unfold tops. induction l as [|a l IH]; cbn [map fold_right]; split; intros A.
  - intros t [].
  - lia.
  - intros t [<-|Ht]; [lia|]. apply IH; auto. lia.
  - assert (height a <= n)%nat by (apply A; now left). assert (fold_right Nat.max 0 (map height l) <= n)%nat by (apply IH; intros; apply A; now right). lia.
Qed.
Lemma tops_ext l m : (forall t, In t l <-> In t m) -> tops l = tops m.
Proof.
  intros E. apply Nat.le_antisymm; apply tops_le; intros t Ht.
  - destruct (tops_le m (tops m)) as [A _]. apply A; [lia|]. now apply E.
  - destruct (tops_le l (tops l)) as [A _]. apply A; [lia|]. now apply E.
Qed.
Lemma height_node k u fs : height (TNode k u fs) = S (tops (types fs)).
Proof. cbn [height]. unfold tops, types. now rewrite map_map. Qed.
Lemma node_of_height t k fs : node_of t = Some (k, fs) -> height t = S (tops (types fs)).
Proof. induction t as [l|n ms|k0 u fs0 _|m t IH] using ty_ind'; cbn [node_of]; try discriminate; [|exact IH]. intros E. injection E as -> ->. apply height_node. Qed.
Lemma field_height t k fs f : node_of t = Some (k, fs) -> In f fs -> (height (snd f) < height t)%nat.
Proof.
  intros E Hf. rewrite (node_of_height _ _ _ E). destruct (tops_le (types fs) (tops (types fs))) as [A _].
  assert (height (snd f) <= tops (types fs))%nat; [|lia]. apply A; [lia|]. now apply in_map.
Qed.
Lemma node_grounded t k fs : node_of t = Some (k, fs) -> grounded t = true -> forall f, In f fs -> grounded (snd f) = true.
Proof.
  induction t as [l|n ms|k0 u fs0 _|m t IH] using ty_ind'; cbn [node_of grounded]; try discriminate; [|exact IH].
  intros E G f Hf. injection E as -> ->. rewrite forallb_forall in G. auto.
Qed.
Lemma types_unnamed l : types (unnamed l) = l.
Proof. unfold types, unnamed. rewrite map_map. cbn. apply map_id. Qed.
Lemma sub_height H c : forall s, grounded s = true -> sub H c s = true -> height c = height s.
Proof.
  induction c as [l|n ms|k u fs _|m c IH] using ty_ind'; intros s G S; cbn [sub] in S; rewrite !orb_true_iff in S.
  - destruct S as [[S|S]|S]; [apply ty_eqb_eq in S; now subst|destruct s as [[]| | |]; discriminate|]. destruct s; try discriminate. reflexivity.
  - destruct S as [[S|S]|S]; [apply ty_eqb_eq in S; now subst|destruct s as [[]| | |]; discriminate|]. discriminate.
  - destruct S as [[S|S]|S]; [apply ty_eqb_eq in S; now subst|destruct s as [[]| | |]; discriminate|].
    destruct s as [| |k' u' fs'|]; try discriminate. cbn [node_sub] in S. rewrite !height_node.
    destruct k, k'; try discriminate; try (apply andb_true_iff in S as [_ S]); apply ty_eqb_eq in S; injection S; intros; subst; rewrite ?types_unnamed; auto.
    f_equal. apply tops_ext. intros t. symmetry. apply type_set_In.
  - destruct S as [[S|S]|[S|S]]; [apply ty_eqb_eq in S; now subst|destruct s as [[]| | |]; discriminate|apply (IH s); assumption|].
    destruct s as [| | |m' s]; try discriminate. apply andb_true_iff in S as [_ S]. apply (IH s); assumption.
Qed.

(** ** The invariant: components have a smaller height *)
Record ainv (h : heap) : Prop := {
  a_ground : forall r o, nth_error h r = Some o -> grounded (otype o) = true;
  a_parts : forall r o x, nth_error h r = Some o -> In x (refs o) -> (x < length h)%nat /\ (height (rtype h x) < height (otype o))%nat
}.
Lemma rtype_app h l x : (x < length h)%nat -> rtype (h ++ l) x = rtype h x.
Proof. intros L. unfold rtype. now rewrite nth_error_app1. Qed.
Lemma ainv_app h o : ainv h -> grounded (otype o) = true ->
  (forall x, In x (refs o) -> (x < length h)%nat /\ (height (rtype h x) < height (otype o))%nat) -> ainv (h ++ [o]).
Proof.
  intros [G P] Go Po. assert (C : forall r q, nth_error (h ++ [o]) r = Some q -> nth_error h r = Some q \/ q = o).
  { intros r q E. destruct (Nat.lt_ge_cases r (length h)) as [L|L]; [rewrite nth_error_app1 in E by exact L; auto|].
    rewrite nth_error_app2 in E by exact L. destruct (r - length h)%nat as [|[|]]; cbn in E; try discriminate. injection E as <-. auto. }
  split.
  - intros r q E. destruct (C r q E) as [E'| ->]; eauto.
  - intros r q x E Hx. rewrite app_length. assert (Q : (x < length h)%nat /\ (height (rtype h x) < height (otype q))%nat) by (destruct (C r q E) as [E'| ->]; eauto).
    destruct Q as [Q1 Q2]. rewrite rtype_app by exact Q1. lia.
Qed.
Lemma rtype_update h r o o' : nth_error h r = Some o -> otype o' = otype o -> forall x, rtype (update r o' h) x = rtype h x.
Proof.
  intros E T x. unfold rtype. rewrite update_nth. destruct (Nat.eqb_spec r x) as [<-|N]; [|reflexivity]. now rewrite E.
Qed.
Lemma ainv_update h r o o' : ainv h -> nth_error h r = Some o -> otype o' = otype o ->
  (forall x, In x (refs o') -> (x < length h)%nat /\ (height (rtype h x) < height (otype o))%nat) -> ainv (update r o' h).
Proof.
  intros [G P] E T Po. split.
  - intros q p Ep. rewrite update_nth in Ep. destruct (Nat.eqb_spec r q) as [<-|N]; [|eauto]. rewrite E in Ep. injection Ep as <-. rewrite T. eauto.
  - intros q p x Ep Hx. rewrite update_length, (rtype_update h r o o' E T). rewrite update_nth in Ep.
    destruct (Nat.eqb_spec r q) as [<-|N]; [|eauto]. rewrite E in Ep. injection Ep as <-. rewrite T. auto.
Qed.
Lemma ainv_leaves h l : ainv h -> (forall o, In o l -> grounded (otype o) = true /\ refs o = []) -> ainv (h ++ l).
Proof.
  revert h. induction l as [|o l IH]; intros h I A; [now rewrite app_nil_r|]. change (o :: l) with ([o] ++ l). rewrite app_assoc. apply IH.
  - destruct (A o (or_introl eq_refl)) as [A1 A2]. apply ainv_app; auto. rewrite A2. intros x [].
  - intros q Hq. apply A. now right.
Qed.
Lemma Forall2_In_r {A B} (R : A -> B -> Prop) l m b : Forall2 R l m -> In b m -> exists a, In a l /\ R a b.
Proof.
  induction 1 as [|a b' l m E F IH]; intros Hb; [destruct Hb|]. destruct Hb as [<-|Hb]; [exists a; split; auto; now left|].
  destruct (IH Hb) as (a' & Ha & E'). exists a'. split; auto. now right.
Qed.
(** A component that passed a field's class check is lower than the instance. *)
Lemma field_lower H t k fs u c : node_of t = Some (k, fs) -> grounded t = true -> In u (types fs) -> sub H c u = true -> (height c < height t)%nat.
Proof.
  intros En G Hu S. apply in_map_iff in Hu as (f & <- & Hf). rewrite (sub_height H _ (snd f)) by eauto using node_grounded. eapply field_height; eauto.
Qed.
Lemma gfits_parts H h t s : gfits H (rtype h) t s -> grounded t = true -> forall x, In x (shape_refs s) -> (height (rtype h x) < height t)%nat.
Proof.
  intros F G x Hx.
  destruct F as [kd fs b xs En Hk F|fs f r En Hin Hs|m y fs i f r En Hi Hs]; cbn [shape_refs] in Hx.
  - destruct (Forall2_In_r _ _ _ _ F Hx) as (f & Hf & S). eapply (field_lower H t kd fs (snd f)); eauto. now apply in_map.
  - destruct Hx as [<-|[]]. eapply (field_lower H t KSum fs (snd f)); eauto. now apply in_map.
  - destruct Hx as [<-|[]]. eapply (field_lower H t _ fs (snd f)); eauto. apply in_map. eapply nth_error_In; eauto.
Qed.
Lemma tuple_setitem_lower {X} H (typ : X -> ty) t k fs xs i x s : node_of t = Some (k, fs) -> grounded t = true -> tuple_setitem H typ fs xs i x = Ok s -> (height (typ x) < height t)%nat.
Proof.
  intros En G. unfold tuple_setitem. destruct (py_index (length fs) i) as [p|] eqn:Ep; cbn [bind]; [|discriminate].
  destruct (isinstance _ _ _ _) eqn:S; [|discriminate]. intros _. apply py_index_ok in Ep. eapply field_lower; eauto. apply nth_In. now rewrite types_length.
Qed.
Lemma assoc_types n fs (u : ty) : assoc n fs = Some u -> In u (types fs).
Proof. induction fs as [|[m v] fs IH]; cbn [assoc]; [discriminate|]. destruct (String.eqb n m); intros E; [injection E as ->; now left|right; auto]. Qed.
Lemma tag_set_lower {X} H (typ : X -> ty) t k fs n x s : node_of t = Some (k, fs) -> grounded t = true -> tag_set H typ fs n x = Ok s -> (height (typ x) < height t)%nat.
Proof.
  intros En G. unfold tag_set. destruct (index_of _ _); [|discriminate]. destruct (assoc n fs) eqn:Ea; [|discriminate].
  destruct (isinstance _ _ _ _) eqn:S; [|discriminate]. intros _. eapply field_lower; eauto using assoc_types.
Qed.
Lemma setitem_lower {X} H (typ : X -> ty) t s k x s' : grounded t = true -> setitem H typ t s k x = Ok s' -> (height (typ x) < height t)%nat.
Proof.
  intros G. unfold setitem. destruct (node_of t) as [[kd fs]|] eqn:En; [|discriminate]. destruct kd, s; try discriminate.
  1-3: destruct k; try discriminate; try (eapply tuple_setitem_lower; eauto; fail). { destruct (assoc _ fs); discriminate. }
  destruct k; try discriminate. destruct (existsb _ _) eqn:Eb; [|discriminate]. destruct (isinstance _ _ _ _) eqn:S; [|discriminate]. intros _.
  apply existsb_ty in Eb. eapply field_lower; eauto.
Qed.
Lemma setattr_lower {X} H (typ : X -> ty) t s n x s' : grounded t = true -> setattr H typ t s n x = Ok s' -> (height (typ x) < height t)%nat.
Proof.
  intros G. unfold setattr. destruct (node_of t) as [[kd fs]|] eqn:En; [|discriminate]. destruct kd, s; try discriminate.
  1,2: destruct (index_of _ _); [|discriminate]; destruct (assoc n fs); [|discriminate]; destruct (isinstance _ _ _ _); [|discriminate]; eapply tuple_setitem_lower; eauto.
  eapply tag_set_lower; eauto.
Qed.
Lemma height_pos t k fs : node_of t = Some (k, fs) -> (0 < height t)%nat.
Proof. intros E. rewrite (node_of_height _ _ _ E). lia. Qed.

(** ** Every call keeps the invariant *)
Definition lower (h : heap) (t : ty) (x : nat) : Prop := (x < length h)%nat /\ (height (rtype h x) < height t)%nat.
Lemma live_lt h r : live h r = true <-> (r < length h)%nat.
Proof. unfold live. apply Nat.ltb_lt. Qed.
Lemma a_lower h r t s x : ainv h -> nth_error h r = Some (ONode t s) -> In x (shape_refs s) -> lower h t x.
Proof. intros I E Hx. apply (a_parts h I r (ONode t s) x E). now rewrite refs_shape. Qed.
Lemma lower_app h l t x : lower h t x -> lower (h ++ l) t x.
Proof. intros [L D]. split; [rewrite app_length; lia|now rewrite rtype_app]. Qed.
Lemma iter_obj_grow h v h2 l t : ainv h -> (height (rtype h v) < height t)%nat -> iter_obj h v = Ok (h2, l) ->
  ainv h2 /\ (exists bits, h2 = h ++ bits) /\ Forall (lower h2 t) l.
Proof.
  intros I D. unfold iter_obj. destruct (nth_error h v) as [[u z|u [b xs|x|k x]]|] eqn:E; try discriminate.
  - destruct (vec_leaf u) as [[f n]|]; [|discriminate]. intros Q. injection Q as <- <-.
    set (bits := map _ (zrange n)). split; [|split; [eauto|]].
    + apply ainv_leaves; auto. intros o Ho. apply in_map_iff in Ho as (i & <- & _). auto.
    + apply Forall_forall. intros x Hx. apply in_seq in Hx. split; [rewrite app_length; lia|]. unfold rtype at 1.
      rewrite nth_error_app2 by lia. destruct (nth_error bits (x - length h)) as [o|] eqn:Eo.
      * apply nth_error_In, in_map_iff in Eo as (i & <- & _). cbn. lia.
      * cbn. lia.
  - intros Q. injection Q as <- <-. split; auto. split; [exists []; now rewrite app_nil_r|]. apply Forall_forall. intros x Hx.
    destruct (a_lower h v u (STup b xs) x I E Hx) as [L D']. split; auto. unfold rtype in D at 1. rewrite E in D. cbn [otype] in D. lia.
Qed.
Lemma firstn_In {A} n (l : list A) x : In x (firstn n l) -> In x l.
Proof. intros Hx. rewrite <- (firstn_skipn n l). apply in_or_app. now left. Qed.
Lemma skipn_In {A} n (l : list A) x : In x (skipn n l) -> In x l.
Proof. intros Hx. rewrite <- (firstn_skipn n l). apply in_or_app. now right. Qed.
Lemma set_slice_grow H h r t s a b v h2 s2 : ainv h -> nth_error h r = Some (ONode t s) -> set_slice H h t s a b v = Ok (h2, s2) ->
  ainv h2 /\ (exists bits, h2 = h ++ bits) /\ Forall (lower h2 t) (shape_refs s2).
Proof.
  intros I E. unfold set_slice. destruct (node_of t) as [[k fs]|] eqn:En; [|discriminate]. destruct s as [b0 xs| |]; try discriminate.
  destruct (existsb _ _) eqn:Eb; [|discriminate]. destruct (iter_obj h v) as [[h3 l]|] eqn:Ei; cbn [bind fst snd]; [|discriminate].
  intros Q. injection Q as -> <-. cbn [shape_refs]. apply existsb_exists in Eb as (u & Hu & S). apply firstn_In, skipn_In in Hu.
  pose proof (a_ground h I r _ E) as G. cbn [otype] in G.
  destruct (iter_obj_grow h v h2 l t I (field_lower H t k fs u _ En G Hu S) Ei) as (I2 & [bits ->] & F). split; auto. split; [eauto|].
  apply Forall_app. split; [|apply Forall_app; split; auto]; apply Forall_forall; intros x Hx; apply lower_app; eapply a_lower; eauto; cbn [shape_refs];
    eauto using firstn_In, skipn_In.
Qed.
Lemma lower_update h r t s s' : ainv h -> nth_error h r = Some (ONode t s) -> Forall (lower h t) (shape_refs s') -> ainv (update r (ONode t s') h).
Proof.
  intros I E F. apply (ainv_update h r (ONode t s) (ONode t s') I E eq_refl). rewrite refs_shape. intros x Hx. apply Forall_forall with (x := x) in F; auto.
Qed.
Lemma step_inv H h o : plain_call (ANode o) -> ainv h -> ainv (fst (step H h o)).
Proof.
  intros P I. destruct o as [t z|t pos kw|pos|r k v|r a b v|r n v]; cbn [plain_call step] in *.
  - destruct (node_of t); auto. apply ainv_app; auto. intros x [].
  - destruct (forallb (live h) _) eqn:L; auto. destruct (call _ _ _ _ _) as [s|] eqn:Ec; auto. apply ainv_app; auto. rewrite refs_shape. intros x Hx. split.
    + apply live_lt. eapply live_In; eauto. eapply call_refs; eauto.
    + eapply gfits_parts; eauto. eapply call_fits; eauto.
  - destruct (forallb (live h) _) eqn:L; auto. set (t := TNode _ _ _). destruct (call _ _ _ _ _) as [s|] eqn:Ec; auto.
    assert (G : grounded t = true).
    { unfold t. cbn [grounded]. apply forallb_forall. intros f Hf. unfold unnamed in Hf. rewrite map_map in Hf. apply in_map_iff in Hf as (x & <- & Hx). cbn [snd].
      pose proof (live_In _ _ L x Hx) as Lx. apply live_lt, nth_error_Some in Lx. unfold rtype. destruct (nth_error h x) eqn:Ex; [|congruence]. eapply a_ground; eauto. }
    apply ainv_app; auto. rewrite refs_shape. intros x Hx. split.
    + apply live_lt. eapply live_In; eauto. apply (call_refs _ _ _ _ _ _ Ec) in Hx. rewrite app_nil_r in Hx. exact Hx.
    + eapply gfits_parts; eauto. eapply call_fits; eauto.
  - destruct (live h v) eqn:L; auto. destruct (nth_error h r) as [[|t s]|] eqn:E; auto. destruct (setitem _ _ _ _ _ _) as [s'|] eqn:Es; auto. cbn [fst].
    eapply lower_update; eauto. apply Forall_forall. intros x Hx. destruct (setitem_refs _ _ _ _ _ _ _ Es x Hx) as [->|Hx']; [|eapply a_lower; eauto].
    split; [now apply live_lt|]. eapply setitem_lower; eauto. exact (a_ground h I r _ E).
  - destruct (live h v) eqn:L; auto. destruct (nth_error h r) as [[|t s]|] eqn:E; auto. destruct (set_slice _ _ _ _ _ _ _) as [[h2 s2]|] eqn:Es; auto. cbn [fst].
    destruct (set_slice_grow _ _ _ _ _ _ _ _ _ _ I E Es) as (I2 & [bits ->] & F). eapply lower_update; eauto using app_keeps.
  - destruct (live h v) eqn:L; auto. destruct (nth_error h r) as [[|t s]|] eqn:E; auto. destruct (setattr _ _ _ _ _ _) as [s'|] eqn:Es; auto. cbn [fst].
    eapply lower_update; eauto. apply Forall_forall. intros x Hx. destruct (setattr_refs _ _ _ _ _ _ _ Es x Hx) as [->|Hx']; [|eapply a_lower; eauto].
    split; [now apply live_lt|]. eapply setattr_lower; eauto. exact (a_ground h I r _ E).
Qed.

(** ** Reading a heap with the invariant *)
Lemma Forall2_total {A B} (R : A -> B -> Prop) l : (forall a, In a l -> exists b, R a b) -> exists m, Forall2 R l m.
Proof.
  induction l as [|a l IH]; intros T; [exists []; constructor|]. destruct (T a (or_introl eq_refl)) as [b E]. destruct IH as [m F]. { intros x Hx. apply T. now right. }
  exists (b :: m). now constructor.
Qed.
Lemma reads_total h : ainv h -> forall r, (r < length h)%nat -> exists v, reads h r v.
Proof.
  intros I r. remember (S (height (rtype h r))) as n eqn:En. assert (D : (height (rtype h r) < n)%nat) by lia. clear En. revert r D.
  induction n as [|n IH]; intros r D L; [lia|]. apply nth_error_Some in L. destruct (nth_error h r) as [o|] eqn:E; [|congruence].
  assert (Q : forall x, In x (refs o) -> exists v, reads h x v).
  { intros x Hx. destruct (a_parts h I r o x E Hx) as [Lx Dx]. apply IH; auto. unfold rtype in D at 1. rewrite E in D. lia. }
  destruct o as [t z|t [b xs|x|k x]]; cbn [refs] in Q.
  - exists (VAtom t z). apply reads_atom; assumption.
  - destruct (Forall2_total _ _ Q) as [vs F]. eexists. eapply reads_tup; eauto.
  - destruct (Q x (or_introl eq_refl)) as [v R]. eexists. eapply reads_sum; eauto.
  - destruct (Q x (or_introl eq_refl)) as [v R]. eexists. eapply reads_tag; eauto.
Qed.
Lemma reach_height h a b : ainv h -> reach h a b -> (height (rtype h b) <= height (rtype h a))%nat.
Proof.
  intros I Q. induction Q as [a|a o x b E Hx Q IH]; [lia|]. destruct (a_parts h I a o x E Hx) as [_ D]. unfold rtype at 2. rewrite E. lia.
Qed.
Lemma reach_strict h r o x : ainv h -> nth_error h r = Some o -> In x (refs o) -> ~ reach h x r.
Proof.
  intros I E Hx Q. destruct (a_parts h I r o x E Hx) as [_ D]. apply reach_height in Q; auto. unfold rtype in Q at 1. rewrite E in Q. lia.
Qed.

(** ** One object changed *)
Lemma Forall2_In_impl {A B} (R S : A -> B -> Prop) l m : Forall2 R l m -> (forall a b, In a l -> R a b -> S a b) -> Forall2 S l m.
Proof. induction 1 as [|a b l m E F IH]; intros Q; constructor; [apply Q; auto; now left|]. apply IH. intros x y Hx. apply Q. now right. Qed.
Lemma reads_changed h h' r0 v0 : ainv h -> reads h' r0 v0 -> (forall r, (r < length h)%nat -> r <> r0 -> nth_error h' r = nth_error h r) ->
  forall r u, (r < length h)%nat -> reads h' r u <-> reads_with h r0 v0 r u.
Proof.
  intros I Q0 K r u L. split.
  - intros Q. revert L. induction Q as [r t z E|r t b xs vs E F IH|r t x v E Q IH|r t k x v E Q IH] using reads_ind'; intros L.
    all: destruct (Nat.eq_dec r r0) as [->|N].
    + assert (W : reads h' r0 (VAtom t z)) by now apply reads_atom. rewrite (reads_det _ _ _ Q0 _ W). constructor.
    + apply rw_atom; auto. rewrite <- K; auto.
    + assert (W : reads h' r0 (VTup t b vs)) by now apply reads_tup with (xs := xs). rewrite (reads_det _ _ _ Q0 _ W). constructor.
    + rewrite K in E by auto. eapply rw_tup; eauto. eapply Forall2_In_impl; [exact IH|]. intros a w Ha W. apply W. apply (a_parts h I r _ a E Ha).
    + assert (W : reads h' r0 (VSum t v)) by now apply reads_sum with (x := x). rewrite (reads_det _ _ _ Q0 _ W). constructor.
    + rewrite K in E by auto. eapply rw_sum; eauto. apply IH. apply (a_parts h I r _ x E). now left.
    + assert (W : reads h' r0 (VTag t k v)) by now apply reads_tag with (x := x). rewrite (reads_det _ _ _ Q0 _ W). constructor.
    + rewrite K in E by auto. eapply rw_tag; eauto. apply IH. apply (a_parts h I r _ x E). now left.
  - intros Q. clear L. assert (K' : forall r o, nth_error h r = Some o -> r <> r0 -> nth_error h' r = Some o).
    { intros q o E N. rewrite K; auto. apply nth_error_Some. congruence. }
    induction Q as [|r t z N E|r t b xs vs N E F IH|r t x v N E Q IH|r t k x v N E Q IH] using reads_with_ind'; auto.
    + apply reads_atom; auto.
    + eapply reads_tup; eauto.
    + eapply reads_sum; eauto.
    + eapply reads_tag; eauto.
Qed.
Lemma reads_frame h r0 v0 r u : ~ reach h r r0 -> reads_with h r0 v0 r u <-> reads h r u.
Proof.
  intros N. split; intros Q; revert N.
  - induction Q as [|r t z N E|r t b xs vs N E F IH|r t x v N E Q IH|r t k x v N E Q IH] using reads_with_ind'; intros NR.
    + destruct NR. constructor.
    + now apply reads_atom.
    + eapply reads_tup; eauto. eapply Forall2_In_impl; [exact IH|]. intros a w Ha W. apply W. intros W'. apply NR. eapply reach_step; eauto.
    + eapply reads_sum; eauto. apply IH. intros W'. apply NR. eapply reach_step; eauto. now left.
    + eapply reads_tag; eauto. apply IH. intros W'. apply NR. eapply reach_step; eauto. now left.
  - induction Q as [r t z E|r t b xs vs E F IH|r t x v E Q IH|r t k x v E Q IH] using reads_ind'; intros NR.
    all: assert (N : r <> r0) by (intros ->; apply NR; constructor).
    + now apply rw_atom.
    + eapply rw_tup; eauto. eapply Forall2_In_impl; [exact IH|]. intros a w Ha W. apply W. intros W'. apply NR. eapply reach_step; eauto.
    + eapply rw_sum; eauto. apply IH. intros W'. apply NR. eapply reach_step; eauto. now left.
    + eapply rw_tag; eauto. apply IH. intros W'. apply NR. eapply reach_step; eauto. now left.
Qed.
(** Readings in a grown heap. *)
Lemma reads_app h l r u : reads h r u -> reads (h ++ l) r u.
Proof. apply reads_mono. intros q o. apply app_keeps. Qed.
Lemma reads_grown h l r u : ainv h -> (r < length h)%nat -> reads (h ++ l) r u <-> reads h r u.
Proof.
  intros I L. split; intros Q; [|now apply reads_app].
  destruct (reads_total h I r L) as [w W]. now rewrite (reads_det _ _ _ (reads_app h l r w W) _ Q).
Qed.
Lemma reach_grown h l a b : ainv h -> (a < length h)%nat -> reach (h ++ l) a b <-> reach h a b.
Proof.
  intros I L. split; intros Q; revert L.
  - induction Q as [a|a o x b E Hx Q IH]; intros L; [constructor|]. rewrite nth_error_app1 in E by exact L. eapply reach_step; eauto. apply IH. apply (a_parts h I a o x E Hx).
  - induction Q as [a|a o x b E Hx Q IH]; intros L; [constructor|]. eapply reach_step; [apply app_keeps, E|exact Hx|]. apply IH. apply (a_parts h I a o x E Hx).
Qed.

Lemma reach_live h a b : ainv h -> (a < length h)%nat -> reach h a b -> (b < length h)%nat.
Proof. intros I L Q. revert L. induction Q as [a|a o x b E Hx Q IH]; intros L; auto. apply IH. apply (a_parts h I a o x E Hx). Qed.

(** ** Deep copies *)
Definition copy_ok (h0 h : heap) (a b : nat) : Prop :=
  (a < length h0)%nat /\ (length h0 <= b < length h)%nat /\ rtype h b = rtype h a /\ forall v, reads h a v -> reads h b v.
Record dinv (h0 h : heap) (m : memo) : Prop := {
  d_ext : exists l, h = h0 ++ l;
  d_inv : ainv h;
  d_memo : forall a b, In (a, b) m -> copy_ok h0 h a b;
  d_new : forall i o x, (length h0 <= i)%nat -> nth_error h i = Some o -> In x (refs o) -> (length h0 <= x)%nat
}.
Lemma copy_ok_app h0 h l a b : (exists k, h = h0 ++ k) -> ainv h -> copy_ok h0 h a b -> copy_ok h0 (h ++ l) a b.
Proof.
  intros [k ->] I (La & Lb & T & R). rewrite !app_length in *. assert (La' : (a < length (h0 ++ k))%nat) by (rewrite app_length; lia).
  assert (Lb' : (b < length (h0 ++ k))%nat) by (rewrite app_length; lia). repeat split; auto; try lia.
  - rewrite app_length. lia.
  - now rewrite !(rtype_app (h0 ++ k)).
  - intros v Q. apply reads_app. apply R. now apply reads_grown in Q.
Qed.
Lemma memo_get_In m r x : memo_get m r = Some x -> In (r, x) m.
Proof.
  unfold memo_get. destruct (find _ m) as [[a b]|] eqn:E; [|discriminate]. intros Q. injection Q as <-. apply find_some in E as [Hin E]. apply Nat.eqb_eq in E.
  cbn [fst] in E. now subst a.
Qed.
Lemma with_parts_type o xs : otype (with_parts o xs) = otype o.
Proof. now destruct o. Qed.
Lemma with_parts_refs o xs : length xs = length (refs o) -> refs (with_parts o xs) = xs.
Proof. destruct o as [t z|t [b ys|y|k y]]; cbn [refs length with_parts with_refs]; auto; destruct xs as [|x [|]]; cbn [length]; intros; try discriminate; reflexivity. Qed.
Lemma copy_list h0 h ys xs vs : Forall2 (copy_ok h0 h) ys xs -> Forall2 (reads h) ys vs -> Forall2 (reads h) xs vs.
Proof. intros F. revert vs. induction F as [|a x ys xs (A1 & A2 & A3 & A4) F IH]; intros vs G; inversion G; subst; constructor; auto. Qed.
Lemma copy_node h0 h m o r xs : dinv h0 h m -> (r < length h0)%nat -> nth_error h r = Some o -> Forall2 (copy_ok h0 h) (refs o) xs ->
  dinv h0 (h ++ [with_parts o xs]) ((r, length h) :: m) /\ copy_ok h0 (h ++ [with_parts o xs]) r (length h).
Proof.
  intros D Lr E F. set (o' := with_parts o xs). assert (Ro : refs o' = xs) by (apply with_parts_refs; symmetry; eapply Forall2_length; eauto).
  assert (T : otype o' = otype o) by apply with_parts_type. pose proof (d_inv _ _ _ D) as I. destruct (d_ext _ _ _ D) as [l Hl].
  assert (Lh : (length h0 <= length h)%nat) by (rewrite Hl, app_length; lia).
  assert (I' : ainv (h ++ [o'])).
  { apply ainv_app; auto; rewrite T; [eapply a_ground; eauto|]. rewrite Ro. intros x Hx. destruct (Forall2_In_r _ _ _ _ F Hx) as (a & Ha & (La & Lx & Tx & _)).
    destruct (a_parts h I r o a E Ha) as [_ Da]. rewrite Tx. split; [lia|exact Da]. }
  assert (En : nth_error (h ++ [o']) (length h) = Some o') by (rewrite nth_error_app2, Nat.sub_diag by lia; reflexivity).
  assert (C : copy_ok h0 (h ++ [o']) r (length h)).
  { split; [exact Lr|]. split; [rewrite app_length; cbn [length]; lia|]. split.
    - rewrite (rtype_app h [o'] r) by lia. unfold rtype. now rewrite En, E, T.
    - intros v Q. apply reads_grown in Q; [|exact I|lia]. unfold o' in *. clear o'. destruct o as [t z|t [b ys|y|k y]]; cbn [refs with_parts with_refs] in *.
      + inversion Q as [? ? ? E'|? ? ? ? ? E'|? ? ? ? E'|? ? ? ? ? E']; subst; rewrite E in E'; try discriminate. injection E' as <- <-. now apply reads_atom.
      + inversion Q as [? ? ? E'|? ? ? ? vs E' G|? ? ? ? E'|? ? ? ? ? E']; subst r0 v; rewrite E in E'; try discriminate. injection E' as <- <- <-. eapply reads_tup; [exact En|].
        eapply Forall2_impl; [|exact (copy_list _ _ _ _ _ F G)]. intros a w. apply reads_app.
      + inversion F as [|? x ? ? (A1 & A2 & A3 & A4) F']; subst. inversion F'; subst.
        inversion Q as [? ? ? E'|? ? ? ? ? E'|? ? ? ? E' G|? ? ? ? ? E']; subst; rewrite E in E'; try discriminate. injection E' as <- <-. eapply reads_sum; [exact En|]. apply reads_app. auto.
      + inversion F as [|? x ? ? (A1 & A2 & A3 & A4) F']; subst. inversion F'; subst.
        inversion Q as [? ? ? E'|? ? ? ? ? E'|? ? ? ? E'|? ? ? ? ? E' G]; subst; rewrite E in E'; try discriminate. injection E' as <- <- <-. eapply reads_tag; [exact En|]. apply reads_app. auto. }
  split; [|exact C]. split; auto.
  - exists (l ++ [o']). now rewrite Hl, app_assoc.
  - intros a b [Q|Hin]; [injection Q as <- <-; exact C|]. apply copy_ok_app; eauto. eapply d_memo; eauto.
  - intros i q x Li Ei Hx. destruct (Nat.lt_ge_cases i (length h)) as [Hi|Hi].
    + rewrite nth_error_app1 in Ei by exact Hi. eapply d_new; eauto.
    + rewrite nth_error_app2 in Ei by exact Hi. destruct (i - length h)%nat as [|[|]]; cbn in Ei; try discriminate. injection Ei as <-. rewrite Ro in Hx.
      destruct (Forall2_In_r _ _ _ _ F Hx) as (a & _ & (_ & Lx & _)). lia.
Qed.
Definition one_ok (h0 : heap) (one : heap -> memo -> nat -> option (heap * memo * nat)) : Prop :=
  forall h m r h' m' x, dinv h0 h m -> (r < length h0)%nat -> one h m r = Some (h', m', x) -> dinv h0 h' m' /\ copy_ok h0 h' r x /\ exists l, h' = h ++ l.
Lemma deep_list_ok h0 one : one_ok h0 one -> forall l h m h' m' xs, dinv h0 h m -> Forall (fun r => (r < length h0)%nat) l -> deep_list one h m l = Some (h', m', xs) ->
  dinv h0 h' m' /\ Forall2 (copy_ok h0 h') l xs /\ exists k, h' = h ++ k.
Proof.
  intros O. induction l as [|r l IH]; intros h m h' m' xs D L E; cbn [deep_list] in E.
  - injection E as <- <- <-. split; auto. split; [constructor|]. exists []. now rewrite app_nil_r.
  - destruct (one h m r) as [[[h1 m1] x]|] eqn:E1; [|discriminate]. destruct (deep_list one h1 m1 l) as [[[h2 m2] ys]|] eqn:E2; [|discriminate]. injection E as <- <- <-.
    inversion L; subst. destruct (O _ _ _ _ _ _ D H1 E1) as (D1 & C1 & [k1 K1]). destruct (IH _ _ _ _ _ D1 H2 E2) as (D2 & C2 & [k2 K2]). split; auto. split.
    + constructor; auto. subst h2. apply copy_ok_app; auto; apply D1.
    + exists (k1 ++ k2). now rewrite K2, K1, app_assoc.
Qed.
Lemma deep_keeps h0 h m r : dinv h0 h m -> (r < length h0)%nat -> nth_error h r = nth_error h0 r.
Proof. intros D L. destruct (d_ext _ _ _ D) as [l ->]. now rewrite nth_error_app1. Qed.
Lemma deep_parts h0 h m r o : ainv h0 -> dinv h0 h m -> (r < length h0)%nat -> nth_error h r = Some o -> Forall (fun x => (x < length h0)%nat) (refs o).
Proof.
  intros I D L E. rewrite (deep_keeps _ _ _ _ D L) in E. apply Forall_forall. intros x Hx. apply (a_parts h0 I r o x E Hx).
Qed.
Lemma deep_ok h0 : ainv h0 -> forall f, one_ok h0 (deep f).
Proof.
  intros I0. induction f as [|f IH]; intros h m r h' m' x D L E; cbn [deep] in E.
  - destruct (memo_get m r) eqn:Em; [|discriminate]. injection E as <- <- <-. split; auto. split; [eapply d_memo; eauto using memo_get_In|]. exists []. now rewrite app_nil_r.
  - destruct (memo_get m r) eqn:Em.
    { injection E as <- <- <-. split; auto. split; [eapply d_memo; eauto using memo_get_In|]. exists []. now rewrite app_nil_r. }
    destruct (nth_error h r) as [o|] eqn:Eo; [|discriminate]. destruct (deep_list (deep f) h m (refs o)) as [[[h1 m1] xs]|] eqn:El; [|discriminate]. injection E as <- <- <-.
    destruct (deep_list_ok h0 _ IH _ _ _ _ _ _ D (deep_parts _ _ _ _ _ I0 D L Eo) El) as (D1 & C1 & [k ->]).
    destruct (copy_node h0 (h ++ k) m1 o r xs D1 L (app_keeps _ _ _ _ Eo) C1) as [D2 C2]. split; auto. split; auto. exists (k ++ [with_parts o xs]). now rewrite app_assoc.
Qed.
Lemma deep_total h0 : ainv h0 -> forall f h m r, dinv h0 h m -> (r < length h0)%nat -> (height (rtype h0 r) < f)%nat -> deep f h m r <> None.
Proof.
  intros I0. induction f as [|f IH]; intros h m r D L Hf; [lia|]. cbn [deep]. destruct (memo_get m r); [discriminate|].
  destruct (nth_error h r) as [o|] eqn:Eo; [|rewrite (deep_keeps _ _ _ _ D L) in Eo; apply nth_error_Some in L; congruence].
  assert (T : forall l h1 m1, dinv h0 h1 m1 -> (forall x, In x l -> (x < length h0)%nat /\ (height (rtype h0 x) < f)%nat) -> deep_list (deep f) h1 m1 l <> None).
  { induction l as [|x l IHl]; intros h1 m1 D1 Q; cbn [deep_list]; [discriminate|]. destruct (Q x (or_introl eq_refl)) as [Lx Hx].
    pose proof (IH h1 m1 x D1 Lx Hx) as N. destruct (deep f h1 m1 x) as [[[h2 m2] y]|] eqn:E; [|congruence].
    destruct (deep_ok h0 I0 f _ _ _ _ _ _ D1 Lx E) as (D2 & _ & _). assert (N2 : deep_list (deep f) h2 m2 l <> None) by (apply IHl; auto; intros z Hz; apply Q; now right).
    destruct (deep_list (deep f) h2 m2 l) as [[[h3 m3] zs]|]; [discriminate|congruence]. }
  assert (N : deep_list (deep f) h m (refs o) <> None).
  { apply T; auto. rewrite (deep_keeps _ _ _ _ D L) in Eo. intros x Hx. destruct (a_parts h0 I0 r o x Eo Hx) as [Lx Hx']. split; auto. unfold rtype in Hf at 1. rewrite Eo in Hf. lia. }
  destruct (deep_list (deep f) h m (refs o)) as [[[h1 m1] xs]|]; [discriminate|congruence].
Qed.
Lemma dinv_start h : ainv h -> dinv h h [].
Proof.
  intros I. split; auto.
  - exists []. now rewrite app_nil_r.
  - intros a b [].
  - intros i o x L E. apply nth_error_None in L. congruence.
Qed.
Lemma deep_fresh h0 h m a b : dinv h0 h m -> (length h0 <= a)%nat -> reach h a b -> (length h0 <= b)%nat.
Proof. intros D L Q. induction Q as [a|a o x b E Hx Q IH]; auto. apply IH. eapply d_new; eauto. Qed.

(** The copies are linked as the originals. *)
Record minv (h0 h : heap) (m : memo) : Prop := {
  m_keys : NoDup (map fst m);
  m_vals : NoDup (map snd m);
  m_ext : exists l, h = h0 ++ l;
  m_link : forall a b, In (a, b) m -> (b < length h)%nat /\
    exists o xs, nth_error h0 a = Some o /\ nth_error h b = Some (with_parts o xs) /\ Forall2 (fun c y => In (c, y) m) (refs o) xs
}.
Definition one_link (h0 : heap) (one : heap -> memo -> nat -> option (heap * memo * nat)) : Prop :=
  forall h m r h' m' x, minv h0 h m -> (r < length h0)%nat -> one h m r = Some (h', m', x) ->
    minv h0 h' m' /\ In (r, x) m' /\ incl m m' /\ forall a b, In (a, b) m' -> In (a, b) m \/ (height (rtype h0 a) <= height (rtype h0 r))%nat.
Lemma deep_list_link h0 one : one_link h0 one -> forall l h m h' m' xs, minv h0 h m -> Forall (fun r => (r < length h0)%nat) l -> deep_list one h m l = Some (h', m', xs) ->
  minv h0 h' m' /\ Forall2 (fun c y => In (c, y) m') l xs /\ incl m m' /\ forall a b, In (a, b) m' -> In (a, b) m \/ exists r, In r l /\ (height (rtype h0 a) <= height (rtype h0 r))%nat.
Proof.
  intros O. induction l as [|r l IH]; intros h m h' m' xs D L E; cbn [deep_list] in E.
  - injection E as <- <- <-. split; auto. split; [constructor|]. split; [apply incl_refl|auto].
  - destruct (one h m r) as [[[h1 m1] x]|] eqn:E1; [|discriminate]. destruct (deep_list one h1 m1 l) as [[[h2 m2] ys]|] eqn:E2; [|discriminate]. injection E as <- <- <-.
    inversion L; subst. destruct (O _ _ _ _ _ _ D H1 E1) as (D1 & C1 & K1 & G1). destruct (IH _ _ _ _ _ D1 H2 E2) as (D2 & C2 & K2 & G2). split; auto. split; [|split].
    + constructor; auto.
    + eapply incl_tran; eauto.
    + intros a b Hab. destruct (G2 a b Hab) as [Q|(q & Hq & Lq)]; [destruct (G1 a b Q) as [|Q']; auto|]; right; [exists r|exists q]; split; auto; [now left|now right].
Qed.
Lemma memo_get_None m r : memo_get m r = None -> ~ In r (map fst m).
Proof.
  unfold memo_get. destruct (find _ m) as [p|] eqn:E; [discriminate|]. intros _ Hin. apply in_map_iff in Hin as ([a b] & <- & Hin). pose proof (find_none _ _ E _ Hin) as Q. cbn [fst] in Q. now rewrite Nat.eqb_refl in Q.
Qed.
Lemma deep_link h0 : ainv h0 -> forall f, one_link h0 (deep f).
Proof.
  intros I0. induction f as [|f IH]; intros h m r h' m' x D L E; cbn [deep] in E.
  - destruct (memo_get m r) eqn:Em; [|discriminate]. injection E as <- <- <-. split; auto. split; [now apply memo_get_In|]. split; [apply incl_refl|auto].
  - destruct (memo_get m r) eqn:Em.
    { injection E as <- <- <-. split; auto. split; [now apply memo_get_In|]. split; [apply incl_refl|auto]. }
    destruct (nth_error h r) as [o|] eqn:Eo; [|discriminate]. destruct (deep_list (deep f) h m (refs o)) as [[[h1 m1] xs]|] eqn:El; [|discriminate]. injection E as <- <- <-.
    assert (E0 : nth_error h0 r = Some o) by (destruct (m_ext _ _ _ D) as [l ->]; now rewrite nth_error_app1 in Eo).
    assert (Lp : Forall (fun x => (x < length h0)%nat) (refs o)) by (apply Forall_forall; intros y Hy; apply (a_parts h0 I0 r o y E0 Hy)).
    destruct (deep_list_link h0 _ IH _ _ _ _ _ _ D Lp El) as (D1 & C1 & K1 & G1).
    assert (Hr : forall b, ~ In (r, b) m1).
    { intros b Hb. destruct (G1 r b Hb) as [Q|(q & Hq & Lq)]; [apply (memo_get_None _ _ Em); apply in_map_iff; exists (r, b); auto|].
      destruct (a_parts h0 I0 r o q E0 Hq) as [_ D']. unfold rtype in Lq at 1. rewrite E0 in Lq. lia. }
    split; [|split; [now left|split; [now apply incl_tl|]]].
    + split.
      * cbn [map fst]. constructor; [|apply D1]. intros Hin. apply in_map_iff in Hin as ([a b] & Ea & Hin). cbn [fst] in Ea. subst a. exact (Hr b Hin).
      * cbn [map snd]. constructor; [|apply D1]. intros Hin. apply in_map_iff in Hin as ([a b] & Eb & Hin). cbn [snd] in Eb. subst b. destruct (m_link _ _ _ D1 _ _ Hin) as [Lb _]. lia.
      * destruct (m_ext _ _ _ D1) as [l ->]. exists (l ++ [with_parts o xs]). now rewrite app_assoc.
      * intros a b [Q|Hin].
        -- injection Q as <- <-. split; [rewrite app_length; cbn [length]; lia|]. exists o, xs. split; auto. split; [rewrite nth_error_app2, Nat.sub_diag by lia; reflexivity|].
           eapply Forall2_impl; [|exact C1]. intros c y. now right.
        -- destruct (m_link _ _ _ D1 a b Hin) as (Lb & o' & ys & A1 & A2 & A3). split; [rewrite app_length; lia|]. exists o', ys. split; auto. split; [now apply app_keeps|].
           eapply Forall2_impl; [|exact A3]. intros c y. now right.
    + intros a b [Q|Hin]; [injection Q as <- <-; right; lia|]. destruct (G1 a b Hin) as [|(q & Hq & Lq)]; auto. right.
      destruct (a_parts h0 I0 r o q E0 Hq) as [_ D']. unfold rtype at 2. rewrite E0. lia.
Qed.
Lemma minv_start h : minv h h [].
Proof. split; try constructor; [exists []; now rewrite app_nil_r| |]; destruct H. Qed.
Lemma memo_get_key m a b : NoDup (map fst m) -> In (a, b) m -> memo_get m a = Some b.
Proof.
  unfold memo_get. induction m as [|[c d] m IH]; intros N Hin; [destruct Hin|]. cbn [find fst]. cbn [map fst] in N. inversion N as [|? ? N1 N2]; subst. destruct Hin as [Q|Hin].
  - injection Q as <- <-. rewrite Nat.eqb_refl. reflexivity.
  - destruct (Nat.eqb_spec c a) as [->|]; [|auto]. destruct N1. apply in_map_iff. exists (a, b). auto.
Qed.
Lemma vals_inj (m : memo) a b x : NoDup (map snd m) -> In (a, x) m -> In (b, x) m -> a = b.
Proof.
  induction m as [|[c d] m IH]; intros N Ha Hb; [destruct Ha|]. cbn [map snd] in N. inversion N as [|? ? N1 N2]; subst. destruct Ha as [Qa|Ha], Hb as [Qb|Hb]; auto.
  - congruence.
  - injection Qa as -> ->. destruct N1. apply in_map_iff. exists (b, x). auto.
  - injection Qb as -> ->. destruct N1. apply in_map_iff. exists (a, x). auto.
Qed.
Lemma deep_graph h d r h' m' x : ainv h -> (r < length h)%nat -> deep d h [] r = Some (h', m', x) -> same_graph h h' r x.
Proof.
  intros I L E. destruct (deep_link h I d _ _ _ _ _ _ (minv_start h) L E) as (M & Hr & _). set (f := fun a => match memo_get m' a with Some b => b | None => 0%nat end).
  assert (F : forall a b, In (a, b) m' -> f a = b) by (intros a b Hab; unfold f; now rewrite (memo_get_key _ _ _ (m_keys _ _ _ M) Hab)).
  assert (R : forall a q, reach h a q -> (exists b, In (a, b) m') -> exists b, In (q, b) m').
  { intros a q Q. induction Q as [a|a o y q Ea Hy Q IH]; auto. intros (b & Hb). apply IH. destruct (m_link _ _ _ M a b Hb) as (_ & o' & xs & A1 & _ & A3). rewrite Ea in A1. injection A1 as <-.
    clear - A3 Hy. induction A3; destruct Hy; [subst; eauto|auto]. }
  exists f. split; [now apply F|]. split.
  - intros a b Ra Rb Q. destruct (R r a Ra) as (a' & Ha); [eauto|]. destruct (R r b Rb) as (b' & Hb); [eauto|]. rewrite (F _ _ Ha), (F _ _ Hb) in Q. subst b'. eapply vals_inj; eauto. apply M.
  - intros a o Ra Ea. destruct (R r a Ra) as (b & Hb); [eauto|]. rewrite (F _ _ Hb). destruct (m_link _ _ _ M a b Hb) as (_ & o' & xs & A1 & A2 & A3). rewrite Ea in A1. injection A1 as <-. rewrite A2. f_equal.
    assert (X : xs = map f (refs o)) by (clear - A3 F; induction A3 as [|c y l xs Hc A3 IH]; cbn [map]; [reflexivity|]; now rewrite (F _ _ Hc), IH). subst xs. now destruct o as [|t [b' ys|y|k y]].
Qed.

(** ** Histories *)
Lemma astep_inv H h c : plain_call c -> ainv h -> ainv (fst (astep H h c)).
Proof.
  intros P I. destruct c as [o|r i b|r|d r]; cbn [astep].
  - now apply step_inv.
  - destruct (nth_error h r) as [[t z|]|] eqn:E; auto. destruct (vec_leaf t) as [[[| |] n]|]; auto. destruct (setitem_int _ _ _); auto. cbn [fst].
    apply (ainv_update h r (OAtom t z)); auto. intros x [].
  - destruct (nth_error h r) as [o|] eqn:E; auto. cbn [fst]. apply ainv_app; auto; [eapply a_ground; eauto|]. intros x Hx. eapply a_parts; eauto.
  - destruct (live h r) eqn:L; auto. destruct (deep d h [] r) as [[[h' m'] x]|] eqn:E; auto. cbn [fst]. apply live_lt in L.
    destruct (deep_ok h I d _ _ _ _ _ _ (dinv_start h I) L E) as [D _]. apply D.
Qed.
Lemma arun_inv H l : forall h, Forall plain_call l -> ainv h -> ainv (arun H h l).
Proof. induction l as [|c l IH]; intros h P I; auto. inversion P; subst. apply (IH (fst (astep H h c))); auto. now apply astep_inv. Qed.
Lemma ainv_nil : ainv [].
Proof. split; intros [|] *; discriminate. Qed.

(** ** Reading the result of an assignment *)
Lemma reads_srel h r t s v : nth_error h r = Some (ONode t s) -> reads h r v -> exists s', v = mk_val t s' /\ srel (reads h) s s'.
Proof.
  intros E Q. inversion Q as [? ? ? E'|? ? ? ? vs E' G|? ? ? ? E' G|? ? ? ? ? E' G]; subst; rewrite E in E'; try discriminate; injection E' as -> ->.
  - exists (STup b vs). split; [reflexivity|]. split; auto.
  - exists (SSum v0). split; [reflexivity|exact G].
  - exists (STag k v0). split; [reflexivity|]. split; auto.
Qed.
Lemma srel_reads h r t s s' : nth_error h r = Some (ONode t s) -> srel (reads h) s s' -> reads h r (mk_val t s').
Proof.
  intros E Q. destruct s, s'; cbn [srel] in Q; try contradiction; cbn [mk_val].
  - destruct Q as [-> F]. eapply reads_tup; eauto.
  - eapply reads_sum; eauto.
  - destruct Q as [-> F]. eapply reads_tag; eauto.
Qed.
Lemma srel_impl {X Y} (R S : X -> Y -> Prop) s s' : srel R s s' -> (forall x y, In x (shape_refs s) -> R x y -> S x y) -> srel S s s'.
Proof.
  destruct s, s'; cbn [srel shape_refs]; intros Q I; try contradiction.
  - destruct Q as [-> F]. split; auto. eapply Forall2_In_impl; eauto.
  - apply I; auto. now left.
  - destruct Q as [-> F]. split; auto. apply I; auto. now left.
Qed.
Lemma mk_val_type t s : vtype (mk_val t s) = t.
Proof. now destruct s. Qed.
Lemma mk_val_shape t s : vshape (mk_val t s) = Some s.
Proof. now destruct s. Qed.
(** The components of an updated object still read as before. *)
Lemma reads_updated h r t s s2 sv : ainv h -> nth_error h r = Some (ONode t s) -> ainv (update r (ONode t s2) h) -> srel (reads h) s2 sv ->
  reads (update r (ONode t s2) h) r (mk_val t sv).
Proof.
  intros I E I' Q. set (h' := update r (ONode t s2) h) in *. assert (L : (r < length h)%nat) by (apply nth_error_Some; congruence).
  assert (E' : nth_error h' r = Some (ONode t s2)) by (apply update_same; exact L). eapply srel_reads; [exact E'|]. eapply srel_impl; [exact Q|].
  intros x y Hx Hy. assert (N : ~ reach h' x r) by (eapply reach_strict; eauto; now rewrite refs_shape).
  assert (L' : (x < length h')%nat) by (unfold h'; rewrite update_length; eapply reads_live; eauto).
  destruct (reads_total h I r) as [v0 W0]; auto. assert (K : forall q, (q < length h')%nat -> q <> r -> nth_error h q = nth_error h' q).
  { intros q _ Nq. unfold h'. rewrite update_other; auto. }
  apply (reads_changed h' h r v0 I' W0 K x y L') in Hy. now apply reads_frame in Hy.
Qed.
