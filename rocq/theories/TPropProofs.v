(** Proofs of the theorems stated in TPropProps.v. *)
From Coq Require Import Lia.
From Verif Require Import PyBase BVFacts MetaModel MergeFacts TPropModel TPropSpec.

Local Open Scope nat_scope.

(** The classes never lose their method resolution order; attributes change by assignment only. *)

Definition inv_ (q c : nat) (n : string) (T : nat) (g st d : option nat) (s : pst) : Prop :=
  q < length (tprops s) /\ pget s q = TP T true g st d /\ c < length (pclasses s)
  /\ passoc n (pc_attrs (pcget s c)) = Some (AProp q) /\ exists l, pc_mro (pcget s c) = c :: l.

(** Method resolution orders of the classes of a program. *)
Definition mros (s : pst) : Prop := 0 < length (pclasses s) /\ forall c, c < length (pclasses s) ->
  exists l, pc_mro (pcget s c) = c :: l /\ NoDup (c :: l) /\ forall x, In x l -> x < c.



Definition minv (c : nat) (n qual : string) (f : nat) (s : pst) : Prop :=
  c < length (pclasses s) /\ passoc n (pc_attrs (pcget s c)) = Some (AMeth f) /\ fname s f = Some (n, (qual ++ "." ++ n)%string).


Lemma set_nth_length {A} (l : list A) i x : length (set_nth l i x) = length l.
Proof. revert i; induction l as [|y l IH]; intros [|i]; cbn; auto. Qed.

Lemma set_nth_same {A} (l : list A) i x d : i < length l -> nth i (set_nth l i x) d = x.
Proof. revert i; induction l as [|y l IH]; intros [|i] H; cbn in *; try lia; auto. apply IH; lia. Qed.

Lemma set_nth_other {A} (l : list A) i j x d : i <> j -> nth j (set_nth l i x) d = nth j l d.
Proof. revert i j; induction l as [|y l IH]; intros [|i] [|j] H; cbn in *; try congruence; auto. Qed.

Lemma assoc_in {A} n (a : A) l : In (n, a) l -> NoDup (map fst l) -> passoc n l = Some a.
Proof.
  induction l as [|[m b] l IH]; cbn; [easy|]. intros I N. inversion N as [|? ? N1 N2]; subst. unfold passoc. cbn.
  destruct (String.eqb_spec m n) as [->|E].
  - destruct I as [I|I]; [injection I as ->; reflexivity|]. exfalso. apply N1. now apply (in_map fst) in I.
  - destruct I as [I|I]; [injection I; congruence|]. apply IH; auto.
Qed.

Lemma assoc_none {A} n (l : list (string * A)) : passoc n l = None <-> forall a, ~ In (n, a) l.
Proof.
  induction l as [|[m b] l IH]; unfold passoc; cbn; [easy|].
  destruct (String.eqb_spec m n) as [->|E]; cbn.
  - split; [discriminate|]. intros H. exfalso. apply (H b). now left.
  - unfold passoc in IH. rewrite IH. split; intros H a; [intros [I|I]; [congruence|now apply (H a)]|intros I; apply (H a); now right].
Qed.

Lemma assoc_remove {A} n m (l : list (string * A)) : m <> n -> passoc n (premove m l) = passoc n l.
Proof.
  intros H. induction l as [|[k b] l IH]; unfold passoc, premove; cbn; auto. unfold passoc, premove in IH.
  destruct (String.eqb_spec k m) as [->|E]; cbn.
  - destruct (String.eqb_spec m n); [congruence|auto].
  - destruct (String.eqb_spec k n); auto.
Qed.

Lemma assoc_cons_other {A} n m (a : A) l : m <> n -> passoc n ((m, a) :: l) = passoc n l.
Proof. intros H. unfold passoc. cbn. destruct (String.eqb_spec m n); congruence. Qed.

Lemma set_names_frame qual body : forall s,
  pclasses (fold_left (fun s e => set_name s qual e) body s) = pclasses s /\ pobjs (fold_left (fun s e => set_name s qual e) body s) = pobjs s
  /\ length (tprops (fold_left (fun s e => set_name s qual e) body s)) = length (tprops s).
Proof.
  induction body as [|[n a] body IH]; intros s; cbn [fold_left]; auto. destruct (IH (set_name s qual (n, a))) as (-> & -> & ->).
  unfold set_name; destruct a; cbn; auto. now rewrite set_nth_length.
Qed.

Lemma set_names_prop qual body : forall s q,
  q < length (tprops s) ->
  let s' := fold_left (fun s e => set_name s qual e) body s in
  let x := pget s q in
  pget s' q = TP (p_T x) (p_final x || existsb (fun e => match snd e with AProp p => Nat.eqb p q | _ => false end) body)
                 (p_get x) (p_set x) (p_del x).
Proof.
  induction body as [|[n a] body IH]; intros s q H; cbn [fold_left existsb]; cbn zeta.
  - rewrite orb_false_r. now destruct (pget s q).
  - rewrite IH; [|unfold set_name; destruct a; cbn; auto; now rewrite set_nth_length].
    destruct a as [p|f|v]; cbn; auto. unfold pget, put_prop; cbn.
    destruct (Nat.eqb_spec p q) as [->|E].
    + rewrite set_nth_same by auto. cbn. now rewrite orb_true_r.
    + rewrite set_nth_other by auto. reflexivity.
Qed.

Lemma pget_app s x q : q < length (tprops s) -> nth q (tprops s ++ x) (TP 0 false None None None) = pget s q.
Proof. intros H. unfold pget. now rewrite app_nth1. Qed.

Lemma decorate_frame s p dd :
  let '(s', q) := decorate s p dd in
  pclasses s' = pclasses s /\ pobjs s' = pobjs s /\ fnames s' = fnames s /\ length (tprops s') = S (length (tprops s)) /\ q = length (tprops s)
  /\ (forall r, r < length (tprops s) -> pget s' r = pget s r).
Proof.
  destruct dd; cbn; rewrite set_nth_length, app_length; cbn; repeat (split; [auto; lia|]);
    intros r H; unfold pget, put_prop; cbn; rewrite set_nth_other by lia; now rewrite app_nth1.
Qed.

Lemma step_inv inst q c n T g st d s o : inv_ q c n T g st d s -> spares q o -> keeps c n o -> inv_ q c n T g st d (pstep inst s o).
Proof.
  intros (A & B & C & D & (l & L)) Sp Ke. destruct o as [T'|p g' st' d'|p dd|qual bases body|c' n' a|c' n'|c'|o m v|o m]; cbn [pstep].
  - unfold inv_; cbn. rewrite app_length. split; [cbn; lia|]. split; [unfold pget; cbn; now rewrite app_nth1|]. eauto.
  - destruct (Nat.ltb_spec p (length (tprops s))); [|unfold inv_; eauto 10]. cbn in *. unfold inv_; cbn. rewrite set_nth_length.
    split; auto. split; [unfold pget; cbn; rewrite set_nth_other; auto|]. eauto.
  - destruct (Nat.ltb_spec p (length (tprops s))); [|unfold inv_; eauto 10]. pose proof (decorate_frame s p dd) as F.
    destruct (decorate s p dd) as [s' r]. destruct F as (F1 & F2 & F3 & F4 & F5 & F6). unfold inv_, pcget; cbn [fst].
    rewrite F1, F4, F6 by auto. repeat (split; [auto; lia|]). eauto.
  - destruct (_ && _ && _); [|unfold inv_; eauto 10]. unfold pclass_stmt.
    destruct (pc3 s _) as [m|]; [|unfold inv_; eauto 10]. set (s1 := PS _ _ _ _). pose proof (set_names_frame qual body s1) as (F1 & F2 & F3).
    pose proof (set_names_prop qual body s1 q A) as F4. cbn zeta in F4. change (pget s1 q) with (pget s q) in F4. rewrite B in F4. cbn in F4.
    unfold inv_, pcget in *. rewrite F1, F3, F4. subst s1. cbn [pclasses tprops]. rewrite app_length, app_nth1 by auto.
    repeat (split; [auto; cbn; lia|]). eauto.
  - destruct (_ && _ && _) eqn:E; [|unfold inv_; eauto 10]. unfold inv_, cls_set, put_class, pcget; cbn. rewrite set_nth_length.
    split; auto. split; auto. split; auto. cbn in Ke. destruct (Nat.eq_dec c' c) as [->|N].
    + rewrite set_nth_same by auto. cbn. split; [|eauto]. assert (n' <> n) by (intros ->; tauto). rewrite assoc_cons_other, assoc_remove by auto. exact D.
    + rewrite set_nth_other by auto. eauto.
  - destruct (_ && _) eqn:E; [|unfold inv_; eauto 10]. unfold inv_, cls_del, put_class, pcget; cbn. rewrite set_nth_length.
    split; auto. split; auto. split; auto. cbn in Ke. destruct (Nat.eq_dec c' c) as [->|N].
    + rewrite set_nth_same by auto. cbn. split; [|eauto]. assert (n' <> n) by (intros ->; tauto). rewrite assoc_remove by auto. exact D.
    + rewrite set_nth_other by auto. eauto.
  - destruct (Nat.ltb c' _); unfold inv_; eauto 10.
  - destruct (Nat.ltb o _); [|unfold inv_; eauto 10]. unfold obj_set. destruct (plookup _ _ _) as [[| |]|]; unfold inv_; cbn; eauto 10.
  - destruct (Nat.ltb o _); [|unfold inv_; eauto 10]. unfold obj_del. destruct (plookup _ _ _) as [[| |]|]; try destruct (passoc m _); unfold inv_; cbn; eauto 10.
Qed.

Lemma run_inv inst q c n T g st d h : forall s,
  inv_ q c n T g st d s -> Forall (spares q) h -> Forall (keeps c n) h -> inv_ q c n T g st d (prun inst s h).
Proof.
  induction h as [|o h IH]; intros s A B C; [exact A|]. inversion B; inversion C; subst. apply IH; auto. now apply step_inv.
Qed.

Lemma declare_spec s T g st d ds s' q : declare s T g st d ds = (s', q) ->
  q < length (tprops s') /\ pget s' q = TP T false (last_get g ds) (last_set st ds) (last_del d ds)
  /\ pclasses s' = pclasses s.
Proof.
  unfold declare. cbn [tp_new]. set (s1 := PS _ _ _ _). set (p := length (tprops s)).
  assert (K : forall ds g st d s1 p, p < length (tprops s1) -> pclasses s1 = pclasses s -> pget s1 p = TP T false g st d ->
     fold_left (fun r d => decorate (fst r) (snd r) d) ds (s1, p) = (s', q) ->
     q < length (tprops s') /\ pget s' q = TP T false (last_get g ds) (last_set st ds) (last_del d ds) /\ pclasses s' = pclasses s).
  { clear. induction ds as [|dd ds IH]; intros g st d s1 p A B C E; cbn [fold_left] in E.
    - injection E as <- <-. auto.
    - pose proof (decorate_frame s1 p dd) as F. unfold pget in C. cbn [fst snd] in E. destruct (decorate s1 p dd) as [s2 r] eqn:D.
      destruct F as (F1 & F2 & F3 & F4 & F5 & F6).
      assert (G : pget s2 r = match dd with DGet f => TP T false (Some f) st d | DSet f => TP T false g (Some f) d | DDel f => TP T false g st (Some f) end).
      { subst r. destruct dd; cbn in D; injection D as <-; unfold pget, put_prop; cbn;
          rewrite set_nth_same by (rewrite app_length; cbn; lia);
          rewrite app_nth2, Nat.sub_diag by lia; cbn; now rewrite C. }
      assert (r < length (tprops s2)) by lia. assert (pclasses s2 = pclasses s) by congruence.
      destruct dd; cbn [last_get last_set last_del]; apply (IH _ _ _ s2 r); auto. }
  intros E. apply (K ds g st d (fst (tp_call s1 p g st d)) p); auto; cbn.
  - rewrite set_nth_length, app_length; cbn; unfold p; lia.
  - unfold pget, put_prop; cbn. unfold p. rewrite set_nth_same by (rewrite app_length; cbn; lia).
    rewrite app_nth2, Nat.sub_diag by lia. reflexivity.
Qed.

Lemma declared_inv inst s c n T g st d : declared inst s c n T g st d -> exists q, inv_ q c n T g st d s.
Proof.
  intros H. destruct H as [h h' T g st d ds q qual bases body n s2 s3 c E I N R Bs P Sp Ke]. exists q. apply run_inv; auto.
  apply declare_spec in E as (E1 & E2 & E3). unfold pclass_stmt in P. destruct (pc3 _ _) as [l|]; [|discriminate]. injection P as P <-.
  set (s1 := PS _ _ _ _) in P. pose proof (set_names_frame qual body s1) as (F1 & F2 & F3). pose proof (set_names_prop qual body s1 q E1) as F4.
  cbn zeta in F4. change (pget s1 q) with (pget s2 q) in F4. rewrite E2 in F4. cbn in F4. rewrite P in *. unfold inv_, pcget. rewrite F1, F3.
  subst s1. cbn [pclasses tprops]. rewrite app_length, app_nth2, Nat.sub_diag by lia. cbn.
  split; auto. split; [|split; [lia|split; [now apply assoc_in|eauto]]]. rewrite F4. f_equal.
  apply existsb_exists. exists (n, AProp q). split; auto. cbn. apply Nat.eqb_refl.
Qed.

Lemma find_reach s n l1 d l2 : (forall x, In x l1 -> ~ defines s x n) -> passoc n (pc_attrs (pcget s d)) <> None ->
  pfind s n (l1 ++ d :: l2) = passoc n (pc_attrs (pcget s d)).
Proof.
  intros A B. induction l1 as [|x l1 IH]; cbn.
  - destruct (passoc _ _); congruence.
  - assert (E : passoc n (pc_attrs (pcget s x)) = None).
    { apply assoc_none. intros a I. apply (A x (or_introl eq_refl)). now exists a. }
    rewrite E. apply IH. intros y I. apply A. now right.
Qed.

Lemma declared_lookup inst s c n T g st d x : declared inst s c n T g st d -> reaches s x n c ->
  exists q, plookup s x n = Some (AProp q) /\ pget s q = TP T true g st d.
Proof.
  intros H (l1 & l2 & L & N & _). apply declared_inv in H as (q & A & B & C & D & _). exists q. split; auto.
  unfold plookup. rewrite L, find_reach; auto. congruence.
Qed.

Lemma class_frame s qual bases body s' c : pclass_stmt s qual bases body = Ok (s', c) ->
  c = length (pclasses s) /\ exists l, pc3 s (match bases with [] => [0] | _ => bases end) = Some l /\
  pclasses s' = pclasses s ++ [PC qual (c :: l) body].
Proof.
  unfold pclass_stmt. destruct (pc3 s _) as [l|]; [|discriminate]. intros P. injection P as P <-. split; auto. exists l. split; auto.
  rewrite <- P. apply set_names_frame.
Qed.

Lemma mros_same s s' : mros s -> length (pclasses s') = length (pclasses s) -> (forall c, pc_mro (pcget s' c) = pc_mro (pcget s c)) -> mros s'.
Proof. intros [M0 M] L E. split; [lia|]. intros c H. rewrite E. apply M. lia. Qed.

Lemma mros_class s qual bases body s' c : mros s -> (forall b, In b bases -> b < length (pclasses s)) ->
  pclass_stmt s qual bases body = Ok (s', c) -> mros s'.
Proof.
  intros [M0 M] B P. apply class_frame in P as (-> & l & C & E). split; [rewrite E, app_length; cbn; lia|].
  intros c H. unfold pcget. rewrite E in *. rewrite app_length in H. cbn in H.
  destruct (Nat.eq_dec c (length (pclasses s))) as [->|N].
  - rewrite app_nth2, Nat.sub_diag by lia. cbn. exists l.
    assert (X : forall x, In x l -> x < length (pclasses s)).
    { set (bs := match bases with [] => [0] | _ => bases end) in *.
      assert (Bs : forall b, In b bs -> b < length (pclasses s)) by (intros b Hb; subst bs; destruct bases; [destruct Hb as [<-|[]]; auto|auto]).
      intros x Hx. unfold pc3 in C. apply (merge_In _ _ _ C) in Hx as (q & Hq & Hx). apply in_app_iff in Hq as [Hq|[<-|[]]]; [|auto].
      apply in_map_iff in Hq as (b & <- & Hb). destruct (M b (Bs b Hb)) as (k & Ek & _ & Lk). rewrite Ek in Hx. specialize (Bs b Hb).
      destruct Hx as [<-|Hx]; [auto|]. specialize (Lk x Hx). lia. }
    split; auto. split; auto. constructor; [|unfold pc3 in C; eapply merge_NoDup; eauto]. intros Hx. apply X in Hx. lia.
  - rewrite app_nth1 by lia. apply M. lia.
Qed.

Lemma set_nth_out {A} (l : list A) i x : length l <= i -> set_nth l i x = l.
Proof. revert i. induction l as [|y l IH]; intros [|i] H; cbn in *; auto; try lia. f_equal. apply IH. lia. Qed.

Lemma mros_put s c x : pc_mro x = pc_mro (pcget s c) -> mros s -> mros (put_class s c x).
Proof.
  intros E M. apply (mros_same s); auto; cbn; [apply set_nth_length|]. intros d. unfold pcget at 1, put_class. cbn.
  destruct (Nat.eq_dec c d) as [->|N]; [|now rewrite set_nth_other].
  destruct (Nat.lt_ge_cases d (length (pclasses s))) as [L|L]; [now rewrite set_nth_same|]. now rewrite set_nth_out.
Qed.

Lemma mros_step inst s o : mros s -> mros (pstep inst s o).
Proof.
  intros M. assert (Same : forall s', pclasses s' = pclasses s -> mros s').
  { intros s' E. apply (mros_same s); auto; [now rewrite E|]. intros c. unfold pcget. now rewrite E. }
  destruct o as [T'|p g' st' d'|p dd|qual bases body|c' n' a|c' n'|c'|o m v|o m]; cbn [pstep].
  - now apply Same.
  - destruct (Nat.ltb _ _); auto.
  - destruct (Nat.ltb _ _); auto. apply Same. pose proof (decorate_frame s p dd) as F. destruct (decorate s p dd) as [s' r]. apply F.
  - destruct (_ && _ && _) eqn:E; auto. destruct (pclass_stmt s qual bases body) as [[s' c]|] eqn:P; auto.
    eapply mros_class; eauto. apply andb_true_iff in E as [E _]. apply andb_true_iff in E as [E _]. rewrite forallb_forall in E.
    intros b Hb. apply Nat.ltb_lt. auto.
  - destruct (_ && _ && _); auto. unfold cls_set. now apply mros_put.
  - destruct (_ && _); auto. unfold cls_del. now apply mros_put.
  - destruct (Nat.ltb _ _); auto.
  - destruct (Nat.ltb _ _); auto. unfold obj_set. destruct (plookup _ _ _) as [[| |]|]; auto.
  - destruct (Nat.ltb _ _); auto. unfold obj_del. destruct (plookup _ _ _) as [[| |]|]; try destruct (passoc _ _); auto.
Qed.

Lemma mros_run inst h : forall s, mros s -> mros (prun inst s h).
Proof. induction h as [|o h IH]; intros s M; [exact M|]. apply IH, mros_step, M. Qed.

Lemma mros_init : mros pst0.
Proof.
  split; [cbn; lia|]. intros c H. cbn in H. assert (c = 0) by lia. subst. exists []. split; [reflexivity|]. split; [|intros x []].
  constructor; [intros []|constructor].
Qed.

Lemma defines_old s s' k c n : pclasses s' = pclasses s ++ [k] -> c < length (pclasses s) -> (defines s' c n <-> defines s c n).
Proof. intros E L. unfold defines, pcget. rewrite E, app_nth1 by auto. reflexivity. Qed.

Lemma defines_in s c n : defines s c n -> c < length (pclasses s).
Proof.
  intros (a & H). destruct (Nat.lt_ge_cases c (length (pclasses s))) as [L|L]; auto. unfold pcget in H. rewrite nth_overflow in H by auto. destruct H.
Qed.

Lemma mros_bound s c x : mros s -> c < length (pclasses s) -> In x (pc_mro (pcget s c)) -> x <= c.
Proof. intros [_ M] L H. destruct (M c L) as (l & E & _ & B). rewrite E in H. destruct H as [<-|H]; auto. specialize (B x H). lia. Qed.

Lemma ex_declared : declared ex_inst ex_state 1 "x" 7 (Some 1%nat) (Some 2%nat) None.
Proof.
  refine (Declared ex_inst [] ex_after 7 (Some 1%nat) None None [DSet 2] 1 "A" [] ex_body "x"
            (fst (declare pst0 7 (Some 1%nat) None None [DSet 2])) _ 1 _ _ _ _ _ _ _ _).
  - reflexivity.
  - left. reflexivity.
  - repeat constructor. cbn. tauto.
  - intros m p [I|[]]. injection I as <- <-. cbn. lia.
  - intros b [].
  - reflexivity.
  - repeat constructor.
  - repeat constructor.
Qed.

Lemma ex_reaches : reaches ex_state (po_cls (poget ex_state 1)) "x" 1.
Proof.
  exists [2%nat], [0%nat]. split; [reflexivity|]. split; [|exists (AProp 1); left; reflexivity].
  intros x [<-|[]] (a & []).
Qed.

Lemma C85_get_pf : forall inst s c n T g st d o,
  declared inst s c n T g st d -> reaches s (po_cls (poget s o)) n c ->
  obj_get s o n = match g with Some f => (Ok (RRet f), [Call f o None]) | None => (Raise EAttributeError, []) end.
Proof.
  intros inst s c n T g st d o H R. destruct (declared_lookup _ _ _ _ _ _ _ _ _ H R) as (q & L & P).
  unfold obj_get, tp_get_obj. now rewrite L, P.
Qed.

Lemma C85_set_pf : forall inst s c n T g st d o v,
  declared inst s c n T g st d -> reaches s (po_cls (poget s o)) n c ->
  obj_set inst s o n v =
    (s, match st with
        | None => (Raise EAttributeError, [])
        | Some f => if inst v T then (Ok RNone, [Call f o (Some v)]) else (Raise ETypeError, [])
        end).
Proof.
  intros inst s c n T g st d o v H R. destruct (declared_lookup _ _ _ _ _ _ _ _ _ H R) as (q & L & P).
  unfold obj_set, tp_set_obj. rewrite L, P. cbn. destruct st; auto. now destruct (inst v T).
Qed.

Lemma C85_delete_pf : forall inst s c n T g st d o,
  declared inst s c n T g st d -> reaches s (po_cls (poget s o)) n c ->
  obj_del s o n = (s, match d with Some f => (Ok RNone, [Call f o None]) | None => (Raise EAttributeError, []) end).
Proof.
  intros inst s c n T g st d o H R. destruct (declared_lookup _ _ _ _ _ _ _ _ _ H R) as (q & L & P).
  unfold obj_del, tp_del_obj. rewrite L, P. reflexivity.
Qed.

Lemma C85_class_pf : forall inst s c n T g st d x dd,
  declared inst s c n T g st d -> reaches s x n c ->
  cls_get s x n = Ok (RType T) /\ cls_decorate s x n dd = Raise EAttributeError.
Proof.
  intros inst s c n T g st d x dd H R. destruct (declared_lookup _ _ _ _ _ _ _ _ _ H R) as (q & L & P).
  assert (E : cls_get s x n = Ok (RType T)) by (unfold cls_get, tp_get_cls; rewrite L, P; reflexivity).
  split; auto. unfold cls_decorate. rewrite E. reflexivity.
Qed.

Lemma C85_own_pf : forall inst s c n T g st d, declared inst s c n T g st d -> reaches s c n c.
Proof.
  intros inst s c n T g st d H. apply declared_inv in H as (q & A & B & C & D & l & L). exists [], l. split; [exact L|].
  split; [intros x []|]. exists (AProp q). unfold passoc in D. destruct (find _ _) as [[m a]|] eqn:F; [|discriminate].
  apply find_some in F as [F1 F2]. cbn in *. apply String.eqb_eq in F2 as ->. injection D as ->. exact F1.
Qed.

Lemma C85_inherited_pf : forall inst h qual b body s' c n d, let s := prun inst pst0 h in
  (b < length (pclasses s))%nat -> pclass_stmt s qual [b] body = Ok (s', c) -> ~ defines s' c n ->
  (reaches s' c n d <-> reaches s b n d).
Proof.
  intros inst h qual b body s' c n d s L P N. assert (M : mros s) by apply mros_run, mros_init.
  apply class_frame in P as (-> & l & C & E). destruct M as [M0 M]. pose proof (mros_bound s b) as Bd. specialize (Bd) with (1 := conj M0 M) (2 := L).
  destruct (M b L) as (q & Eq & Nq & Lq).
  assert (l = pc_mro (pcget s b)).
  { unfold pc3 in C. cbn [map app] in C. rewrite Eq in *. inversion Nq as [|? ? N1 N2]; subst. destruct (merge_one q N2) as (f & Mf).
    assert (X : merge (S f) [b :: q; [b]] = Some (b :: q)).
    { cbn [merge heads flat_map app]. unfold pick. cbn [heads flat_map app find forallb in_tail].
      assert (Ma : mem b q = false) by now apply mem_false. rewrite Ma. assert (Mn : mem b [] = false) by reflexivity. rewrite Mn.
      cbn [negb andb map strip1]. rewrite Nat.eqb_refl. now rewrite Mf. }
    apply merge_fuel in X. rewrite X in C. now injection C as <-. }
  subst l. assert (Em : pc_mro (pcget s' (length (pclasses s))) = length (pclasses s) :: pc_mro (pcget s b)).
  { unfold pcget at 1. rewrite E, app_nth2, Nat.sub_diag by lia. reflexivity. }
  unfold reaches. rewrite Em. split.
  - intros (l1 & l2 & H1 & H2 & H3). destruct l1 as [|x l1]; cbn [app] in H1; injection H1 as <- H1; [contradiction|].
    exists l1, l2. split; auto.
    assert (Old : forall x, In x (l1 ++ d :: l2) -> (x < length (pclasses s))%nat) by (intros x Hx; rewrite <- H1 in Hx; specialize (Bd x Hx); lia).
    split.
    + intros x Hx D. apply (H2 x); [now right|]. apply (defines_old _ _ _ _ _ E); auto. apply Old, in_app_iff. now left.
    + apply (defines_old _ _ _ _ _ E); auto. apply Old, in_app_iff. right. now left.
  - intros (l1 & l2 & H1 & H2 & H3). exists (length (pclasses s) :: l1), l2. split; [cbn; now rewrite H1|].
    assert (Old : forall x, In x (l1 ++ d :: l2) -> (x < length (pclasses s))%nat) by (intros x Hx; rewrite <- H1 in Hx; specialize (Bd x Hx); lia).
    split.
    + intros x [<-|Hx] D; [contradiction|]. apply (H2 x); auto. apply (defines_old _ _ _ _ _ E) in D; auto. apply Old, in_app_iff. now left.
    + apply (defines_old _ _ _ _ _ E); auto. apply Old, in_app_iff. right. now left.
Qed.

Lemma C85_base_order_pf : forall inst h qual bases body s' c q q1 a q2 b n, let s := prun inst pst0 h in
  (forall x, In x bases -> (x < length (pclasses s))%nat) -> pclass_stmt s qual bases body = Ok (s', c) ->
  q = bases \/ (exists x, In x bases /\ q = pc_mro (pcget s x)) -> q = q1 ++ a :: q2 -> In b q2 -> defines s a n ->
  ~ reaches s' c n b /\ exists d, reaches s' c n d.
Proof.
  intros inst h qual bases body s' c q q1 a q2 b n s V P Q Eq Hb D. assert (M : mros s) by apply mros_run, mros_init.
  apply class_frame in P as (-> & l & C & E).
  assert (Bs : match bases with [] => [0%nat] | _ => bases end = bases).
  { destruct bases; auto. exfalso. destruct Q as [->|(x & [] & _)]. destruct q1; discriminate. }
  rewrite Bs in C. unfold pc3 in C.
  assert (Hq : In q (map (fun b => pc_mro (pcget s b)) bases ++ [bases])).
  { apply in_app_iff. destruct Q as [->|(x & Hx & ->)]; [right; now left|left]. apply in_map_iff. eauto. }
  assert (Lb : forall x, In x q -> (x < length (pclasses s))%nat).
  { destruct Q as [->|(x & Hx & ->)]; auto. intros y Hy. specialize (V x Hx). pose proof (mros_bound s x y M V Hy). lia. }
  assert (Em : pc_mro (pcget s' (length (pclasses s))) = length (pclasses s) :: l).
  { unfold pcget at 1. rewrite E, app_nth2, Nat.sub_diag by lia. reflexivity. }
  assert (Da : defines s' a n).
  { apply (defines_old _ _ _ _ _ E); auto. apply defines_in in D. exact D. }
  split.
  - intros (l1 & l2 & H1 & H2 & H3). rewrite Em in H1. destruct l1 as [|x l1]; cbn [app] in H1; injection H1 as <- H1.
    + assert (X : (length (pclasses s) < length (pclasses s))%nat); [|lia]. apply Lb. rewrite Eq. apply in_app_iff. right. now right.
    + subst q. apply (H2 a); auto. right. exact (merge_order _ _ _ _ _ _ _ C Hq Hb l1 l2 H1).
  - assert (Ia : In a l) by (apply (merge_In _ _ _ C); exists q; split; auto; rewrite Eq; apply in_app_iff; right; now left).
    unfold reaches. rewrite Em. assert (I : In a (length (pclasses s) :: l)) by now right. revert I. generalize (length (pclasses s) :: l). clear -Da.
    assert (Dec : forall x, {defines s' x n} + {~ defines s' x n}).
    { intros x. destruct (passoc n (pc_attrs (pcget s' x))) as [y|] eqn:F.
      - left. unfold passoc in F. destruct (find _ _) as [[m z]|] eqn:G; [|discriminate]. apply find_some in G as [G1 G2]. cbn in G2.
        apply String.eqb_eq in G2 as ->. now exists z.
      - right. intros (y & H). apply (proj1 (assoc_none n _) F y H). }
    induction l as [|x l IH]; [intros []|]. intros I. destruct (Dec x) as [Dx|Dx].
    + exists x, [], l. split; auto.
    + destruct I as [->|I]; [contradiction|]. destruct (IH I) as (d & l1 & l2 & -> & H1 & H2). exists d, (x :: l1), l2.
      split; auto. split; auto. intros y [<-|Hy]; auto.
Qed.

Lemma C85_decorators_pure_pf : forall s p dd q, (q < length (tprops s))%nat ->
  let s' := fst (decorate s p dd) in
  snd (decorate s p dd) <> q /\ tp_get_cls s' q = tp_get_cls s q /\
  (forall o, tp_get_obj s' q o = tp_get_obj s q o /\ tp_del_obj s' q o = tp_del_obj s q o) /\
  forall inst o v, tp_set_obj inst s' q o v = tp_set_obj inst s q o v.
Proof.
  intros s p dd q H. pose proof (decorate_frame s p dd) as F. destruct (decorate s p dd) as [s' r].
  destruct F as (_ & _ & _ & _ & -> & F). cbn [fst snd]. unfold tp_get_cls, tp_get_obj, tp_del_obj, tp_set_obj. rewrite (F q H).
  split; [lia|]. auto.
Qed.

Lemma C85_shared_refuted_pf : ~ (forall inst T f g s1 p s2 a s3 b s4 c o,
  tp_new pst0 T = (s1, p) -> tp_call s1 p (Some f) None None = (s2, a) -> tp_call s2 p (Some g) None None = (s3, b) ->
  pclass_stmt s3 "A" [] [("a", AProp a); ("b", AProp b)]%string = Ok (s4, c) ->
  po_cls (poget (prun inst s4 [OObj c]) o) = c ->
  obj_get (prun inst s4 [OObj c]) o "a" = (Ok (RRet f), [Call f o None])).
Proof.
  intros H. specialize (H ex_inst 7 1 2 _ _ _ _ _ _ _ _ 0 eq_refl eq_refl eq_refl eq_refl eq_refl)%nat. vm_compute in H. discriminate.
Qed.

Lemma C85_assigned_refuted_pf : ~ (forall s T f p s2 c n,
  declare s T (Some f) None None [] = (s2, p) -> (c < length (pclasses s))%nat -> cls_get (cls_set s2 c n (AProp p)) c n = Ok (RType T)).
Proof.
  intros H. specialize (H (match pclass_stmt pst0 "A" [] [] with Ok (s, _) => s | Raise _ => pst0 end) 7 1 _ _ 1 "x" eq_refl)%nat%string.
  vm_compute in H. specialize (H (le_n _)). discriminate.
Qed.

Lemma names_app qual b1 b2 s : fold_left (fun s e => set_name s qual e) (b1 ++ b2) s
  = fold_left (fun s e => set_name s qual e) b2 (fold_left (fun s e => set_name s qual e) b1 s).
Proof. apply fold_left_app. Qed.

Lemma fname_frame qual f body : no_method f body -> forall s, fname (fold_left (fun s e => set_name s qual e) body s) f = fname s f.
Proof.
  induction body as [|[m a] body IH]; intros H s; cbn [fold_left]; auto. rewrite IH by (intros k I; apply (H k); now right).
  unfold set_name, fname; destruct a as [p|f'|v]; cbn; auto. destruct (Nat.eqb_spec f' f) as [->|]; auto.
  exfalso. apply (H m). now left.
Qed.

Lemma step_minv inst c n qual f s o : minv c n qual f s -> keeps_method f o -> keeps c n o -> minv c n qual f (pstep inst s o).
Proof.
  intros (C & D & L) Km Ke. destruct o as [T'|p g' st' d'|p dd|qual' bases body|c' n' a|c' n'|c'|o m v|o m]; cbn [pstep].
  - unfold minv; cbn. auto.
  - destruct (Nat.ltb_spec p (length (tprops s))); unfold minv; cbn; auto.
  - destruct (Nat.ltb_spec p (length (tprops s))); [|unfold minv; auto]. pose proof (decorate_frame s p dd) as F.
    destruct (decorate s p dd) as [s' r]. destruct F as (F1 & F2 & F3 & F4 & F5 & F6). unfold minv, pcget, fname; cbn [fst].
    rewrite F1, F3. auto.
  - destruct (_ && _ && _); [|unfold minv; auto]. unfold pclass_stmt.
    destruct (pc3 s _) as [m|]; [|unfold minv; auto]. set (s1 := PS _ _ _ _). pose proof (set_names_frame qual' body s1) as (F1 & F2 & F3).
    unfold minv. rewrite fname_frame by exact Km. unfold pcget in *. rewrite F1. subst s1. cbn [pclasses]. rewrite app_length, app_nth1 by auto.
    repeat (split; [auto; cbn; lia|]). exact L.
  - destruct (_ && _ && _) eqn:E; [|unfold minv; auto]. unfold minv, cls_set, put_class, pcget; cbn. rewrite set_nth_length.
    split; auto. split; auto. cbn in Ke. destruct (Nat.eq_dec c' c) as [->|N].
    + rewrite set_nth_same by auto. cbn. assert (n' <> n) by (intros ->; tauto). rewrite assoc_cons_other, assoc_remove by auto. exact D.
    + rewrite set_nth_other by auto. exact D.
  - destruct (_ && _) eqn:E; [|unfold minv; auto]. unfold minv, cls_del, put_class, pcget; cbn. rewrite set_nth_length.
    split; auto. split; auto. cbn in Ke. destruct (Nat.eq_dec c' c) as [->|N].
    + rewrite set_nth_same by auto. cbn. assert (n' <> n) by (intros ->; tauto). rewrite assoc_remove by auto. exact D.
    + rewrite set_nth_other by auto. exact D.
  - destruct (Nat.ltb c' _); unfold minv; auto.
  - destruct (Nat.ltb o _); [|unfold minv; auto]. unfold obj_set. destruct (plookup _ _ _) as [[| |]|]; unfold minv; cbn; auto.
  - destruct (Nat.ltb o _); [|unfold minv; auto]. unfold obj_del. destruct (plookup _ _ _) as [[| |]|]; try destruct (passoc m _); unfold minv; cbn; auto.
Qed.

Lemma method_inv inst s c n qual f : method_of inst s c n qual f -> minv c n qual f s.
Proof.
  intros H. destruct H as [h h' qual bases b1 n f b2 s3 c N M P Km Ke].
  assert (I : minv c n qual f s3).
  { unfold pclass_stmt in P. destruct (pc3 _ _) as [l|]; [|discriminate]. injection P as P <-.
    set (s1 := PS _ _ _ _) in P. pose proof (set_names_frame qual (b1 ++ (n, AMeth f) :: b2) s1) as (F1 & F2 & F3). rewrite P in *.
    unfold minv, pcget. rewrite F1. split; [subst s1; cbn; rewrite app_length; cbn; lia|].
    split. { subst s1; cbn. rewrite app_nth2, Nat.sub_diag by lia. cbn. apply assoc_in; auto. apply in_or_app. right. now left. }
    rewrite <- P, names_app. cbn [fold_left]. rewrite fname_frame by (intros k J; apply (M k), in_or_app; now right).
    unfold fname. cbn. now rewrite Nat.eqb_refl. }
  clear P N M. revert s3 I. induction h' as [|o h' IH]; intros s3 I; [exact I|]. inversion Km; inversion Ke; subst. apply IH; auto. now apply step_minv.
Qed.

Lemma C86_method_partial_pf : forall inst s c n qual f x o,
  method_of inst s c n qual f -> reaches s x n c -> po_cls (poget s o) = x -> (forall v, ~ In (n, v) (po_dict (poget s o))) ->
  cls_get s x n = Ok (RFun f) /\ obj_get s o n = (Ok (RBound f o), []) /\ fname s f = Some (n, (qual ++ "." ++ n)%string).
Proof.
  intros inst s c n qual f x o H (l1 & l2 & L & N & _) O D. apply method_inv in H as (A & B & E).
  assert (P : plookup s x n = Some (AMeth f)) by (unfold plookup; rewrite L, find_reach; auto; congruence).
  unfold cls_get, obj_get. rewrite O, P. apply assoc_none in D. rewrite D. auto.
Qed.

Lemma C86_alias_refuted_pf : ~ (forall s qual n m f s' c,
  n <> m -> pclass_stmt s qual [] [(n, AMeth f); (m, AMeth f)] = Ok (s', c) -> fname s' f = Some (n, (qual ++ "." ++ n)%string)).
Proof.
  intros H. specialize (H pst0 "A" "x" "y" 1%nat _ _ ltac:(discriminate) eq_refl)%string. vm_compute in H. discriminate.
Qed.
