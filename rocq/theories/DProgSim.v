(** The runs of one program over algebraic data types on classes, with symbolic and with concrete vectors, in step. *)
From Coq Require Import Lia ZifyBool.
From Verif Require Import PyBase BVModel BVFacts OpModel SMTTerm SMTModel SMTSpec SMTFacts SMTProofs Z3Model Z3Spec Z3Proofs ProgModel ProgFacts MProgModel MProgSpec MProgProofs ADTTy ADTTyFacts ADTModel ADTSpec ADTFacts AliasModel AliasSpec AliasFacts DProgModel DProgSpec DProgFacts.
From Verif Require BVSpec ProgSpec.

Definition osym (f : Z) (k : gobj ProgSpec.ty) (s : gobj sval) : Prop :=
  match k, s with
  | GLeaf t, GLeaf v => ProgSpec.sym_has v t
  | GNode t sh, GNode t' sh' => t' = ty_fam f t /\ sh' = sh /\ pure t = true
  | _, _ => False
  end.
Definition sinv (f : Z) (hk : list (gobj ProgSpec.ty)) (hs : list (gobj sval)) : Prop := Forall2 (osym f) hk hs.
Definition cref (n : nat) (g : nat -> nat) (a b : nat) : Prop := (a < n)%nat /\ b = g a.
Definition o3 (e : env) (n : nat) (g : nat -> nat) (k : option (gobj ProgSpec.ty)) (s : option (gobj sval)) (c : option (gobj pyval)) : Prop :=
  match k, s, c with
  | Some (GLeaf t), Some (GLeaf v), Some (GLeaf w) => w = vmeaning e v /\ ProgSpec.sym_has v t
  | Some (GNode t sh), Some (GNode _ _), Some (GNode t' sh') => t' = t /\ srel (cref n g) sh sh'
  | _, _, _ => False
  end.
Definition is_leaf (h : list (gobj ProgSpec.ty)) (o : nat) : Prop := exists t, nth_error h o = Some (GLeaf t).
Definition crel (e : env) (g : nat -> nat) (hk : list (gobj ProgSpec.ty)) (hs : list (gobj sval)) (hc : list (gobj pyval)) (fx : list nat) : Prop :=
  (forall o, (o < length hk)%nat -> o3 e (length hk) g (nth_error hk o) (nth_error hs o) (nth_error hc (g o))) /\
  (forall o o', (o < length hk)%nat -> (o' < length hk)%nat -> g o = g o' -> o = o' \/ (In o fx /\ In o' fx)) /\
  Forall (is_leaf hk) fx.
Definition vrel (g : nat -> nat) (n : nat) (rk rc : list nat) : Prop := Forall (fun o => (o < n)%nat) rk /\ rc = map g rk.

Lemma sinv_len f hk hs : sinv f hk hs -> length hk = length hs.
Proof. apply Forall2_len. Qed.
Lemma gtype_sym f hk hs : sinv f hk hs -> forall r, gtype (sym_cls f) hs r = ty_fam f (gtype class_of hk r).
Proof.
  intros S r. unfold gtype. pose proof (Forall2_nth _ _ _ S r) as N. destruct (nth_error hk r) as [[t|t s]|], (nth_error hs r) as [[v|t' s']|]; try contradiction; cbn [osym] in N; auto.
  - destruct v, t; cbn in N; try contradiction; cbn; auto. now destruct N as [<- _].
  - now destruct N as (-> & _).
Qed.
Lemma gtype_pure f hk hs : sinv f hk hs -> forall r, pure (gtype class_of hk r) = true.
Proof.
  intros S r. unfold gtype. pose proof (Forall2_nth _ _ _ S r) as N. destruct (nth_error hk r) as [[t|t s]|], (nth_error hs r) as [[v|t' s']|]; try contradiction; cbn [osym] in N; auto.
  - destruct t; reflexivity.
  - now destruct N as (_ & _ & P).
Qed.
Lemma gtype_conc e g hk hs hc fx : crel e g hk hs hc fx -> forall a b, cref (length hk) g a b -> gtype class_of hk a = gtype conc_cls hc b.
Proof.
  intros (A & _) a b [L ->]. specialize (A a L). unfold gtype. unfold o3 in A. destruct (nth_error hk a) as [[t|t s]|], (nth_error hs a) as [[v|t' s']|], (nth_error hc (g a)) as [[w|t'' s'']|]; try contradiction; auto.
  - destruct A as [-> A]. destruct v, t; cbn in A; try contradiction; cbn; auto. now destruct A as [<- _].
  - now destruct A as [-> _].
Qed.
Lemma var_ok g n rk rc : vrel g n rk rc -> forall x, rrel (cref n g) (var rk x) (var rc x).
Proof.
  intros [F ->] x. unfold var. rewrite nth_error_map. destruct (nth_error rk x) eqn:E; cbn; auto. apply nth_error_In in E. split; auto. exact (Forall_In _ _ _ F E).
Qed.
Lemma mapM_rel {A B C D} (P : A -> B -> Prop) (Q : C -> D -> Prop) (f : A -> res C) (g : B -> res D) : (forall a b, P a b -> rrel Q (f a) (g b)) ->
  forall l m, Forall2 P l m -> rrel (Forall2 Q) (mapM f l) (mapM g m).
Proof.
  intros HF. induction 1 as [|a b l m E F IH]; cbn [mapM]; [constructor|]. specialize (HF a b E). destruct (f a), (g b); cbn [rrel bind] in *; try contradiction; auto.
  destruct (mapM f l), (mapM g m); cbn [rrel bind] in *; try contradiction; auto.
Qed.
Lemma Forall2_eq {A} (l : list A) : Forall2 eq l l.
Proof. induction l; constructor; auto. Qed.
Lemma vars_ok g n rk rc : vrel g n rk rc -> forall xs, rrel (Forall2 (cref n g)) (mapM (var rk) xs) (mapM (var rc) xs).
Proof. intros V xs. apply (mapM_rel eq); [|apply Forall2_eq]. intros a b ->. now apply var_ok. Qed.
Lemma kwvars_ok g n rk rc : vrel g n rk rc -> forall xs, rrel (Forall2 (krel (cref n g))) (mapM (kwvar rk) xs) (mapM (kwvar rc) xs).
Proof.
  intros V xs. apply (mapM_rel eq); [|apply Forall2_eq]. intros a b ->. unfold kwvar. pose proof (var_ok _ _ _ _ V (snd b)) as Q. destruct (var rk (snd b)), (var rc (snd b)); cbn [rrel bind] in *; try contradiction; auto. split; auto.
Qed.
Lemma leaf_sym f hk hs : sinv f hk hs -> forall o, rrel (fun t v => ProgSpec.sym_has v t) (leaf_at hk o) (leaf_at hs o).
Proof.
  intros S r. unfold leaf_at. pose proof (Forall2_nth _ _ _ S r) as N. destruct (nth_error hk r) as [[t|t s]|], (nth_error hs r) as [[v|t' s']|]; try contradiction; cbn [osym rrel] in *; auto.
Qed.
Lemma leaf_conc e g hk hs hc fx : crel e g hk hs hc fx -> forall a b, cref (length hk) g a b -> rrel (fun v w => w = vmeaning e v) (leaf_at hs a) (leaf_at hc b).
Proof.
  intros (A & _) a b [L ->]. specialize (A a L). unfold leaf_at. unfold o3 in A. destruct (nth_error hk a) as [[t|t s]|], (nth_error hs a) as [[v|t' s']|], (nth_error hc (g a)) as [[w|t'' s'']|]; try contradiction; cbn [rrel]; auto.
  now destruct A as [-> _].
Qed.
Lemma node_sym f hk hs : sinv f hk hs -> forall o, rrel (fun n n' => n' = (ty_fam f (fst n), snd n) /\ pure (fst n) = true) (node_at hk o) (node_at hs o).
Proof.
  intros S r. unfold node_at. pose proof (Forall2_nth _ _ _ S r) as N. destruct (nth_error hk r) as [[t|t s]|], (nth_error hs r) as [[v|t' s']|]; try contradiction; cbn [osym rrel fst snd] in *; auto.
  destruct N as (-> & -> & P). auto.
Qed.
Lemma node_conc e g hk hs hc fx : crel e g hk hs hc fx -> forall a b, cref (length hk) g a b ->
  rrel (fun n n' => fst n' = fst n /\ srel (cref (length hk) g) (snd n) (snd n')) (node_at hk a) (node_at hc b).
Proof.
  intros (A & _) a b [L ->]. specialize (A a L). unfold node_at. unfold o3 in A. destruct (nth_error hk a) as [[t|t s]|], (nth_error hs a) as [[v|t' s']|], (nth_error hc (g a)) as [[w|t'' s'']|]; try contradiction; cbn [rrel fst snd]; auto.
Qed.
Lemma srel_weaken {X Y} (P Q : X -> Y -> Prop) s s' : (forall a b, P a b -> Q a b) -> srel P s s' -> srel Q s s'.
Proof.
  intros W. destruct s, s'; cbn [srel]; try contradiction; auto.
  - intros [-> F]. split; auto. induction F; auto.
  - intros [-> F]. auto.
Qed.
Lemma o3_weaken e n g n' g' k s c : (forall a, (a < n)%nat -> (a < n')%nat /\ g' a = g a) -> o3 e n g k s c -> o3 e n' g' k s c.
Proof.
  intros W. unfold o3. destruct k as [[t|t sh]|], s as [[v|t' sh']|], c as [[w|t'' sh'']|]; try contradiction; auto. intros [-> Q]. split; auto.
  eapply srel_weaken; [|exact Q]. intros a b [L ->]. destruct (W a L) as [L' E]. split; auto.
Qed.
Lemma is_leaf_app h l o : is_leaf h o -> is_leaf (h ++ l) o.
Proof. intros [t E]. exists t. now apply app_keeps. Qed.
Lemma crel_more e g hk hs hc fx fx' : crel e g hk hs hc fx -> incl fx fx' -> Forall (is_leaf hk) fx' -> crel e g hk hs hc fx'.
Proof. intros (A & B & C) I F. split; auto. split; auto. intros o o' L L' E. destruct (B o o' L L' E) as [|[X Y]]; auto. Qed.
Lemma g_live e g hk hs hc fx o : crel e g hk hs hc fx -> (o < length hk)%nat -> (g o < length hc)%nat.
Proof.
  intros (A & _) L. specialize (A o L). apply nth_error_Some. unfold o3 in A. destruct (nth_error hk o) as [[|]|], (nth_error hs o) as [[|]|], (nth_error hc (g o)) as [[|]|]; try contradiction; discriminate.
Qed.
Definition grown (n m : nat) (g : nat -> nat) (o : nat) : nat := if Nat.ltb o n then g o else (m + (o - n))%nat.
Lemma grown_old n m g a : (a < n)%nat -> grown n m g a = g a.
Proof. intros L. unfold grown. destruct (Nat.ltb_spec a n); [reflexivity|lia]. Qed.
Lemma grown_seq n m g l : map (grown n m g) (seq n l) = seq m l.
Proof.
  transitivity (map (fun q => (m + (q - n))%nat) (seq n l)).
  - apply map_ext_in. intros q Hq. apply in_seq in Hq. unfold grown. destruct (Nat.ltb_spec q n); [lia|reflexivity].
  - symmetry. revert n m. clear. induction l as [|l IH]; intros n m; cbn [seq map]; [reflexivity|]. f_equal; [lia|]. rewrite (IH (Datatypes.S n) (Datatypes.S m)). apply map_ext_in. intros q Hq. apply in_seq in Hq. lia.
Qed.
Lemma grow_fresh e g hk hs hc fx ks ss cs : crel e g hk hs hc fx -> length hs = length hk -> length ss = length ks -> length cs = length ks ->
  (forall j, (j < length ks)%nat -> o3 e (length hk) g (nth_error ks j) (nth_error ss j) (nth_error cs j)) ->
  crel e (grown (length hk) (length hc) g) (hk ++ ks) (hs ++ ss) (hc ++ cs) fx.
Proof.
  intros M Ls L1 L2 N. pose proof M as (A & B & C).
  assert (W : forall a, (a < length hk)%nat -> (a < length (hk ++ ks))%nat /\ grown (length hk) (length hc) g a = g a) by (intros a La; split; [rewrite app_length; lia|now apply grown_old]).
  split; [|split].
  - intros o Lo. rewrite app_length in Lo. eapply o3_weaken; [exact W|]. destruct (Nat.ltb_spec o (length hk)) as [Q|Q].
    + rewrite grown_old by exact Q. rewrite (nth_error_app1 hk), (nth_error_app1 hs), (nth_error_app1 hc) by (try lia; eapply g_live; eauto). now apply A.
    + unfold grown. destruct (Nat.ltb_spec o (length hk)); [lia|]. rewrite !nth_error_app2 by lia. rewrite Ls. replace (length hc + (o - length hk) - length hc)%nat with (o - length hk)%nat by lia. apply N. lia.
  - intros o o' Lo Lo'. rewrite app_length in Lo, Lo'. unfold grown. destruct (Nat.ltb_spec o (length hk)) as [Q|Q], (Nat.ltb_spec o' (length hk)) as [Q'|Q']; intros E; auto.
    + pose proof (g_live _ _ _ _ _ _ o M Q). lia.
    + pose proof (g_live _ _ _ _ _ _ o' M Q'). lia.
    + left. lia.
  - eapply Forall_impl; [|exact C]. intros o. apply is_leaf_app.
Qed.
Definition aliased (n o : nat) (g : nat -> nat) (q : nat) : nat := if Nat.eqb q n then g o else g q.
Lemma grow_alias e g hk hs hc fx o t v : crel e g hk hs hc fx -> length hs = length hk -> (o < length hk)%nat -> o3 e (length hk) g (Some (GLeaf t)) (Some (GLeaf v)) (nth_error hc (g o)) -> is_leaf hk o ->
  crel e (aliased (length hk) o g) (hk ++ [GLeaf t]) (hs ++ [GLeaf v]) hc (o :: length hk :: fx).
Proof.
  intros M Ls L N Lf. pose proof M as (A & B & C).
  assert (O : forall a, (a < length hk)%nat -> aliased (length hk) o g a = g a) by (intros a La; unfold aliased; destruct (Nat.eqb_spec a (length hk)); [lia|reflexivity]).
  assert (W : forall a, (a < length hk)%nat -> (a < length (hk ++ [GLeaf t]))%nat /\ aliased (length hk) o g a = g a) by (intros a La; split; [rewrite app_length; lia|now apply O]).
  split; [|split].
  - intros q Lq. rewrite app_length in Lq. cbn [length] in Lq. eapply o3_weaken; [exact W|]. unfold aliased. destruct (Nat.eqb_spec q (length hk)) as [->|Q].
    + rewrite !nth_error_app2 by lia. rewrite Ls, Nat.sub_diag. exact N.
    + rewrite !nth_error_app1 by lia. apply A. lia.
  - intros q q' Lq Lq'. rewrite app_length in Lq, Lq'. cbn [length] in Lq, Lq'. unfold aliased. destruct (Nat.eqb_spec q (length hk)) as [->|Q], (Nat.eqb_spec q' (length hk)) as [->|Q']; intros E; auto.
    + right. split; [right; now left|]. destruct (B o q') as [<-|[_ X]]; auto; try lia; [now left|right; now right].
    + right. split; [|right; now left]. destruct (B q o) as [->|[X _]]; auto; try lia; [now left|right; now right].
    + destruct (B q q') as [|[X X']]; auto; try lia. right. split; right; now right.
  - constructor; [now apply is_leaf_app|]. constructor; [exists t; rewrite nth_error_app2, Nat.sub_diag by lia; reflexivity|]. eapply Forall_impl; [|exact C]. intros q. apply is_leaf_app.
Qed.
Lemma is_leaf_update h o o' (x : gobj ProgSpec.ty) : is_leaf h o' -> (forall t s, x = GNode t s -> ~ is_leaf h o) -> is_leaf (update o x h) o'.
Proof.
  intros [t E] N. unfold is_leaf. rewrite update_nth. destruct (Nat.eqb_spec o o') as [<-|Q]; [|eauto]. rewrite E. destruct x as [u|u s]; [eauto|]. exfalso. apply (N u s eq_refl). now exists t.
Qed.
Lemma update_leaf e g hk hs hc fx o t v : crel e g hk hs hc fx -> length hs = length hk -> (o < length hk)%nat -> ~ In o fx -> ProgSpec.sym_has v t ->
  crel e g (update o (GLeaf t) hk) (update o (GLeaf v) hs) (update (g o) (GLeaf (vmeaning e v)) hc) fx.
Proof.
  intros M Ls L N Hv. pose proof M as (A & B & C). split; [|split].
  - intros q Lq. rewrite update_length in *. rewrite !update_nth. destruct (Nat.eqb_spec o q) as [<-|Q].
    + rewrite Nat.eqb_refl. specialize (A o L). unfold o3 in *. destruct (nth_error hk o) as [[|]|], (nth_error hs o) as [[|]|], (nth_error hc (g o)) as [[|]|]; try contradiction; auto.
    + destruct (Nat.eqb_spec (g o) (g q)) as [E|]; [|now apply A]. destruct (B o q L Lq E) as [|[X _]]; contradiction.
  - rewrite update_length. exact B.
  - eapply Forall_impl; [|exact C]. intros q Hq. apply is_leaf_update; auto. discriminate.
Qed.
Lemma update_node e g hk hs hc fx o t s s' t0 s0 v0 : crel e g hk hs hc fx -> length hs = length hk -> nth_error hk o = Some (GNode t0 s0) -> srel (cref (length hk) g) s s' ->
  crel e g (update o (GNode t s) hk) (update o (GNode v0 s) hs) (update (g o) (GNode t s') hc) fx.
Proof.
  intros M Ls Eo Hv. pose proof M as (A & B & C). assert (L : (o < length hk)%nat) by (apply nth_error_Some; congruence).
  assert (Nl : ~ is_leaf hk o) by (intros [u E]; congruence).
  split; [|split].
  - intros q Lq. rewrite update_length in *. rewrite !update_nth. destruct (Nat.eqb_spec o q) as [<-|Q].
    + rewrite Nat.eqb_refl. specialize (A o L). rewrite Eo in *. unfold o3 in *. destruct (nth_error hs o) as [[|]|], (nth_error hc (g o)) as [[|]|]; try contradiction; auto.
    + destruct (Nat.eqb_spec (g o) (g q)) as [E|]; [|now apply A]. destruct (B o q L Lq E) as [|[X _]]; [contradiction|]. exfalso. apply Nl. exact (Forall_In _ _ _ C X).
  - rewrite update_length. exact B.
  - eapply Forall_impl; [|exact C]. intros q Hq. apply is_leaf_update; auto.
Qed.
Lemma sinv_update f hk hs o k s : sinv f hk hs -> osym f k s -> sinv f (update o k hk) (update o s hs).
Proof. intros F Q. revert o. induction F as [|a b hk hs E F IH]; intros [|o]; cbn [update]; constructor; auto. apply IH. Qed.
Lemma vrel_app g g' n n' rk rc k : vrel g n rk rc -> (forall a, (a < n)%nat -> (a < n')%nat /\ g' a = g a) -> (k < n')%nat -> vrel g' n' (rk ++ [k]) (rc ++ [g' k]).
Proof.
  intros [F ->] W K. split.
  - apply Forall_app. split; auto. eapply Forall_impl; [|exact F]. cbn. intros a La. now apply W.
  - rewrite map_app. f_equal. apply map_ext_in. intros a Ha. symmetry. apply W. exact (Forall_In _ _ _ F Ha).
Qed.
Lemma vrel_push g n rk rc a b : vrel g n rk rc -> cref n g a b -> vrel g n (rk ++ [a]) (rc ++ [b]).
Proof. intros V [L ->]. eapply vrel_app; eauto. Qed.
Lemma vrel_seq g n m rk rc l : vrel g n rk rc -> vrel (grown n m g) (n + l) (rk ++ seq n l) (rc ++ seq m l).
Proof.
  intros [F ->]. split.
  - apply Forall_app. split; [eapply Forall_impl; [|exact F]; cbn; lia|]. apply Forall_forall. intros o Ho. apply in_seq in Ho. lia.
  - rewrite map_app, grown_seq. f_equal. apply map_ext_in. intros a Ha. symmetry. apply grown_old. exact (Forall_In _ _ _ F Ha).
Qed.
Lemma var_mapM rs args os : mapM (var rs) args = Ok os -> forall k, var os k = (x <- var args k ;; var rs x).
Proof.
  revert os. induction args as [|a args IH]; intros os; cbn [mapM]; [intros [= <-] [|k]; reflexivity|]. destruct (var rs a) as [o|] eqn:E; cbn [bind]; [|discriminate].
  destruct (mapM (var rs) args) as [os'|]; cbn [bind]; [|discriminate]. intros [= <-] [|k]; cbn; [congruence|]. apply (IH os' eq_refl k).
Qed.
Lemma mapM_nth {A B} (f : A -> res B) l m : mapM f l = Ok m -> forall i a, nth_error l i = Some a -> exists b, f a = Ok b /\ nth_error m i = Some b.
Proof.
  revert m. induction l as [|x l IH]; intros m; cbn [mapM]; [intros _ [|i]; discriminate|]. destruct (f x) as [y|] eqn:E; cbn [bind]; [|discriminate].
  destruct (mapM f l) as [ys|]; cbn [bind]; [|discriminate]. intros [= <-] [|i] a; cbn [nth_error]; [intros [= <-]; eauto|]. now apply IH.
Qed.
Lemma dividend_one ts i us k : ProgSpec.check1 ts i = Some us -> dividend i = Some k -> exists c, us = [ProgSpec.TVec c] \/ us = [ProgSpec.TBit].
Proof.
  destruct i; cbn [dividend]; try discriminate; intros E D.
  - destruct m; try discriminate. cbn [ProgSpec.check1] in E. destruct (ProgSpec.tvec ts x) as [c|]; [|discriminate]. cbn [ProgSpec.obind] in E. apply guard_some in E as [_ <-]. exists c. now left.
  - destruct op; try discriminate. cbn [ProgSpec.check1] in E. destruct (nth_error ts x) as [[c|]|]; [| |discriminate]; apply guard_some in E as [_ <-]; [exists c; now left|exists (BVC KBV 1); now right].
Qed.
Lemma Forall2_flip' {A B} (P : A -> B -> Prop) l m : Forall2 (fun a b => P b a) l m -> Forall2 P m l.
Proof. induction 1; constructor; auto. Qed.
Lemma F2_meaning e vs ws : Forall2 (fun v w => w = vmeaning e v) vs ws -> ws = map (vmeaning e) vs.
Proof. induction 1; cbn; congruence. Qed.
Section Sim.
Variables (H : Z -> Z -> bool) (f : Z) (lc : (nat -> res sval) -> (operand -> res sval) -> instr -> res (list sval)) (st : sval -> Z -> sval -> res sval).
Hypotheses (SIM : simulates lc) (SET : set_ok st).
Definition sstep : dstate -> dinstr -> res dstate :=
  dstep H (ty_fam f) (sym_cls f) (fun vs => lc (reg vs) (opnd SInt vs)) (fun vs => new_only (reg vs) (opnd SInt vs)) (fun vs i b => v <- reg vs 0 ;; w <- opnd SInt vs b ;; st v i w).
Definition cstep : dstate -> dinstr -> res dstate :=
  dstep H (fun t => t) conc_cls (fun vs => conc_call (reg vs) (opnd VInt vs)) (fun vs => conc_self (reg vs) (opnd VInt vs)) (fun vs i b => v <- reg vs 0 ;; w <- opnd VInt vs b ;; conc_set v i w).
Definition goal (hk : list (gobj ProgSpec.ty)) (hs : list (gobj sval)) (rk : list nat) (fx fx' : list nat) (k : res dstate) (s : res dstate) (c : list (gobj pyval) -> list nat -> res dstate) : Prop :=
  match k with
  | Ok (hk', rk') => exists hs', s = Ok (hs', rk') /\ sinv f hk' hs' /\
      forall e g hc rc, crel e g hk hs hc fx -> vrel g (length hk) rk rc -> exists g' hc' rc', c hc rc = Ok (hc', rc') /\ crel e g' hk' hs' hc' fx' /\ vrel g' (length hk') rk' rc'
  | Raise x => x = EOutOfModel \/ (s = Raise x /\ forall e g hc rc, crel e g hk hs hc fx -> vrel g (length hk) rk rc -> c hc rc = Raise x)
  end.
Ltac fails := right; split; [reflexivity|]; intros e g hc rc M V.
(** y = a component of the object of x, or an alias. *)
Lemma pick_sim hk hs rk fx (k : res nat) (c : list (gobj pyval) -> list nat -> res nat) : sinv f hk hs ->
  (forall e g hc rc, crel e g hk hs hc fx -> vrel g (length hk) rk rc -> rrel (cref (length hk) g) k (c hc rc)) ->
  goal hk hs rk fx fx (r <- k ;; Ok (hk, rk ++ [r])) (r <- k ;; Ok (hs, rk ++ [r])) (fun hc rc => r <- c hc rc ;; Ok (hc, rc ++ [r])).
Proof.
  intros S C. destruct k as [r|x]; cbn [bind goal].
  - exists hs. split; auto. split; auto. intros e g hc rc M V. specialize (C e g hc rc M V). destruct (c hc rc) as [b|]; cbn [rrel bind] in *; [|contradiction]. exists g, hc, (rc ++ [b]). split; auto. split; auto. now apply vrel_push.
  - fails. specialize (C e g hc rc M V). destruct (c hc rc); cbn [rrel bind] in *; [contradiction|now subst].
Qed.
(** y = a new instance. *)
Lemma new_sim hk hs rk fx t (k : res (shape nat)) (c : list (gobj pyval) -> list nat -> res (shape nat)) : sinv f hk hs -> pure t = true ->
  (forall e g hc rc, crel e g hk hs hc fx -> vrel g (length hk) rk rc -> rrel (srel (cref (length hk) g)) k (c hc rc)) ->
  goal hk hs rk fx fx (s <- k ;; Ok (hk ++ [GNode t s], rk ++ [length hk])) (s <- k ;; Ok (hs ++ [GNode (ty_fam f t) s], rk ++ [length hs]))
    (fun hc rc => s <- c hc rc ;; Ok (hc ++ [GNode t s], rc ++ [length hc])).
Proof.
  intros S P C. pose proof (sinv_len _ _ _ S) as Ls. destruct k as [s|x]; cbn [bind goal].
  - exists (hs ++ [GNode (ty_fam f t) s]). rewrite <- Ls. split; auto. split; [apply Forall2_app; auto; constructor; [cbn; auto|constructor]|].
    intros e g hc rc M V. specialize (C e g hc rc M V). destruct (c hc rc) as [s'|]; cbn [rrel bind] in *; [|contradiction].
    exists (grown (length hk) (length hc) g), (hc ++ [GNode t s']), (rc ++ [length hc]). split; auto. split.
    + apply grow_fresh; auto. cbn [length]. intros [|j] Lj; [|lia]. cbn. auto.
    + rewrite app_length. cbn [length]. apply (vrel_seq g (length hk) (length hc) rk rc 1 V).
  - fails. specialize (C e g hc rc M V). destruct (c hc rc); cbn [rrel bind] in *; [contradiction|now subst].
Qed.
(** Assignment to a component of the object o. *)
Lemma store_sim hk hs rk fx o t s0 (k : res (shape nat)) (c : (nat -> nat) -> list (gobj pyval) -> list nat -> res (shape nat)) (c' : list (gobj pyval) -> list nat -> res dstate) : sinv f hk hs -> nth_error hk o = Some (GNode t s0) -> pure t = true ->
  (forall e g hc rc, crel e g hk hs hc fx -> vrel g (length hk) rk rc -> rrel (srel (cref (length hk) g)) k (c g hc rc) /\ c' hc rc = (s <- c g hc rc ;; Ok (update (g o) (GNode t s) hc, rc))) ->
  goal hk hs rk fx fx (s <- k ;; Ok (update o (GNode t s) hk, rk)) (s <- k ;; Ok (update o (GNode (ty_fam f t) s) hs, rk)) c'.
Proof.
  intros S Eo P C. pose proof (sinv_len _ _ _ S) as Ls. destruct k as [s|x]; cbn [bind goal].
  - exists (update o (GNode (ty_fam f t) s) hs). split; auto. split; [apply sinv_update; [exact S|cbn; auto]|].
    intros e g hc rc M V. specialize (C e g hc rc M V) as [C ->]. destruct (c g hc rc) as [s'|]; cbn [rrel bind] in *; [|contradiction].
    exists g, (update (g o) (GNode t s') hc), rc. split; auto. split; [eapply update_node; eauto|now rewrite update_length].
  - fails. specialize (C e g hc rc M V) as [C ->]. destruct (c g hc rc); cbn [rrel bind] in *; [contradiction|now subst].
Qed.
Lemma goal_raise hk hs rk fx fx' x c : (forall e g hc rc, crel e g hk hs hc fx -> vrel g (length hk) rk rc -> c hc rc = Raise x) -> goal hk hs rk fx fx' (Raise x) (Raise x) c.
Proof. intros C. right. auto. Qed.
Lemma goal_ext hk hs rk fx fx' k s c c' : (forall e g hc rc, crel e g hk hs hc fx -> vrel g (length hk) rk rc -> c hc rc = c' hc rc) -> goal hk hs rk fx fx' k s c' -> goal hk hs rk fx fx' k s c.
Proof.
  intros E. unfold goal. destruct k as [[hk' rk']|x].
  - intros (hs' & A & B & C). exists hs'. split; auto. split; auto. intros e g hc rc M V. rewrite (E e g hc rc M V). eauto.
  - intros [->|[A C]]; [now left|]. right. split; auto. intros e g hc rc M V. rewrite (E e g hc rc M V). eauto.
Qed.
(** Operations on the instance x refers to. *)
Lemma node_sim hk hs rk fx fx' x (k s : nat -> ty * shape nat -> res dstate) (c : nat -> ty * shape nat -> list (gobj pyval) -> list nat -> res dstate) : sinv f hk hs ->
  (forall o t sh, var rk x = Ok o -> nth_error hk o = Some (GNode t sh) -> pure t = true ->
    (forall e g hc rc, crel e g hk hs hc fx -> vrel g (length hk) rk rc -> var rc x = Ok (g o) /\ exists sh', node_at hc (g o) = Ok (t, sh') /\ srel (cref (length hk) g) sh sh') ->
    goal hk hs rk fx fx' (k o (t, sh)) (s o (ty_fam f t, sh)) (fun hc rc => o <- var rc x ;; n <- node_at hc o ;; c o n hc rc)) ->
  goal hk hs rk fx fx' (o <- var rk x ;; n <- node_at hk o ;; k o n) (o <- var rk x ;; n <- node_at hs o ;; s o n) (fun hc rc => o <- var rc x ;; n <- node_at hc o ;; c o n hc rc).
Proof.
  intros S C. destruct (var rk x) as [o|y] eqn:E; cbn [bind].
  - assert (Q : forall g rc, vrel g (length hk) rk rc -> cref (length hk) g o (g o) /\ var rc x = Ok (g o)).
    { intros g rc V. pose proof (var_ok _ _ _ _ V x) as Q. rewrite E in Q. destruct (var rc x) as [b|]; cbn [rrel] in Q; [|contradiction]. destruct Q as [L ->]. repeat split; auto. }
    pose proof (node_sym _ _ _ S o) as N. destruct (node_at hk o) as [[t sh]|y] eqn:En; destruct (node_at hs o) as [n'|y']; cbn [rrel] in N; try contradiction; cbn [bind].
    + destruct N as [-> P]. cbn [fst snd] in *. assert (Eo : nth_error hk o = Some (GNode t sh)) by (unfold node_at in En; destruct (nth_error hk o) as [[|]|]; congruence).
      apply C; auto. intros e g hc rc M V. destruct (Q g rc V) as [R ->]. split; auto. pose proof (node_conc _ _ _ _ _ _ M o (g o) R) as W. rewrite En in W.
      destruct (node_at hc (g o)) as [[t' sh']|]; cbn [rrel fst snd] in W; [|contradiction]. destruct W as [-> W]. eauto.
    + subst y'. apply goal_raise. intros e g hc rc M V. destruct (Q g rc V) as [R ->]. cbn [bind]. pose proof (node_conc _ _ _ _ _ _ M o (g o) R) as W. rewrite En in W.
      destruct (node_at hc (g o)); cbn [rrel bind] in *; [contradiction|now subst].
  - apply goal_raise. intros e g hc rc M V. pose proof (var_ok _ _ _ _ V x) as Q. rewrite E in Q. destruct (var rc x); cbn [rrel bind] in *; [contradiction|now subst].
Qed.
Lemma get_sim hk hs rk fx x (k : ty * shape nat -> res nat) (s : ty * shape nat -> res nat) (c : ty * shape nat -> list (gobj pyval) -> res nat) : sinv f hk hs ->
  (forall t sh, pure t = true -> s (ty_fam f t, sh) = k (t, sh)) ->
  (forall e g hc t sh sh', crel e g hk hs hc fx -> srel (cref (length hk) g) sh sh' -> rrel (cref (length hk) g) (k (t, sh)) (c (t, sh') hc)) ->
  goal hk hs rk fx fx (o <- var rk x ;; n <- node_at hk o ;; r <- k n ;; Ok (hk, rk ++ [r])) (o <- var rk x ;; n <- node_at hs o ;; r <- s n ;; Ok (hs, rk ++ [r]))
    (fun hc rc => o <- var rc x ;; n <- node_at hc o ;; r <- c n hc ;; Ok (hc, rc ++ [r])).
Proof.
  intros S A B. apply (node_sim hk hs rk fx fx x (fun o n => r <- k n ;; Ok (hk, rk ++ [r])) (fun o n => r <- s n ;; Ok (hs, rk ++ [r])) (fun o n hc rc => r <- c n hc ;; Ok (hc, rc ++ [r])) S).
  intros o t sh E Eo P C. rewrite A by exact P. eapply goal_ext; [|apply (pick_sim hk hs rk fx (k (t, sh)) (fun hc rc => o <- var rc x ;; n <- node_at hc o ;; c n hc) S)].
  - intros e g hc rc M V. cbv beta. destruct (C e g hc rc M V) as (-> & sh' & En & W). cbn [bind]. rewrite En. reflexivity.
  - intros e g hc rc M V. destruct (C e g hc rc M V) as (-> & sh' & En & W). cbn [bind]. rewrite En. cbn [bind]. eapply B; eauto.
Qed.
Lemma put_sim hk hs rk fx x v (k s : ty * shape nat -> nat -> res (shape nat)) (c : ty * shape nat -> nat -> list (gobj pyval) -> res (shape nat)) : sinv f hk hs ->
  (forall t sh p, pure t = true -> s (ty_fam f t, sh) p = k (t, sh) p) ->
  (forall e g hc t sh sh' p p', crel e g hk hs hc fx -> srel (cref (length hk) g) sh sh' -> cref (length hk) g p p' -> rrel (srel (cref (length hk) g)) (k (t, sh) p) (c (t, sh') p' hc)) ->
  goal hk hs rk fx fx (o <- var rk x ;; n <- node_at hk o ;; p <- var rk v ;; r <- k n p ;; Ok (update o (GNode (fst n) r) hk, rk))
    (o <- var rk x ;; n <- node_at hs o ;; p <- var rk v ;; r <- s n p ;; Ok (update o (GNode (fst n) r) hs, rk))
    (fun hc rc => o <- var rc x ;; n <- node_at hc o ;; p <- var rc v ;; r <- c n p hc ;; Ok (update o (GNode (fst n) r) hc, rc)).
Proof.
  intros S A B. apply (node_sim hk hs rk fx fx x (fun o n => p <- var rk v ;; r <- k n p ;; Ok (update o (GNode (fst n) r) hk, rk)) (fun o n => p <- var rk v ;; r <- s n p ;; Ok (update o (GNode (fst n) r) hs, rk))
    (fun o n hc rc => p <- var rc v ;; r <- c n p hc ;; Ok (update o (GNode (fst n) r) hc, rc)) S).
  intros o t sh E Eo P C. cbn [fst]. destruct (var rk v) as [p|y] eqn:Ev; cbn [bind].
  - rewrite A by exact P. apply (store_sim hk hs rk fx o t sh (k (t, sh) p) (fun g hc rc => n <- node_at hc (g o) ;; c n (g p) hc)); auto.
    intros e g hc rc M V. destruct (C e g hc rc M V) as (-> & sh' & En & W). cbn [bind]. rewrite En. cbn [bind fst].
    pose proof (var_ok _ _ _ _ V v) as Q. rewrite Ev in Q. destruct (var rc v) as [b|]; cbn [rrel] in Q; [|contradiction]. destruct Q as [L ->]. cbn [bind]. split; [|reflexivity].
    eapply B; eauto. split; auto.
  - apply goal_raise. intros e g hc rc M V. destruct (C e g hc rc M V) as (-> & sh' & En & W). cbn [bind]. rewrite En. cbn [bind].
    pose proof (var_ok _ _ _ _ V v) as Q. rewrite Ev in Q. destruct (var rc v); cbn [rrel bind] in *; [contradiction|now subst].
Qed.
Lemma cref_type e g hk hs hc fx : crel e g hk hs hc fx -> forall a b, cref (length hk) g a b -> gtype class_of hk a = gtype conc_cls hc b.
Proof. apply gtype_conc. Qed.
Lemma call_sim hk hs rk fx args i : sinv f hk hs -> goal hk hs rk fx (protect (hk, rk) fx (DCall args i)) (class_step H (hk, rk) (DCall args i)) (sstep (hs, rk) (DCall args i)) (fun hc rc => cstep (hc, rc) (DCall args i)).
Proof.
  intros S. pose proof (sinv_len _ _ _ S) as Ls. unfold class_step, sstep, cstep. cbn [dstep].
  destruct (mapM (var rk) args) as [os|y] eqn:Eo; cbn [bind].
  2:{ apply goal_raise. intros e g hc rc M V. pose proof (vars_ok _ _ _ _ V args) as Q. rewrite Eo in Q. destruct (mapM (var rc) args); cbn [rrel bind] in *; [contradiction|now subst]. }
  assert (QO : forall g rc, vrel g (length hk) rk rc -> mapM (var rc) args = Ok (map g os) /\ Forall (fun o => (o < length hk)%nat) os).
  { intros g rc V. pose proof (vars_ok _ _ _ _ V args) as Q. rewrite Eo in Q. destruct (mapM (var rc) args) as [oc|]; cbn [rrel] in Q; [|contradiction].
    clear - Q. induction Q as [|a b l m [L ->] F [IH1 IH2]]; [split; [reflexivity|constructor]|]. split; [|now constructor]. injection IH1 as ->. reflexivity. }
  pose proof (mapM_rel eq _ _ _ (fun a b E => match E in _ = y return rrel (fun t v => ProgSpec.sym_has v t) (leaf_at hk a) (leaf_at hs y) with eq_refl => leaf_sym f hk hs S a end) os os (Forall2_eq os)) as QS.
  assert (QC : forall e g hc rc, crel e g hk hs hc fx -> vrel g (length hk) rk rc -> rrel (Forall2 (fun v w => w = vmeaning e v)) (mapM (leaf_at hs) os) (mapM (leaf_at hc) (map g os))).
  { intros e g hc rc M V. destruct (QO g rc V) as [_ F]. apply (mapM_rel (cref (length hk) g)); [apply (leaf_conc _ _ _ _ _ _ M)|]. clear - F. induction F; cbn [map]; constructor; auto. split; auto. }
  destruct (mapM (leaf_at hk) os) as [ts|y] eqn:Ek; destruct (mapM (leaf_at hs) os) as [vs|y'] eqn:Es; cbn [rrel] in QS; try contradiction; cbn [bind].
  2:{ subst y'. apply goal_raise. intros e g hc rc M V. destruct (QO g rc V) as [-> _]. cbn [bind]. specialize (QC e g hc rc M V). destruct (mapM (leaf_at hc) (map g os)); cbn [rrel bind] in *; [contradiction|now subst]. }
  apply Forall2_flip' in QS. unfold class_call. destruct (ProgSpec.check1 ts i) as [us|] eqn:Ec; cbn [bind]; [|now left].
  destruct (SIM _ _ _ _ Ec QS) as (ws & A & B & C). rewrite A. cbn [bind new_only goal]. rewrite <- Ls.
  exists (hs ++ map GLeaf ws). rewrite (Forall2_len _ _ _ B). split; [reflexivity|]. split.
  { apply Forall2_app; [exact S|]. clear - B. induction B; cbn [map]; constructor; auto. }
  intros e g hc rc M V. destruct (QO g rc V) as [-> FO]. cbn [bind]. specialize (QC e g hc rc M V). destruct (mapM (leaf_at hc) (map g os)) as [wc|] eqn:Ew; cbn [rrel] in QC; [|contradiction]. apply F2_meaning in QC. subst wc. cbn [bind].
  rewrite C. cbn [bind].
  assert (FX : Forall (is_leaf (hk ++ map GLeaf us)) (protect (hk, rk) fx (DCall args i)) /\ incl fx (protect (hk, rk) fx (DCall args i))).
  { pose proof M as (_ & _ & Fx). assert (Fx' : Forall (is_leaf (hk ++ map GLeaf us)) fx) by (eapply Forall_impl; [|exact Fx]; intros q; apply is_leaf_app).
    cbn [protect fst snd]. destruct (dividend i) as [k|] eqn:Ed; [|split; [exact Fx'|apply incl_refl]]. rewrite <- (var_mapM _ _ _ Eo k). destruct (var os k) as [o|] eqn:Ev; [|split; [exact Fx'|apply incl_refl]].
    split; [|intros q Hq; right; now right]. constructor; [|constructor; auto].
    - apply is_leaf_app. unfold var in Ev. destruct (nth_error os k) as [o'|] eqn:En; [|discriminate]. injection Ev as ->. destruct (mapM_nth _ _ _ Ek _ _ En) as (t & Et & _). unfold leaf_at in Et.
      destruct (nth_error hk o) as [[t'|]|] eqn:Q; try discriminate. now exists t'.
    - destruct (dividend_one _ _ _ _ Ec Ed) as (c & [->| ->]); eexists; rewrite nth_error_app2, Nat.sub_diag by lia; reflexivity. }
  destruct FX as [FX FI].
  destruct (conc_self _ _ i) as [k|] eqn:Ecs.
  - assert (Fa : Forall BVSpec.arg_wf (map (vmeaning e) vs)) by (clear - QS; induction QS; cbn [map]; constructor; auto; eapply has_arg; eauto).
    destruct (conc_self_ok _ i k _ Fa Ecs (C e)) as (Dv & v & Rv & Ev). unfold reg in Rv. rewrite nth_error_map in Rv. destruct (nth_error vs k) as [v0|] eqn:Ek0; cbn [option_map] in Rv; [|discriminate]. injection Rv as <-.
    destruct ws as [|w [|]]; try discriminate. injection Ev as Ev.
    assert (Eos : exists o, nth_error os k = Some o /\ leaf_at hs o = Ok v0).
    { clear - Es Ek0. revert vs k Es Ek0. induction os as [|o os IH]; intros vs k; cbn [mapM]; [intros [= <-]; destruct k; discriminate|]. destruct (leaf_at hs o) as [v|] eqn:E; cbn [bind]; [|discriminate].
      destruct (mapM (leaf_at hs) os) as [vs'|]; cbn [bind]; [|discriminate]. intros [= <-]. destruct k as [|k]; cbn [nth_error]; [intros [= <-]; eauto|]. now apply IH. }
    destruct Eos as (o & Eo' & Lo). unfold var at 1. rewrite nth_error_map, Eo'. cbn [option_map bind].
    assert (Li : (o < length hk)%nat) by (apply nth_error_In in Eo'; exact (Forall_In _ _ _ FO Eo')).
    destruct us as [|u [|]]; try (apply Forall2_len in B; discriminate). inversion B as [|? ? ? ? Bu _]; subst. cbn [length map seq].
    exists (aliased (length hk) o g), hc, (rc ++ [g o]). split; [reflexivity|].
    assert (Il : is_leaf hk o) by (destruct (mapM_nth _ _ _ Ek _ _ Eo') as (t & Et & _); unfold leaf_at in Et; destruct (nth_error hk o) as [[t'|]|] eqn:Q; try discriminate; now exists t').
    split.
    + cbn [protect fst snd]. rewrite Dv, <- (var_mapM _ _ _ Eo k). unfold var. rewrite Eo'. apply grow_alias; auto.
      pose proof (leaf_conc _ _ _ _ _ _ M o (g o) (conj Li eq_refl)) as W. rewrite Lo in W. unfold leaf_at in W. destruct (nth_error hc (g o)) as [[w0|]|]; cbn [rrel] in W; try contradiction. subst w0. cbn [o3]. split; [congruence|exact Bu].
    + rewrite app_length. cbn [length]. assert (Ea : aliased (length hk) o g (length hk) = g o) by (unfold aliased; now rewrite Nat.eqb_refl).
      rewrite <- Ea. apply (vrel_app g _ (length hk)); [exact V| |lia].
      intros a La. split; [lia|]. unfold aliased. destruct (Nat.eqb_spec a (length hk)); [lia|reflexivity].
  - exists (grown (length hk) (length hc) g), (hc ++ map GLeaf (map (vmeaning e) ws)), (rc ++ seq (length hc) (length us)). rewrite map_length, (Forall2_len _ _ _ B). split; [reflexivity|]. split.
    + eapply crel_more; [|exact FI|exact FX]. apply grow_fresh; auto; rewrite ?map_length; auto; try (now rewrite (Forall2_len _ _ _ B)).
      intros j Lj. rewrite !nth_error_map. pose proof (Forall2_nth _ _ _ B j) as N. apply nth_error_Some in Lj. destruct (nth_error us j), (nth_error ws j); try contradiction; try congruence. cbn [option_map o3]. auto.
    + rewrite app_length, map_length. now apply vrel_seq.
Qed.
Lemma setbit_sim hk hs rk fx x i b : sinv f hk hs -> allowed (hk, rk) fx (DSetBit x i b) = true ->
  goal hk hs rk fx fx (class_step H (hk, rk) (DSetBit x i b)) (sstep (hs, rk) (DSetBit x i b)) (fun hc rc => cstep (hc, rc) (DSetBit x i b)).
Proof.
  intros S Al. pose proof (sinv_len _ _ _ S) as Ls. unfold class_step, sstep, cstep. cbn [dstep]. cbn [allowed pure_instr andb snd] in Al.
  destruct (var rk x) as [o|y] eqn:E; cbn [bind].
  2:{ apply goal_raise. intros e g hc rc M V. pose proof (var_ok _ _ _ _ V x) as Q. rewrite E in Q. destruct (var rc x); cbn [rrel bind] in *; [contradiction|now subst]. }
  assert (Nf : ~ In o fx).
  { intros Hin. apply negb_true_iff in Al. assert (X : existsb (Nat.eqb o) fx = true) by (apply existsb_exists; exists o; split; [exact Hin|apply Nat.eqb_refl]). congruence. }
  assert (QV : forall q z, var rk q = Ok z -> forall g rc, vrel g (length hk) rk rc -> cref (length hk) g z (g z) /\ var rc q = Ok (g z)).
  { intros q z Eq g rc V. pose proof (var_ok _ _ _ _ V q) as Q. rewrite Eq in Q. destruct (var rc q) as [b'|]; cbn [rrel] in Q; [|contradiction]. destruct Q as [L ->]. repeat split; auto. }
  pose proof (leaf_sym _ _ _ S o) as N. destruct (leaf_at hk o) as [t|y] eqn:Ek; destruct (leaf_at hs o) as [v|y'] eqn:Es; cbn [rrel] in N; try contradiction; cbn [bind].
  2:{ subst y'. apply goal_raise. intros e g hc rc M V. destruct (QV x o E g rc V) as [R ->]. cbn [bind]. pose proof (leaf_conc _ _ _ _ _ _ M o (g o) R) as W. rewrite Es in W. destruct (leaf_at hc (g o)); cbn [rrel bind] in *; [contradiction|now subst]. }
  (* the assignment itself *)
  assert (FIN : forall ts vs b', class_set ts i b' <> Raise EOutOfModel -> Forall2 ProgSpec.sym_has vs ts -> nth_error vs 0 = Some v -> exists c v', class_set ts i b' = Ok (ProgSpec.TVec c) /\
      (v0 <- reg vs 0 ;; w <- opnd SInt vs b' ;; st v0 i w) = Ok v' /\ ProgSpec.sym_has v' (ProgSpec.TVec c) /\
      forall e, (v0 <- reg (map (vmeaning e) vs) 0 ;; w <- opnd VInt (map (vmeaning e) vs) b' ;; conc_set v0 i w) = Ok (vmeaning e v')).
  { intros ts vs b' NE F0 E0. unfold class_set in *. destruct (ProgSpec.tvec ts 0) as [c|] eqn:Et; [|congruence]. destruct (_ && _) eqn:G in NE; [|congruence]. rewrite G. apply andb_true_iff in G as [G1 G2]. 
    destruct (SET _ _ 0%nat c i b' F0 Et ltac:(lia) G2) as (v1 & w & v' & R1 & R2 & R3 & R4 & R5). exists c, v'. split; [reflexivity|]. rewrite R1, R2. cbn [bind]. split; [exact R3|]. split; [exact R4|].
    intros e. destruct (R5 e) as (-> & -> & R6). exact R6. }
  assert (CS : forall ts b' y, class_set ts i b' = Raise y -> y = EOutOfModel).
  { intros ts b' y. unfold class_set. destruct (ProgSpec.tvec ts 0); [|congruence]. destruct (_ && _); congruence. }
  assert (DONE : forall ts vs b' c', class_set ts i b' <> Raise EOutOfModel -> Forall2 ProgSpec.sym_has vs ts -> nth_error vs 0 = Some v ->
      (forall e g hc rc, crel e g hk hs hc fx -> vrel g (length hk) rk rc -> c' hc rc = (r <- (v0 <- reg (map (vmeaning e) vs) 0 ;; w <- opnd VInt (map (vmeaning e) vs) b' ;; conc_set v0 i w) ;; Ok (update (g o) (GLeaf r) hc, rc))) ->
      goal hk hs rk fx fx (r <- class_set ts i b' ;; Ok (update o (GLeaf r) hk, rk)) (r <- (v0 <- reg vs 0 ;; w <- opnd SInt vs b' ;; st v0 i w) ;; Ok (update o (GLeaf r) hs, rk)) c').
  { intros ts vs b' c' NE F0 E0 EC. destruct (FIN ts vs b' NE F0 E0) as (c & v' & -> & A2 & A3 & A4). rewrite A2. cbn [bind goal]. exists (update o (GLeaf v') hs). split; [reflexivity|]. split; [apply sinv_update; [exact S|exact A3]|].
    intros e g hc rc M V. rewrite (EC e g hc rc M V), A4. cbn [bind]. exists g, (update (g o) (GLeaf (vmeaning e v')) hc), rc. split; [reflexivity|]. destruct (QV x o E g rc V) as [[Lo _] _]. split; [apply update_leaf; auto|now rewrite update_length]. }
  assert (EC0 : forall e g hc rc, crel e g hk hs hc fx -> vrel g (length hk) rk rc -> var rc x = Ok (g o) /\ leaf_at hc (g o) = Ok (vmeaning e v)).
  { intros e g hc rc M V. destruct (QV x o E g rc V) as [R ->]. split; auto. pose proof (leaf_conc _ _ _ _ _ _ M o (g o) R) as W. rewrite Es in W. destruct (leaf_at hc (g o)); cbn [rrel] in W; [now subst|contradiction]. }
  destruct b as [yb|z].
  - destruct (var rk yb) as [p|y] eqn:Ey; cbn [bind].
    2:{ apply goal_raise. intros e g hc rc M V. destruct (EC0 e g hc rc M V) as [-> EL]. cbn [bind]. rewrite EL. cbn [bind]. pose proof (var_ok _ _ _ _ V yb) as Q. rewrite Ey in Q. destruct (var rc yb); cbn [rrel bind] in *; [contradiction|now subst]. }
    pose proof (leaf_sym _ _ _ S p) as Np. destruct (leaf_at hk p) as [tp|y] eqn:Ekp; destruct (leaf_at hs p) as [vp|y'] eqn:Esp; cbn [rrel] in Np; try contradiction; cbn [bind].
    2:{ subst y'. apply goal_raise. intros e g hc rc M V. destruct (EC0 e g hc rc M V) as [-> EL]. cbn [bind]. rewrite EL. cbn [bind]. destruct (QV yb p Ey g rc V) as [R ->]. cbn [bind]. pose proof (leaf_conc _ _ _ _ _ _ M p (g p) R) as W. rewrite Esp in W. destruct (leaf_at hc (g p)); cbn [rrel bind] in *; [contradiction|now subst]. }
    destruct (class_set [t; tp] i (Reg 1)) as [r|y] eqn:Eset; [|apply CS in Eset; subst y; now left].
    rewrite <- Eset. apply (DONE [t; tp] [v; vp] (Reg 1)); [congruence|repeat constructor; auto|reflexivity|].
    intros e g hc rc M V. destruct (EC0 e g hc rc M V) as [-> EL]. cbn [bind]. rewrite EL. cbn [bind]. destruct (QV yb p Ey g rc V) as [R ->]. cbn [bind]. pose proof (leaf_conc _ _ _ _ _ _ M p (g p) R) as W. rewrite Esp in W. destruct (leaf_at hc (g p)); cbn [rrel] in W; [subst|contradiction]. reflexivity.
  - destruct (class_set [t] i (Num z)) as [r|y] eqn:Eset; [|apply CS in Eset; subst y; now left].
    rewrite <- Eset. apply (DONE [t] [v] (Num z)); [congruence|repeat constructor; auto|reflexivity|].
    intros e g hc rc M V. destruct (EC0 e g hc rc M V) as [-> EL]. cbn [bind]. rewrite EL. reflexivity.
Qed.
Lemma dstep_sim hk hs rk fx d : sinv f hk hs -> allowed (hk, rk) fx d = true -> goal hk hs rk fx (protect (hk, rk) fx d) (class_step H (hk, rk) d) (sstep (hs, rk) d) (fun hc rc => cstep (hc, rc) d).
Proof.
  intros S Al. pose proof (gtype_sym _ _ _ S) as GT. pose proof (gtype_pure _ _ _ S) as GP. destruct d.
  - now apply call_sim.
  - unfold class_step, sstep, cstep. cbn [dstep protect]. apply (pick_sim hk hs rk fx (var rk x) (fun hc rc => var rc x) S). intros e g hc rc M V. now apply var_ok.
  - now apply setbit_sim.
  - cbn [protect]. unfold allowed in Al. cbn [pure_instr] in Al. rewrite andb_true_r in Al. unfold class_step, sstep, cstep. cbn [dstep].
    destruct (mapM (var rk) pos) as [os|y] eqn:Eo; cbn [bind].
    2:{ apply goal_raise. intros e g hc rc M V. pose proof (vars_ok _ _ _ _ V pos) as Q. rewrite Eo in Q. destruct (mapM (var rc) pos); cbn [rrel bind] in *; [contradiction|now subst]. }
    destruct (mapM (kwvar rk) kw) as [ks|y] eqn:Ek; cbn [bind].
    2:{ apply goal_raise. intros e g hc rc M V. pose proof (vars_ok _ _ _ _ V pos) as Q. rewrite Eo in Q. destruct (mapM (var rc) pos); cbn [rrel bind] in *; [|contradiction]. pose proof (kwvars_ok _ _ _ _ V kw) as Q'. rewrite Ek in Q'. destruct (mapM (kwvar rc) kw); cbn [rrel bind] in *; [contradiction|now subst]. }
    rewrite (call_fam H f (gtype class_of hk) (gtype (sym_cls f) hs) GT GP t os ks Al).
    eapply goal_ext; [|apply (new_sim hk hs rk fx t (call H (gtype class_of hk) t os ks) (fun hc rc => os <- mapM (var rc) pos ;; ks <- mapM (kwvar rc) kw ;; call H (gtype conc_cls hc) t os ks) S Al)].
    + intros e g hc rc M V. cbv beta. destruct (mapM (var rc) pos); cbn [bind]; [|reflexivity]. destruct (mapM (kwvar rc) kw); reflexivity.
    + intros e g hc rc M V. pose proof (vars_ok _ _ _ _ V pos) as Q. rewrite Eo in Q. destruct (mapM (var rc) pos); cbn [rrel bind] in *; [|contradiction]. pose proof (kwvars_ok _ _ _ _ V kw) as Q'. rewrite Ek in Q'. destruct (mapM (kwvar rc) kw); cbn [rrel bind] in *; [|contradiction].
      apply call_rel; auto. exact (cref_type _ _ _ _ _ _ M).
  - cbn [protect]. unfold class_step, sstep, cstep. cbn [dstep].
    destruct (mapM (var rk) pos) as [os|y] eqn:Eo; cbn [bind].
    2:{ apply goal_raise. intros e g hc rc M V. pose proof (vars_ok _ _ _ _ V pos) as Q. rewrite Eo in Q. destruct (mapM (var rc) pos); cbn [rrel bind] in *; [contradiction|now subst]. }
    assert (PT : pure (TNode KTuple [] (unnamed (map (gtype class_of hk) os))) = true) by (apply pure_unnamed, Forall_map, Forall_forall; intros o _; apply GP).
    assert (ET : TNode KTuple [] (unnamed (map (gtype (sym_cls f) hs) os)) = ty_fam f (TNode KTuple [] (unnamed (map (gtype class_of hk) os)))).
    { cbn [ty_fam]. f_equal. rewrite (map_ext _ _ GT), <- map_map. apply (unnamed_fam f). }
    rewrite ET. rewrite (call_fam H f (gtype class_of hk) (gtype (sym_cls f) hs) GT GP _ os [] PT).
    eapply goal_ext; [|apply (new_sim hk hs rk fx _ (call H (gtype class_of hk) (TNode KTuple [] (unnamed (map (gtype class_of hk) os))) os []) (fun hc rc => oc <- mapM (var rc) pos ;; call H (gtype conc_cls hc) (TNode KTuple [] (unnamed (map (gtype class_of hk) os))) oc []) S PT)].
    + intros e g hc rc M V. cbv beta. pose proof (vars_ok _ _ _ _ V pos) as Q. rewrite Eo in Q. destruct (mapM (var rc) pos) as [oc|]; cbn [rrel bind] in *; [|contradiction].
      replace (map (gtype conc_cls hc) oc) with (map (gtype class_of hk) os); [reflexivity|]. clear - Q M. induction Q; cbn [map]; auto. f_equal; auto. eapply cref_type; eauto.
    + intros e g hc rc M V. pose proof (vars_ok _ _ _ _ V pos) as Q. rewrite Eo in Q. destruct (mapM (var rc) pos); cbn [rrel bind] in *; [|contradiction].
      apply call_rel; auto. exact (cref_type _ _ _ _ _ _ M).
  - unfold class_step, sstep, cstep. cbn [dstep protect].
    apply (get_sim hk hs rk fx x (fun n => component (snd n) i) (fun n => component (snd n) i) (fun n _ => component (snd n) i) S); auto. intros. now apply component_rel.
  - unfold class_step, sstep, cstep. cbn [dstep protect].
    apply (get_sim hk hs rk fx x (fun m => field (fst m) (snd m) n) (fun m => field (fst m) (snd m) n) (fun m _ => field (fst m) (snd m) n) S); cbn [fst snd].
    + intros. apply field_fam.
    + intros. now apply field_rel.
  - cbn [protect]. unfold allowed in Al. cbn [pure_instr] in Al. rewrite andb_true_r in Al. unfold class_step, sstep, cstep. cbn [dstep].
    assert (BA : forall A B C (a : res A) (b : A -> res B) (c : B -> res C), (m <- a ;; r <- b m ;; c r) = (r <- (m <- a ;; b m) ;; c r)) by (intros A B C [|] b c; reflexivity).
    eapply goal_ext; [intros e g hc rc _ _; cbv beta|].
    2:{ pose proof (get_sim hk hs rk fx x (fun n => m <- sum_get H (gtype class_of hk) (fst n) (snd n) t ;; match_value m) (fun n => m <- sum_get H (gtype (sym_cls f) hs) (fst n) (snd n) (ty_fam f t) ;; match_value m)
          (fun n hc => m <- sum_get H (gtype conc_cls hc) (fst n) (snd n) t ;; match_value m) S) as G. cbn [fst snd] in G.
        destruct (var rk x) as [o|ye]; cbn [bind] in *; [|apply G]; [destruct (node_at hk o) as [n|y1], (node_at hs o) as [n'|y2]; cbn [bind] in *; rewrite ?BA; apply G| |].
        all: try (intros; now rewrite (sum_get_fam H f _ _ GT GP)).
        all: intros e g hc t0 sh sh' M W; pose proof (sum_get_rel H _ _ _ (cref_type _ _ _ _ _ _ M) t0 sh sh' t W) as Q; destruct (sum_get H (gtype class_of hk) t0 sh t), (sum_get H (gtype conc_cls hc) t0 sh' t); cbn [rrel bind] in *; try contradiction; auto; now apply match_value_rel. }
    cbv beta. destruct (var rc x) as [o|]; cbn [bind]; [|reflexivity]. destruct (node_at hc o) as [n|]; cbn [bind]; [|reflexivity]. apply BA.
  - cbn [protect]. unfold class_step, sstep, cstep. cbn [dstep].
    assert (BA : forall A B C (a : res A) (b : A -> res B) (c : B -> res C), (m <- a ;; r <- b m ;; c r) = (r <- (m <- a ;; b m) ;; c r)) by (intros A B C [|] b c; reflexivity).
    eapply goal_ext; [intros e g hc rc _ _; cbv beta|].
    2:{ pose proof (get_sim hk hs rk fx x (fun m => q <- tag_get (fst m) (snd m) n ;; match_value q) (fun m => q <- tag_get (fst m) (snd m) n ;; match_value q)
          (fun m hc => q <- tag_get (fst m) (snd m) n ;; match_value q) S) as G. cbn [fst snd] in G.
        destruct (var rk x) as [o|ye]; cbn [bind] in *; [|apply G]; [destruct (node_at hk o) as [m|y1], (node_at hs o) as [m'|y2]; cbn [bind] in *; rewrite ?BA; apply G| |].
        all: try (intros; now rewrite (tag_get_fam f)).
        all: intros e g hc t0 sh sh' M W; pose proof (tag_get_rel (cref (length hk) g) t0 sh sh' n W) as Q; destruct (tag_get t0 sh n), (tag_get t0 sh' n); cbn [rrel bind] in *; try contradiction; auto; now apply match_value_rel. }
    cbv beta. destruct (var rc x) as [o|]; cbn [bind]; [|reflexivity]. destruct (node_at hc o) as [m|]; cbn [bind]; [|reflexivity]. apply BA.
  - cbn [protect]. unfold class_step, sstep, cstep. cbn [dstep].
    apply (put_sim hk hs rk fx x v (fun n p => setitem H (gtype class_of hk) (fst n) (snd n) (match k with IxTy t => IxTy t | k => k end) p) (fun n p => setitem H (gtype (sym_cls f) hs) (fst n) (snd n) (match k with IxTy t => IxTy (ty_fam f t) | k => k end) p)
      (fun n p hc => setitem H (gtype conc_cls hc) (fst n) (snd n) (match k with IxTy t => IxTy t | k => k end) p) S); cbn [fst snd].
    + intros t sh p P. rewrite (setitem_fam H f _ _ GT GP); auto; [now destruct k|]. unfold allowed in Al. cbn [pure_instr] in Al. rewrite andb_true_r in Al. destruct k; auto.
    + intros e g hc t sh sh' p p' M W R. apply setitem_rel; auto. exact (cref_type _ _ _ _ _ _ M).
  - cbn [protect]. unfold class_step, sstep, cstep. cbn [dstep].
    apply (put_sim hk hs rk fx x v (fun m p => setattr H (gtype class_of hk) (fst m) (snd m) n p) (fun m p => setattr H (gtype (sym_cls f) hs) (fst m) (snd m) n p)
      (fun m p hc => setattr H (gtype conc_cls hc) (fst m) (snd m) n p) S); cbn [fst snd].
    + intros t sh p P. now apply (setattr_fam H f).
    + intros e g hc t sh sh' p p' M W R. apply setattr_rel; auto. exact (cref_type _ _ _ _ _ _ M).
Qed.
End Sim.
