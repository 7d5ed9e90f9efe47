(** Proofs of the theorems stated in PrintProps.v. *)
From Coq Require Import Lia ZifyBool String Ascii Decimal DecimalString DecimalFacts DecimalPos DecimalN DecimalZ.
From Verif Require Import PyBase BVModel BVSpec BVFacts OpModel OpFacts ADTTy ADTTyFacts ADTModel ADTSpec ADTFacts ADTValFacts PrintModel PrintSpec.
Local Open Scope string_scope. Local Open Scope Z_scope.

(** A text that does not go on with a letter, digit or underscore. *)
Definition stops (s : string) : Prop := match s with EmptyString => True | String c _ => word_char c = false end.

(** ** Names of classes *)
Definition kname (t : ty) : string :=
  match t with
  | TLeaf (LBit _) => "Bit" | TLeaf (LVec _ k _) => kind_name k | TNode KTuple _ _ => "Tuple" | _ => "AnonymousProduct"
  end.

(** Lists of unknown length. *)


(** ** Values *)
(** A text that is empty or goes on with a comma or a closing parenthesis. *)
Definition ends (s : string) : Prop := match s with EmptyString => True | String c _ => c = ","%char \/ c = ")"%char end.

Ltac peel X := rewrite ?append_assoc in X; apply append_inv_head in X; cbn [append] in X; injection X as X; rewrite ?append_assoc in X; cbn [append] in X.
Definition uq {A} (f : A -> res string) (v w : A) : Prop := forall sv sw a b, f v = Ok sv -> f w = Ok sw -> ends a -> ends b -> sv ++ a = sw ++ b -> v = w /\ a = b.

Definition field_str (E : env) (p : string * val) : res string := s <- vstr E (snd p) ;; Ok (fst p ++ "=" ++ s).

Definition tag_str (E : env) (p : string * option val) : res string :=
  match snd p with Some v => s <- vstr E v ;; Ok (fst p ++ "=" ++ s) | None => Ok (fst p ++ "=None") end.
Definition tag_item (i : nat) (v : val) (p : nat * string) : string * option val := (snd p, if Nat.eqb (fst p) i then Some v else None).

(** What a value prints as, up to the first sign that belongs to no identifier. *)


(** ** Reading back *)

(** An expression is a word followed by subscripts and calls. *)
Fixpoint spine (e : expr) : expr * list (bool * list expr) :=
  match e with
  | XItem e l => (fst (spine e), snd (spine e) ++ [(true, l)])%list
  | XCall e l => (fst (spine e), snd (spine e) ++ [(false, l)])%list
  | _ => (e, [])
  end.
Definition trailer (p : bool * list expr) : string :=
  if fst p then "[" ++ join (map unparse (snd p)) ++ "]" else "(" ++ join (map unparse (snd p)) ++ ")".
Definition trailers (l : list (bool * list expr)) : string := fold_right (fun p s => trailer p ++ s) "" l.
Definition build (e : expr) (l : list (bool * list expr)) : expr := fold_left (fun (e : expr) (p : bool * list expr) => if fst p then XItem e (snd p) else XCall e (snd p)) l e.

(** Nothing, a comma or a closing bracket. *)
Definition closes (s : string) : Prop := match s with EmptyString => True | String c _ => c = ","%char \/ c = ")"%char \/ c = "]"%char end.

Definition atomic (e : expr) : Prop := match e with XName _ | XInt _ | XBool _ => True | _ => False end.

(** Splitting a joined list whose elements can be told apart when followed by a comma or a bracket. *)

Definition rd (e : expr) : Prop := forall e' a b, expr_ok e -> expr_ok e' -> closes a -> closes b -> unparse e ++ a = unparse e' ++ b -> e = e' /\ a = b.


Fixpoint type_expr (t : ty) : expr :=
  match t with
  | TLeaf (LVec _ k (Some n)) => XItem (XName (kind_name k)) [XInt n]
  | TNode _ _ fs => XItem (XName "Tuple") (map (fun f => type_expr (snd f)) fs)
  | _ => XName "Bit"
  end.
Fixpoint value_expr (v : val) : expr :=
  match v with
  | VAtom t z => XCall (type_expr t) [match t with TLeaf (LBit _) => XBool (negb (z =? 0)) | _ => XInt z end]
  | VTup t _ vs => XCall (type_expr t) (map value_expr vs)
  | VSum t _ | VTag t _ _ => type_expr t
  end.


Lemma word_split s : forall s' a b, word_chars s = true -> word_chars s' = true -> stops a -> stops b -> s ++ a = s' ++ b -> s = s' /\ a = b.
Proof.
  induction s as [|c s IH]; intros [|c' s'] a b W W' A B E; cbn in E, W, W'; auto.
  - subst a. cbn in A. rewrite A in W'. discriminate.
  - subst b. cbn in B. rewrite B in W. discriminate.
  - apply andb_prop in W as [_ W]. apply andb_prop in W' as [_ W']. injection E as -> E. destruct (IH _ _ _ W W' A B E). now subst.
Qed.

Lemma app_word s t : word_chars s = true -> word_chars t = true -> word_chars (s ++ t) = true.
Proof. induction s; cbn; auto. intros W T. apply andb_prop in W as [-> W]. cbn. auto. Qed.

Lemma uint_word d : word_chars (NilEmpty.string_of_uint d) = true.
Proof. induction d; cbn; auto. Qed.

Lemma decimal_word z : word_chars (decimal z) = true.
Proof. apply uint_word. Qed.

Lemma decimal_head z : exists c s, decimal z = String c s /\ word_char c = true.
Proof.
  pose proof (decimal_word z) as W. destruct (decimal z) as [|c s] eqn:E.
  - exfalso. unfold decimal in E. assert (N.to_uint (Z.to_N z) = Nil) as Q by (destruct (N.to_uint (Z.to_N z)); [reflexivity|discriminate..]).
    destruct (Z.to_N z); [discriminate|]. now apply DecimalPos.Unsigned.to_uint_nonnil in Q.
  - cbn in W. apply andb_prop in W as [W _]. eauto.
Qed.

Lemma int_str_split a b x y : stops x -> stops y -> int_str a ++ x = int_str b ++ y -> a = b /\ x = y.
Proof.
  intros X Y. unfold int_str. destruct (decimal_head a) as (ca & sa & Ea & Wa), (decimal_head b) as (cb & sb & Eb & Wb).
  destruct (a <? 0) eqn:Na, (b <? 0) eqn:Nb; intros E.
  - cbn in E. injection E as E. apply word_split in E as [E ->]; auto using decimal_word. apply decimal_inj in E; [|lia|lia]. split; auto; lia.
  - rewrite Eb in E. cbn in E. injection E as E _. subst cb. discriminate.
  - rewrite Ea in E. cbn in E. injection E as E _. subst ca. discriminate.
  - apply word_split in E as [E ->]; auto using decimal_word. apply decimal_inj in E; [|lia|lia]. split; auto; lia.
Qed.

Lemma bool_str_split a b x y : stops x -> stops y -> bool_str a ++ x = bool_str b ++ y -> a = b /\ x = y.
Proof. intros X Y E. apply word_split in E as [E ->]; auto; [|now destruct a|now destruct b]. destruct a, b; auto; discriminate. Qed.

Lemma tname_head E t a : anon_type t -> exists r, tname E t ++ a = kname t ++ r /\ (stops a -> stops r).
Proof.
  intros T. destruct T as [|k n Hn|fs F|fs F]; cbn [tname kname mod_name fold_right].
  - eexists. split; [reflexivity|]. auto.
  - unfold cls_name. cbn [ck csize]. rewrite !append_assoc. eexists. split; [reflexivity|]. intros _. reflexivity.
  - rewrite !append_assoc. eexists. split; [reflexivity|]. intros _. reflexivity.
  - rewrite !append_assoc. eexists. split; [reflexivity|]. intros _. reflexivity.
Qed.

Lemma kname_word t : anon_type t -> word_chars (kname t) = true.
Proof. intros []; try reflexivity. now destruct k. Qed.

Lemma join_cons s l : l <> [] -> join (s :: l) = s ++ ", " ++ join l.
Proof. destruct l; [congruence|reflexivity]. Qed.

Lemma join1 s : join [s] = s.
Proof. reflexivity. Qed.

Lemma join2 s s2 l : join (s :: s2 :: l) = s ++ ", " ++ join (s2 :: l).
Proof. reflexivity. Qed.

Lemma join_split {A} (f : A -> string) c l : forall l' a b, word_char c = false -> c <> ","%char ->
  (forall x, In x l -> forall y, In y l' -> forall a b, stops a -> stops b -> f x ++ a = f y ++ b -> x = y /\ a = b) ->
  (forall x, In x l \/ In x l' -> forall a b, f x ++ a <> String c b) ->
  join (map f l) ++ String c a = join (map f l') ++ String c b -> l = l' /\ a = b.
Proof.
  induction l as [|x l IH]; intros [|y l'] a b Wc Nc U N E.
  - cbn in E. injection E as E. auto.
  - exfalso. destruct l' as [|z l']; cbn [map] in E.
    + cbn [join] in E. now apply (N y (or_intror (or_introl eq_refl)) (String c b) a).
    + rewrite join_cons in E by discriminate. rewrite append_assoc in E. cbn [append] in E. symmetry in E. now apply N in E; [|right; left].
  - exfalso. destruct l as [|z l]; cbn [map] in E.
    + cbn [join] in E. now apply (N x (or_introl (or_introl eq_refl)) (String c a) b).
    + rewrite join_cons in E by discriminate. rewrite append_assoc in E. now apply N in E; [|left; left].
  - assert (Ux := U x (or_introl eq_refl) y (or_introl eq_refl)).
    destruct l as [|x2 l], l' as [|y2 l']; cbn [map] in E; rewrite ?join1, ?join2, ?append_assoc in E; cbn [append] in E.
    + apply Ux in E as [-> E]; auto. injection E as E. now subst.
    + apply Ux in E as [-> E]; auto; [|reflexivity]. injection E as E _. congruence.
    + apply Ux in E as [-> E]; auto; [|reflexivity]. injection E as E _. congruence.
    + apply Ux in E as [-> E]; try reflexivity. injection E as E.
      apply (IH (y2 :: l')) in E as [E ->]; auto; [now rewrite E| |].
      * intros u Hu v Hv. apply U; now right.
      * intros u [Hu|Hu]; apply N; [left|right]; now right.
Qed.

Lemma tname_split E t : forall u a b, anon_type t -> anon_type u -> stops a -> stops b -> tname E t ++ a = tname E u ++ b -> t = u /\ a = b.
Proof.
  induction t as [l|n ms|k v fs IH|m t IH] using ty_ind'; intros u a b T U A B Q; try solve [inversion T].
  - destruct (tname_head E (TLeaf l) a T) as (r & Er & Sr), (tname_head E u b U) as (r' & Er' & Sr').
    assert (K : kname (TLeaf l) = kname u). { rewrite Er, Er' in Q. apply word_split in Q as [Q _]; auto using kname_word. }
    inversion T; subst; inversion U; subst; cbn [kname] in K; try discriminate; try (destruct k; discriminate); try (destruct k0; discriminate).
    + cbn in Q. injection Q as Q. auto.
    + assert (k = k0) by (destruct k, k0; try reflexivity; discriminate K). subst k0.
      cbn [tname] in Q. unfold cls_name in Q. cbn [ck csize] in Q. rewrite !append_assoc in Q. apply append_inv_head in Q. cbn [append] in Q. injection Q as Q.
      apply word_split in Q as [Q Q2]; auto using decimal_word; try reflexivity. apply decimal_inj in Q; auto. injection Q2 as Q2. now subst.
  - destruct (tname_head E (TNode k v fs) a T) as (r & Er & Sr), (tname_head E u b U) as (r' & Er' & Sr').
    assert (K : kname (TNode k v fs) = kname u). { rewrite Er, Er' in Q. apply word_split in Q as [Q _]; auto using kname_word. }
    clear r Er Sr r' Er' Sr'. rewrite Forall_forall in IH.
    inversion T as [| |? F|? F]; subst; inversion U as [|k0 ? ?|fs' F'|fs' F']; subst; cbn [kname] in K; try discriminate; try (destruct k0; discriminate);
      cbn [tname mod_name fold_right] in Q; rewrite !append_assoc in Q; cbn [append] in Q; repeat (injection Q as Q); rewrite Forall_forall in F, F'.
    + apply (join_split (fun f : string * ty => tname E (snd f)) "]"%char) in Q as [-> ->]; auto; try reflexivity; try discriminate.
      * intros x Hx y Hy a' b' A' B' Q'. destruct (F x Hx) as [Nx Tx], (F' y Hy) as [Ny Ty]. destruct (IH x Hx (snd y) a' b' Tx Ty A' B' Q') as [Es ->].
        split; auto. destruct x, y; cbn in *; congruence.
      * intros x Hx a' b' Q'. assert (Tx : anon_type (snd x)) by (destruct Hx as [Hx|Hx]; [apply (F x Hx)|apply (F' x Hx)]).
        destruct (tname_head E (snd x) a' Tx) as (r & Er & _). rewrite Er in Q'. clear - Tx Q'. revert Q'. destruct Tx; cbn; try destruct k; discriminate.
    + apply (join_split (fun f : string * ty => String "'" (fst f ++ "': " ++ tname E (snd f))) "}"%char) in Q as [-> Q]; auto; try reflexivity; try discriminate.
      * injection Q as ->. auto.
      * intros x Hx y Hy a' b' A' B' Q'. destruct (F x Hx) as [[_ Wx] Tx], (F' y Hy) as [[_ Wy] Ty]. cbn [append] in Q'. injection Q' as Q'. rewrite !append_assoc in Q'.
        apply word_split in Q' as [Nx Q']; auto; try reflexivity. cbn [append] in Q'. injection Q' as Q'.
        destruct (IH x Hx (snd y) a' b' Tx Ty A' B' Q') as [Es ->]. split; auto. destruct x, y; cbn in *; congruence.
Qed.

Lemma C92_class_names_pf : forall E t u, anon_type t -> anon_type u -> tname E t = tname E u -> t = u.
Proof.
  intros E t u T U Q. destruct (tname_split E t u "" "" T U I I) as [-> _]; auto. now rewrite Q.
Qed.

Lemma C92_class_names_refuted_pf : forall E, exists t u, t <> u /\ tname E t = tname E u.
Proof.
  intros E. exists (TNode (KProd "P" 0) [] [("x", TLeaf (LBit 0))]), (TNode (KProd "P" 0) [] [("x", TLeaf (LVec 0 KBV (Some 4)))]).
  split; [discriminate|reflexivity].
Qed.

Lemma ends_stops s : ends s -> stops s.
Proof. destruct s; cbn; auto. intros [->| ->]; reflexivity. Qed.

Lemma mapM_cons {A B} (f : A -> res B) x l r : mapM f (x :: l) = Ok r -> exists y ys, f x = Ok y /\ mapM f l = Ok ys /\ r = (y :: ys)%list.
Proof. cbn [mapM]. destruct (f x) as [y|]; [|discriminate]. cbn [bind]. destruct (mapM f l) as [ys|]; [|discriminate]. cbn [bind]. intros E. injection E as <-. eauto. Qed.

Lemma mapM_len {A B} (f : A -> res B) l : forall r, mapM f l = Ok r -> Datatypes.length r = Datatypes.length l.
Proof. induction l as [|x l IH]; intros r M. { cbn in M. injection M as <-. reflexivity. } apply mapM_cons in M as (y & ys & _ & M & ->). cbn. now rewrite (IH _ M). Qed.

Lemma join_aligned {A} (f : A -> res string) vs ws : Forall2 (uq f) vs ws -> forall ss ss' a b, mapM f vs = Ok ss -> mapM f ws = Ok ss' ->
  join ss ++ ")" ++ a = join ss' ++ ")" ++ b -> vs = ws /\ a = b.
Proof.
  induction 1 as [|v w vs ws U F IH]; intros ss ss' a b M M' Q.
  - cbn in M, M'. injection M as <-. injection M' as <-. cbn in Q. injection Q as Q. auto.
  - apply mapM_cons in M as (s & ss0 & Es & M & ->), M' as (s' & ss0' & Es' & M' & ->).
    assert (L : Datatypes.length ss0 = Datatypes.length ss0').
    { apply mapM_len in M, M'. apply Forall2_length in F. congruence. }
    destruct ss0 as [|s2 ss0], ss0' as [|s2' ss0']; try discriminate L; rewrite ?join1, ?join2, ?append_assoc in Q; cbn [append] in Q.
    + destruct (U s s' (String ")" a) (String ")" b)) as [-> E]; auto; try (cbn; auto). injection E as ->.
      destruct (IH [] [] b b) as [-> _]; auto.
    + apply (U s s') in Q as [-> Q]; auto; try (cbn; auto). injection Q as Q. destruct (IH _ _ a b M M') as [-> ->]; auto.
Qed.

Lemma vrepr_tuple E t b vs fs : node_of t = Some (KTuple, fs) ->
  vrepr E (VTup t b vs) = (l <- mapM (vrepr E) vs ;; Ok (tname E t ++ "(" ++ join l ++ ")")).
Proof. intros N. cbn [vrepr]. rewrite N, sequence_map. reflexivity. Qed.

Lemma field_strs E ns : forall vs l, mapM (vstr E) vs = Ok l -> mapM (field_str E) (combine ns vs) = Ok (map (fun p => fst p ++ "=" ++ snd p) (combine ns l)).
Proof.
  induction ns as [|n ns IH]; intros vs l M; [reflexivity|]. destruct vs as [|v vs]. { cbn in M. injection M as <-. reflexivity. }
  apply mapM_cons in M as (s & ss & Es & M & ->). cbn [combine mapM map]. unfold field_str at 1. cbn [fst snd]. rewrite Es. cbn [bind]. rewrite (IH _ _ M). reflexivity.
Qed.

Lemma vrepr_prod E t b vs k fs s : node_of t = Some (k, fs) -> tuple_like k -> k <> KTuple -> vrepr E (VTup t b vs) = Ok s ->
  exists l, mapM (field_str E) (combine (names fs) vs) = Ok l /\ s = tname E t ++ "(" ++ join l ++ ")".
Proof.
  intros N Hk Nk Q. cbn [vrepr] in Q. rewrite N in Q. rewrite !sequence_map in Q.
  change (fun v : val => match v with VAtom t z => atom_str E t z | _ => vrepr E v end) with (vstr E) in Q.
  assert (Q' : (l <- mapM (vstr E) vs ;; Ok (tname E t ++ "(" ++ join (map (fun p => fst p ++ "=" ++ snd p) (combine (names fs) l)) ++ ")")) = Ok s).
  { destruct k; try contradiction; try congruence; exact Q. }
  destruct (mapM (vstr E) vs) as [l|] eqn:M; [|discriminate]. cbn [bind] in Q'. injection Q' as <-.
  eexists. split; [exact (field_strs E _ _ _ M)|reflexivity].
Qed.

Lemma vrepr_tag E t i v k fs s : node_of t = Some (k, fs) -> vrepr E (VTag t i v) = Ok s ->
  exists l, mapM (tag_str E) (map (tag_item i v) (combine (seq 0 (Datatypes.length fs)) (names fs))) = Ok l /\ s = tname E t ++ "(" ++ join l ++ ")".
Proof.
  intros N Q. cbn [vrepr] in Q. rewrite N in Q. change (match v with VAtom t z => atom_str E t z | _ => vrepr E v end) with (vstr E v) in Q.
  destruct (vstr E v) as [sv|] eqn:Ev; [|discriminate]. cbn [bind] in Q. injection Q as <-. eexists. split; [|reflexivity].
  induction (combine _ _) as [|p l IH]; [reflexivity|]. cbn [map mapM]. rewrite IH. unfold tag_str at 1, tag_item. cbn [fst snd].
  destruct (Nat.eqb (fst p) i); [rewrite Ev|]; reflexivity.
Qed.

Lemma int_inj k n z z' i : 0 <= n -> 0 <= z < 2 ^ n -> 0 <= z' < 2 ^ n -> bv_int (BV (BVC k n) z) = Ok i -> bv_int (BV (BVC k n) z') = Ok i -> z = z'.
Proof.
  intros Hn Hz Hz'. unfold bv_int, bkind, as_uint. cbn [bcls ck bval]. destruct k; try congruence. intros E E'.
  destruct (Z.eq_dec n 0) as [->|N]. { rewrite as_sint_zero in E by reflexivity. discriminate. }
  rewrite as_sint_spec in E, E' by (try split; cbn; lia). change (Ok (signed n z) = Ok i) in E. change (Ok (signed n z') = Ok i) in E'.
  assert (S : signed n z = signed n z') by congruence. unfold signed in S. destruct (2 * z <? 2 ^ n) eqn:A, (2 * z' <? 2 ^ n) eqn:B; lia.
Qed.

Lemma strip_no_node t : (match strip t with TNode _ _ _ => False | TMod _ _ => False | _ => True end) -> node_of t = None.
Proof. induction t; cbn; auto; contradiction. Qed.

Lemma atom_uq E t v w : holds t v -> holds t w -> (exists z, v = VAtom t z) -> sound_type E t -> uq (vrepr E) v w /\ uq (vstr E) v w.
Proof.
  intros V W (z & ->) S.
  assert (R : forall sv sw (Q : vrepr E (VAtom t z) = Ok sv) (Q' : vrepr E w = Ok sw) a b, ends a -> ends b -> sv ++ a = sw ++ b -> VAtom t z = w /\ a = b).
  { intros sv sw Q Q' a b A B X. apply ends_stops in A, B. inversion V as [t0 bb St E1 E2|t0 k n z0 St Hn Hz E1 E2|n ms z0 Hz E1 E2|t0 k fs vs No _ _ E1 E2|]; subst.
    - inversion W as [t0 bb' St'|t0 k n z0 St'| |t0 k fs vs No|t0 n x fs i f v No]; subst; try congruence; try discriminate; try (rewrite strip_no_node in No by (now rewrite St); discriminate).
      cbn [vrepr] in Q, Q'. unfold atom_repr in Q, Q'. rewrite St in Q, Q'. injection Q as <-. injection Q' as <-. peel X. apply bool_str_split in X as [X X2]; try reflexivity. injection X2 as ->. destruct bb, bb'; cbn in X; auto; discriminate.
    - inversion W as [t0 bb' St'|t0 k' n' z0 St' Hn' Hz'| |t0 k' fs vs No|t0 n' x fs i f v No]; subst; try congruence; try discriminate; try (rewrite strip_no_node in No by (now rewrite St); discriminate).
      assert (k' = k) by congruence. assert (n' = n) by congruence. subst k' n'.
      cbn [vrepr] in Q, Q'. unfold atom_repr in Q, Q'. rewrite St in Q, Q'. injection Q as <-. injection Q' as <-. peel X. apply int_str_split in X as [-> X2]; try reflexivity. injection X2 as ->. auto.
    - inversion W as [t0 bb' St'|t0 k' n' z0 St'|? ? z0 Hz'|t0 k' fs vs No|t0 n' x fs i f v No]; subst; try discriminate.
      cbn [vrepr] in Q, Q'. unfold atom_repr in Q, Q'. cbn [strip] in Q, Q'.
      destruct (nth_error ms (Z.to_nat z)) as [m|] eqn:M; [|discriminate]. destruct (nth_error ms (Z.to_nat z0)) as [m0|] eqn:M0; [|discriminate].
      injection Q as <-. injection Q' as <-. peel X.
      inversion S as [| |? ? _ Fm Nd| |]; subst. rewrite Forall_forall in Fm.
      apply word_split in X as [X ->]; auto; [|apply Fm; eapply nth_error_In; eauto|apply Fm; eapply nth_error_In; eauto].
      split; auto. f_equal. assert (Z.to_nat z = Z.to_nat z0); [|lia]. rewrite NoDup_nth_error in Nd. apply Nd; [rewrite map_length; lia|].
      rewrite !nth_error_map, M, M0. cbn. now rewrite X. }
  split. { intros sv sw a b Q Q'. now apply R. }
  intros sv sw a b Q Q' A B X.
  destruct (match strip t with TLeaf (LVec 0 _ (Some _)) => true | _ => false end) eqn:Vec.
  - inversion V as [t0 bb St E1 E2|t0 k n z0 St Hn Hz E1 E2|n ms z0 Hz E1 E2|t0 k fs vs No _ _ E1 E2|]; subst; try (rewrite St in Vec; discriminate); try discriminate.
    inversion W as [t0 bb' St'|t0 k' n' z0 St' Hn' Hz'| |t0 k' fs vs No|t0 n' x fs i f v No]; subst; try congruence; try discriminate; try (rewrite strip_no_node in No by (now rewrite St); discriminate).
    assert (k' = k) by congruence. assert (n' = n) by congruence. subst k' n'.
    cbn [vstr] in Q, Q'. unfold atom_str in Q, Q'. rewrite St in Q, Q'.
    destruct (bv_int (BV (BVC k n) z)) as [i|] eqn:I1; [|discriminate]. destruct (bv_int (BV (BVC k n) z0)) as [i0|] eqn:I2; [|discriminate].
    injection Q as <-. injection Q' as <-. apply int_str_split in X as [-> ->]; auto using ends_stops. split; auto. f_equal. eapply int_inj; eauto.
  - assert (Ts : forall z, atom_str E t z = atom_repr E t z).
    { intros z1. unfold atom_str. destruct (strip t) as [[f k [n|]|f| | | |]| | |]; auto; destruct f; auto; discriminate. }
    apply (R sv sw); auto. { cbn [vstr] in Q. now rewrite Ts in Q. }
    destruct w as [t' z'| | |]; auto. cbn [vstr] in Q'. assert (t' = t) by (inversion W; congruence). subst t'. now rewrite Ts in Q'.
Qed.

Lemma sound_fields E t k fs : sound_type E t -> node_of t = Some (k, fs) -> Forall (fun f => sound_type E (snd f)) fs.
Proof. induction 1; cbn; try discriminate; auto. intros Q. injection Q as -> ->. auto. Qed.

Lemma mod_name_word E u s : Forall (fun m => word (e_mod E m)) u -> word_chars s = true -> word_chars (mod_name E u s) = true.
Proof. induction 1 as [|m u [_ W] F IH]; cbn; auto. intros Ws. apply app_word; auto. Qed.

Lemma sound_head E t : sound_type E t -> exists p r, word_chars p = true /\ tname E t = p ++ r /\ (r = "" \/ exists c r', r = String c r' /\ word_char c = false /\ c <> ","%char /\ c <> ")"%char).
Proof.
  induction 1 as [|k n Hn|n ms [_ W] _ _|k u fs U F K|m t [_ W] S IH].
  - exists "Bit", "". auto.
  - cbn [tname]. unfold cls_name. cbn [ck csize]. exists (kind_name k). eexists. split; [now destruct k|]. split; [reflexivity|]. right. cbn [append]. do 2 eexists. split; [reflexivity|]. repeat split; discriminate.
  - exists n, "". cbn [tname]. repeat split; auto. clear. induction n; cbn; congruence.
  - destruct k as [| |n x| |n x]; try contradiction; cbn [tname].
    + eexists. eexists. split; [|split; [reflexivity|]]. { apply mod_name_word; auto. } right. cbn [append]. do 2 eexists. split; [reflexivity|]. repeat split; discriminate.
    + eexists. eexists. split; [|split; [reflexivity|]]. { apply mod_name_word; auto. } right. cbn [append]. do 2 eexists. split; [reflexivity|]. repeat split; discriminate.
    + exists n, "". destruct K. repeat split; auto. clear. induction n; cbn; congruence.
    + exists n, "". destruct K. repeat split; auto. clear. induction n; cbn; congruence.
  - destruct IH as (p & r & Wp & Et & R). exists (e_mod E m ++ p), r. split; [now apply app_word|]. split; auto. cbn [tname]. now rewrite Et, append_assoc.
Qed.

Lemma head_none E t c r b : sound_type E t -> word_char c = false -> c <> ","%char -> c <> ")"%char -> ends b -> tname E t ++ String c r <> "None" ++ b.
Proof.
  intros S Wc N1 N2 B Q. destruct (sound_head E t S) as (p & q & Wp & Et & R). rewrite Et, append_assoc in Q.
  apply word_split in Q as [-> Q]; auto using ends_stops.
  - subst b. destruct R as [->|(c' & q' & -> & Wc' & N1' & N2')]; cbn in B; destruct B; congruence.
  - destruct R as [->|(c' & q' & -> & Wc' & N1' & N2')]; cbn; auto.
Qed.

Lemma int_none i a b : ends a -> ends b -> int_str i ++ a <> "None" ++ b.
Proof.
  intros A B Q. unfold int_str in Q. destruct (i <? 0); [discriminate|]. apply word_split in Q as [Q _]; auto using ends_stops, decimal_word.
  unfold decimal in Q. destruct (N.to_uint (Z.to_N i)); discriminate.
Qed.

Lemma not_none E t v s a b : sound_type E t -> holds t v -> vstr E v = Ok s -> ends a -> ends b -> s ++ a <> "None" ++ b.
Proof.
  intros S V Q A B.
  assert (G : forall c r, word_char c = false -> c <> ","%char -> c <> ")"%char -> s = tname E t ++ String c r -> s ++ a <> "None" ++ b).
  { intros c r Wc N1 N2 ->. rewrite append_assoc. cbn [append]. now apply head_none. }
  destruct V as [t bb St|t k n z St Hn Hz|n ms z Hz|t k fs vs No Hk F|t n x fs i f v No Hf Hv].
  - cbn [vstr] in Q. unfold atom_str, atom_repr in Q. rewrite St in Q. injection Q as <-. eapply G; [| | |reflexivity]; try reflexivity; discriminate.
  - cbn [vstr] in Q. unfold atom_str in Q. rewrite St in Q. destruct (bv_int _) as [j|]; [|discriminate]. cbn [bind] in Q. injection Q as <-. now apply int_none.
  - cbn [vstr] in Q. unfold atom_str, atom_repr in Q. cbn [strip] in Q. destruct (nth_error ms _); [|discriminate]. injection Q as <-. eapply G; [| | |reflexivity]; try reflexivity; discriminate.
  - change (vrepr E (VTup t true vs) = Ok s) in Q. destruct (match k with KTuple => true | _ => false end) eqn:Ek.
    + destruct k; try discriminate. rewrite (vrepr_tuple _ _ _ _ _ No) in Q. destruct (mapM _ _); [|discriminate]. injection Q as <-. eapply G; [| | |reflexivity]; try reflexivity; discriminate.
    + apply vrepr_prod with (1 := No) in Q as (l & _ & ->); auto; [|now intros ->]. eapply G; [| | |reflexivity]; try reflexivity; discriminate.
  - change (vrepr E (VTag t i v) = Ok s) in Q. apply vrepr_tag with (1 := No) in Q as (l & _ & ->). eapply G; [| | |reflexivity]; try reflexivity; discriminate.
Qed.

Lemma Forall2_pair {A B} (R : A -> B -> Prop) (P : B -> B -> Prop) l : forall vs ws, Forall2 R l vs -> Forall2 R l ws ->
  (forall a v w, In a l -> In v vs -> R a v -> R a w -> P v w) -> Forall2 P vs ws.
Proof.
  induction l as [|a l IH]; intros vs ws V W G; inversion V; subst; inversion W; subst; constructor.
  - apply (G a); auto; now left.
  - apply IH; auto. intros a' v w Ha Hv. apply G; now right.
Qed.

Lemma Forall2_combine {A B} (P : A * B -> A * B -> Prop) ns : forall vs ws, Forall2 (fun v w => forall n, P (n, v) (n, w)) vs ws -> Forall2 P (combine ns vs) (combine ns ws).
Proof. induction ns as [|n ns IH]; intros vs ws F; cbn; [constructor|]. destruct F; constructor; auto. Qed.

Lemma combine_inj {A B} (ns : list A) : forall (vs ws : list B), Datatypes.length ns = Datatypes.length vs -> Datatypes.length ns = Datatypes.length ws -> combine ns vs = combine ns ws -> vs = ws.
Proof. induction ns as [|n ns IH]; intros [|v vs] [|w ws] L L' Q; try discriminate; auto. cbn in Q. injection Q as -> Q. f_equal. auto. Qed.

Lemma field_uq E v w : uq (vstr E) v w -> forall n, uq (field_str E) (n, v) (n, w).
Proof.
  intros U n sv sw a b Q Q' A B X. unfold field_str in Q, Q'. cbn [fst snd] in Q, Q'. destruct (vstr E v) as [s|] eqn:Ev; [|discriminate]. destruct (vstr E w) as [s'|] eqn:Ew; [|discriminate].
  injection Q as <-. injection Q' as <-. peel X. destruct (U s s' a b) as [-> ->]; auto.
Qed.

Lemma typed_uq E v : forall t w, sound_type E t -> holds t v -> holds t w -> uq (vrepr E) v w /\ uq (vstr E) v w.
Proof.
  induction v as [t z|t b vs IH|t v IH|t i v IH] using val_ind'; intros t' w S V W.
  - assert (t' = t) by (inversion V; auto). subst t'. apply atom_uq with t; eauto.
  - assert (t' = t) by (inversion V; auto). subst t'. assert (b = true) by (inversion V; auto). subst b.
    inversion V as [| | |t0 k fs ? No Hk F E1 E2|]; subst.
    assert (exists ws, w = VTup t true ws /\ Forall2 (fun f v => holds (snd f) v) fs ws) as (ws & -> & F').
    { inversion W as [t0 bb' St'|t0 k' n' z0 St' Hn' Hz'| |t0 k' fs' ws No' _ F'|t0 n' x fs' i f v No']; subst; try (rewrite strip_no_node in No by (now rewrite St'); discriminate); try discriminate.
      - rewrite No in No'. injection No' as <- <-. eauto.
      - rewrite No in No'. injection No' as -> <-. contradiction. }
    pose proof (sound_fields _ _ _ _ S No) as Sf. rewrite Forall_forall in Sf, IH.
    assert (R : uq (vrepr E) (VTup t true vs) (VTup t true ws)).
    { intros sv sw a b Q Q' A B X. destruct (match k with KTuple => true | _ => false end) eqn:Ek.
      - destruct k; try discriminate. rewrite (vrepr_tuple _ _ _ _ _ No) in Q. rewrite (vrepr_tuple _ _ _ _ _ No) in Q'. destruct (mapM _ vs) as [l|] eqn:M; [|discriminate]. destruct (mapM _ ws) as [l'|] eqn:M'; [|discriminate].
        injection Q as <-. injection Q' as <-. peel X.
        apply (join_aligned (vrepr E) vs ws) with (2 := M) (3 := M') in X as [-> ->]; auto.
        apply (Forall2_pair _ _ _ _ _ F F'). intros f v w Hf Hv Rv Rw. apply (IH v Hv (snd f) w); auto.
      - apply vrepr_prod with (1 := No) in Q as (l & M & ->), Q' as (l' & M' & ->); auto; try (now intros ->).
        peel X.
        apply (join_aligned (field_str E) _ _) with (2 := M) (3 := M') in X as [Q ->].
        + apply combine_inj in Q as ->; auto; unfold names; rewrite map_length; eapply Forall2_length; eauto.
        + apply Forall2_combine. apply (Forall2_pair _ _ _ _ _ F F'). intros f v w Hf Hv Rv Rw. apply field_uq. apply (IH v Hv (snd f) w); auto. }
    split; auto.
  - inversion V.
  - assert (t' = t) by (inversion V; auto). subst t'. inversion V as [| | | |t0 n x fs ? f ? No Hf Hv E1 E2]; subst.
    assert (exists i' f' w', w = VTag t i' w' /\ nth_error fs i' = Some f' /\ holds (snd f') w') as (i' & f' & w' & -> & Hf' & Hw).
    { inversion W as [t0 bb' St'|t0 k' n' z0 St' Hn' Hz'| |t0 k' fs' ws No' Hk' F'|t0 n' x' fs' i' f' v' No' Hf' Hv']; subst; try (rewrite strip_no_node in No by (now rewrite St'); discriminate); try discriminate.
      - rewrite No in No'. injection No' as <- <-. contradiction.
      - rewrite No in No'. injection No' as <- <- <-. eauto 6. }
    pose proof (sound_fields _ _ _ _ S No) as Sf. rewrite Forall_forall in Sf.
    assert (Sv : sound_type E (snd f)) by (apply Sf; eapply nth_error_In; eauto). assert (Sw : sound_type E (snd f')) by (apply Sf; eapply nth_error_In; eauto).
    assert (R : uq (vrepr E) (VTag t i v) (VTag t i' w')).
    { intros sv sw a b Q Q' A B X. apply vrepr_tag with (1 := No) in Q as (l & M & ->), Q' as (l' & M' & ->).
      peel X.
      apply (join_aligned (tag_str E) _ _) with (2 := M) (3 := M') in X as [Q ->].
      - assert (Hi : nth_error (combine (seq 0 (Datatypes.length fs)) (names fs)) i = Some (i, fst f)).
        { clear - Hf. assert (G : forall k fs i, nth_error fs i = Some f -> nth_error (combine (seq k (Datatypes.length fs)) (names fs)) i = Some ((k + i)%nat, fst f)).
          { intros k fs0. revert k. induction fs0 as [|g fs0 IH]; intros k [|j] Q; try discriminate; cbn in Q |- *.
            - injection Q as ->. now rewrite Nat.add_0_r.
            - unfold names in IH. rewrite (IH (S k) j Q). now rewrite Nat.add_succ_comm. }
          now apply (G 0%nat). }
        assert (Qi : nth_error (map (tag_item i v) (combine (seq 0 (Datatypes.length fs)) (names fs))) i = nth_error (map (tag_item i' w') (combine (seq 0 (Datatypes.length fs)) (names fs))) i) by now rewrite Q.
        rewrite !nth_error_map, Hi in Qi. cbn in Qi. unfold tag_item in Qi. cbn [fst snd] in Qi. rewrite Nat.eqb_refl in Qi.
        destruct (Nat.eqb i i') eqn:Ei; [|discriminate]. apply Nat.eqb_eq in Ei. subst i'. injection Qi as ->. auto.
      - assert (G : forall j g, nth_error fs j = Some g -> uq (tag_str E) (tag_item i v (j, fst g)) (tag_item i' w' (j, fst g))).
        { intros j g Hj. unfold tag_item. cbn [fst snd]. destruct (Nat.eqb j i) eqn:Ji, (Nat.eqb j i') eqn:Ji'; intros sv sw a' b' Q Q' A' B' X'; unfold tag_str in Q, Q'; cbn [fst snd] in Q, Q'.
          - apply Nat.eqb_eq in Ji, Ji'. subst i i'. assert (f' = f) by congruence. subst f'.
            destruct (vstr E v) as [s|] eqn:Ev; [|discriminate]. destruct (vstr E w') as [s'|] eqn:Ew; [|discriminate]. injection Q as <-. injection Q' as <-.
            peel X'. destruct (IH (snd f) w' Sv Hv Hw) as [_ U]. destruct (U s s' a' b') as [-> ->]; auto.
          - exfalso. destruct (vstr E v) as [s|] eqn:Ev; [|discriminate]. injection Q as <-. injection Q' as <-. peel X'.
            revert X'. now apply (not_none E (snd f) v).
          - exfalso. destruct (vstr E w') as [s|] eqn:Ev; [|discriminate]. injection Q as <-. injection Q' as <-. peel X'.
            symmetry in X'. revert X'. now apply (not_none E (snd f') w').
          - injection Q as <-. injection Q' as <-. apply append_inv_head in X'. auto. }
        clear - G. assert (K : forall k l, (forall j g, nth_error l j = Some g -> uq (tag_str E) (tag_item i v ((k + j)%nat, fst g)) (tag_item i' w' ((k + j)%nat, fst g))) ->
          Forall2 (uq (tag_str E)) (map (tag_item i v) (combine (seq k (Datatypes.length l)) (names l))) (map (tag_item i' w') (combine (seq k (Datatypes.length l)) (names l)))).
        { intros k l. revert k. induction l as [|g l IH]; intros k H; cbn; constructor.
          - specialize (H 0%nat g eq_refl). now rewrite Nat.add_0_r in H.
          - apply IH. intros j g' Hj. specialize (H (S j) g' Hj). now rewrite <- Nat.add_succ_comm in H. }
        now apply (K 0%nat). }
    split; auto.
Qed.

Lemma shown_type v : shown v -> anon_type (vtype v).
Proof. destruct 1; cbn; auto; now constructor. Qed.

Lemma shown_sound E t : anon_type t -> sound_type E t.
Proof.
  induction t as [l|n ms|k v fs IH|m t IH] using ty_ind'; intros T; inversion T as [| |? F|? F]; subst; constructor; auto; rewrite Forall_forall in *; intros f Hf; apply IH; auto; now apply F.
Qed.

Lemma Ok_inj' {A} (a b : A) : Ok a = Ok b -> b = a.
Proof. congruence. Qed.

Lemma shown_head E v s : shown v -> vrepr E v = Ok s -> exists r, s = tname E (vtype v) ++ "(" ++ r.
Proof.
  intros S Q. destruct S as [b|k n z Hn Hz|fs vs T L F|fs vs T F]; cbn [vtype].
  - cbn [vrepr] in Q. apply Ok_inj' in Q. subst s. eexists. reflexivity.
  - cbn [vrepr] in Q. apply Ok_inj' in Q. subst s. eexists. reflexivity.
  - rewrite (vrepr_tuple _ _ _ _ fs) in Q by reflexivity. destruct (mapM _ _); [|discriminate]. cbn [bind] in Q. apply Ok_inj' in Q. subst s. eexists. reflexivity.
  - apply vrepr_prod with (k := KAnon) (fs := fs) in Q as (l & _ & ->); try easy. eauto.
Qed.

Lemma shown_atom t z : shown (VAtom t z) -> holds t (VAtom t z).
Proof. intros V. inversion V; subst; [now apply ho_bit|now apply ho_vec with k n]. Qed.

Lemma shown_uq E v : forall w, shown v -> shown w -> uq (vrepr E) v w /\ (vtype v = vtype w -> uq (vstr E) v w).
Proof.
  induction v as [t z|t b vs IH|t v IH|t i v IH] using val_ind'; intros w V W; try solve [inversion V].
  - assert (A : vtype w = t -> holds t (VAtom t z) /\ holds t w /\ sound_type E t).
    { intros Et. pose proof (shown_type _ W) as T. apply (shown_sound E) in T. rewrite Et in T. split; [now apply shown_atom|]. split; auto.
      destruct w as [t' z'|t' b' ws|t' w|t' i w]; cbn [vtype] in Et; subst.
      - now apply shown_atom.
      - exfalso. inversion V; subst; inversion W.
      - inversion W.
      - inversion W. }
    split.
    + intros sv sw a b Q Q' Ea Eb X. destruct (shown_head _ _ _ V Q) as (r & ->), (shown_head _ _ _ W Q') as (r' & ->). pose proof X as X'. rewrite !append_assoc in X'.
      apply tname_split in X' as [Et _]; auto using shown_type; try reflexivity. cbn [vtype] in Et. destruct (A (eq_sym Et)) as (A1 & A2 & A3).
      destruct (atom_uq E t (VAtom t z) w A1 A2 (ex_intro _ z eq_refl) A3) as [U _]. now apply (U _ _ _ _ Q Q').
    + cbn [vtype]. intros Et. destruct (A (eq_sym Et)) as (A1 & A2 & A3). apply (atom_uq E t (VAtom t z) w A1 A2 (ex_intro _ z eq_refl) A3).
  - assert (G : uq (vrepr E) (VTup t b vs) w).
    { intros sv sw a a' Q Q' Ea Eb X. destruct (shown_head _ _ _ V Q) as (r & Er), (shown_head _ _ _ W Q') as (r' & Er'). pose proof X as X'. rewrite Er, Er', !append_assoc in X'.
      apply tname_split in X' as [Et _]; auto using shown_type; try reflexivity. cbn [vtype] in Et. clear r r' Er Er'. rewrite Forall_forall in IH.
      destruct w as [t' z'|t' b' ws|t' w|t' i w]; try solve [inversion W]; cbn [vtype] in Et; subst t'. { exfalso. inversion V; subst; inversion W. }
      inversion V as [| |fs ? T L F|fs ? T F]; subst; inversion W as [| |fs' ? T' L' F'|fs' ? T' F']; subst.
      - rewrite (vrepr_tuple _ _ _ _ fs) in Q by reflexivity. rewrite (vrepr_tuple _ _ _ _ fs) in Q' by reflexivity. destruct (mapM _ vs) as [l|] eqn:M; [|discriminate]. destruct (mapM _ ws) as [l'|] eqn:M'; [|discriminate].
        cbn [bind] in Q, Q'. apply Ok_inj' in Q, Q'. subst sv sw. peel X.
        apply (join_aligned (vrepr E) vs ws) with (2 := M) (3 := M') in X as [-> ->]; auto.
        assert (Lv : Datatypes.length vs = Datatypes.length ws) by congruence. clear - IH F F' Lv. revert ws F' Lv. induction vs as [|v vs IHv]; intros [|w ws] F' Lv; try discriminate; constructor.
        + inversion F; inversion F'; subst. apply IH; auto. now left.
        + inversion F; inversion F'; subst. apply IHv; auto. intros x Hx. apply IH. now right.
      - apply vrepr_prod with (k := KAnon) (fs := fs) in Q as (l & M & ->), Q' as (l' & M' & ->); try easy.
        peel X.
        apply (join_aligned (field_str E) _ _) with (2 := M) (3 := M') in X as [Q ->].
        + apply combine_inj in Q as ->; auto; unfold names; rewrite map_length; eapply Forall2_length; eauto.
        + apply Forall2_combine. apply (Forall2_pair _ _ _ _ _ F F'). intros f v w Hf Hv [Tv Rv] [Tw Rw]. apply field_uq. apply (IH v Hv w); auto. congruence. }
    split; auto. intros Et. destruct w as [t' z'|t' b' ws|t' w|t' i w]; try solve [inversion W]; [|exact G].
    exfalso. cbn [vtype] in Et. subst t'. inversion V; subst; inversion W.
Qed.

Lemma int_str_reads z : reads (int_str z) z.
Proof.
  unfold reads, int_str, decimal. destruct (z <? 0) eqn:Q.
  - exists (Neg (N.to_uint (Z.to_N (- z)))). split.
    + unfold NilEmpty.int_of_string. cbn [append]. cbn. now rewrite NilEmpty.usu.
    + cbn [Z.of_int]. unfold Z.of_uint. rewrite DecimalN.Unsigned.of_to. lia.
  - exists (Pos (N.to_uint (Z.to_N z))). split.
    + assert (NilEmpty.int_of_string (NilEmpty.string_of_int (Pos (N.to_uint (Z.to_N z)))) = Some (Pos (N.to_uint (Z.to_N z)))) as R by apply NilEmpty.isi. exact R.
    + cbn [Z.of_int]. unfold Z.of_uint. rewrite DecimalN.Unsigned.of_to. lia.
Qed.

Lemma app_nil_r' s : s ++ "" = s.
Proof. induction s; cbn; congruence. Qed.

Lemma C92_repr_pf : forall E v w s, shown v -> shown w -> vrepr E v = Ok s -> vrepr E w = Ok s -> v = w.
Proof.
  intros E v w s V W Q Q'. destruct (shown_uq E v w V W) as [U _]. destruct (U s s "" "") as [-> _]; cbn; auto.
Qed.

Lemma C92_typed_partial_pf : forall E t v w s, sound_type E t -> holds t v -> holds t w ->
  (vrepr E v = Ok s -> vrepr E w = Ok s -> v = w) /\ (vstr E v = Ok s -> vstr E w = Ok s -> v = w).
Proof.
  intros E t v w s S V W. destruct (typed_uq E v t w S V W) as [U U']. split; intros Q Q'; [destruct (U s s "" "") as [-> _]|destruct (U' s s "" "") as [-> _]]; cbn; auto.
Qed.

Lemma C92_sum_refuted_pf : forall E, exists t v w s, v <> w /\ vcall (fun _ _ => false) t [v] [] = Ok (VSum t v) /\ vcall (fun _ _ => false) t [w] [] = Ok (VSum t w) /\
  vrepr E (VSum t v) = Ok s /\ vrepr E (VSum t w) = Ok s.
Proof.
  intros E. exists (TNode KSum [] (unnamed (type_set [TLeaf (LVec 0 KBV (Some 4)); TLeaf (LVec 0 KBV (Some 8))]))), (VAtom (TLeaf (LVec 0 KBV (Some 4))) 3), (VAtom (TLeaf (LVec 0 KBV (Some 8))) 3).
  eexists. split; [discriminate|]. repeat split; reflexivity.
Qed.

Lemma C92_subclass_refuted_pf : forall E, exists t v w s, v <> w /\ vcall (fun _ _ => false) t [v] [] = Ok (VTup t true [v]) /\ vcall (fun _ _ => false) t [w] [] = Ok (VTup t true [w]) /\
  vrepr E (VTup t true [v]) = Ok s /\ vrepr E (VTup t true [w]) = Ok s.
Proof.
  intros E. exists (TNode (KProd "P" 0) [] [("x", TLeaf (LVec 0 KBV (Some 4)))]), (VAtom (TLeaf (LVec 0 KBV (Some 4))) 3), (VAtom (TLeaf (LVec 0 KSInt (Some 4))) 3).
  eexists. split; [discriminate|]. repeat split; reflexivity.
Qed.

Lemma C92_str_number_pf : forall E t k n z, strip t = TLeaf (LVec 0 k (Some n)) -> 0 <= n -> 0 <= z < 2 ^ n -> (k = KSInt -> 1 <= n) ->
  exists s, vstr E (VAtom t z) = Ok s /\ reads s (match k with KSInt => signed n z | _ => z end).
Proof.
  intros E t k n z St Hn Hz Hk. cbn [vstr]. unfold atom_str. rewrite St.
  assert (I : bv_int (BV (BVC k n) z) = Ok (match k with KSInt => signed n z | _ => z end)).
  { unfold bv_int, bkind, as_uint. cbn [bcls ck bval]. destruct k; auto. rewrite as_sint_spec; [reflexivity|split; cbn; lia|]. specialize (Hk eq_refl). cbn. lia. }
  rewrite I. cbn [bind]. eexists. split; [reflexivity|]. apply int_str_reads.
Qed.

Lemma C92_repr_vector_pf : forall E k n z, vrepr E (VAtom (TLeaf (LVec 0 k (Some n))) z) = Ok (cls_name (BVC k n) ++ "(" ++ int_str z ++ ")").
Proof. reflexivity. Qed.

Lemma C92_repr_bit_pf : forall E, vrepr E (VAtom (TLeaf (LBit 0)) 1) = Ok "Bit(True)" /\ vrepr E (VAtom (TLeaf (LBit 0)) 0) = Ok "Bit(False)" /\
  vstr E (VAtom (TLeaf (LBit 0)) 1) = Ok "Bit(True)" /\ vstr E (VAtom (TLeaf (LBit 0)) 0) = Ok "Bit(False)" /\
  forall c ms i m v, nth_error ms i = Some (m, v) -> vrepr E (VAtom (TEnum c ms) (Z.of_nat i)) = Ok (c ++ "." ++ m) /\ vstr E (VAtom (TEnum c ms) (Z.of_nat i)) = Ok (c ++ "." ++ m).
Proof.
  intros E. split; [reflexivity|]. split; [reflexivity|]. split; [reflexivity|]. split; [reflexivity|]. intros c ms i m v N.
  unfold vstr, atom_str. cbn [vrepr strip]. unfold atom_repr. cbn [strip]. rewrite Nat2Z.id, N. split; reflexivity.
Qed.

Lemma C92_sint0_refuted_pf : forall E, vrepr E (VAtom (TLeaf (LVec 0 KSInt (Some 0))) 0) = Ok "SIntVector[0](0)" /\ vstr E (VAtom (TLeaf (LVec 0 KSInt (Some 0))) 0) = Raise EIndexError /\
  vrepr E (VTup (TNode (KProd "P" 0) [] [("x", TLeaf (LVec 0 KSInt (Some 0)))]) true [VAtom (TLeaf (LVec 0 KSInt (Some 0))) 0]) = Raise EIndexError.
Proof. intros E. repeat split; reflexivity. Qed.

Lemma C92_prints_pf : forall E t v, sound_type E t -> holds t v -> no_sint0 t = true -> (exists s, vrepr E v = Ok s) /\ (exists s, vstr E v = Ok s).
Proof.
  intros E t v. revert t. induction v as [t z|t b vs IH|t v IH|t i v IH] using val_ind'; intros t' S V N.
  - assert (t' = t) by (inversion V; auto). subst t'.
    inversion V as [t0 bb St E1 E2|t0 k n z0 St Hn Hz E1 E2|n ms z0 Hz E1 E2| |]; subst.
    + cbn [vrepr vstr]. unfold atom_str, atom_repr. rewrite St. split; eexists; reflexivity.
    + assert (Nz : k = KSInt -> 1 <= n). { intros ->. clear - N St Hn. assert (no_sint0 (strip t) = true) as Q by (induction t; auto). rewrite St in Q. cbn in Q. lia. }
      split. { cbn [vrepr]. unfold atom_repr. rewrite St. eexists. reflexivity. }
      destruct (C92_str_number_pf E t k n z St Hn Hz Nz) as (s & Q & _). eauto.
    + cbn [vrepr vstr]. unfold atom_str, atom_repr. cbn [strip]. destruct (nth_error ms (Z.to_nat z)) eqn:Q; [split; eexists; reflexivity|]. apply nth_error_None in Q. lia.
  - assert (t' = t) by (inversion V; auto). subst t'. inversion V as [| | |t0 k fs ? No Hk F E1 E2|]; subst. pose proof (sound_fields _ _ _ _ S No) as Sf.
    assert (Nf : forall f, In f fs -> no_sint0 (snd f) = true). { clear - N No. induction t; cbn in *; try discriminate; auto. injection No as -> ->. now apply forallb_forall. }
    assert (G : (exists l, mapM (vrepr E) vs = Ok l) /\ (exists l, mapM (vstr E) vs = Ok l)).
    { clear V S No. rewrite Forall_forall in Sf, IH. revert fs F Sf Nf Hk. induction vs as [|v vs IHv]; intros fs F Sf Nf Hk; [split; exists []; reflexivity|].
      inversion F as [|f ? fs' ? Hv F']; subst. destruct (IH v (or_introl eq_refl) (snd f)) as [[s Q] [s' Q']]; auto. { apply Sf. now left. } { apply Nf. now left. }
      destruct (IHv (fun x Hx => IH x (or_intror Hx)) fs' F' (fun x Hx => Sf x (or_intror Hx)) (fun x Hx => Nf x (or_intror Hx)) Hk) as [[l M] [l' M']].
      cbn [mapM]. rewrite Q, Q', M, M'. split; eexists; reflexivity. }
    change (vstr E (VTup t true vs)) with (vrepr E (VTup t true vs)).
    assert (R : exists s, vrepr E (VTup t true vs) = Ok s); [|split; auto]. destruct G as [[l M] [l' M']].
    cbn [vrepr]. rewrite No, !sequence_map. change (fun v : val => match v with VAtom t z => atom_str E t z | _ => vrepr E v end) with (vstr E). rewrite M, M'. destruct k; eexists; reflexivity.
  - inversion V.
  - assert (t' = t) by (inversion V; auto). subst t'. inversion V as [| | | |t0 n x fs ? f ? No Hf Hv E1 E2]; subst. pose proof (sound_fields _ _ _ _ S No) as Sf.
    assert (Nf : forall f, In f fs -> no_sint0 (snd f) = true). { clear - N No. induction t; cbn in *; try discriminate; auto. injection No as -> ->. now apply forallb_forall. }
    rewrite Forall_forall in Sf. apply nth_error_In in Hf. destruct (IH (snd f)) as [_ [s Q]]; auto.
    change (vstr E (VTag t i v)) with (vrepr E (VTag t i v)).
    assert (R : exists s, vrepr E (VTag t i v) = Ok s); [|split; auto].
    cbn [vrepr]. rewrite No. change (match v with VAtom t z => atom_str E t z | _ => vrepr E v end) with (vstr E v). rewrite Q. eexists. reflexivity.
Qed.

Lemma expr_ind' (P : expr -> Prop) : (forall s, P (XName s)) -> (forall z, P (XInt z)) -> (forall b, P (XBool b)) ->
  (forall e l, P e -> Forall P l -> P (XItem e l)) -> (forall e l, P e -> Forall P l -> P (XCall e l)) -> forall e, P e.
Proof.
  intros H1 H2 H3 H4 H5. fix IH 1. intros [s|z|b|e l|e l]; [apply H1|apply H2|apply H3|apply H4|apply H5]; try apply IH.
  - induction l; constructor; auto.
  - induction l; constructor; auto.
Qed.

Lemma trailers_app l m : trailers (l ++ m)%list = trailers l ++ trailers m.
Proof. unfold trailers. induction l as [|p l IH]; cbn [app fold_right]; auto. now rewrite IH, append_assoc. Qed.

Lemma spine_text e : unparse e = unparse (fst (spine e)) ++ trailers (snd (spine e)).
Proof.
  induction e as [s|z|b|e l IH _|e l IH _] using expr_ind'; cbn [spine fst snd trailers fold_right]; rewrite ?app_nil_r'; auto;
    cbn [unparse]; rewrite IH at 1; rewrite trailers_app, append_assoc; cbn [trailers fold_right trailer fst snd]; now rewrite app_nil_r'.
Qed.

Lemma spine_build e : build (fst (spine e)) (snd (spine e)) = e.
Proof.
  induction e as [s|z|b|e l IH _|e l IH _] using expr_ind'; cbn [spine fst snd]; auto; unfold build in *; rewrite fold_left_app, IH; reflexivity.
Qed.

Lemma trailers_stops l a : closes a -> stops (trailers l ++ a).
Proof. destruct l as [|[[] l0] l]; cbn; auto. destruct a; cbn; auto. intros [->|[->| ->]]; reflexivity. Qed.

Lemma spine_ok e : expr_ok e -> atomic (fst (spine e)) /\ expr_ok (fst (spine e)) /\ forall p x, In p (snd (spine e)) -> In x (snd p) -> expr_ok x.
Proof.
  induction 1 as [s I|z Hz|b|e l He (A & O & G) F|e l He (A & O & G) F]; cbn [spine fst snd]; try solve [split; [exact I|]; split; [constructor; auto|intros p x []]].
  - split; [exact Logic.I|]. split; [now constructor|intros p x []].
  - split; auto. split; auto. intros p x Hp Hx. apply in_app_or in Hp as [Hp|[<-|[]]]; [now apply (G p)|]. cbn in Hx. rewrite Forall_forall in F. auto.
  - split; auto. split; auto. intros p x Hp Hx. apply in_app_or in Hp as [Hp|[<-|[]]]; [now apply (G p)|]. cbn in Hx. rewrite Forall_forall in F. auto.
Qed.

Lemma decimal_digit z : exists c s, decimal z = String c s /\ digit c = true.
Proof.
  unfold decimal. assert (N.to_uint (Z.to_N z) <> Nil) as Q. { destruct (Z.to_N z); [discriminate|]. apply DecimalPos.Unsigned.to_uint_nonnil. }
  destruct (N.to_uint (Z.to_N z)); try congruence; cbn; do 2 eexists; (split; [reflexivity|reflexivity]).
Qed.

Lemma atom_text e : atomic e -> expr_ok e -> word_chars (unparse e) = true /\ unparse e <> "".
Proof.
  intros A O. destruct O as [s ((N & W) & _)|z Hz|b| |]; try contradiction; cbn [unparse].
  - auto.
  - unfold int_str. destruct (z <? 0) eqn:Q; [lia|]. split; [apply decimal_word|]. destruct (decimal_head z) as (c & s & -> & _). discriminate.
  - destruct b; split; try reflexivity; discriminate.
Qed.

Lemma atom_inj e e' : atomic e -> atomic e' -> expr_ok e -> expr_ok e' -> unparse e = unparse e' -> e = e'.
Proof.
  assert (G : forall s z, identifier s -> 0 <= z -> s = int_str z -> False).
  { intros s z (_ & D & _) Hz Q. unfold int_str in Q. destruct (z <? 0) eqn:N; [lia|]. destruct (decimal_digit z) as (c & r & Q' & Dc). rewrite Q' in Q. subst s. rewrite D in Dc. discriminate. }
  assert (B : forall b z, 0 <= z -> bool_str b = int_str z -> False).
  { intros b z Hz Q. unfold int_str in Q. destruct (z <? 0) eqn:N; [lia|]. destruct (decimal_digit z) as (c & r & Q' & Dc). rewrite Q' in Q. destruct b; injection Q as Q _; subst c; discriminate. }
  assert (I : forall s b, identifier s -> s = bool_str b -> False). { intros s b (_ & _ & N1 & N2) ->. destruct b; auto. }
  intros A A' O O' Q. destruct O as [s S|z Hz|b| |]; try contradiction; destruct O' as [s' S'|z' Hz'|b'| |]; try contradiction; cbn [unparse] in Q.
  - now subst.
  - exfalso. eauto.
  - exfalso. eauto.
  - exfalso. symmetry in Q. eauto.
  - destruct (int_str_split z z' "" "") as [-> _]; cbn; auto. now rewrite Q.
  - exfalso. symmetry in Q. eauto.
  - exfalso. symmetry in Q. eauto.
  - exfalso. eauto.
  - destruct b, b'; auto; discriminate.
Qed.

Lemma join_split' {A} (f : A -> string) c l : forall l' a b, c = ")"%char \/ c = "]"%char ->
  (forall x, In x l -> forall y, In y l' -> forall a b, closes a -> closes b -> f x ++ a = f y ++ b -> x = y /\ a = b) ->
  (forall x, In x l \/ In x l' -> forall a b, f x ++ a <> String c b) ->
  join (map f l) ++ String c a = join (map f l') ++ String c b -> l = l' /\ a = b.
Proof.
  induction l as [|x l IH]; intros [|y l'] a b Hc U N E.
  - cbn in E. injection E as E. auto.
  - exfalso. destruct l' as [|z l']; cbn [map] in E.
    + cbn [join] in E. now apply (N y (or_intror (or_introl eq_refl)) (String c b) a).
    + rewrite join_cons in E by discriminate. rewrite append_assoc in E. cbn [append] in E. symmetry in E. now apply N in E; [|right; left].
  - exfalso. destruct l as [|z l]; cbn [map] in E.
    + cbn [join] in E. now apply (N x (or_introl (or_introl eq_refl)) (String c a) b).
    + rewrite join_cons in E by discriminate. rewrite append_assoc in E. now apply N in E; [|left; left].
  - assert (Ux := U x (or_introl eq_refl) y (or_introl eq_refl)). assert (Cc : forall s, closes (String c s)) by (intros s; destruct Hc as [->| ->]; cbn; auto).
    assert (Nc : c <> ","%char) by (destruct Hc as [->| ->]; discriminate).
    destruct l as [|x2 l], l' as [|y2 l']; cbn [map] in E; rewrite ?join1, ?join2, ?append_assoc in E; cbn [append] in E.
    + apply Ux in E as [-> E]; auto. injection E as E. now subst.
    + apply Ux in E as [-> E]; auto; [|cbn; auto]. injection E as E _. congruence.
    + apply Ux in E as [-> E]; auto; [|cbn; auto]. injection E as E _. congruence.
    + apply Ux in E as [-> E]; try (cbn; auto). injection E as E.
      apply (IH (y2 :: l')) in E as [E ->]; auto; [now rewrite E| |].
      * intros u Hu v Hv. apply U; now right.
      * intros u [Hu|Hu]; apply N; [left|right]; now right.
Qed.

Lemma unparse_not c x a b : expr_ok x -> word_char c = false -> unparse x ++ a <> String c b.
Proof.
  intros O Wc Q. destruct (spine_ok x O) as (A & O' & _). rewrite spine_text, append_assoc in Q. destruct (atom_text _ A O') as [W N].
  destruct (unparse (fst (spine x))); [congruence|]. cbn in Q, W. injection Q as -> _. rewrite Wc in W. discriminate.
Qed.

Lemma trailers_split l : (forall p x, In p l -> In x (snd p) -> rd x) -> (forall p x, In p l -> In x (snd p) -> expr_ok x) ->
  forall l' a b, (forall p x, In p l' -> In x (snd p) -> expr_ok x) -> closes a -> closes b -> trailers l ++ a = trailers l' ++ b -> l = l' /\ a = b.
Proof.
  induction l as [|[c x] l IH]; intros R O [|[c' x'] l'] a b O' A B Q.
  - auto.
  - exfalso. cbn in Q. subst a. destruct c'; cbn in A; destruct A as [A|[A|A]]; discriminate.
  - exfalso. cbn in Q. subst b. destruct c; cbn in B; destruct B as [B|[B|B]]; discriminate.
  - cbn [trailers fold_right] in Q. fold (trailers l) (trailers l') in Q. unfold trailer in Q. cbn [fst snd] in Q.
    assert (c' = c) by (destruct c, c'; auto; discriminate Q). subst c'.
    assert (G : x = x' /\ trailers l ++ a = trailers l' ++ b).
    { destruct c; rewrite !append_assoc in Q; cbn [append] in Q; injection Q as Q.
      - apply (join_split' unparse "]"%char) in Q; auto.
        + intros y Hy z Hz a' b' A' B' Q'. apply (R (true, x) y); auto; [now left|apply (O (true, x)); auto; now left|apply (O' (true, x')); auto; now left].
        + intros y Hy a' b'. apply unparse_not; [|reflexivity]. destruct Hy as [Hy|Hy]; [apply (O (true, x))|apply (O' (true, x'))]; auto; now left.
      - apply (join_split' unparse ")"%char) in Q; auto.
        + intros y Hy z Hz a' b' A' B' Q'. apply (R (false, x) y); auto; [now left|apply (O (false, x)); auto; now left|apply (O' (false, x')); auto; now left].
        + intros y Hy a' b'. apply unparse_not; [|reflexivity]. destruct Hy as [Hy|Hy]; [apply (O (false, x))|apply (O' (false, x'))]; auto; now left. }
    destruct G as [-> G]. apply IH in G as [-> ->]; auto.
    + intros p y Hp. apply R. now right.
    + intros p y Hp. apply O. now right.
    + intros p y Hp. apply O'. now right.
Qed.

Lemma rd_spine e : (forall p x, In p (snd (spine e)) -> In x (snd p) -> rd x) -> rd e.
Proof.
  intros R e' a b O O' A B Q. destruct (spine_ok e O) as (A1 & O1 & G1), (spine_ok e' O') as (A2 & O2 & G2).
  rewrite (spine_text e), (spine_text e'), !append_assoc in Q. destruct (atom_text _ A1 O1) as [W1 _], (atom_text _ A2 O2) as [W2 _].
  apply word_split in Q as [Q1 Q2]; auto using trailers_stops. apply atom_inj in Q1; auto. apply trailers_split in Q2 as [Q2 ->]; auto.
  split; auto. rewrite <- (spine_build e), <- (spine_build e'). now rewrite Q1, Q2.
Qed.

Lemma unparse_rd e : rd e.
Proof.
  assert (G : rd e /\ forall p x, In p (snd (spine e)) -> In x (snd p) -> rd x); [|apply G].
  assert (K : forall e, (forall p x, In p (snd (spine e)) -> In x (snd p) -> rd x) -> rd e /\ forall p x, In p (snd (spine e)) -> In x (snd p) -> rd x).
  { intros e0' R. split; auto. now apply rd_spine. }
  induction e as [s|z|b|e l IH F|e l IH F] using expr_ind'; apply K; cbn [spine snd]; try (intros p x []; fail); intros p x Hp Hx; apply in_app_or in Hp as [Hp|[<-|[]]];
    try (now apply IH with p); cbn in Hx; rewrite Forall_forall in F; now apply F.
Qed.

Lemma C92_text_determines_pf : forall e e', expr_ok e -> expr_ok e' -> unparse e = unparse e' -> e = e'.
Proof. intros e e' O O' Q. destruct (unparse_rd e e' "" "") as [-> _]; cbn; auto. now rewrite Q. Qed.

Lemma tuple_type_ind' (P : ty -> Prop) : P (TLeaf (LBit 0)) -> (forall k n, 0 <= n -> P (TLeaf (LVec 0 k (Some n)))) ->
  (forall ts, ts <> [] -> Forall tuple_type ts -> Forall P ts -> P (TNode KTuple [] (unnamed ts))) -> forall t, tuple_type t -> P t.
Proof.
  intros H1 H2 H3. fix IH 2. intros t [|k n Hn|ts N F]; [apply H1|now apply H2|]. apply H3; auto. clear N. induction F; constructor; auto.
Qed.

Lemma kind_id k : identifier (kind_name k).
Proof. destruct k; repeat split; discriminate. Qed.

Lemma type_expr_ok E H t : tuple_type t -> expr_ok (type_expr t) /\ unparse (type_expr t) = tname E t /\ eval H (type_expr t) = Ok (PType t).
Proof.
  induction 1 as [|k n Hn|ts N T F] using tuple_type_ind'.
  - split; [|split; reflexivity]. constructor. repeat split; discriminate.
  - split; [|split]. { constructor; [constructor; apply kind_id|]. constructor; [now constructor|constructor]. }
    + cbn [type_expr unparse map join tname]. unfold cls_name. cbn [ck csize]. unfold int_str. destruct (n <? 0) eqn:Q; [lia|]. reflexivity.
    + cbn [type_expr eval]. unfold sequence. cbn [map mapM bind eval]. assert (L : lookup (kind_name k) = Ok (PKind k)) by now destruct k. rewrite L. cbn [bind item]. unfold sized.
      destruct (n <? 0) eqn:Q; [lia|]. reflexivity.
  - assert (M : map (fun f : string * ty => type_expr (snd f)) (unnamed ts) = map type_expr ts) by (unfold unnamed; rewrite map_map; reflexivity).
    split; [|split].
    + cbn [type_expr]. rewrite M. constructor. { constructor. repeat split; discriminate. } clear N M T. induction F as [|t ts (A & _) F IH]; constructor; auto.
    + cbn [type_expr unparse tname mod_name fold_right]. rewrite M, map_map. cbn [append]. do 6 f_equal. f_equal. f_equal. unfold unnamed. rewrite map_map. cbn [snd].
      clear N M T. induction F as [|t ts (_ & A & _) F IH]; cbn [map]; congruence.
    + cbn [type_expr eval]. rewrite M. change (lookup "Tuple") with (@Ok pobj PTuple). cbn [bind]. rewrite sequence_map.
      assert (G : mapM (eval H) (map type_expr ts) = Ok (map PType ts)).
      { clear N M T. induction F as [|t ts (_ & _ & A) F IH]; cbn [map mapM]; auto. rewrite A. cbn [bind]. rewrite IH. reflexivity. }
      rewrite G. cbn [bind item]. assert (G2 : mapM (fun o => match o with PType t => Ok t | _ => Raise ETypeError end) (map PType ts) = Ok ts).
      { clear. induction ts as [|t ts IH]; cbn [map mapM]; auto. cbn [bind]. now rewrite IH. }
      destruct ts as [|t0 ts]; [congruence|]. cbn [map] in *. rewrite G2. reflexivity.
Qed.

Lemma tuple_value_ind' H (P : val -> Prop) : (forall b, P (VAtom (TLeaf (LBit 0)) (b2z b))) -> (forall k n z, 0 <= n -> 0 <= z < 2 ^ n -> P (VAtom (TLeaf (LVec 0 k (Some n))) z)) ->
  (forall ts vs, tuple_type (TNode KTuple [] (unnamed ts)) -> Forall2 (fun t v => sub H (vtype v) t = true) ts vs -> Forall P vs -> P (VTup (TNode KTuple [] (unnamed ts)) true vs)) ->
  forall v, tuple_value H v -> P v.
Proof.
  intros H1 H2 H3. fix IH 2. intros v [b|k n z Hn Hz|ts vs T S F]; [apply H1|now apply H2|]. apply H3; auto. clear S. induction F; constructor; auto.
Qed.

Lemma value_expr_ok E H v : tuple_value H v -> expr_ok (value_expr v) /\ vrepr E v = Ok (unparse (value_expr v)) /\ eval H (value_expr v) = Ok (PVal v).
Proof.
  induction 1 as [b|k n z Hn Hz|ts vs T S F] using tuple_value_ind'.
  - split; [|split].
    + constructor; [constructor; repeat split; discriminate|]. constructor; [constructor|constructor].
    + reflexivity.
    + now destruct b.
  - assert (T : tuple_type (TLeaf (LVec 0 k (Some n)))) by now constructor. destruct (type_expr_ok E H _ T) as (O & U & V). cbn [value_expr]. split; [|split].
    + constructor; auto. constructor; [constructor; lia|constructor].
    + cbn [unparse map join]. rewrite U. reflexivity.
    + cbn [eval]. rewrite V. unfold sequence. cbn [map mapM bind eval apply bv_init]. rewrite BVFacts.mk_val by (cbn; lia).
      do 3 f_equal. apply Z.mod_small; auto.
  - destruct (type_expr_ok E H _ T) as (O & U & V). cbn [value_expr]. split; [|split].
    + constructor; auto. clear S. induction F as [|v vs (A & _) F IH]; constructor; auto.
    + rewrite (vrepr_tuple _ _ _ _ (unnamed ts)) by reflexivity. cbn [unparse]. rewrite U, map_map.
      assert (G : mapM (vrepr E) vs = Ok (map (fun v => unparse (value_expr v)) vs)).
      { clear S. induction F as [|v vs (_ & A & _) F IH]; cbn [map mapM]; auto. rewrite A. cbn [bind]. rewrite IH. reflexivity. }
      rewrite G. reflexivity.
    + cbn [eval]. rewrite V. cbn [bind]. rewrite sequence_map.
      assert (G : mapM (eval H) (map value_expr vs) = Ok (map PVal vs)).
      { clear S. induction F as [|v vs (_ & _ & A) F IH]; cbn [map mapM]; auto. rewrite A. cbn [bind]. rewrite IH. reflexivity. }
      rewrite G. cbn [bind apply]. assert (G2 : mapM (fun o => match o with PVal t => Ok t | _ => Raise EOutOfModel end) (map PVal vs) = Ok vs).
      { clear. induction vs as [|t ts IH]; cbn [map mapM]; auto. cbn [bind]. now rewrite IH. }
      rewrite G2. cbn [bind]. rewrite (vcall_tuple H _ KTuple (unnamed ts)); try reflexivity; try exact I.
      unfold unnamed. apply Forall2_map_l. exact S.
Qed.

Lemma C92_name_evaluates_pf : forall E H t e, tuple_type t -> expr_ok e -> unparse e = tname E t -> eval H e = Ok (PType t).
Proof.
  intros E H t e T O Q. destruct (type_expr_ok E H t T) as (O' & U & V). rewrite <- U in Q. apply C92_text_determines_pf in Q; auto. now subst.
Qed.

Lemma C92_repr_evaluates_pf : forall E H v s, tuple_value H v -> vrepr E v = Ok s ->
  (exists e, expr_ok e /\ unparse e = s) /\ forall e, expr_ok e -> unparse e = s -> eval H e = Ok (PVal v).
Proof.
  intros E H v s V Q. destruct (value_expr_ok E H v V) as (O & U & R). rewrite Q in U. injection U as ->. split; [eauto|].
  intros e O' Q'. apply C92_text_determines_pf in Q'; auto. now subst.
Qed.

Lemma C92_empty_refuted_pf : forall E H, vrepr E (VTup (TNode KTuple [] []) true []) = Ok "Tuple[]()" /\
  forall e, expr_ok e -> unparse e = "Tuple[]()" -> eval H e = Raise ESyntaxError.
Proof.
  intros E H. split; [reflexivity|]. intros e O Q.
  assert (e = XCall (XItem (XName "Tuple") []) []) as ->; [|reflexivity]. apply C92_text_determines_pf; auto.
  repeat constructor; discriminate.
Qed.
