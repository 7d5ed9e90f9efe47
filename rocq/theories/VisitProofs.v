(** Proofs of the theorems stated in VisitProps.v. *)
From Coq Require Import Permutation.
From Verif Require Import PyBase BVModel ADTTy ADTModel ADTSpec VisitModel VisitSpec.
(*P*)From Coq Require Import Lia.
From Verif Require Import ADTTyFacts ADTFacts ADTMoreFacts ADTEqFacts RebindFacts.
(*/P*)

Lemma dispatch_mod m t : dispatch (TMod m t) = dispatch t.
Proof. reflexivity. Qed.

Lemma dispatch_handles t : handles t (dispatch t).
Proof.
  induction t as [l|n ms|k u fs|m t IH]; try constructor; [destruct k; constructor|]. exact IH.
Qed.

Lemma handles_fun t h : handles t h -> h = dispatch t.
Proof. induction 1; try reflexivity. exact IHhandles. Qed.

Lemma dispatch_atom t : node_of t = None -> atomic (dispatch t) = true.
Proof.
  induction t as [l|n ms|k u fs|m t IH]; cbn [node_of]; auto; discriminate.
Qed.

Lemma dispatch_node t k fs : node_of t = Some (k, fs) -> atomic (dispatch t) = false.
Proof. induction t as [l|n ms|k' u' fs'|m t IH]; try discriminate; [now destruct k'|exact IH]. Qed.

Lemma pick_map {A B} (f : A -> B) l is : pick (map f l) is = map f (pick l is).
Proof.
  unfold pick. induction is as [|i is IH]; auto. cbn [flat_map]. rewrite map_app, <- IH. f_equal. rewrite nth_error_map. now destruct (nth_error l i).
Qed.

Lemma pick_perm {A} (l : list A) is js : Permutation is js -> Permutation (pick l is) (pick l js).
Proof. unfold pick. induction 1; cbn [flat_map]; auto; [now apply Permutation_app_head| |etransitivity; eauto]. rewrite !app_assoc. apply Permutation_app_tail, Permutation_app_comm. Qed.

Lemma pick_all {A} (l m : list A) : pick (m ++ l) (seq (length m) (length l)) = l.
Proof.
  revert m. induction l as [|a l IH]; intros m; cbn [length seq]; auto. unfold pick. cbn [flat_map]. rewrite nth_error_app2, Nat.sub_diag by lia. cbn [nth_error app].
  f_equal. specialize (IH (m ++ [a])). rewrite <- app_assoc, app_length, Nat.add_1_r in IH. exact IH.
Qed.

Lemma in_order_perm {A} order t k fs (l : list A) : is_order order -> node_of t = Some (k, fs) -> length l = length fs ->
  Permutation (in_order order t l) l /\ (tuple_like k -> in_order order t l = l).
Proof.
  intros O E L. assert (P : Permutation (pick l (order t)) l).
  { rewrite <- (pick_all l []) at 2. cbn [app length]. apply pick_perm. rewrite L. eapply O; eauto. }
  unfold in_order. rewrite E. destruct k; split; auto; cbn [tuple_like]; easy.
Qed.

Lemma in_order_map {A B} (f : A -> B) order t l : in_order order t (map f l) = map f (in_order order t l).
Proof. unfold in_order. destruct (node_of t) as [[[] fs]|]; auto; apply pick_map. Qed.

Lemma visit_as_mods leaf order t : forall self, visit_as leaf order self t = match t with TMod _ s => visit_as leaf order self s | _ => visit_as leaf order self t end.
Proof. destruct t; reflexivity. Qed.

Lemma visit_as_atom leaf order t : node_of t = None -> forall self, node_of self = None -> dispatch self = dispatch t ->
  visit_as leaf order self t = match dispatch t with VLeaf => if leaf then Ok [(VLeaf, self)] else Raise EAttributeError | h => Ok [(h, self)] end.
Proof.
  induction t as [l|n ms|k u fs|m t IH]; intros N self Ns D; cbn [visit_as]; try rewrite D; try reflexivity; [discriminate|]. now rewrite IH.
Qed.

Lemma visit_as_node leaf order t k fs : node_of t = Some (k, fs) -> forall self, dispatch self = dispatch t ->
  visit_as leaf order self t = (l <- sequence (in_order order self (map (fun f => visit_as leaf order (snd f) (snd f)) fs)) ;; Ok ((dispatch self, self) :: List.concat l)).
Proof.
  induction t as [l|n ms|k' u fs'|m t IH]; intros N self D; try discriminate.
  - cbn [node_of] in N. inversion N; subst. cbn [visit_as]. rewrite D. destruct k; reflexivity.
  - cbn [visit_as]. now apply IH.
Qed.

Lemma visit_node leaf order t k fs : node_of t = Some (k, fs) ->
  visit leaf order t = (l <- mapM (fun f => visit leaf order (snd f)) (in_order order t fs) ;; Ok ((dispatch t, t) :: List.concat l)).
Proof.
  intros N. unfold visit. rewrite (visit_as_node leaf order t k fs N t eq_refl), in_order_map, sequence_map. reflexivity.
Qed.

Lemma visit_atom leaf order t : node_of t = None ->
  visit leaf order t = match dispatch t with VLeaf => if leaf then Ok [(VLeaf, t)] else Raise EAttributeError | h => Ok [(h, t)] end.
Proof. intros N. unfold visit. now apply visit_as_atom. Qed.

Lemma in_order_In {A} order t (l : list A) a : In a (in_order order t l) -> In a l.
Proof.
  unfold in_order, pick. intros I. assert (P : In a (flat_map (fun i => match nth_error l i with Some a => [a] | None => [] end) (order t)) -> In a l).
  { rewrite in_flat_map. intros (i & _ & J). destruct (nth_error l i) eqn:E; [|easy]. destruct J as [<-|[]]. now apply nth_error_In in E. }
  destruct (node_of t) as [[[] fs]|]; auto.
Qed.

Lemma node_ind (P : ty -> Prop) : (forall t, node_of t = None -> P t) ->
  (forall t k fs, node_of t = Some (k, fs) -> (forall f, In f fs -> P (snd f)) -> P t) -> forall t, P t.
Proof.
  intros A N. assert (X : forall t, P t /\ forall k fs, node_of t = Some (k, fs) -> forall f, In f fs -> P (snd f)); [|intros t; apply X].
  induction t as [l|n ms|k u fs IH|m t IH] using ty_ind'.
  - split; [now apply A|easy].
  - split; [now apply A|easy].
  - rewrite Forall_forall in IH. split.
    + apply (N _ k fs); [reflexivity|]. intros f I. now apply IH.
    + intros k' fs' E. inversion E; subst. intros f I. now apply IH.
  - destruct IH as [_ IH]. split; [|exact IH]. destruct (node_of t) as [[k fs]|] eqn:E; [|now apply A]. apply (N _ k fs); [exact E|]. exact (IH k fs eq_refl).
Qed.

Lemma visit_total order t : exists es, visit true order t = Ok es.
Proof.
  induction t as [t N|t k fs N IH] using node_ind.
  - rewrite visit_atom by assumption. destruct (dispatch t); eauto.
  - rewrite (visit_node _ _ _ _ _ N). assert (X : exists l, mapM (fun f => visit true order (snd f)) (in_order order t fs) = Ok l); [|destruct X as [l ->]; cbn [bind]; eauto].
    assert (Y : forall f, In f (in_order order t fs) -> exists es, visit true order (snd f) = Ok es) by (intros f I; apply IH; now apply in_order_In in I).
    revert Y. generalize (in_order order t fs) as l. induction l as [|a l J]; intros Y; cbn [mapM]; eauto.
    destruct (Y a (or_introl eq_refl)) as [es ->]. destruct J as [ls ->]; [intros; apply Y; now right|]. cbn [bind]. eauto.
Qed.

Lemma C53_dispatch_pf : forall order t es, visit true order t = Ok es -> forall h s, In (h, s) es -> handles s h.
Proof.
  intros order t. induction t as [t N|t k fs N IH] using node_ind; intros es E h s I.
  - rewrite visit_atom in E by assumption. pose proof (dispatch_handles t) as D. destruct (dispatch t); inversion E; subst; destruct I as [X|[]]; inversion X; subst; auto.
  - rewrite (visit_node _ _ _ _ _ N) in E. destruct (mapM _ _) as [l|] eqn:M; [|discriminate]. cbn [bind] in E. inversion E; subst. destruct I as [X|I].
    + inversion X; subst. apply dispatch_handles.
    + apply in_concat in I as (x & J & I). apply mapM_Forall2 in M. assert (Y : exists f, In f (in_order order t fs) /\ visit true order (snd f) = Ok x).
      { clear -M J. induction M as [|a b l m R M IHM]; [easy|]. destruct J as [<-|J]; [exists a; split; auto; now left|]. destruct (IHM J) as (f & If & V). exists f. split; auto. now right. }
      destruct Y as (f & If & V). apply (IH f (in_order_In _ _ _ _ If) _ V _ _ I).
Qed.

Lemma Forall2_map_l {A B C} (f : A -> B) (R : B -> C -> Prop) l m : Forall2 (fun a c => R (f a) c) l m <-> Forall2 R (map f l) m.
Proof.
  split.
  - induction 1; constructor; auto.
  - revert m. induction l as [|a l IH]; cbn [map]; intros m F; inversion F; subst; constructor; auto.
Qed.

Lemma node_inside t k fs : node_of t = Some (k, fs) -> inside t = flat_map (fun f => snd f :: inside (snd f)) fs.
Proof. induction t as [l|n ms|k' u' fs'|m t IH]; try discriminate; [|exact IH]. intros E. inversion E; subst. reflexivity. Qed.

Lemma atom_inside t : node_of t = None -> inside t = [].
Proof. induction t as [l|n ms|k' u' fs'|m t IH]; try discriminate; auto. Qed.

Lemma flat_map_perm {A B} (f : A -> list B) l m : Permutation l m -> Permutation (flat_map f l) (flat_map f m).
Proof. induction 1; cbn [flat_map]; auto; [now apply Permutation_app_head| |etransitivity; eauto]. rewrite !app_assoc. apply Permutation_app_tail, Permutation_app_comm. Qed.

Lemma C53_once_pf : forall order t, is_order order -> exists es, visit true order t = Ok es /\
  hd_error (map snd es) = Some t /\ Permutation (map snd es) (t :: inside t).
Proof.
  intros order t O. destruct (visit_total order t) as [es E]. exists es. split; auto. revert es E.
  induction t as [t N|t k fs N IH] using node_ind; intros es E.
  - rewrite visit_atom in E by assumption. rewrite atom_inside by assumption. destruct (dispatch t); inversion E; subst; cbn; auto.
  - rewrite (visit_node _ _ _ _ _ N) in E. destruct (mapM _ _) as [l|] eqn:M; [|discriminate]. cbn [bind] in E. inversion E; subst. cbn [map snd hd_error].
    split; auto. apply perm_skip. rewrite (node_inside _ _ _ N). apply mapM_Forall2 in M.
    destruct (in_order_perm order t k fs fs O N eq_refl) as [P _]. rewrite <- (flat_map_perm _ _ _ P). clear P.
    assert (X : forall f, In f (in_order order t fs) -> In f fs) by (intros f; apply in_order_In).
    induction M as [|a b gs l V M J]; cbn [List.concat map flat_map]; auto. rewrite map_app. apply Permutation_app.
    + apply (IH a); auto. apply X. now left.
    + apply J; auto. intros f I. apply X. now right.
Qed.

Lemma C53_leaves_pf : forall order t, is_order order -> exists es, visit true order t = Ok es /\
  leaves t (map snd (filter (fun e => atomic (fst e)) es)).
Proof.
  intros order t O. destruct (visit_total order t) as [es E]. exists es. split; auto. revert es E.
  induction t as [t N|t k fs N IH] using node_ind; intros es E.
  - rewrite visit_atom in E by assumption. pose proof (dispatch_atom t N) as A. destruct (dispatch t); inversion E; subst; try discriminate; now constructor.
  - rewrite (visit_node _ _ _ _ _ N) in E. destruct (mapM _ _) as [l|] eqn:M; [|discriminate]. cbn [bind] in E. inversion E; subst. cbn [filter fst].
    rewrite (dispatch_node _ _ _ N). apply mapM_Forall2 in M. destruct (in_order_perm order t k fs fs O N eq_refl) as [P Q].
    assert (X : forall f, In f (in_order order t fs) -> In f fs) by (intros f; apply in_order_In).
    replace (map snd (filter (fun e => atomic (fst e)) (List.concat l))) with (List.concat (map (fun es => map snd (filter (fun e => atomic (fst e)) es)) l)).
    + eapply lv_node; eauto. clear P Q E. induction M as [|a b gs l V M J]; cbn [map]; constructor; auto; [apply IH; auto; apply X; now left|].
      apply J. intros f I. apply X. now right.
    + clear. induction l as [|x l IH]; auto. cbn [List.concat map]. rewrite filter_app, map_app. now rewrite IH.
Qed.

Lemma C53_no_visit_leaf_refuted_pf : forall order t, is_order order -> reaches_leaf t -> visit false order t = Raise EAttributeError.
Proof.
  intros order t O. induction t as [t N|t k fs N IH] using node_ind; intros R.
  - rewrite visit_atom by assumption. assert (D : dispatch t = VLeaf); [|now rewrite D].
    revert N. induction R; cbn [node_of]; intros N; try discriminate; auto.
  - rewrite (visit_node _ _ _ _ _ N). assert (X : exists f, In f fs /\ reaches_leaf (snd f)).
    { revert N. induction R; cbn [node_of]; intros N; try discriminate; auto. inversion N; subst. eauto. }
    destruct X as (f & If & Rf). destruct (in_order_perm order t k fs fs O N eq_refl) as [P _].
    assert (Jf : In f (in_order order t fs)) by (eapply Permutation_in; [apply Permutation_sym, P|auto]).
    assert (T : forall g, In g (in_order order t fs) -> visit false order (snd g) = Raise EAttributeError \/ exists es, visit false order (snd g) = Ok es).
    { intros g _. generalize (snd g) as s. intros s. induction s as [s Ns|s k' fs' Ns IHs] using node_ind.
      - rewrite visit_atom by assumption. destruct (dispatch s); eauto.
      - rewrite (visit_node _ _ _ _ _ Ns). assert (Y : forall a, In a (in_order order s fs') -> visit false order (snd a) = Raise EAttributeError \/ exists es, visit false order (snd a) = Ok es)
          by (intros a I; apply IHs; now apply in_order_In in I). revert Y. generalize (in_order order s fs') as l. clear. intros l. induction l as [|a l J]; cbn [mapM bind]; intros Y; eauto.
        destruct (Y a (or_introl eq_refl)) as [->|[es ->]]; cbn [bind]; auto. destruct J as [J|[es' J]]; [intros; apply Y; now right| |].
        + left. destruct (mapM _ l); [discriminate|]. cbn [bind] in *. auto.
        + right. destruct (mapM _ l); [|discriminate]. cbn [bind]. eauto. }
    assert (M : mapM (fun f => visit false order (snd f)) (in_order order t fs) = Raise EAttributeError); [|now rewrite M].
    revert Jf T. generalize (in_order order t fs) as l. clear -IH If Rf. induction l as [|a l J]; intros I T; [easy|]. cbn [mapM].
    destruct (T a (or_introl eq_refl)) as [->|[es E]]; auto. rewrite E. cbn [bind]. destruct I as [->|I]; [rewrite (IH f If Rf) in E; discriminate|].
    rewrite J; auto. intros g Ig. apply T. now right.
Qed.

Lemma mapM_map {A B C} (f : A -> B) (g : B -> res C) l : mapM g (map f l) = mapM (fun a => g (f a)) l.
Proof. induction l as [|a l IH]; cbn [map mapM]; auto. now rewrite IH. Qed.

Lemma mapM_nth {A} (l : list A) n : mapM (fun i => match nth_error l i with Some v => Ok v | None => Raise EIndexError end) (seq 0 n) =
  if Nat.leb n (length l) then Ok (firstn n l) else Raise EIndexError.
Proof.
  assert (G : forall k m, mapM (fun i => match nth_error (m ++ l) i with Some v => Ok v | None => Raise EIndexError end) (seq (length m) k) =
     if Nat.leb k (length l) then Ok (firstn k l) else Raise EIndexError); [|apply (G n [])].
  induction l as [|a l IH]; intros [|k] m; cbn [seq mapM firstn Nat.leb length]; auto.
  - rewrite app_nil_r. rewrite (proj2 (nth_error_None m (length m))) by lia. reflexivity.
  - rewrite nth_error_app2, Nat.sub_diag by lia. cbn [nth_error bind]. specialize (IH k (m ++ [a])). rewrite app_length, Nat.add_1_r, <- app_assoc in IH. cbn [app] in IH. rewrite IH. now destruct (Nat.leb k (length l)).
Qed.

Lemma C53_inst_step_pf : forall leaf H x, node_of (vtype x) <> None -> vvisit leaf H x =
  (d <- value_dict H x ;; rs <- mapM (fun e => match snd e with Some v => if is_none v then Ok [] else vvisit leaf H v | None => Ok [] end) d ;;
   Ok ((dispatch (vtype x), x) :: List.concat rs)).
Proof.
  intros leaf H x N. destruct (node_of (vtype x)) as [[k fs]|] eqn:E; [|easy]. pose proof (dispatch_node _ _ _ E) as D. unfold value_dict. rewrite E.
  destruct x as [t z|t b vs|t v|t i v]; cbn [vvisit vtype] in *; rewrite E.
  - destruct (dispatch t); try discriminate; reflexivity.
  - match goal with |- match _ with VEnum => _ | VProduct => ?a | _ => _ end = ?b => assert (X : a = b); [|destruct (dispatch t); try discriminate; exact X] end.
    rewrite !mapM_nth. rewrite (mapM_ext _ (fun i => r <- match nth_error (map (fun v => (v, vvisit leaf H v)) vs) i with Some v => Ok v | None => Raise EIndexError end ;; Ok (Some r))).
    2:{ intros i _. destruct (nth_error _ i); reflexivity. }
    assert (Y : forall {A B} (l : list A) (g : A -> B) n, mapM (fun i => r <- match nth_error l i with Some v => Ok v | None => Raise EIndexError end ;; Ok (g r)) (seq 0 n) =
       (rs <- mapM (fun i => match nth_error l i with Some v => Ok v | None => Raise EIndexError end) (seq 0 n) ;; Ok (map g rs))).
    { intros A B l g n. generalize (seq 0 n) as is. induction is as [|i is IH]; auto. cbn [mapM]. rewrite IH. clear IH. destruct (nth_error l i); cbn [bind]; auto. destruct (mapM (fun i => match nth_error l i with Some v => Ok v | None => Raise EIndexError end) is); reflexivity. }
    rewrite Y, mapM_nth, map_length. destruct (Nat.leb (length fs) (length vs)) eqn:L; cbn [bind]; auto.
    apply Nat.leb_le in L. rewrite firstn_map, map_map, mapM_map.
    assert (Z : mapM (fun e : vkey * option val => match snd e with Some v => if is_none v then Ok [] else vvisit leaf H v | None => Ok [] end)
      (combine (tuple_keys k fs) (map Some (firstn (length fs) vs))) = mapM (fun v => if is_none v then Ok [] else vvisit leaf H v) (firstn (length fs) vs)); [|now rewrite Z].
    assert (LL : length (tuple_keys k fs) = length (firstn (length fs) vs)).
    { rewrite firstn_length_le by lia. unfold tuple_keys, names. destruct k; rewrite !map_length; auto. apply seq_length. }
    revert LL. generalize (tuple_keys k fs) as ks. generalize (firstn (length fs) vs) as l. induction l as [|a l IH]; intros [|c ks] LL; cbn in LL; try discriminate; auto.
    cbn [map combine mapM snd]. rewrite IH by lia. reflexivity.
  - match goal with |- match _ with VEnum => _ | VProduct => ?a | _ => _ end = ?b => assert (X : a = b); [|destruct (dispatch t); try discriminate; exact X] end.
    cbn [bind]. rewrite !mapM_map. erewrite mapM_ext; [reflexivity|]. intros s _. cbn [snd]. now destruct (sub H (vtype v) s).
  - match goal with |- match _ with VEnum => _ | VProduct => ?a | _ => _ end = ?b => assert (X : a = b); [|destruct (dispatch t); try discriminate; exact X] end.
    cbn [bind]. rewrite !mapM_map.
    assert (Z : mapM (fun a : nat => match (if Nat.eqb i a then Some (v, vvisit leaf H v) else None) with Some (v, r) => if is_none v then Ok [] else r | None => Ok [] end) (seq 0 (length fs)) =
      mapM (fun a : nat * (string * ty) => match snd (VkName (fst (snd a)), if Nat.eqb i (fst a) then Some v else None) with Some v => if is_none v then Ok [] else vvisit leaf H v | None => Ok [] end) (combine (seq 0 (length fs)) fs)); [|now rewrite Z].
    generalize 0%nat as n. clear E N. induction fs as [|f fs IH]; intros n; cbn [length seq combine mapM]; auto. cbn [snd fst]. rewrite IH. now destruct (Nat.eqb i n).
Qed.

Lemma C53_instances_partial_pf : forall H x, deep H x -> vvisit true H x = Ok (map (fun v => (dispatch (vtype v), v)) (parts x)).
Proof.
  intros H. fix IH 2. intros x D. destruct D as [t z N|t k fs b vs N K L F|t fs f gs hs v N Efs S Other D|t n x fs k v N L D].
  - cbn [vvisit vtype parts map]. pose proof (dispatch_atom t N) as A. destruct (dispatch t); try discriminate; reflexivity.
  - rewrite C53_inst_step_pf by (cbn [vtype]; rewrite N; discriminate). unfold value_dict. cbn [vtype]. rewrite N, mapM_nth, <- L, Nat.leb_refl, firstn_all. cbn [bind].
    assert (Z : mapM (fun e : vkey * option val => match snd e with Some v => if is_none v then Ok [] else vvisit true H v | None => Ok [] end)
      (combine (tuple_keys k fs) (map Some vs)) = Ok (map (fun v => if is_none v then [] else map (fun v => (dispatch (vtype v), v)) (parts v)) vs)).
    { assert (LL : length (tuple_keys k fs) = length vs). { unfold tuple_keys, names. destruct k; rewrite !map_length; auto. now rewrite seq_length. }
      revert LL. generalize (tuple_keys k fs) as ks. clear -F IH. induction F as [|a l Da F J]; intros [|c ks] LL; cbn in LL; try discriminate; auto.
      cbn [map combine mapM snd]. rewrite (J ks) by lia. destruct (is_none a); cbn [bind]; [reflexivity|]. rewrite (IH a Da). reflexivity. }
    rewrite Z. cbn [bind parts map]. do 2 f_equal. rewrite flat_map_concat_map, concat_map, map_map. f_equal. apply map_ext. intros v. now destruct (is_none v).
  - rewrite C53_inst_step_pf by (cbn [vtype]; rewrite N; discriminate). unfold value_dict. cbn [vtype]. rewrite N. cbn [bind]. rewrite mapM_map. cbn [snd].
    assert (Z : forall l, (forall g, In g l -> sub H (vtype v) (snd g) = false) ->
      mapM (fun a => match (if sub H (vtype v) a then Some v else None) with Some v => if is_none v then Ok [] else vvisit true H v | None => Ok [] end) (types l) = Ok (map (fun _ => []) l)).
    { induction l as [|g l J]; intros O; auto. cbn [types map mapM]. rewrite (O g (or_introl eq_refl)). cbn [bind]. unfold types in J. rewrite J; auto. intros; apply O; now right. }
    assert (A : forall {B C} (f : B -> res C) l m, mapM f (l ++ m) = (a <- mapM f l ;; c <- mapM f m ;; Ok (a ++ c))).
    { intros B C h l m. induction l as [|b l J]; cbn [app mapM bind]; [now destruct (mapM h m)|]. rewrite J. destruct (h b); cbn [bind]; auto. destruct (mapM h l); cbn [bind]; auto. now destruct (mapM h m). }
    subst fs. unfold types. rewrite map_app. cbn [map]. rewrite A. fold (types gs). rewrite Z by (intros; apply Other, in_or_app; auto). cbn [bind mapM]. rewrite S. fold (types hs).
    rewrite Z by (intros; apply Other, in_or_app; auto).
    assert (Cn : forall {B C} (l : list B), List.concat (map (fun _ => @nil C) l) = []) by (intros B C l; induction l; auto).
    cbn [parts]. destruct (is_none v).
    + cbn [bind map]. rewrite concat_app. cbn [List.concat app]. now rewrite !Cn.
    + rewrite (IH v D). cbn [bind map]. rewrite concat_app. cbn [List.concat app]. rewrite !Cn. cbn [app]. now rewrite app_nil_r.
  - rewrite C53_inst_step_pf by (cbn [vtype]; rewrite N; discriminate). unfold value_dict. cbn [vtype]. rewrite N. cbn [bind]. rewrite mapM_map. cbn [snd].
    set (r := if is_none v then [] else map (fun v => (dispatch (vtype v), v)) (parts v)).
    assert (Z : forall l n, mapM (fun a : nat * (string * ty) => match (if Nat.eqb k (fst a) then Some v else None) with Some v => if is_none v then Ok [] else vvisit true H v | None => Ok [] end) (combine (seq n (length l)) l)
       = Ok (map (fun i => if Nat.eqb k i then r else []) (seq n (length l)))).
    { induction l as [|g l J]; intros m; auto. cbn [length seq combine mapM map fst]. rewrite J. subst r. destruct (Nat.eqb k m); cbn [bind]; auto. destruct (is_none v); cbn [bind]; auto. now rewrite (IH v D). }
    rewrite Z. cbn [bind]. assert (C : forall m n, List.concat (map (fun i => if Nat.eqb k i then r else []) (seq n m)) = if andb (Nat.leb n k) (Nat.ltb k (n + m)) then r else []).
    { induction m as [|m J]; intros p; cbn [seq map List.concat]. { destruct (Nat.leb_spec p k), (Nat.ltb_spec k (p + 0)); cbn; auto; lia. }
      rewrite J. destruct (Nat.eqb_spec k p); cbn [app].
      - subst. destruct (Nat.leb_spec (S p) p); [lia|]. cbn [andb]. rewrite app_nil_r. destruct (Nat.leb_spec p p); [|lia]. destruct (Nat.ltb_spec p (p + S m)); [reflexivity|lia].
      - destruct (Nat.leb_spec (S p) k), (Nat.leb_spec p k), (Nat.ltb_spec k (S p + m)), (Nat.ltb_spec k (p + S m)); cbn [andb]; auto; lia. }
    rewrite C. destruct (Nat.leb_spec 0 k); [|lia]. destruct (Nat.ltb_spec k (0 + length fs)); [|lia]. cbn [andb]. subst r. cbn [parts map]. now destruct (is_none v).
Qed.

Lemma C53_sum_refuted_pf : ~ (forall H x, vok H x -> exists es, vvisit true H x = Ok es /\ map snd es = parts x).
Proof.
  intros C. set (v := VTup point true [VAtom bv4 1; VAtom bv4 2]).
  destruct (C nosub (VSum sum_pp v)) as (es & E & P).
  - eapply (vok_sum nosub sum_pp _ (EmptyString, point)); [reflexivity| |reflexivity]. apply in_map_iff. exists point. split; auto. vm_compute. auto.
  - assert (L : length (map snd es) = length (parts (VSum sum_pp v))) by now rewrite P. clear P. revert E L. vm_compute. intros E. inversion E. discriminate.
Qed.

Lemma C53_none_refuted_pf : vvisit true nosub (VTup (TNode KTuple [] (unnamed [none_t])) true [VAtom none_t 0]) =
  Ok [(VTuple, VTup (TNode KTuple [] (unnamed [none_t])) true [VAtom none_t 0])].
Proof. reflexivity. Qed.
