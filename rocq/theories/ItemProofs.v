(** Proofs of the theorems stated in ItemProps.v. *)
From Coq Require Import Lia ZifyBool.
From Verif Require Import PyBase BVModel BVSpec BVFacts SliceFacts MetaModel HierModel HierSpec MergeFacts HierFacts HierProofs NewModel NewAdtFacts.



Lemma child_kind_any s k n o s1 t : hinv s -> halive s k = true -> class_stmt s [k] n [] o = Ok (s1, t) -> hkind s1 t = hkind s k.
Proof.
  intros I A. assert (L := proj1 (proj1 (alive_spec _ _) A)). unfold class_stmt. cbv iota.
  assert (W : winner s KType [k] = Ok (kd s k)) by (cbn [winner]; unfold hkind; destruct (kd s k); reflexivity).
  rewrite W. cbn [bind]. change (hkind s1 t) with (kd s1 t). change (hkind s k) with (kd s k).
  assert (P : forall q, new_adt s q [k] None None (others_of o) None = Ok (s1, t) -> kd s1 t = q).
  { intros q H. assert (N := new_adt_spec s q [k] None None (others_of o) None). rewrite H in N.
    destruct N as (ft & l & u & J & C3 & -> & -> & _). change (fst (add s ?c)) with (put s c). now rewrite get_put_new. }
  destruct (kd s k) eqn:K; cbn [app attr_class]; auto. rewrite (c3_single s k I L). intros H. inv H.
  change (fst (add s ?c)) with (put s c). match goal with |- kd (HS (hclasses s ++ [?c]) _ _ _) _ = _ => exact (f_equal h_kind (get_put_new s c)) end.
Qed.

Lemma C98_position_pf : forall h c l z, hkind (hrun h) c = KTuple \/ hkind (hrun h) c = KAnon \/ hkind (hrun h) c = KProd ->
  fields_of (hrun h) c = Some l -> let n := Z.of_nat (length l) in
  bound_item (hrun h) c (BPos z) =
    (if ((- n <=? z) && (z <? n))%Z then match nth_error l (Z.to_nat (z mod n)) with Some t => Ok t | None => Raise EOutOfModel end
     else Raise EIndexError) /\
  ((- n <= z < n)%Z -> exists t, nth_error l (Z.to_nat (z mod n)) = Some t).
Proof.
  intros h c l z K F n. unfold bound_item. unfold fields_of in F. rewrite F.
  assert (E : (match hkind (hrun h) c with KTuple | KAnon | KProd => tuple_item l z | KSum | KTag => Raise EKeyError | _ => Raise ETypeError end
            = tuple_item l z)) by (destruct K as [->|[->| ->]]; reflexivity).
  assert (P : (- n <= z < n)%Z -> exists t, nth_error l (Z.to_nat (z mod n)) = Some t).
  { intros B. assert (M := Z.mod_pos_bound z n ltac:(lia)). destruct (nth_error l (Z.to_nat (z mod n))) eqn:N; eauto.
    apply nth_error_None in N. unfold n in *. lia. }
  split; [|exact P].
  transitivity (tuple_item l z); [destruct K as [->|[->| ->]]; reflexivity|]. clear E K.
  unfold tuple_item. fold n. destruct ((- n <=? z) && (z <? n))%Z eqn:B.
  - destruct P as [t T]; [lia|]. rewrite T.
    assert (M : (if z <? 0 then z + n else z)%Z = (z mod n)%Z).
    { destruct (z <? 0)%Z eqn:Zn.
      - rewrite <- (Z_mod_plus_full z 1 n). rewrite Z.mod_small; lia.
      - rewrite Z.mod_small; lia. }
    rewrite M. assert (R := Z.mod_pos_bound z n ltac:(lia)).
    replace ((0 <=? z mod n) && (z mod n <? n))%Z with true by lia. f_equal. now apply nth_error_nth.
  - destruct (z <? 0)%Z eqn:Zn; match goal with |- (if ?b then _ else _) = _ => replace b with false by lia; reflexivity end.
Qed.

Lemma C98_slice_pf : forall h c l a b st, hkind (hrun h) c = KTuple \/ hkind (hrun h) c = KAnon \/ hkind (hrun h) c = KProd ->
  fields_of (hrun h) c = Some l -> st <> Some 0%Z ->
  bound_slice (hrun h) c a b st = Ok (map (fun i => nth (Z.to_nat i) l 0%nat) (slice_positions (Z.of_nat (length l)) a b st)).
Proof.
  intros h c l a b st K F S. unfold bound_slice. unfold fields_of in F. rewrite F.
  transitivity (list_slice 0%nat l a b st); [destruct K as [->|[->| ->]]; reflexivity|].
  unfold list_slice. rewrite slice_indices_correct by (auto; lia). reflexivity.
Qed.

Lemma C98_product_partial_pf : forall h bs n fs o s t, plain_bases (hrun h) KProd bs -> fs <> [] -> NoDup (map fst fs) ->
  (forall x, In x (map snd fs) -> usable (hrun h) x) -> class_stmt (hrun h) bs n fs o = Ok (s, t) ->
  (forall i f ty, nth_error fs i = Some (f, ty) -> bound_item s t (BStr f) = Ok ty /\ bound_item s t (BPos (Z.of_nat i)) = Ok ty) /\
  (forall f, ~ In f (map fst fs) -> bound_item s t (BStr f) = Raise EKeyError).
Proof.
  intros h bs n fs o s t PB NF ND R E.
  destruct (stmt_made _ _ _ _ _ _ _ KProd (run_inv h) PB (or_introl eq_refl) NF R E) as (I & X & At & Kt & fs' & o' & K & SF & SO).
  destruct (C80_product_partial_pf h bs n fs o s t PB NF R E) as (_ & F & D & _).
  unfold bound_item. unfold fields_of in F. rewrite F. unfold hkind. rewrite Kt, D. split.
  - intros i f ty N. split.
    + assert (Q : find (fun p => String.eqb (fst p) f) fs = Some (f, ty)).
      { clear - ND N. revert i N. induction fs as [|[g tg] fs IH]; intros i N; [destruct i; discriminate|].
        cbn [map fst] in ND. inversion ND as [|? ? N1 N2]; subst. destruct i as [|i]; cbn [nth_error] in N.
        - injection N as -> ->. cbn [find fst]. now rewrite String.eqb_refl.
        - cbn [find fst]. destruct (String.eqb_spec g f) as [->|]; [|eauto].
          elim N1. apply nth_error_In in N. apply in_map_iff. now exists (f, ty). }
      now rewrite Q.
    + unfold tuple_item. assert (Li : (i < length fs)%nat) by (apply nth_error_Some; congruence). rewrite map_length.
      replace (Z.of_nat i <? 0)%Z with false by lia.
      replace ((0 <=? Z.of_nat i) && (Z.of_nat i <? Z.of_nat (length fs)))%Z with true by lia.
      rewrite Nat2Z.id. f_equal. apply nth_error_nth. now rewrite nth_error_map, N.
  - intros f NI. destruct (find (fun p => String.eqb (fst p) f) fs) as [[g tg]|] eqn:Fi; auto.
    apply find_some in Fi as [Fi En]. cbn [fst] in En. apply String.eqb_eq in En. subst g. elim NI. apply in_map_iff. now exists (f, tg).
Qed.

Lemma C98_inherit_pf : forall h a n o s t i l, usable (hrun h) a -> fields_of (hrun h) a = Some l -> class_stmt (hrun h) [a] n [] o = Ok (s, t) ->
  bound_item s t i = bound_item (hrun h) a i.
Proof.
  intros h a n o s t i l A F E. destruct (C81_inherit_pf h a n o s t A E) as (E1 & E2 & _).
  unfold bound_item. unfold fields_of in E1. rewrite E1, E2. now rewrite (child_kind_any (hrun h) a n o s t (run_inv h) A E).
Qed.

Lemma C98_sum_pf : forall h c l t, hkind (hrun h) c = KSum \/ hkind (hrun h) c = KTag -> fields_of (hrun h) c = Some l ->
  (In t l -> bound_item (hrun h) c (BTy t) = Ok t) /\ (~ In t l -> bound_item (hrun h) c (BTy t) = Raise EKeyError) /\
  (forall i, (forall u, i <> BTy u) -> bound_item (hrun h) c i = Raise EKeyError).
Proof.
  intros h c l t K F. unfold bound_item. unfold fields_of in F. rewrite F. split; [|split].
  - intros H. apply mem_In in H. destruct K as [-> | ->]; now rewrite H.
  - intros H. destruct (mem t l) eqn:M; [apply mem_In in M; contradiction|]. destruct K as [-> | ->]; reflexivity.
  - intros [z|m|u] H; destruct K as [-> | ->]; try reflexivity; now destruct (H u).
Qed.

Lemma C98_anonymous_refuted_pf : forall h k m s t f, usable (hrun h) k -> hkind (hrun h) k = KAnon -> NoDup (map fst m) ->
  (forall x, In x (map snd m) -> usable (hrun h) x) -> getitem (hrun h) k (IdxNames m) = Ok (s, t) ->
  field_dict s t = Some m /\ bound_item s t (BStr f) = Raise ETypeError.
Proof.
  intros h k m s t f Ak EK ND R E. unfold hkind in *.
  assert (Q := getitem_ok (hrun h) k (IdxNames m) (run_inv h) Ak R). rewrite E in Q. destruct Q as (fs & G & M).
  rewrite EK in G. injection G as <-. assert (M' := M). destruct M' as (I & X & _). destruct (made_alive _ _ _ _ _ M) as [At Kt].
  assert (Lk := alive_lt _ _ Ak). destruct (by_key s I t k m At Kt) as (B1 & B2 & B3 & B4 & B5).
  rewrite (mext_get _ _ k X Lk), EK in B3.
  split; [|unfold bound_item, hkind; now rewrite B1, B3].
  destruct (index_of s I t k m At Kt) as ((_ & _ & _ & _ & _ & _ & _ & T & P) & _).
  rewrite (mext_get _ _ k X Lk) in T. rewrite EK in T. cbn in T.
  destruct (v_mro s I t (alive_lt _ _ At)) as (l & El & _).
  unfold field_dict; rewrite El; cbn [first_some]; now rewrite T.
Qed.

Lemma C98_added_refuted_pf : exists h a s t ty, class_stmt (hrun h) [a] "B"%string [("y"%string, ty)] [] = Ok (s, t) /\
  getattr s t "y" = Some (AField ty 0) /\ bound_item s t (BStr "y") = Raise EKeyError /\ bound_item s t (BPos 0) = Ok ty.
Proof.
  exists [HClass [] "T" [] []; HClass [3] "A" [("x"%string, 6)] []]%nat, 9%nat. eexists _, _, 6%nat.
  split; [vm_compute; reflexivity|]. split; [vm_compute; reflexivity|]. split; vm_compute; reflexivity.
Qed.
