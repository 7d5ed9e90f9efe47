(** Proofs of the theorems stated in DerivProps.v. *)
From Coq Require Import Lia.
From Verif Require Import PyBase BVModel BVSpec OpModel SMTSpec ProgModel MetaModel MetaSpec MetaFacts DerivModel DerivSpec DerivFacts.

Lemma C113_program_pf : forall h u rs p,
  let s := mrun (builtin ++ h) in
  is_bv s u -> unsized s u -> mixins_last s u -> below_BitVector s u ->
  Forall (object s) rs -> (forall c, In c (start_classes rs p) -> sized_of s u c) ->
  rmap (fun r => map (plain (fst r)) (snd r)) (drun s rs p) = conc_run (map (plain s) rs) (map (plain_call s) p)
  /\ forall s' vs, drun s rs p = Ok (s', vs) -> forall x, In (UVec x) vs -> sized_of s' u (vcls x) /\ object s' (UVec x).
Proof.
  intros h u rs p s Hb Hu Hm H2 Ho Hc. pose proof (J_run h) as Js. fold s in Js.
  assert (Fo : famok s (Some u)).
  { destruct Hb as [A B]. split; auto. split; auto. split; auto. apply tame_iff; auto; [apply (j_minv _ Js)|now apply alive_spec in A]. }
  set (b := below_SIntVector s u).
  assert (K : forall c, In c (start_classes rs p) -> okc s (Some u) b c) by (intros c Q; apply sized_of_okc; auto).
  pose proof (drun_ag (Some u) b p s rs Js Fo) as D.
  destruct (drun s rs p) as [[s' vs]|e]; cbn [agree rmap fst snd] in *.
  - destruct D as (J' & X & Ov & E).
    { apply objects_okl; auto. intros c Q. apply K. apply in_app_iff. now left. }
    { apply Forall_forall. intros c Q. apply K. apply in_app_iff. now right. }
    split; [now rewrite E|]. intros s1 vs1 [= <- <-] x Hx. unfold okl in Ov. rewrite Forall_forall in Ov. specialize (Ov _ Hx).
    split; [apply (okc_sized_of s' u b); auto; apply Ov|]. apply (okv_object s' (Some u) b); auto. discriminate.
  - split; [|discriminate]. symmetry. apply D; [| |discriminate].
    { apply objects_okl; auto. intros c Q. apply K. apply in_app_iff. now left. }
    { apply Forall_forall. intros c Q. apply K. apply in_app_iff. now right. }
Qed.

Lemma C113_numbers_pf : forall h b rs p s' vs,
  let s := mrun (builtin ++ h) in
  Forall (object s) rs -> (forall c, In c (start_classes rs p) -> vclass s c /\ below_SIntVector s c = b) ->
  drun s rs p = Ok (s', vs) ->
  conc_run (map (plain s) rs) (map (plain_call s) p) = Ok (map (plain s') vs)
  /\ forall x, In (UVec x) vs -> object s' (UVec x) /\ below_SIntVector s' (vcls x) = b.
Proof.
  intros h b rs p s' vs s Ho Hc Hd. pose proof (J_run h) as Js. fold s in Js.
  assert (K : forall c, In c (start_classes rs p) -> okc s None b c) by (intros c Q; destruct (Hc c Q); now apply vclass_okc).
  pose proof (drun_ag None b p s rs Js I) as D. rewrite Hd in D. cbn [agree] in D.
  destruct D as (J' & X & Ov & E).
  { apply objects_okl; auto. intros c Q. apply K. apply in_app_iff. now left. }
  { apply Forall_forall. intros c Q. apply K. apply in_app_iff. now right. }
  split; [exact E|]. intros x Hx. unfold okl in Ov. rewrite Forall_forall in Ov. specialize (Ov _ Hx).
  split; [apply (okv_object s' None b); auto; discriminate|]. apply (o_sign _ _ _ _ (proj1 Ov)).
Qed.

Lemma C113_mixed_refuted_pf : exists h x y r w,
  let s := mrun (builtin ++ h) in
  object s (UVec x) /\ object s (UVec y) /\ below_SIntVector s (vcls x) = false /\ below_SIntVector s (vcls y) = true
  /\ ubinop s OShr (UVec x) (UVec y) = Ok (UVec r) /\ vval r = 64
  /\ py_binop_val OShr (plain s (UVec x)) (plain s (UVec y)) = Ok (VBV w) /\ bval w = 192.
Proof.
  exists [MIndex 2 (XInt 8); MClass [7]; MIndex 5 (XInt 8)]%nat, (VObj 8 128), (VObj 10 1). do 2 eexists. cbv zeta. set (s := mrun _).
  assert (V : forall c z, c = 8%nat \/ c = 10%nat -> 0 <= z < 256 -> object s (UVec (VObj c z))).
  { intros c z [-> | ->] Hz; (split; [|exists 8; split; [vm_compute; reflexivity|exact Hz]]); (split; [split; vm_compute; reflexivity|]);
      (split; [vm_compute; reflexivity|]); exists 8; (split; [vm_compute; reflexivity|lia]). }
  split; [apply V; auto; lia|]. split; [apply V; auto; lia|]. repeat (split; [vm_compute; reflexivity|]). vm_compute. reflexivity.
Qed.

Lemma C113_signed_pf : forall h c, let s := mrun (builtin ++ h) in is_bv s c -> below_BitVector s c ->
  signed_cls s c = below_SIntVector s c
  /\ (below_SIntVector s c = true -> exists l1 l2, c_mro (get_cls s c) = l1 ++ 5%nat :: l2 /\ ~ In 2%nat l1 /\ In 2%nat l2).
Proof.
  intros h c s [A B] H2. destruct (J_run h) as [Is _ Bs]. fold s in Is, Bs. assert (L : (c < len s)%nat) by now apply alive_spec in A.
  split; [apply signed_cls_spec; auto; now apply issub_sub|]. intros H5. apply mro_before; auto. now apply issub_sub.
Qed.

Lemma C113_keeps_pf : forall s rs i x a s' vs, keeps i = Some x -> reg rs x = Ok (UVec a) -> dcall s rs i = Ok (s', vs) ->
  s' = s /\ exists v, vs = [UVec v] /\ vcls v = vcls a.
Proof. intros s rs i x a s' vs. apply dcall_keeps. Qed.

Lemma C113_no_unsized_pf : forall s rs i x a, rebuilds i = Some x -> Forall (fun k => (k < length rs)%nat) (reads i) ->
  reg rs x = Ok (UVec a) -> c_unsized (get_cls s (vcls a)) = None -> 0 < vsize s a -> dcall s rs i = Raise EAttributeError.
Proof. intros s rs i x a. apply dcall_none. Qed.

Lemma C113_which_pf : forall h c n, let s := mrun (builtin ++ h) in alive s c = true -> c_size (get_cls s c) = Some n ->
  (c_unsized (get_cls s c) = None <-> forall u, is_bv s u -> ~ sized_of s u c).
Proof.
  intros h c n s A E. pose proof (J_run h) as Js. fold s in Js. split.
  - intros N u [Au Bu] (m & G). destruct (J_getitem s u m s c Js Au Bu G) as (_ & _ & Ft).
    destruct (i_cache s (j_minv _ Js) _ _ _ (find_cache_In _ _ _ _ Ft)) as (_ & _ & _ & _ & _ & _ & Eu & _). congruence.
  - intros N. destruct (c_unsized (get_cls s c)) as [u|] eqn:Eu; auto. exfalso. pose proof (j_rinv _ Js c u n A E Eu) as Ft.
    pose proof (find_cache_In _ _ _ _ Ft) as C. destruct (cache_key s (j_minv _ Js) _ _ _ C) as [_ Au].
    destruct (i_cache s (j_minv _ Js) _ _ _ C) as (_ & _ & Bu & _). apply (N u); [split; auto|]. exists n. now apply getitem_cached.
Qed.

Lemma C113_statement_pf : forall h bs, let s := mrun h in let s' := mstep s (MClass bs) in let c := length (classes s) in
  length (classes s') = S c ->
  c_unsized (get_cls s' c) = match c_size (get_cls s' c) with Some _ => None | None => Some c end.
Proof.
  intros h bs s s' c. subst s'. cbn [mstep]. set (bs' := match bs with [] => _ | _ => _ end).
  destruct (forallb (alive s) bs'); [|intros H; exfalso; unfold c in H; lia].
  destruct (new_class s _ bs' None None) as [[s1 t]|] eqn:E; [|intros H; exfalso; unfold c in H; lia].
  intros _. unfold new_class in E. destruct (join_size s None bs') as [sz|]; [|discriminate]. cbn [bind] in E. destruct (c3 s bs') as [l|]; [|discriminate].
  injection E as <- <-. set (k := Cls _ _ _ _ _).
  change (get_cls (hold (Meta (classes s ++ [k]) (dead s) (cache s) (vars s)) (length (classes s))) c) with (get_cls (addc s k) (len s)).
  rewrite get_addc_new. cbn [k c_unsized c_size]. destruct sz; reflexivity.
Qed.

Lemma C113_modified_pf : forall h c s' d t, let s := mrun h in alive s c = true -> vmodified s [] c = Ok (s', d, t) ->
  issub s' t c = true /\ c_size (get_cls s' t) = c_size (get_cls s c)
  /\ c_unsized (get_cls s' t) = match c_size (get_cls s c) with Some _ => None | None => Some t end.
Proof.
  intros h c s' d t s A H. pose proof (mrun_minv h) as Is. fold s in Is.
  destruct (vmodify_ok (S c) s [] c s' d t Is A (Forall_nil _) H) as (I' & X & _ & (A1 & A2 & Hs & Ez & Eu)). cbn [fst snd] in *.
  assert (Lc : (c < len s)%nat) by now apply alive_spec in A. rewrite (mext_get s s' c X Lc) in Ez.
  split; [apply issub_sub; auto; now apply alive_spec in A2|]. split; auto. now rewrite Eu, Ez.
Qed.

Lemma C113_modified_refuted_pf : exists h c s' d t r,
  let s := mrun (builtin ++ h) in
  alive s c = true /\ vmodified s [] c = Ok (s', d, t)
  /\ dcall s [UVec (VObj c 5)] (DSlice 0 (Some 0) (Some 4)) = Ok r
  /\ dcall s' [UVec (VObj t 5)] (DSlice 0 (Some 0) (Some 4)) = Raise EAttributeError.
Proof.
  exists [MIndex 2 (XInt 8)]%nat, 7%nat. do 4 eexists. cbv zeta. split; [vm_compute; reflexivity|]. split; [vm_compute; reflexivity|].
  split; vm_compute; reflexivity.
Qed.
