(** Proofs of the theorems stated in InternProps.v. *)
From Coq Require Import Lia.
From Verif Require Import PyBase InternModel InternSpec.
(*P*)From Verif Require Import InternFacts InternCacheFacts InternStepFacts.
(*/P*)

Lemma C46_bind_pf : forall h s u i, reached s h -> is_alive s u -> t_fields (get_cls s u) = None ->
  index_fits (t_meta (get_cls s u)) i -> (forall c, In c (idx_refs i) -> is_alive s c) ->
  (t_meta (get_cls s u) = MAnon -> forall f, In f (index_fields i) -> parameter_name (fst f)) ->
  exists s1 t, istep s (OGet u i) = (s1, Ok t) /\ is_alive s1 t /\ hd_error (t_bases (get_cls s1 t)) = Some u /\
    exists gs, t_fields (get_cls s1 t) = Some gs /\ same_fields (order_matters (t_meta (get_cls s u))) (index_fields i) gs.
Proof.
  intros h s u i R Hu Hb Hi Hr Hp. pose proof (reached_wf s h R) as W.
  assert (Ha : forallb (alive s) (op_refs (OGet u i)) = true).
  { apply forallb_forall. intros c [<-|Hc]; apply alive_iff; auto. }
  destruct (getitem_spec (S u) s u (index_fields i)) as [(s' & t & E & W' & G & L & A)|(_ & Em & f & Hf & Pf)];
    [easy|easy|easy|now apply good_by_index in Hi|now rewrite index_refs|lia| |].
  - assert (E' : bind_getitem s u i = Ok (s', t)).
    { rewrite bind_getitem_eq. apply unbound_iff in Hb. rewrite Hb. destruct (t_meta (get_cls s u)), i; try easy; exact E. }
    exists (held s' (t :: vars s')), t. unfold istep. rewrite Ha, E'. split; [reflexivity|]. split; [exact A|].
    rewrite ordered_is in L. apply (lookup_made s' _ t W') in L as [_ M]. destruct M as (_ & _ & M1 & M2). split; [exact M1|exact M2].
  - exfalso. apply (Hp Em) in Hf. apply param_ok_iff in Hf. congruence.
Qed.

Lemma C46_index_identical_pf : forall h s u i s1 t h2 s2 j, reached s h -> istep s (OGet u i) = (s1, Ok t) ->
  s2 = irun s1 h2 -> is_alive s2 t -> index_fits (t_meta (get_cls s u)) j ->
  same_fields (order_matters (t_meta (get_cls s u))) (index_fields i) (index_fields j) ->
  snd (istep s2 (OGet u j)) = Ok t.
Proof.
  intros h s u i s1 t h2 s2 j R H -> Ha Hj Hs. pose proof (reached_wf s h R) as W.
  destruct (step_get s u i s1 t W H) as (Hi & Hb & W1 & Hu & Hg & L & A).
  destruct (run_spec h2 s1 W1) as (W2 & Hg2 & Hl2 & Hk & _). pose proof (Hk _ _ L Ha) as L2. clear Hk.
  assert (Lu : (u < length (classes s1))%nat).
  { destruct (step_spec s (OGet u i) W) as (_ & _ & C & _). rewrite H in C. destruct Hu. cbn in C. lia. }
  assert (Eu : get_cls (irun s1 h2) u = get_cls s u) by (rewrite Hg2 by easy; apply Hg, Hu).
  destruct (lookup_made _ _ t W2 L2) as [_ (_ & _ & M1 & gs & M2 & M3)].
  assert (RA : forall c, In c (refs_of (get_cls (irun s1 h2) t)) -> is_alive (irun s1 h2) c) by (intros c; now apply (w_closed _ W2 t)).
  assert (AL : forallb (alive (irun s1 h2)) (op_refs (OGet u j)) = true).
  { apply forallb_forall. intros c Hc. apply alive_iff. apply RA. unfold refs_of. destruct Hc as [<-|Hc].
    - apply in_or_app. left. destruct (t_bases _); [discriminate|]. injection M1 as ->. now left.
    - apply in_or_app. right. apply in_or_app. left. rewrite M2. rewrite <- index_refs in Hc.
      unfold val_refs in Hc |- *. apply in_flat_map in Hc as (f & Hf & Hc). destruct (snd f) eqn:Es; try easy. destruct Hc as [<-|[]].
      assert (Sj : same_fields (order_matters (t_meta (get_cls s u))) gs (index_fields j)).
      { eapply same_fields_trans; [apply same_fields_sym; exact M3|exact Hs]. }
      destruct (same_fields_In _ _ _ f Sj Hf) as (g & Hg' & _ & Ev). apply in_flat_map. exists g. split; [easy|].
      rewrite Es in Ev. destruct Ev as [->|(z & _ & Ev)]; [now left|discriminate]. }
  assert (L3 : lookup (irun s1 h2) (KGet u (ordered (t_meta (get_cls s u))) (index_fields j)) = Some t).
  { rewrite ordered_is. rewrite <- L2. symmetry. apply lookup_same. split; [easy|]. split; [easy|exact Hs]. }
  unfold istep. rewrite AL, bind_getitem_eq. pose proof Hb as Hb'. rewrite <- Eu in Hb'. apply unbound_iff in Hb'. rewrite Hb'.
  rewrite Eu. assert (E : getitem (S u) (irun s1 h2) u (index_fields j) = Ok (irun s1 h2, t)).
  { cbn [getitem]. rewrite Eu, L3. reflexivity. }
  destruct (t_meta (get_cls s u)), j; try easy; rewrite E; reflexivity.
Qed.

Lemma C46_index_distinct_pf : forall h s u i s1 t h2 s2 v j s3, reached s h -> istep s (OGet u i) = (s1, Ok t) ->
  s2 = irun s1 h2 -> istep s2 (OGet v j) = (s3, Ok t) ->
  v = u /\ same_fields (order_matters (t_meta (get_cls s u))) (index_fields i) (index_fields j).
Proof.
  intros h s u i s1 t h2 s2 v j s3 R H -> H'. pose proof (reached_wf s h R) as W.
  destruct (step_get s u i s1 t W H) as (Hi & Hb & W1 & Hu & Hg & L & A).
  destruct (run_spec h2 s1 W1) as (W2 & Hg2 & Hl2 & _ & _).
  destruct (step_get _ v j s3 t W2 H') as (Hi' & Hb' & W3 & Hu' & Hg3 & L' & A').
  apply (lookup_made _ _ _ W1) in L as [_ M]. apply (lookup_made _ _ _ W3) in L' as [_ M'].
  assert (E : get_cls s3 t = get_cls s1 t) by (rewrite Hg3; [apply Hg2, A|destruct A; lia]).
  rewrite E in M'. pose proof (made_unique _ _ _ M M') as (-> & _ & S). now split.
Qed.

Lemma C46_named_identical_pf : forall h s o u n fs ns s1 t h2 s2 o' fs' ns', reached s h ->
  asks (t_meta (get_cls s u)) o u n fs ns -> fs <> [] -> istep s o = (s1, Ok t) ->
  s2 = irun s1 h2 -> is_alive s2 t ->
  asks (t_meta (get_cls s u)) o' u n fs' ns' -> (forall c, In c (op_refs o') -> is_alive s2 c) ->
  same_fields (order_matters (t_meta (get_cls s u))) fs fs' -> same_fields false ns ns' ->
  snd (istep s2 o') = Ok t.
Proof.
  intros h s o u n fs ns s1 t h2 s2 o' fs' ns' R A Hne H -> Ht A' Ha' Sf Sn. pose proof (reached_wf s h R) as W.
  assert (No : named_res s o <> Raise EOutOfModel).
  { unfold istep in H. destruct (forallb (alive s) (op_refs o)); [|discriminate].
    inversion A; subst; cbn [named_res]; intros E; rewrite E in H; discriminate. }
  destruct (step_named s o s1 t W H No) as (Ha & s' & E & ->).
  destruct (named_inv s o s' t E) as (u0 & n0 & fs0 & ns0 & c0 & C & Hb & Hn & Ea).
  destruct (asks_call s o u n fs ns A _ _ _ _ _ C) as (-> & -> & -> & -> & ->).
  destruct (named_refs s o u n fs ns true C Ha) as [Hu Hr].
  destruct (attr_spec s u n fs ns true W Hu Hb Hn Hr Hne) as [(s1 & t1 & E1 & W1 & G1 & A1 & M & L & _)|(E1 & _)]; [|congruence].
  rewrite Ea in E1. injection E1 as <- <-. specialize (L eq_refl).
  set (s1 := held s' (t :: vars s')) in *. assert (W1' : wf s1) by now apply held_wf.
  destruct (run_spec h2 s1 W1') as (W2 & Hg2 & Hl2 & Hk & _).
  pose proof (Hk _ _ L Ht) as L2. rewrite ordered_is in L2. clear Hk.
  assert (Eu : get_cls (irun s1 h2) u = get_cls s u).
  { rewrite Hg2; [apply (grow_get s s' u G1), Hu|]. pose proof (grow_len _ _ G1). destruct Hu. cbn. lia. }
  assert (C2 : named_call (irun s1 h2) o' = Some (u, n, fs', ns', true)).
  { eapply (call_same s (irun s1 h2) o o'); [now rewrite Eu|exact A|exact A'|exact Sf|exact Sn|exact C]. }
  assert (L3 : lookup (irun s1 h2) (KAttr u (order_matters (t_meta (get_cls s u))) n fs' ns') = Some t).
  { rewrite <- L2. symmetry. apply lookup_same. do 3 (split; [easy|]). split; [exact Sf|exact Sn]. }
  assert (E2 : named_res (irun s1 h2) o' = Ok (irun s1 h2, t)).
  { rewrite (named_run _ o' u n fs' ns' true C2) by (now rewrite Eu). unfold attr_class. rewrite Eu.
    rewrite ordered_is, L3. destruct fs' as [|f' fs']; [|reflexivity]. exfalso. apply Hne.
    destruct fs as [|f fs]; [easy|]. destruct (same_fields_In _ _ _ f (same_fields_sym _ _ _ Sf)) as (g & Hg & _); [now left|easy]. }
  assert (AL : forallb (alive (irun s1 h2)) (op_refs o') = true).
  { apply forallb_forall. intros c Hc. apply alive_iff. auto. }
  unfold istep. rewrite AL. inversion A'; subst; cbn [named_res] in E2; rewrite E2; reflexivity.
Qed.

Lemma C46_named_distinct_pf : forall h s o u n fs ns s1 t h2 s2 o' v n' fs' ns' s3, reached s h ->
  asks (t_meta (get_cls s u)) o u n fs ns -> fs <> [] -> istep s o = (s1, Ok t) ->
  s2 = irun s1 h2 -> asks (t_meta (get_cls s2 v)) o' v n' fs' ns' -> fs' <> [] -> istep s2 o' = (s3, Ok t) ->
  v = u /\ n' = n /\ same_fields (order_matters (t_meta (get_cls s u))) fs fs' /\ same_fields false ns ns'.
Proof.
  assert (X : forall s o u n fs ns s1 t, wf s -> asks (t_meta (get_cls s u)) o u n fs ns -> fs <> [] -> istep s o = (s1, Ok t) ->
    wf s1 /\ is_alive s1 t /\ made (get_cls s1 t) (KAttr u (order_matters (t_meta (get_cls s u))) n fs ns)).
  { intros s o u n fs ns s1 t W A Hne H.
    assert (No : named_res s o <> Raise EOutOfModel).
    { unfold istep in H. destruct (forallb (alive s) (op_refs o)); [|discriminate].
      inversion A; subst; cbn [named_res]; intros E; rewrite E in H; discriminate. }
    destruct (step_named s o s1 t W H No) as (Ha & s' & E & ->).
    destruct (named_inv s o s' t E) as (u0 & n0 & fs0 & ns0 & c0 & C & Hb & Hn & Ea).
    destruct (asks_call s o u n fs ns A _ _ _ _ _ C) as (-> & -> & -> & -> & ->).
    destruct (named_refs s o u n fs ns true C Ha) as [Hu Hr].
    destruct (attr_spec s u n fs ns true W Hu Hb Hn Hr Hne) as [(s1 & t1 & E1 & W1 & G1 & A1 & M & L & _)|(E1 & _)]; [|congruence].
    rewrite Ea in E1. injection E1 as <- <-. rewrite ordered_is in M. split; [now apply held_wf|]. now split. }
  intros h s o u n fs ns s1 t h2 s2 o' v n' fs' ns' s3 R A Hne H -> A' Hne' H'. pose proof (reached_wf s h R) as W.
  destruct (X _ _ _ _ _ _ _ _ W A Hne H) as (W1 & A1 & M1).
  destruct (run_spec h2 s1 W1) as (W2 & Hg2 & Hl2 & _ & _).
  destruct (X _ _ _ _ _ _ _ _ W2 A' Hne' H') as (W3 & A3 & M3).
  assert (E : get_cls s3 t = get_cls s1 t).
  { destruct (step_spec _ o' W2) as (_ & G & _). rewrite H' in G. cbn [fst] in G. destruct A1.
    rewrite G by lia. now apply Hg2. }
  rewrite E in M3. pose proof (made_unique _ _ _ M1 M3) as (-> & _ & -> & S1 & S2). auto.
Qed.

Lemma C46_kinds_distinct_pf : forall h s u i s1 t h2 o' v n' fs' ns' s3, reached s h -> istep s (OGet u i) = (s1, Ok t) ->
  asks (t_meta (get_cls (irun s1 h2) v)) o' v n' fs' ns' -> fs' <> [] -> istep (irun s1 h2) o' = (s3, Ok t) -> False.
Proof.
  intros h s u i s1 t h2 o v n fs ns s3 R H A Hne H'. pose proof (reached_wf s h R) as W.
  destruct (step_get s u i s1 t W H) as (Hi & Hb & W1 & Hu & Hg & L & Al).
  apply (lookup_made _ _ _ W1) in L as [_ M].
  destruct (run_spec h2 s1 W1) as (W2 & Hg2 & Hl2 & _ & _).
  set (s2 := irun s1 h2) in *.
  assert (No : named_res s2 o <> Raise EOutOfModel).
  { unfold istep in H'. destruct (forallb (alive s2) (op_refs o)); [|discriminate].
    inversion A; subst; cbn [named_res]; intros E; rewrite E in H'; discriminate. }
  destruct (step_named s2 o s3 t W2 H' No) as (Ha & s' & E & ->).
  destruct (named_inv s2 o s' t E) as (u0 & n0 & fs0 & ns0 & c0 & C & Hb' & Hn & Ea).
  destruct (asks_call s2 o v n fs ns A _ _ _ _ _ C) as (-> & -> & -> & -> & ->).
  destruct (named_refs s2 o v n fs ns true C Ha) as [Hu' Hr].
  destruct (attr_spec s2 v n fs ns true W2 Hu' Hb' Hn Hr Hne) as [(s4 & t1 & E1 & W4 & G1 & A1 & M' & L & _)|(E1 & _)]; [|congruence].
  rewrite Ea in E1. injection E1 as <- <-.
  assert (Et : get_cls s' t = get_cls s1 t).
  { destruct Al. rewrite (grow_get s2 s' t G1); [now apply Hg2|lia]. }
  rewrite Et in M'. exact (made_unique _ _ _ M M').
Qed.

Lemma C46_uncached_pf : forall h s u n fs s1 t, reached s h -> istep s (OFrom u n fs false) = (s1, Ok t) -> ~ is_alive s t.
Proof.
  intros h s u n fs s1 t R H. pose proof (reached_wf s h R) as W.
  assert (No : named_res s (OFrom u n fs false) <> Raise EOutOfModel).
  { unfold istep in H. destruct (forallb (alive s) _); [|discriminate]. cbn [named_res]. intros E; rewrite E in H; discriminate. }
  destruct (step_named s _ s1 t W H No) as (Ha & s' & E & ->).
  destruct (named_inv s _ s' t E) as (u0 & n0 & fs0 & ns0 & c0 & C & Hb & Hn & Ea).
  pose proof C as C'. cbn [named_call] in C'. match type of C' with (if ?e then _ else _) = _ => destruct e; [discriminate|] end. injection C' as <- <- <- <- <-.
  destruct (named_refs s _ u n fs [] false C Ha) as [Hu Hr].
  intros [Hl _]. destruct fs as [|f fs].
  - cbn in Ea. injection Ea as _ <-. lia.
  - destruct (attr_spec s u n (f :: fs) [] false W Hu Hb Hn Hr) as [(s2 & t1 & E1 & W1 & G1 & A1 & M & _ & L & _)|(E1 & _)];
      [discriminate| |congruence].
    rewrite Ea in E1. injection E1 as <- <-. specialize (L eq_refl). lia.
Qed.

Lemma C46_parts_alive_pf : forall h s t c, reached s h -> is_alive s t ->
  In c (t_bases (get_cls s t)) \/ (exists fs n, t_fields (get_cls s t) = Some fs /\ In (n, NType c) fs) -> is_alive s c.
Proof.
  intros h s t c R A H. pose proof (reached_wf s h R) as W. apply (w_closed s W t c A). unfold refs_of.
  apply in_or_app. destruct H as [H|(fs & n & E & H)]; [now left|right]. apply in_or_app. left. rewrite E.
  unfold val_refs. apply in_flat_map. exists (n, NType c). split; [easy|now left].
Qed.

Lemma C46_empty_refuted_pf :
  ~ (forall h s o u n fs ns s1 t h2 s2 o' fs' ns', reached s h ->
     asks (t_meta (get_cls s u)) o u n fs ns -> istep s o = (s1, Ok t) -> s2 = irun s1 h2 -> is_alive s2 t ->
     asks (t_meta (get_cls s u)) o' u n fs' ns' -> (forall c, In c (op_refs o') -> is_alive s2 c) ->
     same_fields (order_matters (t_meta (get_cls s u))) fs fs' -> same_fields false ns ns' ->
     snd (istep s2 o') = Ok t).
Proof.
  intros H. assert (C : snd (istep (fst (istep ist0 (OFrom 3%nat "P" [] true))) (OFrom 3%nat "P" [] true)) = Ok 7%nat); [|discriminate C].
  eapply (H [] ist0 (OFrom 3%nat "P" [] true) 3%nat "P"%string [] [] (fst (istep ist0 (OFrom 3%nat "P" [] true))) 7%nat [] (fst (istep ist0 (OFrom 3%nat "P" [] true))) (OFrom 3%nat "P" [] true) [] []).
  - reflexivity.
  - constructor.
  - reflexivity.
  - reflexivity.
  - split; [cbn; lia|intros []].
  - constructor.
  - intros c [<-|[]]. split; [cbn; lia|intros []].
  - constructor.
  - split; intros f [].
Qed.

Lemma C46_special_methods_refuted_pf :
  ~ (forall h s u n l s1 t l' s3, reached s h -> istep s (OStmt u n l) = (s1, Ok t) -> istep s1 (OStmt u n l') = (s3, Ok t) ->
     forall k v v', In (k, v) l -> In (k, v') l' -> same_value v v').
Proof.
  intros H. set (l := fun i => [("__add__", NObj i true); ("x", NType 0%nat)]%string).
  assert (C : same_value (NObj 1 true) (NObj 2 true)).
  { eapply (H [] ist0 3%nat "P"%string (l 1) _ 9%nat (l 2) _); [reflexivity|vm_compute; reflexivity|vm_compute; reflexivity|now left|now left]. }
  destruct C as [C|(z & C & _)]; discriminate C.
Qed.

Lemma C46_number_refuted_pf :
  ~ (forall h s u n fs s1 t fs' s3, reached s h -> istep s (OFrom u n fs true) = (s1, Ok t) -> istep s1 (OFrom u n fs' true) = (s3, Ok t) ->
     fs = fs').
Proof.
  intros H. assert (C : [("a", NInt 1)]%string = [("a", NBool true)]%string); [|discriminate C].
  eapply (H [] ist0 6%nat "E"%string _ _ 7%nat _ _); [reflexivity|vm_compute; reflexivity|vm_compute; reflexivity].
Qed.

Lemma C55_reserved_pf : forall h s u n l, reached s h -> is_alive s u -> t_fields (get_cls s u) = None ->
  by_name (t_meta (get_cls s u)) -> (forall c, In c (val_refs l) -> is_alive s c) ->
  (exists f, In f l /\ forbidden f) -> istep s (OStmt u n l) = (s, Raise EReservedName).
Proof.
  intros h s u n l R Hu Hb Hn Hr (f & Hf & F).
  assert (AL : forallb (alive s) (op_refs (OStmt u n l)) = true).
  { apply forallb_forall. intros c [<-|Hc]; apply alive_iff; auto. }
  unfold istep. rewrite AL. unfold class_stmt. apply unbound_iff in Hb. rewrite Hb.
  pose proof (split_ns_spec (t_meta (get_cls s u)) l) as Sp. destruct (split_ns (t_meta (get_cls s u)) l) as [[fs ns]|].
  - exfalso. now apply (proj1 Sp f).
  - destruct Hn as [->|[->| ->]]; reflexivity.
Qed.

Lemma C55_from_fields_reserved_pf : forall h s u n fs c, reached s h -> is_alive s u -> t_fields (get_cls s u) = None ->
  by_name (t_meta (get_cls s u)) -> (forall c, In c (val_refs fs) -> is_alive s c) ->
  (exists f, In f fs /\ (reserved_word (fst f) \/ reserved_private (fst f))) -> istep s (OFrom u n fs c) = (s, Raise EReservedName).
Proof.
  intros h s u n fs c R Hu Hb Hn Hr (f & Hf & F).
  assert (AL : forallb (alive s) (op_refs (OFrom u n fs c)) = true).
  { apply forallb_forall. intros d [<-|Hc]; apply alive_iff; auto. }
  unfold istep. rewrite AL. unfold from_fields. apply unbound_iff in Hb. rewrite Hb.
  assert (X : existsb (fun f : field => str_mem (fst f) (reserved_names ++ reserved_sunders)) fs = true).
  { apply existsb_exists. exists f. split; [easy|]. now apply reserved_any_iff. }
  unfold field in X. rewrite X. destruct Hn as [->|[->| ->]]; reflexivity.
Qed.

Lemma C55_fields_partial_pf : forall h s u n l fs, reached s h -> is_alive s u -> t_fields (get_cls s u) = None ->
  by_name (t_meta (get_cls s u)) -> (forall c, In c (val_refs l) -> is_alive s c) ->
  (forall f, In f l -> ~ forbidden f) -> selects (is_field (t_meta (get_cls s u))) l fs ->
  (t_meta (get_cls s u) = MProd -> forall f, In f fs -> parameter_name (fst f)) ->
  exists s1 t, istep s (OStmt u n l) = (s1, Ok t) /\ is_alive s1 t /\
    (fs = [] -> t_fields (get_cls s1 t) = None) /\
    (fs <> [] -> exists gs, t_fields (get_cls s1 t) = Some gs /\ same_fields (order_matters (t_meta (get_cls s u))) fs gs /\
       (t_meta (get_cls s u) = MProd \/ ~ is_alive s t -> gs = fs)).
Proof.
  intros h s u n l fs R Hu Hb Hn Hr NF Sel Hp. pose proof (reached_wf s h R) as W.
  assert (AL : forallb (alive s) (op_refs (OStmt u n l)) = true).
  { apply forallb_forall. intros c [<-|Hc]; apply alive_iff; auto. }
  pose proof (split_ns_spec (t_meta (get_cls s u)) l) as Sp.
  destruct (split_ns (t_meta (get_cls s u)) l) as [[fs0 ns0]|] eqn:Es; [|destruct Sp as (f & Hf & F); now apply NF in F].
  destruct Sp as (_ & S1 & _). pose proof (selects_det _ _ _ _ S1 Sel) as ->.
  set (ns := filter (fun f : field => negb (is_dunder (fst f))) ns0).
  assert (C : named_call s (OStmt u n l) = Some (u, n, fs, ns, true)) by (cbn [named_call]; now rewrite Es).
  pose proof (named_run s _ u n fs ns true C Hb Hn) as Er. cbn [named_res] in Er.
  destruct (named_refs s _ u n fs ns true C AL) as [_ Hr'].
  destruct fs as [|f0 fs1].
  - set (d := TC (t_meta (get_cls s u)) [u] n None ns). change (class_stmt s u n l = Ok (fst (add_class s d), length (classes s))) in Er.
    unfold istep. rewrite AL, Er. eexists _, _. split; [reflexivity|].
    pose proof (attr_empty s u n ns true W Hu Hb Hn Hr') as (_ & _ & A). split; [exact A|]. split; [|easy].
    intros _. change (t_fields (get_cls (fst (add_class s d)) (length (classes s))) = None). now rewrite get_add_new.
  - set (fs := f0 :: fs1) in *.
    destruct (attr_spec s u n fs ns true W Hu Hb Hn Hr') as [(s1 & t & E & W1 & G1 & A1 & M & _ & _ & New)|(E & Em & f & Hf & Pf)];
      [discriminate| |exfalso; apply (Hp Em) in Hf; apply param_ok_iff in Hf; congruence].
    rewrite E in Er. exists (held s1 (t :: vars s1)), t. unfold istep. rewrite AL, Er. split; [reflexivity|]. split; [exact A1|].
    split; [discriminate|]. intros _. destruct M as (_ & _ & _ & _ & _ & gs & Mg & Ms). exists gs. rewrite ordered_is in Ms.
    split; [exact Mg|]. split; [exact Ms|]. intros [Em|Hn'].
    + rewrite Em in Ms. cbn in Ms.
      assert (K : forall f, In f fs -> exists c, snd f = NType c).
      { intros f Hf. apply (selects_In _ _ _ Sel) in Hf as [_ (_ & _ & Hv)]. rewrite Em in Hv. exact Hv. }
      clear -Ms K. revert K. induction Ms as [|x y a b [E1 E2] H IH]; intros K; [easy|]. f_equal.
      * destruct (K x (or_introl eq_refl)) as (c & Ec). rewrite Ec in E2. destruct E2 as [E2|(z & Ez & _)]; [|discriminate].
        destruct x, y. cbn in *. congruence.
      * apply IH. intros f Hf. apply K. now right.
    + assert (X : (length (classes s) <= t)%nat).
      { destruct (Nat.lt_ge_cases t (length (classes s))) as [Hlt|Hge]; [|exact Hge]. exfalso. apply Hn'. split; [exact Hlt|].
        rewrite <- (g_dead s s1 G1). apply A1. }
      apply New in X. cbn in X. congruence.
Qed.

Lemma C55_private_refuted_pf :
  ~ (forall h s u n l s1 t, reached s h -> istep s (OStmt u n l) = (s1, Ok t) ->
     forall k v, In (k, v) l -> value_of_kind (t_meta (get_cls s u)) v -> ~ dunder_name k -> ~ reserved_word k -> ~ reserved_private k ->
     exists gs, t_fields (get_cls s1 t) = Some gs /\ In (k, v) gs).
Proof.
  intros H. set (l := [("_x_", NType 0%nat)]%string).
  assert (E1 : istep ist0 (OStmt 3%nat "P" l) = (fst (istep ist0 (OStmt 3%nat "P" l)), Ok 7%nat)) by (vm_compute; reflexivity).
  destruct (H [] ist0 3%nat "P"%string l _ 7%nat eq_refl E1 "_x_"%string (NType 0%nat)) as (gs & E & _).
  - now left.
  - now exists 0%nat.
  - rewrite <- is_dunder_iff. discriminate.
  - cbn. intuition discriminate.
  - cbn. intuition discriminate.
  - vm_compute in E. discriminate E.
Qed.

Lemma C55_method_refuted_pf :
  ~ (forall h s u n l s1 t, reached s h -> istep s (OStmt u n l) = (s1, Ok t) -> forall k v, In (k, v) l -> ~ reserved_word k).
Proof.
  intros H. eapply (H [] ist0 3%nat "P"%string [("fields", NObj 1 true)]%string _ 7%nat);
    [reflexivity|vm_compute; reflexivity|now left|right; now left].
Qed.

Lemma C55_parameter_refuted_pf :
  ~ (forall h s u n l, reached s h -> (forall f, In f l -> ~ forbidden f) -> snd (istep s (OStmt u n l)) <> Raise ESyntaxError).
Proof.
  intros H. apply (H [] ist0 3%nat "P"%string [("self", NType 0%nat)]%string eq_refl); [|reflexivity].
  intros f [<-|[]] [F|[F _]]; cbn in F; intuition discriminate.
Qed.

Lemma C55_order_refuted_pf :
  ~ (forall h s u n l fs s1 t, reached s h -> istep s (OStmt u n l) = (s1, Ok t) -> selects (is_field (t_meta (get_cls s u))) l fs -> fs <> [] ->
     t_fields (get_cls s1 t) = Some fs).
Proof.
  intros H. set (l := [("b", NType 1%nat); ("a", NType 0%nat)]%string).
  assert (F : forall f, In f l -> is_field MTag f).
  { intros f [<-|[<-|[]]]; apply is_field_iff; auto. }
  assert (C : t_fields (get_cls (fst (istep (irun ist0 [OStmt 5%nat "U" [("a", NType 0%nat); ("b", NType 1%nat)]%string]) (OStmt 5%nat "U" l))) 8%nat) = Some l).
  { eapply (H [OStmt 5%nat "U" [("a", NType 0%nat); ("b", NType 1%nat)]%string] _ 5%nat "U"%string l l _ 8%nat eq_refl); [vm_compute; reflexivity| |discriminate].
    apply sel_yes; [apply F; now left|]. apply sel_yes; [apply F; right; now left|constructor]. }
  vm_compute in C. discriminate C.
Qed.
