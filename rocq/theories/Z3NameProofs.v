(** Proofs of the theorems stated in Z3NameProps.v. *)
From Coq Require Import String Lia.
From Verif Require Import NameModel NameFacts Z3NameModel Z3NameSpec.

Definition znames (s : zstate) : list string := flat_map (fun o => match z_name o with Some n => [n] | None => [] end) (zheap s).
Record zinv (s : zstate) : Prop := {
  Z_ids : forall o, In o (zheap s) -> z_id o < znext s;
  Z_nodup : NoDup (map z_id (zheap s));
  Z_tab : forall o n, In o (zheap s) -> z_name o = Some n -> zfind (ztab s) n = Some (z_id o);
  Z_back : forall n i o, zfind (ztab s) n = Some i -> In o (zheap s) -> z_id o = i -> z_name o = Some n;
  Z_lt : forall n i, zfind (ztab s) n = Some i -> i < znext s;
  Z_var : forall o n, In o (zheap s) -> z_name o = Some n -> if z_ok o then exists t, z_syms o = [(n, t)] else z_syms o = [];
  Z_gen : forall x, In (true, x) (zcreated s) -> exists k, fst x = gen "V" k /\ k < zcount s;
  Z_gen_nodup : NoDup (zgenerated s);
  Z_syms : forall o x, In o (zheap s) -> In x (z_syms o) -> In x (map snd (zcreated s)) }.


Lemma zused_iff s n : zinv s -> (zused s n = true <-> exists o, In o (zheap s) /\ z_name o = Some n).
Proof.
  intros I. unfold zused. split.
  - destruct (zfind (ztab s) n) as [i|] eqn:F; [|discriminate]. intros E. apply existsb_exists in E as (o & A & B). apply Nat.eqb_eq in B.
    exists o. split; auto. eapply Z_back; eauto.
  - intros (o & A & B). rewrite (Z_tab s I o n A B). apply existsb_exists. exists o. split; auto. apply Nat.eqb_refl.
Qed.

Lemma zsearch s : zinv s -> exists k, search (zused s) "V" (S (List.length (zheap s))) (zcount s) = Some k /\ zcount s <= k /\ zused s (gen "V" k) = false.
Proof.
  intros I. destruct (search (zused s) "V" (S (List.length (zheap s))) (zcount s)) as [k|] eqn:E.
  - exists k. split; auto. now apply search_found in E.
  - exfalso. pose proof (search_none _ _ _ _ E) as X.
    assert (L : List.length (map (fun j => gen "V" (zcount s + j)) (seq 0 (S (List.length (zheap s))))) <= List.length (znames s)).
    { apply NoDup_incl_length.
      - apply (seq_nodup (gen "V")). intros i j G. now apply gen_inj in G.
      - intros n J. apply in_map_iff in J as (j & <- & J). apply in_seq in J. assert (U : zused s (gen "V" (zcount s + j)) = true) by (apply X; lia).
        apply zused_iff in U as (o & A & B); auto. apply in_flat_map. exists o. split; auto. rewrite B. now left. }
    rewrite map_length, seq_length in L. assert (K : List.length (znames s) <= List.length (zheap s)); [|lia].
    unfold znames. clear. induction (zheap s) as [|o l IH]; cbn; auto. rewrite app_length. destruct (z_name o); cbn; lia.
Qed.

Lemma nodup_snoc (l : list nat) x : NoDup l -> ~ In x l -> NoDup (l ++ [x]).
Proof.
  intros N. induction N as [|y l A N IH]; cbn; [constructor; [easy|constructor]|]. intros J. constructor; [|apply IH; tauto].
  rewrite in_app_iff. cbn. intuition.
Qed.

Lemma zregister_inv s g k n t : zinv s -> zused s n = false -> zcount s <= k -> (g = true -> exists j, n = gen "V" j /\ zcount s <= j < k) ->
  zinv (fst (zregister s g k n t)).
Proof.
  intros I U K G. unfold zregister. set (bad := match t with ZVec 0 => true | _ => false end). cbn [fst].
  assert (NI : forall o, In o (zheap s) -> z_name o <> Some n).
  { intros o A B. assert (zused s n = true) by (apply zused_iff; eauto). congruence. }
  constructor; cbn [zheap ztab zcount znext zcreated zfind].
  - intros o A. apply in_app_or in A as [A|[<-|[]]]; cbn; [|lia]. pose proof (Z_ids s I o A). lia.
  - rewrite map_app. cbn. apply nodup_snoc; [apply (Z_nodup s I)|]. intros J. apply in_map_iff in J as (o & E & J). pose proof (Z_ids s I o J). lia.
  - intros o m A B. apply in_app_or in A as [A|[<-|[]]]; cbn in *.
    + destruct (String.eqb_spec m n) as [->|E]; [exfalso; now apply (NI o A)|]. now apply (Z_tab s I).
    + injection B as ->. now rewrite String.eqb_refl.
  - intros m i o F A B. destruct (String.eqb_spec m n) as [->|E].
    + injection F as <-. apply in_app_or in A as [A|[<-|[]]]; [|reflexivity]. pose proof (Z_ids s I o A). lia.
    + apply in_app_or in A as [A|[<-|[]]]; [eapply Z_back; eauto|]. cbn in B. pose proof (Z_lt s I m i F). lia.
  - intros m i F. destruct (String.eqb m n); [injection F as <-; lia|]. pose proof (Z_lt s I m i F). lia.
  - intros o m A B. apply in_app_or in A as [A|[<-|[]]]; [now apply (Z_var s I)|]. cbn in B |- *. injection B as <-. destruct bad; cbn; eauto.
  - intros x [E|J].
    + injection E as -> <-. destruct (G eq_refl) as (j & -> & L). exists j. cbn. split; [reflexivity|lia].
    + destruct (Z_gen s I x J) as (j & E & L). exists j. split; auto. lia.
  - unfold zgenerated. cbn [flat_map zcreated fst snd]. destruct g; [|apply (Z_gen_nodup s I)]. cbn [app]. constructor; [|apply (Z_gen_nodup s I)].
    intros J. apply in_flat_map in J as ([[] x] & J & J'); [|destruct J']. destruct J' as [J'|[]]. cbn [fst snd] in J'.
    destruct (Z_gen s I x J) as (i & E & L). destruct (G eq_refl) as (j & E' & L'). rewrite <- J', E in E'. apply gen_inj in E' as [_ ->]. lia.
  - intros o x A B. cbn [map]. apply in_app_or in A as [A|[<-|[]]]; [right; eapply Z_syms; eauto|]. cbn in B. destruct bad; [easy|].
    destruct B as [<-|[]]. now left.
Qed.

Lemma zstep_inv s o : zinv s -> zinv (fst (zstep s o)).
Proof.
  intros I. destruct o as [[|n|] [] t|is keep|i]; cbn [zstep znew fst]; auto.
  - destruct (zsearch s I) as (k & -> & K & U). apply zregister_inv; auto. intros _. exists k. split; [reflexivity|lia].
  - destruct (zused s n) eqn:U; auto. apply zregister_inv; auto. discriminate.
  - unfold zexpr. destruct I. constructor; cbn [zheap ztab zcount znext zcreated]; auto.
    + intros o A. apply in_app_or in A as [A|[<-|[]]]; cbn; [|lia]. specialize (Z_ids0 o A). lia.
    + rewrite map_app. cbn. apply nodup_snoc; auto. intros J. apply in_map_iff in J as (o & E & J). specialize (Z_ids0 o J). lia.
    + intros o n A B. apply in_app_or in A as [A|[<-|[]]]; [auto|discriminate].
    + intros n i o F A B. apply in_app_or in A as [A|[<-|[]]]; [eauto|]. cbn in B. specialize (Z_lt0 n i F). lia.
    + intros n i F. specialize (Z_lt0 n i F). lia.
    + intros o n A B. apply in_app_or in A as [A|[<-|[]]]; [now apply Z_var0|discriminate].
    + intros o x A B. apply in_app_or in A as [A|[<-|[]]]; [eauto|]. cbn in B. apply filter_In in B as [B _].
      apply in_flat_map in B as (o & A & B). apply filter_In in A as [A _]. eauto.
  - unfold zcollect. destruct I. constructor; cbn [zheap ztab zcount znext zcreated]; auto.
    1,3-6: intros; match goal with H : In _ (filter _ _) |- _ => apply filter_In in H as [] end; first [now apply Z_var0|eauto].
    clear - Z_nodup0. induction (zheap s) as [|o l IH]; cbn; auto. apply NoDup_cons_iff in Z_nodup0 as [A B]. destruct (negb _); cbn; auto.
    constructor; auto. intros J. apply A. apply in_map_iff in J as (x & <- & J). apply filter_In in J as [J _]. now apply in_map.
Qed.

Lemma zrun_inv l : forall s, zinv s -> zinv (zrun s l).
Proof. induction l as [|o l IH]; cbn; auto. intros s I. apply IH. now apply zstep_inv. Qed.

Lemma zinit_inv : zinv zinit.
Proof. constructor; cbn; try easy; constructor. Qed.

Lemma zreach_inv s : zreach s -> zinv s.
Proof. intros [l ->]. apply zrun_inv, zinit_inv. Qed.

Lemma zcreated_explicit l : forall s x, In (false, x) (zcreated (zrun s l)) -> In (false, x) (zcreated s) \/ In (fst x) (zexplicit l).
Proof.
  induction l as [|o l IH]; cbn [zrun]; auto. intros s x J. apply IH in J as [J|J].
  - destruct o as [[|n|] [] t|is keep|i]; cbn [zstep znew fst zexpr zcollect zcreated zexplicit] in *; auto.
    + destruct (search _ _ _ _); [|now left]. destruct J as [J|J]; [discriminate|auto].
    + destruct (zused s n); [now left|]. destruct J as [J|J]; [|auto]. injection J as <-. right. now left.
  - right. destruct o as [[|n|] [] t|is keep|i]; cbn [zexplicit]; auto; now right.
Qed.

Lemma same_object s i o o' : zinv s -> In o (zheap s) -> In o' (zheap s) -> z_id o = i -> z_id o' = i -> o = o'.
Proof.
  intros I A A' B B'. pose proof (Z_nodup s I) as N. induction (zheap s) as [|x l IH]; [easy|]. cbn in N. apply NoDup_cons_iff in N as [N M].
  destruct A as [<-|A], A' as [<-|A']; auto; exfalso; apply N; apply in_map_iff; eexists; (split; [|eassumption]); congruence.
Qed.

Lemma registered s n : zinv s -> (zused s n = true <-> zregistered s n).
Proof. apply zused_iff. Qed.

Lemma C87_distinct_pf : forall s i j n, zreach s -> zvariable s i n -> zvariable s j n -> i = j.
Proof.
  intros s i j n R (o & A & B & C & _) (o' & A' & B' & C' & _). pose proof (zreach_inv s R) as I.
  pose proof (Z_tab s I o n A C) as E. pose proof (Z_tab s I o' n A' C') as E'. rewrite E in E'. injection E' as E'. congruence.
Qed.

Lemma C87_in_use_pf : forall s i n t, zreach s -> zvariable s i n -> zstep s (ZVar (NStr n) false t) = (s, ZFailed ZValueErr).
Proof.
  intros s i n t R (o & A & B & C & _). pose proof (zreach_inv s R) as I. cbn. replace (zused s n) with true; auto. symmetry.
  apply zused_iff; eauto.
Qed.

Lemma C87_accepted_pf : forall s n t, zreach s -> has_bits t -> ~ zregistered s n ->
  exists i s', zstep s (ZVar (NStr n) false t) = (s', ZCreated i n) /\ zvariable s' i n /\ zconstants s' i (n, t).
Proof.
  intros s n t R T N. pose proof (zreach_inv s R) as I. cbn. destruct (zused s n) eqn:U; [exfalso; apply N, registered; auto|].
  unfold zregister. replace (match t with ZVec 0 => true | _ => false end) with false by (destruct t as [|[]]; auto; now elim T).
  do 2 eexists. split; [reflexivity|]. split; (eexists; split; [cbn; apply in_or_app; right; left; reflexivity|cbn; auto]).
Qed.

Lemma C87_accepted_refuted_pf : exists s n, zreach s /\ (forall i, ~ zvariable s i n) /\ zstep s (ZVar (NStr n) false ZBool) = (s, ZFailed ZValueErr).
Proof.
  exists (zrun zinit [ZVar (NStr "a") false (ZVec 0)]), "a"%string. split; [eexists; reflexivity|]. split; [|reflexivity].
  intros i (o & [<-|[]] & _ & _ & O). discriminate.
Qed.

Lemma C87_generation_pf : forall s t, zreach s -> has_bits t -> exists i n k s', zstep s (ZVar NAuto false t) = (s', ZCreated i n) /\
  n = gen "V" k /\ zvariable s' i n /\ zconstants s' i (n, t) /\ ~ zregistered s n /\ ~ In n (zgenerated s).
Proof.
  intros s t R T. pose proof (zreach_inv s R) as I. cbn [zstep znew]. destruct (zsearch s I) as (k & -> & K & U). unfold zregister.
  replace (match t with ZVec 0 => true | _ => false end) with false by (destruct t as [|[]]; auto; now elim T).
  do 4 eexists. split; [reflexivity|]. split; [reflexivity|].
  do 2 (split; [eexists; split; [cbn; apply in_or_app; right; left; reflexivity|cbn; auto]|]).
  split; [rewrite <- registered, U by auto; discriminate|].
  intros J. apply in_flat_map in J as ([[] x] & J & J'); [|destruct J']. destruct J' as [J'|[]]. cbn [fst snd] in J'.
  destruct (Z_gen s I x J) as (i & E & L). rewrite J' in E. apply gen_inj in E as [_ ->]. lia.
Qed.

Lemma C87_generated_pf : forall s, zreach s -> NoDup (zgenerated s).
Proof. intros s R. apply Z_gen_nodup. now apply zreach_inv. Qed.

Lemma C87_arguments_pf : forall s nm t, (nm <> NAuto -> zstep s (ZVar nm true t) = (s, ZFailed ZTypeErr)) /\
  zstep s (ZVar NNotStr false t) = (s, ZFailed ZTypeErr).
Proof. intros s [|n|] t; split; auto. intros E. now elim E. Qed.

Lemma C88_live_pf : forall s i j n m x, zreach s -> zvariable s i n -> zvariable s j m -> zconstants s i x -> zconstants s j x -> i = j.
Proof.
  intros s i j n m x R (o & A & B & C & D) (o' & A' & B' & C' & D') (u & U & V & W) (u' & U' & V' & W'). pose proof (zreach_inv s R) as I.
  assert (u = o) as -> by (eapply same_object; eauto). assert (u' = o') as -> by (eapply same_object; eauto).
  pose proof (Z_var s I o n A C) as E. pose proof (Z_var s I o' m A' C') as E'. rewrite D in E. rewrite D' in E'. destruct E as [t E], E' as [t' E'].
  rewrite E in W. rewrite E' in W'. destruct W as [<-|[]]. destruct W' as [W'|[]]. injection W' as -> ->.
  pose proof (Z_tab s I o n A C) as F. pose proof (Z_tab s I o' n A' C') as F'. rewrite F in F'. injection F' as F'. congruence.
Qed.

Lemma C88_fresh_refuted_pf : exists s i n x, zreach s /\ snd (zstep s (ZVar (NStr n) false (ZVec 8))) = ZCreated i n /\
  zconstants (fst (zstep s (ZVar (NStr n) false (ZVec 8)))) i x /\ zoccurs s x.
Proof.
  exists (zrun zinit [ZVar (NStr "a") false (ZVec 8); ZExpr [0] (fun _ => true); ZCollect 0]), 2, "a"%string, ("a"%string, ZVec 8).
  split; [eexists; reflexivity|]. split; [reflexivity|].
  split; eexists; (split; [first [right; left; reflexivity|left; reflexivity]|]); vm_compute; auto.
Qed.

Lemma C88_generated_refuted_pf : exists s i n x, zreach s /\ snd (zstep s (ZVar NAuto false (ZVec 8))) = ZCreated i n /\
  zconstants (fst (zstep s (ZVar NAuto false (ZVec 8)))) i x /\ zoccurs s x.
Proof.
  exists (zrun zinit [ZVar (NStr "V_0") false (ZVec 8); ZExpr [0] (fun _ => true); ZCollect 0]), 2, "V_0"%string, ("V_0"%string, ZVec 8).
  split; [eexists; reflexivity|]. split; [reflexivity|].
  split; eexists; (split; [first [right; left; reflexivity|left; reflexivity]|]); vm_compute; auto.
Qed.

Lemma C88_named_partial_pf : forall s n t, zreach s -> ~ In (n, t) (map snd (zcreated s)) -> ~ zoccurs s (n, t).
Proof. intros s n t R N (o & A & B). apply N. eapply Z_syms; eauto. now apply zreach_inv. Qed.

Lemma C88_generated_partial_pf : forall l t i n, let s := zrun zinit l in snd (zstep s (ZVar NAuto false t)) = ZCreated i n ->
  ~ In n (zexplicit l) -> forall u, ~ zoccurs s (n, u).
Proof.
  intros l t i n s H N u (o & A & B). assert (I : zinv s) by apply zrun_inv, zinit_inv. cbn [zstep znew] in H.
  destruct (zsearch s I) as (k & E & K & U). rewrite E in H. assert (Hn : n = gen "V" k).
  { unfold zregister in H. cbn [snd] in H. destruct t as [|[]]; congruence. }
  pose proof (Z_syms s I o _ A B) as J. apply in_map_iff in J as ([[] x] & Ex & J); cbn in Ex; subst x.
  - destruct (Z_gen s I _ J) as (j & Ej & L). cbn [fst] in Ej. rewrite Hn in Ej. apply gen_inj in Ej as [_ ->]. lia.
  - unfold s in J. apply zcreated_explicit in J as [[]|J]. now apply N.
Qed.

Lemma C88_formulas_pf : forall s is keep i x, zreach s -> let s' := fst (zstep s (ZExpr is keep)) in
  (zconstants s' (znext s) x <-> keep x = true /\ exists j, In j is /\ zconstants s j x) /\
  (i <> znext s -> (zconstants s' i x <-> zconstants s i x)) /\
  (zconstants (fst (zstep s (ZCollect i))) i x -> False) /\
  (forall j, j <> i -> (zconstants (fst (zstep s (ZCollect i))) j x <-> zconstants s j x)).
Proof.
  intros s is keep i x R s'. assert (I : zinv s) by now apply zreach_inv. split; [|split; [|split]].
  - unfold s', zconstants. cbn [zstep zexpr fst zheap]. split.
    + intros (o & A & B & C). apply in_app_or in A as [A|[<-|[]]]; [pose proof (Z_ids s I o A); lia|]. cbn [z_syms] in C.
      apply filter_In in C as [C K]. split; auto. unfold zsyms_of in C. apply in_flat_map in C as (o & D & E). apply filter_In in D as [D F].
      apply existsb_exists in F as (j & F & G). apply Nat.eqb_eq in G. subst j. exists (z_id o). split; auto. exists o. auto.
    + intros (K & j & J & o & A & B & C). eexists. split; [apply in_or_app; right; left; reflexivity|]. cbn [z_id z_syms]. split; auto.
      apply filter_In. split; auto. unfold zsyms_of. apply in_flat_map. exists o. split; auto. apply filter_In. split; auto.
      apply existsb_exists. exists j. split; auto. now apply Nat.eqb_eq.
  - intros N. unfold s', zconstants. cbn [zstep zexpr fst zheap]. split; intros (o & A & B & C).
    + apply in_app_or in A as [A|[<-|[]]]; [eauto|]. cbn in B. congruence.
    + exists o. rewrite in_app_iff. auto.
  - intros (o & A & B & C). cbn [zstep zcollect fst zheap] in A. apply filter_In in A as [_ A]. apply Nat.eqb_eq in B. now rewrite B in A.
  - intros j N. unfold zconstants. cbn [zstep zcollect fst zheap]. split; intros (o & A & B & C); exists o.
    + apply filter_In in A as [A _]. auto.
    + split; auto. apply filter_In. split; auto. apply negb_true_iff, Nat.eqb_neq. congruence.
Qed.
