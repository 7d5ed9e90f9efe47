(** Proofs of the theorems stated in ThreadProps.v. *)
From Coq Require Import Lia.
From Verif Require Import PyBase BVFacts MetaModel MetaSpec MetaFacts ThreadModel ThreadSpec ThreadFacts.

Lemma C99_answers_pf : forall h progs l i k n r, requests_ok (mrun h) progs ->
  let p := prun (spawn h progs) l in let s := p_meta p in
  answered p i k n r ->
  (n < 0 -> r = Raise EValueError) /\ (0 <= n -> ~ unsized s k -> r = Raise ETypeError)
  /\ forall t, r = Ok t ->
       c_size (get_cls s t) = Some n /\ c_unsized (get_cls s t) = Some k /\ c_bv (get_cls s t) = true /\ issub s t k = true.
Proof.
  intros h progs l i k n r R p s (t & E & I). destruct (prun_ok l _ (spawn_ok h progs R)) as [[_ T] _].
  fold p in T. rewrite Forall_forall in T. apply nth_error_In in E. pose proof (k_got _ _ (T _ E)) as F.
  rewrite Forall_forall in F. destruct (F _ I) as (A & B & C). split; [exact A|]. split; [exact B|].
  intros x X. destruct (C x X) as (_ & _ & _ & _ & G5 & _ & G7 & G8 & _ & G10). auto.
Qed.

Lemma C99_settled_pf : forall h progs l i k n y, requests_ok (mrun h) progs ->
  let p := prun (spawn h progs) l in
  quiet p -> answered p i k n (Ok y) ->
  exists t, getitem_cls (p_meta p) k (XInt n) = Ok (p_meta p, t)
    /\ forall l2 j a b, nth_error (p_threads p) j = Some a -> nth_error (p_threads (prun p l2)) j = Some b ->
         exists new, t_got b = t_got a ++ new /\ forall r, In (k, n, r) new -> r = Ok t.
Proof.
  intros h progs l i k n y R p Q (t & E & I). pose proof (prun_ok l _ (spawn_ok h progs R)) as [P _].
  pose proof (filled_run l _ (spawn_ok h progs R) (spawn_filled h progs)) as F. fold p in P, F.
  rewrite Forall_forall in F. destruct (F _ (nth_error_In _ _ E)) as [G _]. rewrite Forall_forall in G.
  specialize (G _ I y eq_refl). cbn in G. destruct (find_cache (p_meta p) k n) as [x|] eqn:FC; [|congruence].
  exists x. split; [now apply getitem_cached|]. intros l2 j a b A B.
  destruct (sinv_run k n x p l2 p (sinv_start k n x p P Q FC)) as (_ & _ & _ & _ & H).
  destruct (H j a b A B) as (new & N1 & N2). exists new. split; auto. intros r J. rewrite Forall_forall in N2.
  apply (N2 _ J eq_refl).
Qed.

Lemma C99_warm_pf : forall h progs l i k n t r, requests_ok (mrun h) progs -> is_bv (mrun h) k ->
  getitem_cls (mrun h) k (XInt n) = Ok (mrun h, t) ->
  answered (prun (spawn h progs) l) i k n r -> r = Ok t.
Proof.
  intros h progs l i k n t r R [Ha Hb] E (b & B & I).
  pose proof (getitem_ok (mrun h) k (XInt n) (mrun_minv h) Ha Hb) as Q. rewrite E in Q.
  destruct Q as (_ & _ & _ & n' & [En|En] & F); inv En.
  assert (QU : quiet (spawn h progs)).
  { intros u U. cbn in U. apply in_map_iff in U as (q & <- & _). auto. }
  destruct (sinv_run k n' t _ l _ (sinv_start k n' t _ (spawn_ok h progs R) QU F)) as (_ & _ & _ & L & H).
  destruct (nth_error (p_threads (spawn h progs)) i) as [a|] eqn:A.
  - destruct (H i a b A B) as (new & N1 & N2). rewrite N1 in I.
    assert (Ga : t_got a = []). { apply nth_error_In in A. cbn in A. apply in_map_iff in A as (q & <- & _). reflexivity. }
    rewrite Ga in I. rewrite Forall_forall in N2. apply (N2 _ I eq_refl).
  - apply nth_error_None in A. rewrite <- L in A. apply nth_error_None in A. congruence.
Qed.

Lemma C99_alone_pf : forall h k n s t, getitem_cls (mrun h) k (XInt n) = Ok (s, t) ->
  exists steps, alone steps (mrun h) (Thread [(k, n)] [] Idle []) = (s, Thread [] [] Idle [(k, n, Ok t)]).
Proof.
  intros h k n s t E. cbn [getitem_cls] in E.
  destruct (alone_index _ _ _ _ _ _ [(k, n)] [] [] E) as [m M]. exists (1 + (m + 1))%nat.
  rewrite (alone_app 1 _ _ _ (mrun h) (Thread [(k, n)] [] (Enter k n) [])) by reflexivity.
  rewrite (alone_app m _ _ _ _ _ M). reflexivity.
Qed.

Lemma C99_one_class_refuted_pf : exists progs l t u, requests_ok (mrun builtin) progs /\
  let p := prun (spawn builtin progs) l in
  quiet p /\ answered p 0 2%nat 8 (Ok t) /\ answered p 1 2%nat 8 (Ok u) /\ t <> u.
Proof.
  exists [[(2%nat, 8)]; [(2%nat, 8)]], (repeat 0%nat 9 ++ repeat 1%nat 20 ++ repeat 0%nat 3), 7%nat, 8%nat. split.
  { intros r c n [<-|[<-|[]]] [I|[]]; inv I; split; reflexivity. }
  split.
  { intros t. vm_compute. intros [<-|[<-|[]]]; auto. }
  split; [eexists; split; [vm_compute; reflexivity|vm_compute; auto]|].
  split; [eexists; split; [vm_compute; reflexivity|vm_compute; auto]|discriminate].
Qed.

Lemma C99_order_refuted_pf : exists progs l t u, requests_ok (mrun builtin) progs /\
  let p := prun (spawn builtin progs) l in let s := p_meta p in
  quiet p /\ getitem_cls s 4 (XInt 8) = Ok (s, t) /\ getitem_cls s 2 (XInt 8) = Ok (s, u)
  /\ issub s 4 2 = true /\ issub s t u = false.
Proof.
  exists [[(2%nat, 8)]; [(4%nat, 8)]], (repeat 0%nat 9 ++ repeat 1%nat 40 ++ repeat 0%nat 3), 10%nat, 7%nat. split.
  { intros r c n [<-|[<-|[]]] [I|[]]; inv I; split; reflexivity. }
  split.
  { intros t. vm_compute. intros [<-|[<-|[]]]; auto. }
  vm_compute. auto.
Qed.

Lemma C99_makes_refuted_pf : exists h progs l k, requests_ok (mrun h) progs
  /\ (exists s t, getitem_cls (mrun h) k (XInt 8) = Ok (s, t))
  /\ let p := prun (spawn h progs) l in
     quiet p /\ answered p 1 k 8 (Raise ETypeError) /\ getitem_cls (p_meta p) k (XInt 8) = Raise ETypeError.
Proof.
  exists (builtin ++ [MClass [2]; MClass [2]; MClass [2]; MClass [2]; MClass [6; 7]; MClass [8; 9]; MClass [10; 11]]%nat),
    [[(2%nat, 8)]; [(6%nat, 8); (9%nat, 8); (7%nat, 8); (8%nat, 8); (12%nat, 8)]],
    (repeat 0%nat 9 ++ repeat 1%nat 20 ++ repeat 0%nat 3 ++ repeat 1%nat 100), 12%nat.
  split.
  { intros r c n [<-|[<-|[]]] I; repeat (destruct I as [I|I]; [inv I; split; reflexivity|]); destruct I. }
  split; [eexists _, _; vm_compute; reflexivity|].
  split.
  { intros t. vm_compute. intros [<-|[<-|[]]]; auto. }
  split; [|vm_compute; reflexivity].
  eexists; split; [vm_compute; reflexivity|vm_compute; auto 10].
Qed.
