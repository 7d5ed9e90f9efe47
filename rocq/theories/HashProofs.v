(** Proofs of the theorems stated in HashProps.v. *)
From Verif Require Import PyBase BVModel HashModel HashSpec HashFacts.

Lemma leaf_hash K c m x : ~ In c [CTuple; CAnon; CProduct; CSum; CTagged] -> mro_of c m ->
  (~ spoils (OLeaf c m x) /\ exists z, hash K (OLeaf c m x) = Ok z) \/ (spoils (OLeaf c m x) /\ hash K (OLeaf c m x) = Raise ETypeError).
Proof.
  intros NI M. cbn [hash]. rewrite (slot_mro c m M).
  destruct c as [|[]| |[]| | |[]| | | | | | | |]; cbn [lib_mro num_mro slot neither spoils]; try (right; split; [exact I|reflexivity]);
    try (left; split; [tauto|eexists; reflexivity]); exfalso; apply NI; cbn; tauto.
Qed.

Lemma tuple_slot c m : In c [CTuple; CAnon; CProduct] -> mro_of c m -> slot m = Some HValue.
Proof. intros H M. rewrite (slot_mro c m M). cbn [In] in H. destruct H as [<-|[<-|[<-|[]]]]; reflexivity. Qed.

Lemma one_hash K c m t x : In c [CSum; CTagged] -> mro_of c m ->
  (forall z, hash K x = Ok z -> exists z', hash K (OOne c m t x) = Ok z') /\ (forall e, hash K x = Raise e -> hash K (OOne c m t x) = Raise e).
Proof.
  intros H M. cbn [hash]. rewrite (slot_mro c m M). cbn [In] in H. destruct H as [<-|[<-|[]]]; cbn [lib_mro slot].
  - split; [intros z ->; now exists z|now intros e ->].
  - split; [intros z ->; cbn; eexists; reflexivity|now intros e ->].
Qed.

Lemma C118_hashable_pf : forall K o, made o ->
  ((forall p, inside p o -> ~ spoils p) -> exists z, hash K o = Ok z) /\
  ((exists p, inside p o /\ spoils p) -> hash K o = Raise ETypeError).
Proof.
  intros K o.
  assert (G : made o -> ((forall p, inside p o -> ~ spoils p) /\ exists z, hash K o = Ok z) \/ ((exists p, inside p o /\ spoils p) /\ hash K o = Raise ETypeError)).
  { induction o as [c m x|c m a xs IH|c m t x IH] using hobj_ind'; intros MD; inversion MD; subst.
    - destruct (leaf_hash K c m x) as [(NS & H)|(S & H)]; auto.
      + left. split; [|exact H]. intros p IP. inversion IP; subst. exact NS.
      + right. split; [|exact H]. eexists. split; [apply in_self|exact S].
    - assert (MX : forall x, In x xs -> made x) by assumption.
      pose proof (tuple_slot c m ltac:(assumption) ltac:(assumption)) as SL. cbn [hash]. rewrite SL. destruct a.
      { right. split; [|reflexivity]. eexists. split; [apply in_self|reflexivity]. }
      assert (D : (forall x, In x xs -> (forall p, inside p x -> ~ spoils p) /\ exists z, hash K x = Ok z) \/
                  exists x, In x xs /\ (exists p, inside p x /\ spoils p) /\ hash K x = Raise ETypeError).
      { clear - IH MX. induction xs as [|y ys IHL]; [left; intros x []|].
        destruct (IH y (or_introl eq_refl) (MX y (or_introl eq_refl))) as [A|B]; [|right; exists y; split; [now left|exact B]].
        destruct IHL as [A'|(x & I & B)]; [intros x I; apply IH; now right|intros x I; apply MX; now right| |].
        - left. intros x [<-|I]; [exact A|exact (A' x I)].
        - right. exists x. split; [now right|exact B]. }
      destruct D as [A|(x & I & (p & IP & SP) & E)].
      + left. split.
        * intros p IP. inversion IP as [|? ? ? ? ? x I IX|]; subst; [cbn; discriminate|]. exact (proj1 (A x I) p IX).
        * destruct (seq_res_ok (map (hash K) xs)) as (zs & E). { intros r HR. apply in_map_iff in HR. destruct HR as (x & <- & I). exact (proj2 (A x I)). }
          rewrite E. cbn. eexists. reflexivity.
      + right. split; [exists p; split; [exact (in_tuple p c m false xs x I IP)|exact SP]|].
        rewrite (seq_res_raise _ ETypeError); [reflexivity| |].
        * intros r HR. apply in_map_iff in HR. destruct HR as (y & <- & IY). destruct (IH y IY (MX y IY)) as [(_ & H)|(_ & H)]; [now left|now right].
        * apply in_map_iff. exists x. split; [exact E|exact I].
    - destruct (one_hash K c m t x) as (A & B); auto. destruct IH as [(NS & z & E)|((p & IP & SP) & E)]; [assumption| |].
      + left. split; [|exact (A z E)]. intros p IP. inversion IP; subst; [cbn; tauto|]. now apply NS.
      + right. split; [exists p; split; [now apply in_one|exact SP]|exact (B _ E)]. }
  intros MD. destruct (G MD) as [(NS & H)|(S & H)].
  - split; [now intros _|]. intros (p & IP & SP). exfalso. exact (NS p IP SP).
  - split; [|now intros _]. intros N. exfalso. destruct S as (p & IP & SP). exact (N p IP SP).
Qed.

Lemma C118_subclass_pf : forall K c u b r, forallb silent u = true ->
  (b_eq b = true -> b_hash b = None -> forall o, (exists x, o = OLeaf c (u ++ b :: r) x) \/ (exists a xs, o = OTuple c (u ++ b :: r) a xs) \/ (exists t x, o = OOne c (u ++ b :: r) t x) ->
     hash K o = Raise ETypeError) /\
  (forall f, b_hash b = Some (HUser f) -> forall o, (exists x, o = OLeaf c (u ++ b :: r) x) \/ (exists a xs, o = OTuple c (u ++ b :: r) a xs) \/ (exists t x, o = OOne c (u ++ b :: r) t x) ->
     hash K o = h_user K f o).
Proof.
  intros K c u [e h] r U. cbn [b_eq b_hash]. split.
  - intros -> -> o [(x & ->)|[(a & xs & ->)|(t & x & ->)]]; cbn [hash]; rewrite (slot_first u _ r U); reflexivity.
  - intros f -> o [(x & ->)|[(a & xs & ->)|(t & x & ->)]]; cbn [hash]; rewrite (slot_first u _ r U); destruct e; reflexivity.
Qed.

Lemma C118_silent_pf : forall K o o', alike o o' -> hash K o = hash K o'.
Proof.
  intros K o. induction o as [c m x|c m a xs IH|c m t x IH] using hobj_ind'; intros o' AL; inversion AL as [c1 m1 m' x1 NI M M'|c1 m1 m' a1 xs1 ys NI M M' F|c1 m1 m' t1 x1 y NI M M' F]; subst; cbn [hash].
  - rewrite (slot_mro c m M), (slot_mro c m' M').
    destruct c as [|[]| |[]| | |[]| | | | | | | |]; cbn [lib_mro num_mro slot neither]; try reflexivity; exfalso; apply NI; cbn; tauto.
  - rewrite (tuple_slot c m NI M), (tuple_slot c m' NI M'). replace (map (hash K) ys) with (map (hash K) xs); [reflexivity|].
    clear - IH F. induction F as [|x y xs ys A F IHF]; [reflexivity|]. cbn [map]. f_equal; [apply IH; [now left|exact A]|apply IHF; intros z I; apply IH; now right].
  - rewrite (slot_mro c m M), (slot_mro c m' M'), (IH y F). cbn [In] in NI. destruct NI as [<-|[<-|[]]]; reflexivity.
Qed.
