(** Facts about hashability. Nothing here is part of the model or of a specification. *)
From Verif Require Import PyBase BVModel HashModel HashSpec.

Fixpoint hobj_ind' (P : hobj -> Prop) (L : forall c m x, P (OLeaf c m x))
  (T : forall c m a xs, (forall x, In x xs -> P x) -> P (OTuple c m a xs)) (O : forall c m t x, P x -> P (OOne c m t x)) (o : hobj) : P o.
Proof.
  destruct o as [c m x|c m a xs|c m t x].
  - apply L.
  - apply T. induction xs as [|y ys IH]; intros x I; [destruct I|]. destruct I as [<-|I]; [exact (hobj_ind' P L T O y)|exact (IH x I)].
  - apply O. exact (hobj_ind' P L T O x).
Defined.

Lemma slot_filter m : slot m = slot (filter (fun b => negb (silent b)) m).
Proof. induction m as [|[[] [h|]] m IH]; cbn; auto. Qed.
Lemma slot_mro c m : mro_of c m -> slot m = slot (lib_mro c).
Proof. intros E. rewrite slot_filter, E, <- slot_filter. reflexivity. Qed.
Lemma slot_first u b m : forallb silent u = true -> slot (u ++ b :: m) = slot (b :: m).
Proof. intros U. induction u as [|[[] [h|]] u IH]; cbn in *; auto; discriminate. Qed.

Lemma seq_res_ok l : (forall r, In r l -> exists z, r = Ok z) -> exists zs, seq_res l = Ok zs.
Proof.
  induction l as [|r l IH]; intros H; [now exists []|]. destruct (H r (or_introl eq_refl)) as (z & ->). destruct IH as (zs & E); [intros; apply H; now right|].
  exists (z :: zs). cbn. now rewrite E.
Qed.
Lemma seq_res_raise l e : (forall r, In r l -> (exists z, r = Ok z) \/ r = Raise e) -> In (Raise e) l -> seq_res l = Raise e.
Proof.
  induction l as [|r l IH]; intros H I; [destruct I|]. destruct I as [I|I].
  - subst r. reflexivity.
  - destruct (H r (or_introl eq_refl)) as [(z & ->)| ->]; [|reflexivity]. cbn. rewrite IH; auto. intros; apply H; now right.
Qed.
