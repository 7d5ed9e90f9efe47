(** Lemmas about the text of formulas. *)
From Coq Require Import String Ascii.
From Verif Require Import PyBase SMTTerm SMTModel SMTSpec SMTMore SerModel SerSpec.
Local Open Scope string_scope.
Definition nlc : ascii := ascii_of_nat 10.
Lemma app_nil (s : string) : s ++ "" = s. Proof. induction s; cbn; congruence. Qed.
Lemma app_assoc_s (a b c : string) : (a ++ b) ++ c = a ++ b ++ c. Proof. induction a; cbn; congruence. Qed.
Lemma app_cancel (p a b : string) : p ++ a = p ++ b -> a = b. Proof. induction p; cbn; auto. intros H. injection H. auto. Qed.
Fixpoint plain_line (s : string) : Prop := match s with "" => True | String c s => c <> nlc /\ plain_line s end.
Lemma one_line_plain s : one_line s -> plain_line s.
Proof.
  unfold one_line. induction s as [|c s IH]; cbn; auto. intros H. split.
  - intros ->. apply (H "" s). reflexivity.
  - apply IH. intros a b E. apply (H (String c a) b). cbn. now rewrite E.
Qed.
Lemma plain_app a b : plain_line a -> plain_line b -> plain_line (a ++ b). Proof. induction a; cbn; tauto. Qed.
Definition tail (r : string) : Prop := r = "" \/ (exists x, r = nl ++ x) \/ (exists x, r = "," ++ nl ++ x).
Definition no_comma (s : string) : Prop := forall a, s <> a ++ ",".
Lemma line_side s r x : plain_line s -> no_comma s -> tail r -> s ++ x = r -> tail x -> s = "".
Proof.
  intros P N T E X. destruct s as [|c s]; auto. exfalso. destruct P as [P1 P2]. destruct T as [->|[[y ->]|[y ->]]]; [discriminate| |].
  - injection E as E _. now apply P1.
  - injection E as -> E. destruct s as [|d s]; [now apply (N "")|]. injection E as -> _. now apply (proj1 P2).
Qed.
Lemma line_inj s : forall s' r r', plain_line s -> plain_line s' -> no_comma s -> no_comma s' -> tail r -> tail r' -> s ++ r = s' ++ r' -> s = s' /\ r = r'.
Proof.
  induction s as [|c s IH]; intros s' r r' P P' N N' T T' E.
  - cbn in E. assert (s' = "") as ->. { eapply line_side with (r := r) (x := r'); eauto. } auto.
  - destruct s' as [|d s'].
    + exfalso. enough (String c s = "") by discriminate. eapply line_side with (r := r') (x := r); eauto.
    + injection E as -> E. destruct (IH s' r r') as [-> ->]; auto; try apply P; try apply P'.
      * intros a Ea. apply (N (String d a)). cbn. now rewrite Ea.
      * intros a Ea. apply (N' (String d a)). cbn. now rewrite Ea.
Qed.
Lemma tail_nl x : tail (nl ++ x). Proof. right. left. eauto. Qed.

Section Ser.
Variable ser : bterm -> string.
Variable ind : string.
Local Notation ok := (leaves (fun t => leaf_text (ser t))).
Definition body (p : string) (l : list formula) : string := sjoin ("," ++ nl) (map (fun f => serialize ser ind f (p ++ ind)) l).
Definition head (f : formula) : string :=
  match f with FBit t => ser t | FAnd _ => "And(" | FOr _ => "Or(" | FImplies _ _ => "Implies(" end.
Definition args (f : formula) : option (list formula) :=
  match f with FBit _ => None | FAnd l | FOr l => Some l | FImplies a b => Some [a; b] end.
Definition rest (f : formula) (p r : string) : string :=
  match args f with None => r | Some l => nl ++ body p l ++ nl ++ p ++ ")" ++ r end.
Lemma serialize_split f p r : serialize ser ind f p ++ r = p ++ head f ++ rest f p r.
Proof.
  destruct f; cbn [serialize head]; unfold rest, op_to_str; cbn [args sjoin]; unfold body; cbn [map sjoin]; rewrite ?app_assoc_s; reflexivity.
Qed.
Lemma tail_rest f p r : tail r -> tail (rest f p r). Proof. unfold rest. destruct (args f); auto. intros _. apply tail_nl. Qed.
Lemma head_line f : ok f -> plain_line (head f) /\ no_comma (head f) /\ head f <> "".
Proof.
  destruct f; cbn [leaves head]; intros O.
  - destruct O as (A & B & C & _). split; [now apply one_line_plain|]. auto.
  - split; [repeat split; discriminate|]. split; [|discriminate]. intros a; destruct a as [|? a]; try discriminate. cbn; intros E; injection E as _ E; repeat (destruct a as [|? a]; try discriminate; cbn in E; injection E as _ E).
  - split; [repeat split; discriminate|]. split; [|discriminate]. intros a; destruct a as [|? a]; try discriminate. cbn; intros E; injection E as _ E; repeat (destruct a as [|? a]; try discriminate; cbn in E; injection E as _ E).
  - split; [repeat split; discriminate|]. split; [|discriminate]. intros a; destruct a as [|? a]; try discriminate. cbn; intros E; injection E as _ E; repeat (destruct a as [|? a]; try discriminate; cbn in E; injection E as _ E).
Qed.
Local Notation same := (alike (fun t u => ser t = ser u)).
Definition good (f : formula) : Prop := forall g p r r', plain_line p -> ok f -> ok g -> tail r -> tail r' ->
  serialize ser ind f p ++ r = serialize ser ind g p ++ r' -> same f g /\ r = r'.
Definition oks (l : list formula) : Prop := Forall ok l.
Lemma oks_all l : (fix all (l : list formula) : Prop := match l with [] => True | f :: l => ok f /\ all l end) l <-> oks l.
Proof. induction l as [|f l IH]; [split; constructor|]. rewrite IH. split; intros H; [constructor; tauto|inversion H; auto]. Qed.
Hypothesis PI : plain_line ind.
Lemma body_cons p f l z : body p (f :: l) ++ nl ++ z = serialize ser ind f (p ++ ind) ++ (match l with [] => nl ++ z | _ => "," ++ nl ++ body p l ++ nl ++ z end).
Proof. unfold body. destruct l as [|g l]; [reflexivity|]. cbn [map sjoin]. rewrite !app_assoc_s. reflexivity. Qed.
Lemma first_char p f l z x : plain_line p -> ok f -> body p (f :: l) ++ nl ++ z <> nl ++ x.
Proof.
  intros P O E. rewrite body_cons, serialize_split in E. destruct (head_line f O) as (A & _ & B).
  assert (Q : plain_line ((p ++ ind) ++ head f)) by (repeat apply plain_app; auto).
  assert (N : (p ++ ind) ++ head f <> ""). { destruct (p ++ ind); [exact B|discriminate]. }
  rewrite <- app_assoc_s in E. destruct ((p ++ ind) ++ head f) as [|c s]; [congruence|]. injection E as E _. now apply (proj1 Q).
Qed.
Lemma body_inj l : Forall good l -> oks l -> forall m p z z', oks m -> plain_line p -> body p l ++ nl ++ z = body p m ++ nl ++ z' -> Forall2 same l m /\ z = z'.
Proof.
  induction l as [|f l IH]; intros G O m p z z' M P E; destruct m as [|g m].
  - split; [constructor|]. now apply (app_cancel nl).
  - exfalso. inversion M; subst. eapply first_char; eauto; symmetry; exact E.
  - exfalso. inversion O; subst. eapply first_char; eauto; exact E.
  - inversion G as [|? ? G1 G2]; inversion O as [|? ? O1 O2]; inversion M as [|? ? M1 M2]; subst. rewrite !body_cons in E.
    apply G1 in E; auto; [| now apply plain_app | |].
    2, 3: (match goal with |- tail (match ?k with _ => _ end) => destruct k end; [apply tail_nl|right; right; eauto]).
    destruct E as [S E]. destruct l as [|f2 l], m as [|g2 m]; try discriminate.
    + split; [now repeat constructor|]. now apply (app_cancel nl).
    + apply (app_cancel (","%string ++ nl)) in E. destruct (IH G2 O2 (g2 :: m) p z z' M2 P E) as [A B]. split; [now constructor|auto].
Qed.
Lemma ok_args f l : ok f -> args f = Some l -> oks l.
Proof.
  destruct f; cbn [args leaves]; intros O E; inversion E; subst; [now apply oks_all|now apply oks_all|]. repeat constructor; tauto.
Qed.
Lemma good_args f : (forall l, args f = Some l -> Forall good l) -> good f.
Proof.
  intros G g p r r' P Of Og T T' E. rewrite !serialize_split in E. apply app_cancel in E.
  destruct (head_line f Of) as (A1 & A2 & _), (head_line g Og) as (B1 & B2 & _).
  apply line_inj in E; auto using tail_rest. destruct E as [H E]. unfold rest in E.
  destruct (args f) as [l|] eqn:Ef, (args g) as [m|] eqn:Eg.
  - apply app_cancel in E. apply body_inj in E; eauto using ok_args. destruct E as [S E]. apply app_cancel in E. apply (app_cancel ")") in E. split; auto.
    destruct f, g; cbn in H, Ef, Eg; try discriminate; injection Ef as <-; injection Eg as <-; try (constructor; exact S).
    inversion S as [|? ? ? ? S1 S2]; subst. inversion S2; subst. now constructor.
  - exfalso. destruct g; try discriminate. destruct Og as (_ & _ & _ & X & Y & Z). destruct f; try discriminate; cbn in H; congruence.
  - exfalso. destruct f; try discriminate. destruct Of as (_ & _ & _ & X & Y & Z). destruct g; try discriminate; cbn in H; congruence.
  - destruct f, g; try discriminate. split; auto. now constructor.
Qed.
Lemma all_good f : good f.
Proof.
  induction f as [t|l L|l L|p q P Q] using formula_rect2; apply good_args; cbn [args]; intros k E; inversion E; subst; auto.
Qed.
End Ser.
Lemma alike_meaning (R : bterm -> bterm -> Prop) e f : forall g, (forall t u, R t u -> evalb e t = evalb e u) -> alike R f g -> holds e f = holds e g.
Proof.
  induction f as [t|l L|l L|p q P Q] using formula_rect2; intros g H A; inversion A; subst; cbn [holds].
  - auto.
  - clear A. match goal with F : Forall2 _ _ _ |- _ => revert L; induction F as [|a b l' m' X F IH]; intros L; cbn; auto; inversion L; subst end.
    f_equal; auto.
  - clear A. match goal with F : Forall2 _ _ _ |- _ => revert L; induction F as [|a b l' m' X F IH]; intros L; cbn; auto; inversion L; subst end.
    f_equal; auto.
  - rewrite (P p'), (Q q'); auto.
Qed.
