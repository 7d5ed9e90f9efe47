(** Loops over __getitem__ are loops by position. *)
From Coq Require Import Lia.
From Verif Require Import PyBase SeqModel SeqSpec.

Section Facts.
Context {St It : Type} (get : St -> Z -> res (St * It)) (item : St -> nat -> It) (good : St -> Prop) (n : nat).
Context (G : forall s k, good s -> (k < n)%nat -> get s (Z.of_nat k) = Ok (s, item s k)).
Context (E : forall s, good s -> get s (Z.of_nat n) = Raise EIndexError).
Lemma for_range body : (forall s v s', good s -> body s v = Ok s' -> good s') -> forall m k s fuel, good s -> (k + m = n)%nat -> (m < fuel)%nat ->
  for_loop get fuel body s (Some (Z.of_nat k)) =
  let '(s', l, e) := range_loop item body k m s in (s', l, match e with None => LStop | Some e => LExc e end).
Proof.
  intros B. induction m as [|m IH]; intros k s fuel Gs K F; (destruct fuel as [|fuel]; [lia|]); cbn [for_loop it_next range_loop].
  - assert (k = n) as -> by lia. now rewrite E.
  - rewrite G by (auto; lia). destruct (body s (item s k)) as [s'|e] eqn:Eb; [|reflexivity].
    replace (Z.of_nat k + 1) with (Z.of_nat (S k)) by lia. rewrite IH by (eauto; lia). destruct (range_loop item body (S k) m s') as [[a b] [c|]]; reflexivity.
Qed.
Lemma range_id : forall m k s, range_loop item (fun s _ => Ok s) k m s = (s, map (item s) (seq k m), None).
Proof. induction m as [|m IH]; intros k s; cbn [range_loop seq map]; [reflexivity|]. now rewrite IH. Qed.
Lemma list_items s fuel : good s -> (n < fuel)%nat -> seq_list get fuel s = (s, map (item s) (seq 0 n), LStop).
Proof. intros Gs F. unfold seq_list. change 0 with (Z.of_nat 0). rewrite for_range with (m := n) by (auto; intros; congruence). now rewrite range_id. Qed.
Lemma list_more s : good s -> forall fuel k, (k + fuel <= n)%nat ->
  for_loop get fuel (fun s _ => Ok s) s (Some (Z.of_nat k)) = (s, map (item s) (seq k fuel), LMore).
Proof.
  intros Gs. induction fuel as [|fuel IH]; intros k K; cbn [for_loop it_next seq map]; [reflexivity|].
  rewrite G by (auto; lia). replace (Z.of_nat k + 1) with (Z.of_nat (S k)) by lia. rewrite IH by lia. reflexivity.
Qed.
Lemma unpack_items s m : good s -> seq_unpack get m s = if Nat.eqb m n then Ok (map (item s) (seq 0 n)) else Raise EValueError.
Proof.
  intros Gs. unfold seq_unpack. destruct (Nat.lt_ge_cases n (S m)) as [L|L].
  - rewrite list_items by auto. rewrite map_length, seq_length, Nat.eqb_sym. reflexivity.
  - unfold seq_list. change 0 with (Z.of_nat 0). rewrite list_more by (auto; lia).
    destruct (Nat.eqb_spec m n); [lia|reflexivity].
Qed.
Lemma rev_items s : good s -> forall m, (m <= n)%nat -> seq_rev get m s = (s, rev (map (item s) (seq 0 m)), LStop).
Proof.
  intros Gs. induction m as [|m IH]; intros L; [reflexivity|]. cbn [seq_rev]. rewrite G by (auto; lia). rewrite IH by lia.
  rewrite seq_S, map_app, rev_app_distr. reflexivity.
Qed.
Lemma in_first same s : good s -> forall m k fuel, (k + m = n)%nat -> (m < fuel)%nat ->
  snd (seq_in get fuel same s (Some (Z.of_nat k))) =
  Some ((fix go (l : list It) : res bool := match l with [] => Ok false | v :: l => b <- same v ;; if b then Ok true else go l end) (map (item s) (seq k m))).
Proof.
  intros Gs. induction m as [|m IH]; intros k fuel K F; (destruct fuel as [|fuel]; [lia|]); cbn [seq_in it_next seq map].
  - assert (k = n) as -> by lia. now rewrite E.
  - rewrite G by (auto; lia). destruct (same (item s k)) as [[|]|e]; cbn [bind]; [reflexivity| |reflexivity].
    replace (Z.of_nat k + 1) with (Z.of_nat (S k)) by lia. rewrite IH by lia. reflexivity.
Qed.
End Facts.
(** [go] above, when no comparison raises and when the first one does. *)
Lemma go_total {It} (same : It -> res bool) (f : It -> bool) l : (forall v, In v l -> same v = Ok (f v)) ->
  (fix go (l : list It) : res bool := match l with [] => Ok false | v :: l => b <- same v ;; if b then Ok true else go l end) l = Ok (existsb f l).
Proof.
  induction l as [|v l IH]; intros A; [reflexivity|]. rewrite (A v) by now left. cbn [bind existsb]. destruct (f v); [reflexivity|]. apply IH. intros w W. apply A. now right.
Qed.
