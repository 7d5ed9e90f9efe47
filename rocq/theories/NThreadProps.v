(** Symbolic variables made by several threads (C101), over every number of threads, every operation they start and every
    interleaving of their steps, with the collector taking objects anywhere. *)
From Coq Require Import String Lia.
From Verif Require Import NameModel NameSpec NameFacts NThreadModel NThreadSpec NThreadFacts.
Open Scope string_scope.
Open Scope list_scope.
From Verif Require Import NThreadProofs.


(** * C101: names of variables made by threads *)
(** Automatic names and names from string prefixes are never generated twice, whatever the threads do. *)
Theorem C101_generated : forall h, NoDup (generated_from_strings (shared (trun tinit h))).
Proof. exact C101_generated_pf. Qed.
Print Assumptions C101_generated.

(** Two live variables share a name only if at some earlier moment two threads had both seen that it was free and neither
    had stored it yet. *)
Theorem C101_race : forall h f i j n, let s := shared (trun tinit h) in
  (forall h1 h2, h = h1 ++ h2 -> forall a b, decided (trun tinit h1) a f n -> decided (trun tinit h1) b f n -> a = b) ->
  variable s f i n -> variable s f j n -> i = j.
Proof. exact C101_race_pf. Qed.
Print Assumptions C101_race.

(** So with string prefixes a shared name was passed as name=: two variables with generated names never share one. *)
Theorem C101_shared_name : forall h f i j n, let s := shared (trun tinit h) in all_strings h ->
  variable s f i n -> variable s f j n -> i = j \/ exists a o, In (EStart a o) h /\ names o f n.
Proof. exact C101_shared_name_pf. Qed.
Print Assumptions C101_shared_name.

(** A name that only one thread passes as name=, and that no prefix in use generates, is never held by two live
    variables. *)
Theorem C101_own_names : forall h f i j n a, let s := shared (trun tinit h) in
  (forall b o, In (EStart b o) h -> names o f n -> b = a) ->
  (forall b o p k, In (EStart b o) h -> generates o p -> n <> gen (ptext p) k) ->
  variable s f i n -> variable s f j n -> i = j.
Proof. exact C101_own_names_pf. Qed.
Print Assumptions C101_own_names.

(** With a lock around each creation live variables have distinct names, as without threads (C34), with the collector
    running anywhere. *)
Theorem C101_locked : forall h f i j n, let s := shared (trun tinit h) in locked h ->
  variable s f i n -> variable s f j n -> i = j.
Proof. exact C101_locked_pf. Qed.
Print Assumptions C101_locked.

(** Nobody waits for anybody: after any history a thread that runs alone finishes the constructor it is in. *)
Theorem C101_finishes : forall h i, exists k, ph (trun tinit (h ++ repeat (EStep i) k)) i = PIdle.
Proof. exact C101_finishes_pf. Qed.
Print Assumptions C101_finishes.

(** A constructor that runs without interruption, after any history of races and while others are inside theirs, does
    what it does without threads (the step of C34 and C35). *)
Theorem C101_alone : forall h i o, ph (trun tinit h) i = PIdle ->
  exists k, let s := trun tinit h in let s' := trun tinit (h ++ EStart i o :: repeat (EStep i) k) in
  ph s' i = PIdle /\ (forall j, j <> i -> ph s' j = ph s j) /\ same_state (shared s') (fst (step (shared s) o)) /\
  log s' = (i, snd (step (shared s) o)) :: log s.
Proof. exact C101_alone_pf. Qed.
Print Assumptions C101_alone.

(** What does not hold: two threads that pass the same name= at the same time both succeed, and their variables are the
    same symbol. *)
Theorem C101_distinct_refuted : exists h i j n, let s := shared (trun tinit h) in
  all_idle (trun tinit h) /\ log (trun tinit h) = [(2, Created j n); (1, Created i n)] /\
  variable s Core i n /\ variable s Core j n /\ i <> j /\ occurs_in s i n /\ occurs_in s j n.
Proof. exact C101_distinct_refuted_pf. Qed.
Print Assumptions C101_distinct_refuted.
(** Nor does _gen_name's look at the table protect an automatic name from a thread that passes it as name=. *)
Theorem C101_automatic_refuted : exists h i j n, let s := shared (trun tinit h) in
  all_idle (trun tinit h) /\ generated s = [n] /\ variable s Core i n /\ variable s Core j n /\ i <> j.
Proof. exact C101_automatic_refuted_pf. Qed.
Print Assumptions C101_automatic_refuted.

(** Three threads that overlap: two automatic names, a prefix and two names of their own; the third draws V_1, finds it
    taken and goes on to V_2. *)
Definition tdemo : list event := [EStart 1 (OVar NAuto None false SBool); EStart 2 (OVar (NStr "V_1") None false SBool); EStep 1;
  EStart 3 (OVar NAuto None false SInt); EStep 2; EStep 3; EStep 3; EStep 1; EStart 2 (OVar NAuto (Some (PStr "x")) false (SVec 4));
  EStep 2; EStep 3; ECollect 7; EStep 1; EStep 3; EStep 2; EStep 3; EStart 1 (OVar (NStr "y") None false SBool); EStep 2; EStep 1].
Example C101_ex : let s := trun tinit tdemo in
  generated_from_strings (shared s) = ["x_0"; "V_2"; "V_0"] /\ variable (shared s) Core 4 "y" /\ variable (shared s) Core 0 "V_1" /\
  log s = [(1, Created 4 "y"); (2, Created 3 "x_0"); (3, Created 2 "V_2"); (1, Created 1 "V_0"); (2, Created 0 "V_1")].
Proof.
  cbv zeta. split; [vm_compute; reflexivity|]. split; [|split; [|vm_compute; reflexivity]].
  - exists (Obj 4 (Some "y") Core true ["y"]). split; [vm_compute; tauto|repeat split].
  - exists (Obj 0 (Some "V_1") Core true ["V_1"]). split; [vm_compute; tauto|repeat split].
Qed.
Example C101_hyps_ex : all_strings tdemo /\
  (forall b o, In (EStart b o) tdemo -> names o Core "y" -> b = 1) /\
  (forall b o p k, In (EStart b o) tdemo -> generates o p -> "y" <> gen (ptext p) k).
Proof.
  unfold tdemo. split; [|split].
  - intros i o p H. repeat (destruct H as [H|H]; [try discriminate; injection H as <- <-; intros G; try (destruct G; fail); rewrite G; eexists; reflexivity|]). destruct H.
  - intros b o H. repeat (destruct H as [H|H]; [try discriminate; injection H as <- <-; intros G; try (destruct G; fail); try reflexivity; destruct G; discriminate|]). destruct H.
  - intros b o p k H. repeat (destruct H as [H|H]; [try discriminate; injection H as <- <-; intros G; try (destruct G; fail); rewrite G; discriminate|]). destruct H.
Qed.
Example C101_locked_ex : locked [EStart 1 (OVar (NStr "x") None false SBool); ECollect 5; EStep 1; EStart 2 (OExpr [0] (fun _ => true));
  EStart 2 (OVar NAuto None false SInt); EStep 2; ECollect 0; EStep 2; EStep 2; EStart 1 (OVar (NStr "x") None false SBool)].
Proof.
  intros h1 i o h2 E _ j.
  repeat (destruct h1 as [|e h1]; [try discriminate; vm_compute; now destruct j as [|[|[|j]]]|injection E as <- E]). destruct h1; discriminate.
Qed.
Example C101_free_ex : ph (trun tinit (firstn 4 tdemo)) 2 <> PIdle /\ ph (trun tinit (firstn 4 tdemo)) 4 = PIdle.
Proof. vm_compute. split; [discriminate|reflexivity]. Qed.
