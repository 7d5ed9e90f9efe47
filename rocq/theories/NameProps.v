(** Names of symbolic variables (C34, C35). *)
From Coq Require Import String Lia.
From Verif Require Import NameModel NameSpec NameFacts.
From Verif Require Import NameProofs.


(** * C34: live variables have distinct names *)
(** h is any history of creations (successful or not), expressions and collections. SMTBit, SMTBitVector and SMTInt
    variables (family Core), and SMTFPVector variables among themselves. *)
Theorem C34_distinct : forall h f i j n,
  variable (run init h) f i n -> variable (run init h) f j n -> i = j.
Proof. exact C34_distinct_pf. Qed.
Print Assumptions C34_distinct.
(** A name in use is rejected and nothing changes. *)
Theorem C34_in_use : forall h i n t, variable (run init h) Core i n ->
  step (run init h) (OVar (NStr n) None false t) = (run init h, Failed ValueErr).
Proof. exact C34_in_use_pf. Qed.
Print Assumptions C34_in_use.
(** A name not held by a live object is accepted, and names the new variable, unless pySMT knows the symbol with another
    type. *)
Theorem C34_accepted : forall h n t, let s := run init h in
  (forall o, In o (heap s) -> o_fam o = Core -> o_name o <> Some n) ->
  (find_sym (symtab s) n = None \/ find_sym (symtab s) n = Some t) ->
  exists s', step s (OVar (NStr n) None false t) = (s', Created (next s) n) /\ variable s' Core (next s) n.
Proof. exact C34_accepted_pf. Qed.
Print Assumptions C34_accepted.
(** Automatic names and names from a string prefix are never generated twice, in any history (whatever else happens in
    it); Created names are recorded in [created]. *)
Theorem C34_generated_partial : forall h, NoDup (generated_from_strings (run init h)).
Proof. exact C34_generated_partial_pf. Qed.
Print Assumptions C34_generated_partial.
(** Each prefix alone, a string or not, never gives the same name twice. *)
Theorem C34_one_prefix : forall h p, NoDup (generated_with p (run init h)).
Proof. exact C34_one_prefix_pf. Qed.
Print Assumptions C34_one_prefix.
Example C34_one_prefix_ex : generated_with (PObj 7 "7") (run init [OVar NAuto (Some (PObj 7 "7")) false SBool; OCollect 0;
  OVar NAuto (Some (PObj 7 "7")) false (SVec 2)]) = ["7_1"; "7_0"]%string.
Proof. reflexivity. Qed.
(** Missing: prefixes that are not strings. prefix=1 and prefix='1' have separate counters and the same text, so 1_0 is
    generated twice (after the first variable is gone). *)
Theorem C34_generated_refuted : exists h, ~ NoDup (generated (run init h)).
Proof. exact C34_generated_refuted_pf. Qed.
Print Assumptions C34_generated_refuted.
(** Generation always finds a name, for any prefix, and it is not the name of a live object. *)
Theorem C34_generation : forall h pf t, let s := run init h in
  exists n, (snd (step s (OVar NAuto pf false t)) = Created (next s) n \/ snd (step s (OVar NAuto pf false t)) = Failed TypeErr) /\
    (exists k, n = gen (ptext (match pf with Some p => p | None => PStr "V" end)) k) /\
    (forall i, ~ variable s Core i n).
Proof. exact C34_generation_pf. Qed.
Print Assumptions C34_generation.
(** Arguments that are rejected, leaving everything as it was. *)
Theorem C34_bad_arguments : forall h n p t, let s := run init h in
  step s (OVar (NStr n) (Some p) false t) = (s, Failed ValueErr) /\
  step s (OVar NNotStr None false t) = (s, Failed TypeErr) /\
  step s (OVar (NStr n) None true t) = (s, Failed TypeErr) /\
  step s (OVar NAuto (Some p) true t) = (s, Failed TypeErr).
Proof. exact C34_bad_arguments_pf. Qed.
Print Assumptions C34_bad_arguments.
(** SMTFPVector has a table of its own: a bit-vector and a float can be live under one name. *)
Theorem C34_families_refuted : exists h i j n, variable (run init h) Core i n /\ variable (run init h) FP j n /\ i <> j.
Proof. exact C34_families_refuted_pf. Qed.
Print Assumptions C34_families_refuted.
(** pySMT remembers the type of a collected variable: its name is not in use, and still cannot be reused with another
    type. *)
Theorem C34_stale_type : exists h n t, let s := run init h in
  (forall i, ~ variable s Core i n) /\ snd (step s (OVar (NStr n) None false t)) = Failed TypeErr.
Proof. exact C34_stale_type_pf. Qed.
Print Assumptions C34_stale_type.
(** Two names of each kind, one collection: four variables were created, three are left. *)
Definition demo : list op := [OVar NAuto None false SBool; OVar (NStr "V_1") None false SBool; OVar NAuto None false SInt;
  OCollect 0; OVar NAuto (Some (PStr "x")) false (SVec 4); OVar (NStr "V_1") None false SBool].
Example C34_ex : variable (run init demo) Core 2 "V_2" /\ generated (run init demo) = ["x_0"; "V_2"; "V_0"]%string /\
  variable (run init demo) Core 1 "V_1" /\ variable (run init demo) Core 3 "x_0" /\ next (run init demo) = 4.
Proof.
  split; [|split; [reflexivity|split; [|split; [|reflexivity]]]];
    [exists (Obj 2 (Some "V_2") Core true ["V_2"])%string|exists (Obj 1 (Some "V_1") Core true ["V_1"])%string|exists (Obj 3 (Some "x_0") Core true ["x_0"])%string];
    vm_compute; tauto.
Qed.

(** * C35: a new variable does not occur in existing formulas *)
(** Full claim: after any history a newly created variable's name is that of no variable occurring in a live formula. *)
(** False for name=: ~a is kept, a is collected, a new a is the same symbol. *)
Theorem C35_refuted : exists h n t i, let s := run init h in
  occurs s n /\ snd (step s (OVar (NStr n) None false t)) = Created i n.
Proof. exact C35_refuted_pf. Qed.
Print Assumptions C35_refuted.
(** False for automatic names too, if the user has named a variable V_0 (the library warns). *)
Theorem C35_automatic_refuted : exists h n t i, let s := run init h in
  occurs s n /\ snd (step s (OVar NAuto None false t)) = Created i n.
Proof. exact C35_automatic_refuted_pf. Qed.
Print Assumptions C35_automatic_refuted.
(** True for a generated name, from any string prefix, that was never passed as name=: creation succeeds and the variable
    is new to every live formula. *)
Theorem C35_generated_partial : forall h pf t, let s := run init h in
  string_prefixes (h ++ [OVar NAuto pf false t]) ->
  exists n, (exists k, n = gen (ptext (match pf with Some p => p | None => PStr "V" end)) k) /\
    (~ In n (explicit_names h) ->
      snd (step s (OVar NAuto pf false t)) = Created (next s) n /\ ~ occurs s n).
Proof. exact C35_generated_partial_pf. Qed.
Print Assumptions C35_generated_partial.
(** True for a name= that no earlier variable had. *)
Theorem C35_named_partial : forall h n t, let s := run init h in
  ~ In n (map snd (created s)) ->
  snd (step s (OVar (NStr n) None false t)) = Created (next s) n /\ ~ occurs s n.
Proof. exact C35_named_partial_pf. Qed.
Print Assumptions C35_named_partial.
(** SMTFPVector() takes a fresh symbol, which occurs in no formula, in every history. *)
Theorem C35_float : forall h t, let s := run init h in
  exists n, snd (step s (OFP NAuto t)) = Created (next s) n /\ ~ occurs s n.
Proof. exact C35_float_pf. Qed.
Print Assumptions C35_float.
Example C35_ex : string_prefixes (demo ++ [OVar NAuto (Some (PStr "x")) false (SVec 4)]) /\
  snd (step (run init demo) (OVar NAuto (Some (PStr "x")) false (SVec 4))) = Created 4 "x_1" /\
  ~ In "x_1"%string (explicit_names demo) /\ ~ In "y"%string (map snd (created (run init demo))).
Proof. split; [repeat constructor|]. split; [reflexivity|]. vm_compute. split; intuition discriminate. Qed.
(** A value built from others has the symbols of the operands it was built from, as far as simplification keeps them, and
    no others; the formulas of other objects do not change, and collecting an object takes only its own formula. *)
Theorem C35_formulas : forall h is keep i n, let s := run init h in let s' := fst (step s (OExpr is keep)) in
  (occurs_in s' (next s) n <-> keep n = true /\ exists j, In j is /\ occurs_in s j n) /\
  (i <> next s -> (occurs_in s' i n <-> occurs_in s i n)) /\
  (occurs_in (fst (step s (OCollect i))) i n -> False) /\
  (forall j, j <> i -> (occurs_in (fst (step s (OCollect i))) j n <-> occurs_in s j n)).
Proof. exact C35_formulas_pf. Qed.
Print Assumptions C35_formulas.
Example C35_formulas_ex : let s := run init [OVar (NStr "a") None false SBool; OVar (NStr "b") None false SBool; OVar (NStr "c") None false SBool] in
  let s' := fst (step s (OExpr [0; 2] (fun n => negb (String.eqb n "c")))) in
  occurs_in s' 3 "a" /\ ~ occurs_in s' 3 "b" /\ ~ occurs_in s' 3 "c".
Proof.
  cbv zeta. split; [eexists; split; [right; right; right; left; reflexivity|split; [reflexivity|now left]]|].
  split; intros (o & A & B & C); cbn in A; (destruct A as [<-|[<-|[<-|[<-|[]]]]]; try discriminate; destruct C as [C|[]]; discriminate).
Qed.
