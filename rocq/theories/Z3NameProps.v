(** C87, C88: the names of z3 variables. *)
From Coq Require Import String Lia.
From Verif Require Import NameModel NameFacts Z3NameModel Z3NameSpec.
From Verif Require Import Z3NameProofs.


(** C87: two live variables, of either class, never have the same name *)
Theorem C87_distinct : forall s i j n, zreach s -> zvariable s i n -> zvariable s j n -> i = j.
Proof. exact C87_distinct_pf. Qed.
Print Assumptions C87_distinct.
(** C87: asking for the name of a live variable raises ValueError and changes nothing *)
Theorem C87_in_use : forall s i n t, zreach s -> zvariable s i n -> zstep s (ZVar (NStr n) false t) = (s, ZFailed ZValueErr).
Proof. exact C87_in_use_pf. Qed.
Print Assumptions C87_in_use.
(** C87: any other name is accepted, whatever it looks like and whatever was collected before, and the object gets it *)
Theorem C87_accepted : forall s n t, zreach s -> has_bits t -> ~ zregistered s n ->
  exists i s', zstep s (ZVar (NStr n) false t) = (s', ZCreated i n) /\ zvariable s' i n /\ zconstants s' i (n, t).
Proof. exact C87_accepted_pf. Qed.
Print Assumptions C87_accepted.
(** C87: but not every name no live variable has: a vector of no bits is registered before z3 refuses its sort, and blocks its name while it
    lives *)
Theorem C87_accepted_refuted : exists s n, zreach s /\ (forall i, ~ zvariable s i n) /\ zstep s (ZVar (NStr n) false ZBool) = (s, ZFailed ZValueErr).
Proof. exact C87_accepted_refuted_pf. Qed.
Print Assumptions C87_accepted_refuted.
(** C87: without name= a variable always gets a name, no live object has it, and no variable was ever given it before by the module *)
Theorem C87_generation : forall s t, zreach s -> has_bits t -> exists i n k s', zstep s (ZVar NAuto false t) = (s', ZCreated i n) /\
  n = gen "V" k /\ zvariable s' i n /\ zconstants s' i (n, t) /\ ~ zregistered s n /\ ~ In n (zgenerated s).
Proof. exact C87_generation_pf. Qed.
Print Assumptions C87_generation.
(** C87: no two variables of a program, dead or alive, were generated the same name *)
Theorem C87_generated : forall s, zreach s -> NoDup (zgenerated s).
Proof. exact C87_generated_pf. Qed.
Print Assumptions C87_generated.
(** C87: a name together with a value, and a name that is not a string, raise TypeError and change nothing *)
Theorem C87_arguments : forall s nm t, (nm <> NAuto -> zstep s (ZVar nm true t) = (s, ZFailed ZTypeErr)) /\
  zstep s (ZVar NNotStr false t) = (s, ZFailed ZTypeErr).
Proof. exact C87_arguments_pf. Qed.
Print Assumptions C87_arguments.
(* Non-vacuity: V_0 is taken by hand, so the first generated name is V_1; then V_0 is rejected for a Bit too. *)
Example C87_case : let s := zrun zinit [ZVar (NStr "V_0") false (ZVec 8); ZVar NAuto false ZBool] in
  zreach s /\ zvariable s 0 "V_0" /\ zvariable s 1 "V_1" /\ ~ zregistered s "V_2" /\ zgenerated s = ["V_1"%string] /\
  snd (zstep s (ZVar (NStr "V_0") false ZBool)) = ZFailed ZValueErr.
Proof.
  cbv zeta. split; [eexists; reflexivity|]. split; [eexists; split; [left; reflexivity|]; auto|].
  split; [eexists; split; [right; left; reflexivity|]; auto|]. split; [|vm_compute; auto]. intros (o & [<-|[<-|[]]] & E); discriminate.
Qed.

(** C88: two variables alive at the same time are different unknowns: no z3 constant is in both *)
Theorem C88_live : forall s i j n m x, zreach s -> zvariable s i n -> zvariable s j m -> zconstants s i x -> zconstants s j x -> i = j.
Proof. exact C88_live_pf. Qed.
Print Assumptions C88_live.
(** C88: a new variable is not always independent of the values there are. A named one shares the constant of a collected variable of the same
    name and sort that a live value was made from *)
Theorem C88_fresh_refuted : exists s i n x, zreach s /\ snd (zstep s (ZVar (NStr n) false (ZVec 8))) = ZCreated i n /\
  zconstants (fst (zstep s (ZVar (NStr n) false (ZVec 8)))) i x /\ zoccurs s x.
Proof. exact C88_fresh_refuted_pf. Qed.
Print Assumptions C88_fresh_refuted.
(** C88: and so does an automatic one, after a name of that shape was used by hand *)
Theorem C88_generated_refuted : exists s i n x, zreach s /\ snd (zstep s (ZVar NAuto false (ZVec 8))) = ZCreated i n /\
  zconstants (fst (zstep s (ZVar NAuto false (ZVec 8)))) i x /\ zoccurs s x.
Proof. exact C88_generated_refuted_pf. Qed.
Print Assumptions C88_generated_refuted.
(** C88: a named variable is independent of every value made before if no variable of its name and sort was created before *)
Theorem C88_named_partial : forall s n t, zreach s -> ~ In (n, t) (map snd (zcreated s)) -> ~ zoccurs s (n, t).
Proof. exact C88_named_partial_pf. Qed.
Print Assumptions C88_named_partial.
(** C88: an automatic variable is independent of every value made before if its name was never passed as name= *)
Theorem C88_generated_partial : forall l t i n, let s := zrun zinit l in snd (zstep s (ZVar NAuto false t)) = ZCreated i n ->
  ~ In n (zexplicit l) -> forall u, ~ zoccurs s (n, u).
Proof. exact C88_generated_partial_pf. Qed.
Print Assumptions C88_generated_partial.
(* Non-vacuity: a and an automatic variable; the next automatic one is V_1 and a vector of 4 bits named a is another constant. *)
Example C88_case : let l := [ZVar (NStr "a") false (ZVec 8); ZVar NAuto false ZBool; ZExpr [0; 1] (fun _ => true)] in
  let s := zrun zinit l in zoccurs s ("a"%string, ZVec 8) /\ zoccurs s ("V_0"%string, ZBool) /\
  snd (zstep s (ZVar NAuto false ZBool)) = ZCreated 3 "V_1" /\ zexplicit l = ["a"%string] /\ ~ In ("a"%string, ZVec 4) (map snd (zcreated s)).
Proof.
  cbv zeta. split; [eexists; split; [left; reflexivity|left; reflexivity]|].
  split; [eexists; split; [right; left; reflexivity|left; reflexivity]|]. split; [reflexivity|]. split; [reflexivity|].
  intros [E|[E|[]]]; discriminate.
Qed.
(** C88: a value built from others has the constants of the operands it was built from, as far as z3.simplify keeps them, and no others; the
    formulas of other objects do not change, and collecting an object takes only its own formula *)
Theorem C88_formulas : forall s is keep i x, zreach s -> let s' := fst (zstep s (ZExpr is keep)) in
  (zconstants s' (znext s) x <-> keep x = true /\ exists j, In j is /\ zconstants s j x) /\
  (i <> znext s -> (zconstants s' i x <-> zconstants s i x)) /\
  (zconstants (fst (zstep s (ZCollect i))) i x -> False) /\
  (forall j, j <> i -> (zconstants (fst (zstep s (ZCollect i))) j x <-> zconstants s j x)).
Proof. exact C88_formulas_pf. Qed.
Print Assumptions C88_formulas.
Example C88_formulas_ex : let s := zrun zinit [ZVar (NStr "a") false ZBool; ZVar (NStr "b") false ZBool; ZVar (NStr "c") false ZBool] in
  let s' := fst (zstep s (ZExpr [0; 2] (fun x => negb (String.eqb (fst x) "c")))) in
  zconstants s' 3 ("a"%string, ZBool) /\ ~ zconstants s' 3 ("b"%string, ZBool) /\ ~ zconstants s' 3 ("c"%string, ZBool).
Proof.
  cbv zeta. split; [eexists; split; [right; right; right; left; reflexivity|split; [reflexivity|now left]]|].
  split; intros (o & A & B & C); cbn in A; (destruct A as [<-|[<-|[<-|[<-|[]]]]]; try discriminate; destruct C as [C|[]]; discriminate).
Qed.
