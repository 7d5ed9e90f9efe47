(** C117: printed symbolic values. [srepr show x] is repr(x) when the formula library prints a formula t as [show t];
    [show] is any function. *)
From Coq Require Import Lia ZifyBool String Ascii.
From Verif Require Import PyBase BVModel OpModel OpFacts SMTTerm SMTSpec NameModel NameSpec NameProofs Z3NameModel Z3NameSpec Z3NameProofs SPrintModel SPrintSpec SPrintFacts.
From Verif Require FPModel SMTFPModel SFPProofs.
Local Open Scope string_scope.
From Verif Require Import SPrintProofs.


(** ** C117: what the text determines *)

(** Values that print alike are of the same class. *)
Theorem C117_class : forall show x y, made x -> made y -> srepr show x = srepr show y -> p_cls x = p_cls y.
Proof. exact C117_class_pf. Qed.
Print Assumptions C117_class.

(** Live variables of the SMT family that print alike are one object, after any history of creations and collections, whatever
    their names and classes ([cls i]: the class of object i). *)
Theorem C117_variables : forall show h (cls : nat -> pcls) i j n m, (forall i, real_cls (cls i)) ->
  variable (run init h) Core i n -> variable (run init h) Core j m ->
  srepr show (new_variable (cls i) n) = srepr show (new_variable (cls j) m) -> i = j.
Proof. exact C117_variables_pf. Qed.
Print Assumptions C117_variables.
(** Likewise in the z3 family. *)
Theorem C117_z3_variables : forall show s (cls : nat -> pcls) i j n m, (forall i, real_cls (cls i)) -> zreach s ->
  zvariable s i n -> zvariable s j m ->
  srepr show (new_variable (cls i) n) = srepr show (new_variable (cls j) m) -> i = j.
Proof. exact C117_z3_variables_pf. Qed.
Print Assumptions C117_z3_variables.

(** a history with two live variables, one of them named like a constant *)
Example C117_variables_ex : let s := run init [OVar (NStr "5_8") None false (SVec 8); OVar NAuto None false SBool] in
  variable s Core 0 "5_8" /\ variable s Core 1 "V_0" /\
  forall show, srepr show (new_variable (PBit FSMT) "V_0") = "<class 'hwtypes.smt_bit_vector.SMTBit'>(V_0)".
Proof. cbv zeta. split; [|split; [|reflexivity]].
  - exists (Obj 0 (Some "5_8") Core true ["5_8"]). split; [vm_compute; now left|repeat split].
  - exists (Obj 1 (Some "V_0") Core true ["V_0"]). split; [vm_compute; right; now left|repeat split].
Qed.

(** Two variables print alike exactly if they are of one class and stand for the same value under every assignment. *)
Theorem C117_variables_meaning : forall show c d n m, has_values c -> has_values d ->
  (srepr show (new_variable c n) = srepr show (new_variable d m) <->
   c = d /\ forall e, stands_for e (p_term (new_variable c n)) = stands_for e (p_term (new_variable d m))).
Proof. exact C117_variables_meaning_pf. Qed.
Print Assumptions C117_variables_meaning.

(** If the library prints two formulas differently, and names of variables as they are, values of these formulas that print alike have
    the same formula: they stand for the same number under every assignment. *)
Theorem C117_meaning : forall show x y, tells_apart show (p_term x) (p_term y) -> made x -> made y -> plain_name show x -> plain_name show y ->
  srepr show x = srepr show y -> p_cls x = p_cls y /\ forall e, stands_for e (p_term x) = stands_for e (p_term y).
Proof. exact C117_meaning_pf. Qed.
Print Assumptions C117_meaning.
(** a variable and the copy made by SMTBitVector[4](x) print alike *)
Example C117_meaning_ex : let c := PVec FSMT (BVC KUInt 4) in let x := new_variable c "x" in let y := new_value c (symbol c "x") in
  forall show, show (symbol c "x") = "x" ->
  tells_apart show (p_term x) (p_term y) /\ made x /\ made y /\ plain_name show x /\ plain_name show y /\ srepr show x = "SMTUIntVector[4](x)" /\ srepr show y = srepr show x.
Proof.
  intros c x y show H. split; [intros _; reflexivity|]. split; [split; [cbn; lia|right; now exists "x"]|]. split; [split; [cbn; lia|now left]|].
  split; [intros n E; injection E as <-; exact H|]. split; [intros n E; discriminate E|]. split; [reflexivity|]. unfold srepr, y. cbn [new_value p_name p_cls p_term]. rewrite H. reflexivity.
Qed.

(** FPVectors that print alike have the same format, and the same value if gmpy2 prints their values differently when they differ. *)
Theorem C117_fp : forall show x y, FPModel.fmt_ok (FPModel.fv_fmt x) = true -> FPModel.fmt_ok (FPModel.fv_fmt y) = true ->
  fp_repr show x = fp_repr show y ->
  FPModel.fv_fmt x = FPModel.fv_fmt y /\
  ((show (FPModel.fv_val x) = show (FPModel.fv_val y) -> FPModel.fv_val x = FPModel.fv_val y) -> x = y).
Proof. exact C117_fp_pf. Qed.
Print Assumptions C117_fp.
Example C117_fp_ex : let f := FPModel.Fmt 5 10 FPModel.RNE true in FPModel.fmt_ok f = true /\
  forall show, show (FPModel.MZero true) = "-0.0" -> fp_repr show (FPModel.FPV f (FPModel.MZero true)) = "<class 'hwtypes.fp_vector.FPVector[5,10,RoundingMode.RNE,True]'>(-0.0)".
Proof. split; [reflexivity|]. intros show H. unfold fp_repr. cbn [FPModel.fv_val]. rewrite H. reflexivity. Qed.

(** ** C117: what the text does not determine *)

(** Whatever the library prints for a constant, a variable can be given that text as its name: the two then print alike
    but are different numbers under some assignment. SMTBitVector[8](5) and SMTBitVector[8](name='5_8') is such a pair. *)
Theorem C117_name_refuted : forall show k n z f, 1 <= n -> 0 <= z < 2 ^ n ->
  let c := PVec f (BVC k n) in
  let v := new_value c (FV (VConst z n)) in
  exists name, let x := new_variable c name in
    made x /\ made v /\
    snd (step init (OVar (NStr name) None false (SVec (Z.to_nat n)))) = Created 0 name /\
    srepr show x = srepr show v /\ exists e, stands_for e (p_term x) <> stands_for e (p_term v).
Proof. exact C117_name_refuted_pf. Qed.
Print Assumptions C117_name_refuted.
