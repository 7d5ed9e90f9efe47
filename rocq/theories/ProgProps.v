(** C78, C79: one program, three families. The programs are those of ProgModel.v; ProgSpec.v says which of them use only
    what the families share. *)
From Coq Require Import Lia ZifyBool.
From Verif Require Import PyBase BVModel BVFacts OpModel SMTTerm SMTModel SMTSpec ProgModel ProgSpec ProgFacts ProgInputs.
From Verif Require Import ProgProofs.


(** ** C78: a program means the same in every family *)

(** With pySMT: the run succeeds, and under every assignment its results stand for the results of the concrete run on the
    values of the inputs. *)
Theorem C78_smt_partial : forall S, faithful S -> forall p ts us rs, check ts p = Some us -> Forall2 sym_has rs ts ->
  exists vs, smt_run S rs p = Ok vs /\ Forall2 sym_has vs us /\
    forall e, conc_run (map (vmeaning e) rs) p = Ok (map (vmeaning e) vs).
Proof. exact C78_smt_partial_pf. Qed.
Print Assumptions C78_smt_partial.

(** With z3. *)
Theorem C78_z3_partial : forall S, faithful S -> forall p ts us rs, check ts p = Some us -> Forall2 sym_has rs ts ->
  exists vs, z3_run S rs p = Ok vs /\ Forall2 sym_has vs us /\
    forall e, conc_run (map (vmeaning e) rs) p = Ok (map (vmeaning e) vs).
Proof. exact C78_z3_partial_pf. Qed.
Print Assumptions C78_z3_partial.

(** So the two symbolic families agree: on inputs that stand for the same values, results that stand for the same values,
    even under different assignments. *)
Theorem C78_agree_partial : forall S Z, faithful S -> faithful Z -> forall p ts us rs qs e d, check ts p = Some us ->
  Forall2 sym_has rs ts -> Forall2 sym_has qs ts -> map (vmeaning e) rs = map (vmeaning d) qs ->
  exists vs ws, smt_run S rs p = Ok vs /\ z3_run Z qs p = Ok ws /\ map (vmeaning e) vs = map (vmeaning d) ws.
Proof. exact C78_agree_partial_pf. Qed.
Print Assumptions C78_agree_partial.

(** And the concrete run never raises: its results have the types the checker gives. *)
Theorem C78_concrete_partial : forall p ts us cs, check ts p = Some us -> Forall2 conc_has cs ts ->
  exists ws, conc_run cs p = Ok ws /\ Forall2 conc_has ws us.
Proof. exact C78_concrete_partial_pf. Qed.
Print Assumptions C78_concrete_partial.

(** ** C79: asking the solver is asking about all concrete inputs *)

(** On fresh variables of different names: a Bit the program computes can be made true by an assignment exactly when
    some concrete inputs make the concrete program compute a true Bit there. *)
Theorem C79_sat_smt_partial : forall S, faithful S -> forall p names ts us i vs b,
  check ts p = Some us -> Forall sized_ty ts -> NoDup names -> length names = length ts ->
  smt_run S (inputs names ts) p = Ok vs -> nth_error vs i = Some (SBit b) ->
  ((exists e, evalb e b = true) <->
   exists cs ws, Forall2 conc_has cs ts /\ conc_run cs p = Ok ws /\ nth_error ws i = Some (VBit true)).
Proof. exact C79_sat_smt_partial_pf. Qed.
Print Assumptions C79_sat_smt_partial.
Theorem C79_sat_z3_partial : forall S, faithful S -> forall p names ts us i vs b,
  check ts p = Some us -> Forall sized_ty ts -> NoDup names -> length names = length ts ->
  z3_run S (inputs names ts) p = Ok vs -> nth_error vs i = Some (SBit b) ->
  ((exists e, evalb e b = true) <->
   exists cs ws, Forall2 conc_has cs ts /\ conc_run cs p = Ok ws /\ nth_error ws i = Some (VBit true)).
Proof. exact C79_sat_z3_partial_pf. Qed.
Print Assumptions C79_sat_z3_partial.
(** It is true under every assignment exactly when all concrete inputs give a true Bit. *)
Theorem C79_valid_partial : forall S, faithful S -> forall p names ts us i vs b,
  check ts p = Some us -> Forall sized_ty ts -> NoDup names -> length names = length ts ->
  smt_run S (inputs names ts) p = Ok vs \/ z3_run S (inputs names ts) p = Ok vs -> nth_error vs i = Some (SBit b) ->
  ((forall e, evalb e b = true) <->
   forall cs ws, Forall2 conc_has cs ts -> conc_run cs p = Ok ws -> nth_error ws i = Some (VBit true)).
Proof. exact C79_valid_partial_pf. Qed.
Print Assumptions C79_valid_partial.
(** x + y == y + x, packed and unpacked, with an ite; and x & 1 == 1, which is satisfiable but not valid. *)
Example C78_ex :
  let c := BVC KUInt 8 in
  let p := [POp OAdd 0 (Reg 1); POp OAdd 1 (Reg 0); PCmp CEq 2 (Reg 3);
            PAdc 0 (Reg 1) (Num 1); PIte 4 5 0; PSlice 7 (Some 1) (Some (-2)); PSext 8 3; PConcat 9 8;
            PItem 9 (-1); PSet 0 2 (Reg 11); PPack (BVC KBV 2) [11; 4]%nat; PMeth MUdiv 0 (Num 3);
            POp OAnd 0 (Num 1); PCmp CEq 15 (Num 1)] in
  let ts := [TVec c; TVec c] in
  exists us vs ws b, check ts p = Some us /\ length us = 17%nat /\ Forall sized_ty ts /\ NoDup ["x"; "y"]%string /\
    smt_run no_simp (inputs ["x"; "y"]%string ts) p = Ok vs /\ z3_run no_simp (inputs ["x"; "y"]%string ts) p = Ok ws /\
    nth_error vs 16 = Some (SBit b) /\ evalb env0 b = true /\
    conc_run [VBV (BV c 200); VBV (BV c 100)] p =
      Ok [VBV (BV c 200); VBV (BV c 100); VBV (BV c 44); VBV (BV c 44); VBit true; VBV (BV c 45); VBit true;
          VBV (BV c 45); VBV (BV (BVC KUInt 5) 22); VBV (BV (BVC KUInt 8) 246); VBV (BV (BVC KUInt 13) 5878);
          VBit true; VBV (BV c 204); VBV (BV (BVC KBV 2) 3); VBV (BV c 66); VBV (BV c 0); VBit false].
Proof.
  cbv zeta. do 4 eexists. split; [vm_compute; reflexivity|]. split; [vm_compute; reflexivity|].
  split; [repeat constructor; vm_compute; discriminate|]. split; [repeat constructor; cbn; intuition discriminate|].
  split; [vm_compute; reflexivity|]. split; [vm_compute; reflexivity|]. split; [vm_compute; reflexivity|].
  split; vm_compute; reflexivity.
Qed.

(** What the checker leaves out differs between the families: // and % of signed vectors (C31), a rotation by a vector,
    an ite of two Bits, ext of signed vectors in z3. An example: *)
Theorem C78_refuted : exists p rs vs ws e, smt_run no_simp rs p = Ok vs /\ conc_run (map (vmeaning e) rs) p = Ok ws /\
  map (vmeaning e) vs <> ws.
Proof. exact C78_refuted_pf. Qed.
Print Assumptions C78_refuted.
