(** C108: programs that assign bits in place mean the same in every family. The programs are those of MProgModel.v;
    MProgSpec.v says which of them use only what the families share. *)
From Coq Require Import Lia ZifyBool.
From Verif Require Import PyBase BVModel BVFacts OpModel SMTTerm SMTModel SMTSpec SMTFacts SMTProofs Z3Model Z3Spec Z3Proofs ProgModel ProgSpec ProgFacts MProgModel MProgSpec.
From Verif Require BVSpec ADTModel ADTFacts HeapModel HeapFacts.
From Verif Require Import MProgProofs.

(** With pySMT: the run succeeds, and under every assignment what its variables hold in the end stands for what the variables
    of the concrete run hold. *)
Theorem C108_smt_partial : forall S, faithful S -> forall p ts t rs, mcheck (minputs ts) p = Some t -> Forall2 sym_has rs ts ->
  exists vs, smt_mrun S rs p = Ok vs /\ Forall2 sym_has vs (var_types t) /\
    forall e, conc_mrun (map (vmeaning e) rs) p = Ok (map (vmeaning e) vs).
Proof. exact C108_smt_partial_pf. Qed.
Print Assumptions C108_smt_partial.
(** With z3. *)
Theorem C108_z3_partial : forall S, faithful S -> forall p ts t rs, mcheck (minputs ts) p = Some t -> Forall2 sym_has rs ts ->
  exists vs, z3_mrun S rs p = Ok vs /\ Forall2 sym_has vs (var_types t) /\
    forall e, conc_mrun (map (vmeaning e) rs) p = Ok (map (vmeaning e) vs).
Proof. exact C108_z3_partial_pf. Qed.
Print Assumptions C108_z3_partial.
(** x, y, z = inputs; r = x + y; s = r; s[0] = z[1]; u = x % z; r[-1] = 1; v = r - s: the checker accepts it, and r is s. *)
Example C108_ex : let c := BVC KUInt 4 in
  let p := [MCall (POp OAdd 0 (Reg 1)); MAlias 3; MCall (PItem 2 1); MSet 4 0 (Reg 5); MCall (POp OMod 0 (Reg 2)); MSet 3 (-1) (Num 1); MCall (POp OSub 3 (Reg 4))] in
  (exists t, mcheck (minputs [TVec c; TVec c; TVec c]) p = Some t) /\
  conc_mrun [VBV (BV c 5); VBV (BV c 1); VBV (BV c 2)] p =
    Ok [VBV (BV c 5); VBV (BV c 1); VBV (BV c 2); VBV (BV c 15); VBV (BV c 15); VBit true; VBV (BV c 1); VBV (BV c 0)].
Proof. split; [eexists; vm_compute; reflexivity|vm_compute; reflexivity]. Qed.
(** Assigning to a remainder is where the families differ: after y = x % z; y[0] = 1 with z = 0 the concrete x has changed
    too, because the concrete remainder by 0 is the object x itself; the symbolic x has not. *)
Theorem C108_refuted : exists p rs vs ws e, smt_mrun no_simp rs p = Ok vs /\ z3_mrun no_simp rs p = Ok vs /\ conc_mrun (map (vmeaning e) rs) p = Ok ws /\
  (forall e', nth_error (map (vmeaning e') vs) 0 = nth_error (map (vmeaning e') rs) 0) /\ nth_error ws 0 <> nth_error (map (vmeaning e) rs) 0 /\ map (vmeaning e) vs <> ws.
Proof. exact C108_refuted_pf. Qed.
Print Assumptions C108_refuted.
(** What the statements do to the store, in any family: a call leaves all objects alone and gives a new variable (for a call with
    several results, several); y = x adds a reference to the object of x; x[i] = b changes the object of x and no other. *)
Theorem C108_store : forall V int call self set (st st' : mstate (V := V)) m, mstep int call self set st m = Ok st' -> Forall (fun o => (o < length (fst st))%nat) (snd st) ->
  Forall (fun o => (o < length (fst st'))%nat) (snd st') /\
  match m with
  | MCall i => (exists new, fst st' = fst st ++ new) /\ exists new, snd st' = snd st ++ new
  | MAlias x => fst st' = fst st /\ exists o, nth_error (snd st) x = Some o /\ snd st' = snd st ++ [o]
  | MSet x i b => snd st' = snd st /\ length (fst st') = length (fst st) /\ exists o v w v', nth_error (snd st) x = Some o /\ nth_error (fst st) o = Some v /\
      match b with Num z => w = int z | Reg y => exists p, nth_error (snd st) y = Some p /\ nth_error (fst st) p = Some w end /\
      set v i w = Ok v' /\ nth_error (fst st') o = Some v' /\ forall q, q <> o -> nth_error (fst st') q = nth_error (fst st) q
  end.
Proof. exact C108_store_pf. Qed.
Print Assumptions C108_store.
(** x and y refer to one object, z to another: x[0] = 1 is seen through y and not through z. *)
Example C108_store_ex : let c := BVC KBV 4 in
  mstep VInt conc_call conc_self conc_set ([VBV (BV c 4); VBV (BV c 4)], [0%nat; 0%nat; 1%nat]) (MSet 0 0 (Num 1)) = Ok ([VBV (BV c 5); VBV (BV c 4)], [0%nat; 0%nat; 1%nat]).
Proof. vm_compute; reflexivity. Qed.
