(** C116: make_constant in the three families. [meaning e x] is the concrete vector the symbolic
    vector x stands for under the assignment e, [vmeaning e v] that of an argument (SMTSpec.v);
    simplify, which every constructor runs, is any faithful simplifier. *)
From Coq Require Import Lia ZifyBool.
From Verif Require Import PyBase BVModel BVSpec BVFacts BVOps OpModel OpSpec OpFacts IteModel IteSpec SMTTerm SMTModel SMTSpec SMTFacts SMTOps SMTInfix SMTMore
  Z3Model Z3Spec Z3Facts BVProofs OpProofs IteProofs SMTProofs Z3Proofs ConstModel ConstSpec.
From Verif Require Import ConstProofs.


(** ** C116: constants of the symbolic families *)

(** SMT: under every assignment the constant is the one the concrete family makes; it has the kind of
    x (a SIntVector stays one) and the size asked for. *)
Theorem C116_smt : forall S, faithful S -> forall x v size, swf x ->
  let n := const_size (csize (scls x)) size in
  1 <= n -> convertible n v ->
  exists r, s_make_constant S x v size = Ok r /\ scls r = BVC (skind x) n /\ swf r /\
    forall e, make_constant (bcls (meaning e x)) (vmeaning e v) size = Ok (meaning e r).
Proof. exact C116_smt_pf. Qed.
Print Assumptions C116_smt.

(** z3 likewise. *)
Theorem C116_z3 : forall S, faithful S -> forall x v size, swf x ->
  let n := const_size (csize (scls x)) size in
  1 <= n -> zconvertible n v ->
  exists r, z_make_constant S x v size = Ok r /\ scls r = BVC (skind x) n /\ swf r /\
    forall e, make_constant (bcls (meaning e x)) (vmeaning e v) size = Ok (meaning e r).
Proof. exact C116_z3_pf. Qed.
Print Assumptions C116_z3.

(** a SMT vector of two bits and a variable bit as the value *)
Example C116_ex : let x := SV (BVC KUInt 2) (VVar "x" 2) in
  swf x /\ convertible (const_size 2 (Some 3)) (SBit (BVar "p")) /\ zconvertible (const_size 2 None) (SOther (Some (Ok 9)) None) /\
  exists r, z_make_constant no_simp x (SOther (Some (Ok 9)) None) None = Ok r /\ forall e, meaning e r = BV (BVC KUInt 2) 1.
Proof. cbv zeta. split; [repeat split; cbn; lia|]. split; [constructor; reflexivity|]. split; [apply Z_obj|]. eexists. split; [vm_compute; reflexivity|]. intros e. reflexivity. Qed.

(** ** C116: constants made from integers *)

(** For an integer z the constant is z mod 2^n in all families: it does not depend on the value of x,
    nor on the assignment. *)
Theorem C116_int : forall S, faithful S -> forall x z size, swf x ->
  let n := const_size (csize (scls x)) size in
  1 <= n ->
  (exists r, s_make_constant S x (SInt z) size = Ok r /\ forall e, meaning e r = BV (BVC (skind x) n) (z mod 2 ^ n)) /\
  (exists r, z_make_constant S x (SInt z) size = Ok r /\ forall e, meaning e r = BV (BVC (skind x) n) (z mod 2 ^ n)) /\
  (forall e, make_constant (bcls (meaning e x)) (VInt z) size = Ok (BV (BVC (skind x) n) (z mod 2 ^ n))).
Proof. exact C116_int_pf. Qed.
Print Assumptions C116_int.
(** a SIntVector[4] variable, the integer -1, the sizes 4 and 6 *)
Example C116_int_ex : let x := SV (BVC KSInt 4) (VVar "x" 4) in
  swf x /\ s_make_constant no_simp x (SInt (-1)) None = Ok (SV (BVC KSInt 4) (VConst 15 4)) /\
  s_make_constant no_simp x (SInt (-1)) (Some 6) = Ok (SV (BVC KSInt 6) (VConst 63 6)) /\
  z_make_constant no_simp x (SInt (-1)) (Some 6) = Ok (SV (BVC KSInt 6) (VConst 63 6)) /\
  make_constant (BVC KSInt 4) (VInt (-1)) (Some 6) = Ok (BV (BVC KSInt 6) 63).
Proof. cbv zeta. split; [repeat split; cbn; lia|]. vm_compute. repeat split; reflexivity. Qed.

(** A negative size is rejected by all families, whatever the value. *)
Theorem C116_negative : forall S x v u k, k < 0 ->
  s_make_constant S x v (Some k) = Raise EValueError /\ z_make_constant S x v (Some k) = Raise EValueError /\
  make_constant (scls x) u (Some k) = Raise EValueError.
Proof. exact C116_negative_pf. Qed.
Print Assumptions C116_negative.

(** An object with __int__ is where the families part: the SMT family raises ValueError for a number that does
    not fit, the others reduce it. *)
Theorem C116_object_refuted : exists x z k, swf x /\ 1 <= k /\
  (forall S, s_make_constant S x (SOther (Some (Ok z)) None) (Some k) = Raise EValueError) /\
  (exists r, z_make_constant no_simp x (SOther (Some (Ok z)) None) (Some k) = Ok r) /\
  (exists r, make_constant (scls x) (VOther (Some (Ok z)) None true) (Some k) = Ok r).
Proof. exact C116_object_refuted_pf. Qed.
Print Assumptions C116_object_refuted.
