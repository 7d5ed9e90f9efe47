(** C110, continued: single operations with the same exact result. The vocabulary is that of FPSpec.v and FPLawSpec.v:
    [one_op f q z] (z is what +, -, *, /, fma or a conversion returns for finite values of f, and q is its exact result). *)
From Coq Require Import Lia ZArith QArith Qpower Qabs ZifyBool Lqa.
From Verif Require Import PyBase BVModel BVSpec BVFacts BVOps FPModel FPSpec FPRoundFacts FPPatFacts FPEncFacts FPDecFacts FPBracket FPQFacts FPRoundSpec FPInst FPArith FPMore FPProofs FPAlgFacts FPAlgProofs FPExFacts FPWideFacts FPLawSpec.
Open Scope Z_scope.
From Verif Require Import FPLawProofs.


(** Two operations with the same exact result return the same object, in every mode, overflow and underflow included, unless that
    result is zero. So fma(x, 1, y) is x + y, fma(x, y, 0) is x * y, x + x is x * 2, x / w is x * v if v w = 1, and each is the
    conversion of its exact result. *)
Theorem C110_exact_result : forall f q q' z z',
  wide f -> one_op f q z -> one_op f q' z' -> (q == q')%Q -> ~ (q == 0)%Q -> z = z'.
Proof. exact C110_exact_result_pf. Qed.
Print Assumptions C110_exact_result.
(** 1/3 + 1/3 and 1/3 * 2 in half precision *)
Example C110_exact_result_ex :
  let f := Fmt 5 10 RTP true in let t := fp_init f (NRat false 1 3) in let two := fp_init f (NRat false 2 1) in
  exists a z z', wide f /\ fvalue t a /\ fp_add t (AFP t) = Ok z /\ one_op f (a + a) z /\ fp_mul t (AFP two) = Ok z' /\ one_op f (a * 2) z' /\
    (a + a == a * 2)%Q /\ ~ (a + a == 0)%Q.
Proof.
  cbn zeta. set (f := Fmt 5 10 RTP true). do 3 eexists.
  assert (IT : instance f (fp_init f (NRat false 1 3))) by (apply I_init; split; reflexivity).
  assert (I2 : instance f (fp_init f (NRat false 2 1))) by (apply I_init; split; reflexivity).
  assert (VT : fvalue (fp_init f (NRat false 1 3)) (1366 # 4096)) by (eexists; split; [vm_compute; reflexivity|vm_compute; reflexivity]).
  assert (V2 : fvalue (fp_init f (NRat false 2 1)) 2) by (eexists; split; [vm_compute; reflexivity|vm_compute; reflexivity]).
  split; [split; cbn; lia|]. split; [exact VT|]. split; [vm_compute; reflexivity|].
  split; [apply (op_add f (fp_init f (NRat false 1 3)) (fp_init f (NRat false 1 3)) (1366 # 4096) (1366 # 4096)); auto; vm_compute; reflexivity|]. split; [vm_compute; reflexivity|].
  split; [apply (op_mul f (fp_init f (NRat false 1 3)) (fp_init f (NRat false 2 1)) (1366 # 4096) 2); auto; vm_compute; reflexivity|]. split; [reflexivity|]. discriminate.
Qed.

(** Zero is excluded because of its sign: rounding down, 1 - 1 is -0 and fma(1, 0, 0) is 0. *)
Theorem C110_exact_result_refuted : exists f q q' z z',
  wide f /\ one_op f q z /\ one_op f q' z' /\ (q == q')%Q /\ z <> z'.
Proof. exact C110_exact_result_refuted_pf. Qed.
Print Assumptions C110_exact_result_refuted.
