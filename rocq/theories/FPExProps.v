(** C111: floating-point operations that are exact. The vocabulary is that of FPSpec.v:
    [instance f x] (x is a value of the type f a program can get hold of), [fvalue x q] (x is
    finite and denotes the rational q), [wide f] (at least two exponent bits), [integral r q k]
    (k is the integer q is rounded to in direction r). *)
From Coq Require Import Lia ZArith QArith Qpower Qabs ZifyBool Lqa.
From Verif Require Import PyBase BVModel BVSpec BVFacts BVOps FPModel FPSpec FPRoundFacts FPPatFacts FPEncFacts FPDecFacts FPBracket FPQFacts FPRoundSpec FPInst FPArith FPMore FPProofs FP2Proofs FPAlgFacts FPAlgProofs FPExFacts.
Open Scope Z_scope.
From Verif Require Import FPExProofs.


(** ** C111: subtraction of close numbers *)

(** With ieee_compliance, the difference of two numbers of one sign within a factor of two
    of each other is exact, in every rounding direction (Sterbenz). *)
Theorem C111_close : forall f x y a b,
  wide f -> f_ieee f = true -> instance f x -> instance f y -> fvalue x a -> fvalue y b ->
  (0 <= a * b)%Q -> (Qabs a <= 2 * Qabs b)%Q -> (Qabs b <= 2 * Qabs a)%Q ->
  exists z, fp_sub x (AFP y) = Ok z /\ fvalue z (a - b).
Proof. exact C111_close_pf. Qed.
Print Assumptions C111_close.
Example C111_close_ex :
  let f := Fmt 5 10 RTP true in let n p q := fp_init f (NRat true p q) in
  wide f /\ instance f (n 1025 16384) /\ fvalue (n 1025 (2 ^ 24)) (- (1025 # 2 ^ 24)) /\ fvalue (n 1024 (2 ^ 24)) (- (1024 # 2 ^ 24)) /\
  fp_sub (n 1025 (2 ^ 24)) (AFP (n 1024 (2 ^ 24))) = Ok (n 1 (2 ^ 24)) /\ fvalue (n 1 (2 ^ 24)) (- (1 # 2 ^ 24)).
Proof.
  cbn zeta. split; [split; cbn; lia|]. split; [apply I_init; split; reflexivity|].
  do 2 (split; [eexists; split; [vm_compute; reflexivity|vm_compute; reflexivity]|]). split; [vm_compute; reflexivity|].
  eexists; split; [vm_compute; reflexivity|vm_compute; reflexivity].
Qed.
(** Without ieee_compliance a small difference is lost. *)
Theorem C111_close_refuted : exists f x y a b z,
  wide f /\ f_ieee f = false /\ instance f x /\ instance f y /\ fvalue x a /\ fvalue y b /\
  (0 < a)%Q /\ (0 < b)%Q /\ (a <= 2 * b)%Q /\ (b <= 2 * a)%Q /\ fp_sub x (AFP y) = Ok z /\ ~ fvalue z (a - b).
Proof. exact C111_close_refuted_pf. Qed.
Print Assumptions C111_close_refuted.

(** ** C111: doubling *)

(** x + x and x * 2 are exact unless they exceed the range (that is, if some value of the
    type is as large). *)
Theorem C111_double : forall f x two v a c,
  wide f -> instance f x -> instance f two -> instance f v -> fvalue x a -> fvalue two 2 -> fvalue v c ->
  (2 * Qabs a <= Qabs c)%Q ->
  (exists z, fp_add x (AFP x) = Ok z /\ fvalue z (2 * a)) /\ (exists z, fp_mul x (AFP two) = Ok z /\ fvalue z (2 * a)).
Proof. exact C111_double_pf. Qed.
Print Assumptions C111_double.
(** a subnormal half doubled *)
Example C111_double_ex :
  let f := Fmt 5 10 RNE true in let t k := fp_init f (NRat false k (2 ^ 24)) in
  wide f /\ instance f (t 1023) /\ fvalue (t 1023) (1023 # 2 ^ 24) /\ fvalue (t 2046) (2046 # 2 ^ 24) /\ fp_add (t 1023) (AFP (t 1023)) = Ok (t 2046).
Proof.
  cbn zeta. split; [split; cbn; lia|]. split; [apply I_init; split; reflexivity|].
  do 2 (split; [eexists; split; [vm_compute; reflexivity|vm_compute; reflexivity]|]). vm_compute. reflexivity.
Qed.

(** ** C111: remainder *)

(** With ieee_compliance the remainder is exact: x - k*y for the integer k nearest to x/y
    (even in a tie), without rounding. *)
Theorem C111_rem : forall f x y a b,
  wide f -> f_ieee f = true -> instance f x -> instance f y -> fvalue x a -> fvalue y b -> ~ (b == 0)%Q ->
  exists z k, fp_rem x (AFP y) = Ok z /\ fvalue z (a - inject_Z k * b) /\
    (2 * Qabs (a - inject_Z k * b) <= Qabs b)%Q /\ ((2 * Qabs (a - inject_Z k * b) == Qabs b)%Q -> Z.even k = true).
Proof. exact C111_rem_pf. Qed.
Print Assumptions C111_rem.
Example C111_rem_ex :
  let f := Fmt 5 10 RNE true in let n p q := fp_init f (NRat false p q) in
  wide f /\ instance f (n 1 3) /\ fvalue (n 65504 1) 65504 /\ fvalue (n 1 3) (1365 # 4096) /\ (65504 - inject_Z 196560 * (1365 # 4096) == - (16 # 4096))%Q /\
  fp_rem (n 65504 1) (AFP (n 1 3)) = Ok (fp_init f (NRat true 16 4096)).
Proof.
  cbn zeta. split; [split; cbn; lia|]. split; [apply I_init; split; reflexivity|].
  do 2 (split; [eexists; split; [vm_compute; reflexivity|vm_compute; reflexivity]|]). split; vm_compute; reflexivity.
Qed.
Theorem C111_rem_refuted : exists f x y a b z,
  wide f /\ f_ieee f = false /\ instance f x /\ instance f y /\ fvalue x a /\ fvalue y b /\ (0 < b)%Q /\
  fp_rem x (AFP y) = Ok z /\ forall k, ~ fvalue z (a - inject_Z k * b).
Proof. exact C111_rem_refuted_pf. Qed.
Print Assumptions C111_rem_refuted.

(** ** C111: rounding to an integer *)

(** The result is the integer itself, not rounded again, or an infinity if the integer is
    above the range; and an x that is an integer is returned unchanged. *)
Theorem C111_integral : forall f x a,
  wide f -> instance f x -> fvalue x a ->
  exists k, integral (f_mode f) a k /\
    (fvalue (fp_round_to_integral x) (inject_Z k) \/
     (xvalue (fp_round_to_integral x) (XInf (k <? 0)) /\ forall y b, instance f y -> fvalue y b -> (Qabs b < Qabs (inject_Z k))%Q)) /\
    (forall n, (a == inject_Z n)%Q -> fp_round_to_integral x = x).
Proof. exact C111_integral_pf. Qed.
Print Assumptions C111_integral.
(** 3.998 in a type whose largest value is 3.998: up to an infinity, down to 3 *)
Example C111_integral_ex :
  let f := Fmt 2 10 RTP true in let g := Fmt 2 10 RTN true in let n f := fp_init f (NRat false 2047 512) in
  wide f /\ instance f (n f) /\ fvalue (n f) (2047 # 512) /\ fp_round_to_integral (n f) = FPV f (MInf false) /\
  fp_round_to_integral (n g) = fp_init g (NRat false 3 1) /\ fp_round_to_integral (fp_init g (NZero true)) = fp_init g (NZero true).
Proof.
  cbn zeta. split; [split; cbn; lia|]. split; [apply I_init; split; reflexivity|].
  split; [eexists; split; [vm_compute; reflexivity|vm_compute; reflexivity]|]. repeat split; vm_compute; reflexivity.
Qed.

(** ** C111: square roots of squares *)

(** If x is the square of a value r of the type, fp_sqrt(x) is r. *)
Theorem C111_sqrt : forall f x v a r,
  wide f -> instance f x -> instance f v -> fvalue x a -> fvalue v r -> (0 < r)%Q -> (r * r == a)%Q -> fp_sqrt x = v.
Proof. exact C111_sqrt_pf. Qed.
Print Assumptions C111_sqrt.
Example C111_sqrt_ex :
  let f := Fmt 5 10 RTP false in let n p q := fp_init f (NRat false p q) in
  wide f /\ instance f (n 9 16) /\ fvalue (n 9 16) (9 # 16) /\ fvalue (n 3 4) (3 # 4) /\ fp_sqrt (n 9 16) = n 3 4.
Proof.
  cbn zeta. split; [split; cbn; lia|]. split; [apply I_init; split; reflexivity|].
  do 2 (split; [eexists; split; [vm_compute; reflexivity|vm_compute; reflexivity]|]). vm_compute. reflexivity.
Qed.
