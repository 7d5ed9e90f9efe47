(** C73-C75: square root, conversion to bit vectors and random values of the floating point
    types. The vocabulary is in FPSpec.v. *)
From Coq Require Import Lia ZArith QArith Qpower Qabs ZifyBool.
From Verif Require Import PyBase BVModel BVSpec BVFacts BVOps FPModel FPSpec FPRoundFacts FPPatFacts FPEncFacts FPDecFacts FPSqrtFacts FPBracket FPQFacts FPRoundSpec FPInst FPArith FPSqrtSpec FPMore FPRandFacts.
Open Scope Z_scope.
From Verif Require Import FP2Proofs.

(** ** C73: square root *)

(** Correctly rounded, in every direction. *)
Theorem C73_sqrt : forall f x a,
  wide f -> instance f x -> fvalue x a -> (0 < a)%Q -> correct_sqrt f a (fp_sqrt x).
Proof. exact C73_sqrt_pf. Qed.
Print Assumptions C73_sqrt.

(** If the root is rational it is the number that is rounded. *)
Theorem C73_exact : forall f x a r,
  wide f -> instance f x -> fvalue x a -> (0 < a)%Q -> (0 <= r)%Q -> (r * r == a)%Q -> correct f r (fp_sqrt x).
Proof. exact C73_exact_pf. Qed.
Print Assumptions C73_exact.
(** sqrt 2 in half precision rounds down to 1.4140625 and up to 1.415...; sqrt(9/4) = 3/2 *)
Example C73_ex :
  let f := Fmt 5 10 RNE true in
  let u := Fmt 5 10 RTP true in
  wide f /\ instance f (fp_init f (NRat false 2 1)) /\ fvalue (fp_init f (NRat false 2 1)) 2
  /\ reinterpret_as_bv (fp_sqrt (fp_init f (NRat false 2 1))) = Ok (BV (BVC KBV 16) 0x3DA8)
  /\ reinterpret_as_bv (fp_sqrt (fp_init u (NRat false 2 1))) = Ok (BV (BVC KBV 16) 0x3DA9)
  /\ fp_sqrt (fp_init f (NRat false 9 4)) = fp_init f (NRat false 3 2).
Proof.
  split; [split; vm_compute; congruence|]. split; [constructor; split; vm_compute; reflexivity|].
  split; [eexists; split; [vm_compute; reflexivity|vm_compute; reflexivity]|].
  split; [vm_compute; reflexivity|]. split; vm_compute; reflexivity.
Qed.

(** Zeros and plus infinity are their own roots; negative numbers and NaNs give a NaN (plus
    infinity in a type without compliance). *)
Theorem C73_special : forall f x,
  wide f -> instance f x ->
  let nan := if f_ieee f then FPV f (MNaN false) else FPV f (MInf false) in
  (fp_is_zero x = true -> fp_sqrt x = x) /\
  (xvalue x (XInf false) -> fp_sqrt x = x) /\
  (fp_is_negative x = true -> fp_sqrt x = nan) /\
  (fp_is_NaN x = true -> fp_sqrt x = nan).
Proof. exact C73_special_pf. Qed.
Print Assumptions C73_special.
Example C73_special_ex :
  let f := Fmt 5 10 RNE true in
  fp_sqrt (fp_init f (NZero true)) = fp_init f (NZero true)
  /\ fp_is_negative (fp_init f (NRat true 1 4)) = true
  /\ fp_sqrt (fp_init f (NRat true 1 4)) = FPV f (MNaN false)
  /\ fp_sqrt (fp_init (Fmt 5 10 RNE false) (NInf true)) = FPV (Fmt 5 10 RNE false) (MInf false).
Proof. split; [vm_compute; reflexivity|]. split; [vm_compute; reflexivity|]. split; vm_compute; reflexivity. Qed.

(** ** C74: conversion to a bit vector *)

(** The value, as an integer modulo 2^n; a value between two integers becomes one of them
    (in a direction g that is gmpy2's business). *)
Theorem C74_value : forall f x a g n,
  wide f -> instance f x -> fvalue x a -> 0 <= n ->
  exists k, (Qabs (a - inject_Z k) < 1)%Q /\
    to_ubv g x n = Ok (BV (BVC KBV n) (k mod 2 ^ n)) /\
    to_sbv g x n = Ok (BV (BVC KSInt n) (k mod 2 ^ n)).
Proof. exact C74_value_pf. Qed.
Print Assumptions C74_value.
(** Integral values are converted exactly, whatever the direction. *)
Theorem C74_integral : forall f x z g n,
  wide f -> instance f x -> fvalue x (inject_Z z) -> 0 <= n ->
  to_ubv g x n = Ok (BV (BVC KBV n) (z mod 2 ^ n)) /\
  to_sbv g x n = Ok (BV (BVC KSInt n) (z mod 2 ^ n)).
Proof. exact C74_integral_pf. Qed.
Print Assumptions C74_integral.
(** So an integer that fits is read back. *)
Theorem C74_fits : forall f x z g n,
  wide f -> instance f x -> fvalue x (inject_Z z) ->
  (0 <= n -> 0 <= z < 2 ^ n -> exists y, to_ubv g x n = Ok y /\ as_uint y = z) /\
  (1 <= n -> - 2 ^ (n - 1) <= z < 2 ^ (n - 1) -> exists y, to_sbv g x n = Ok y /\ as_sint y = Ok z).
Proof. exact C74_fits_pf. Qed.
Print Assumptions C74_fits.
Example C74_ex :
  let f := Fmt 5 10 RNE true in
  let x := fp_init f (NRat true 100 1) in
  wide f /\ instance f x /\ fvalue x (inject_Z (-100))
  /\ to_sbv RoundToZero x 8 = Ok (BV (BVC KSInt 8) 156) /\ as_sint (BV (BVC KSInt 8) 156) = Ok (-100)
  /\ to_ubv RoundToZero (fp_init f (NRat false 7 2)) 4 = Ok (BV (BVC KBV 4) 3).
Proof.
  split; [split; vm_compute; congruence|]. split; [constructor; split; vm_compute; reflexivity|].
  split; [eexists; split; [vm_compute; reflexivity|vm_compute; reflexivity]|].
  split; [vm_compute; reflexivity|]. split; vm_compute; reflexivity.
Qed.
(** NaNs, infinities and negative sizes raise. *)
Theorem C74_errors : forall x g n,
  (n < 0 -> to_ubv g x n = Raise EValueError /\ to_sbv g x n = Raise EValueError) /\
  (0 <= n -> fp_is_NaN x = true -> to_ubv g x n = Raise EValueError /\ to_sbv g x n = Raise EValueError) /\
  (0 <= n -> fp_is_infinite x = true -> to_ubv g x n = Raise EOverflow /\ to_sbv g x n = Raise EOverflow).
Proof. exact C74_errors_pf. Qed.
Print Assumptions C74_errors.
Example C74_errors_ex :
  fp_is_NaN (fp_init (Fmt 5 10 RNE true) (NNaN false)) = true
  /\ to_sbv RoundDown (fp_init (Fmt 5 10 RNE true) (NRat false 65520 1)) 64 = Raise EOverflow.
Proof. split; vm_compute; reflexivity. Qed.

(** ** C75: random values *)

(** What random computes for a u of the form j/2^mb, when the exponent of the type fits in
    its significand: the normal number with the chosen sign and exponent and with j as its
    mantissa. Here u is what gmpy2.mpfr_random returns. Missing: other u and wider exponents
    (see the refutation). *)
Theorem C75_normal_partial : forall f u s e j,
  wide f -> f_eb f <= f_mb f + 2 -> random_ok f false e = true ->
  0 <= j < 2 ^ f_mb f -> num_value u (inject_Z j / inject_Z (2 ^ f_mb f)) ->
  exists b, reinterpret_as_bv (fp_random f u s e) = Ok (BV (BVC KBV (f_size f)) b) /\
    is_pattern f b /\ pat_sign f b = s /\ pat_exp f b = e + bias f /\ pat_man f b = j.
Proof. exact C75_normal_partial_pf. Qed.
Print Assumptions C75_normal_partial.
Example C75_normal_ex :
  let f := Fmt 5 10 RNE true in
  wide f /\ f_eb f <= f_mb f + 2 /\ random_ok f false (-14) = true
  /\ num_value (NRat false 3 8) (inject_Z 384 / inject_Z (2 ^ 10))
  /\ reinterpret_as_bv (fp_random f (NRat false 3 8) true (-14)) = Ok (BV (BVC KBV 16) 0x8580).
Proof.
  split; [split; vm_compute; congruence|]. split; [vm_compute; congruence|]. split; [vm_compute; reflexivity|].
  split; [split; [lia|split; [lia|vm_compute; reflexivity]]|vm_compute; reflexivity].
Qed.

(** random(allow_inf=False) can return an infinity: 1 + u is rounded before it is scaled, so
    u = 2047/2048 becomes 2, and 2 * 2^15 overflows half precision. *)
Theorem C75_refuted : exists f u s e q,
  wide f /\ f_ieee f = true /\ random_ok f false e = true /\
  num_value u q /\ (0 <= q)%Q /\ (q < 1)%Q /\
  fp_is_infinite (fp_random f u s e) = true.
Proof. exact C75_refuted_pf. Qed.
Print Assumptions C75_refuted.
(** In a type whose exponents do not fit in the significand the exponent itself is rounded:
    2^127 becomes 2^128. *)
Example C75_refuted_ex :
  random_ok (Fmt 8 2 RNE true) false 127 = true
  /\ fp_is_infinite (fp_random (Fmt 8 2 RNE true) (NZero false) false 127) = true.
Proof. split; vm_compute; reflexivity. Qed.
