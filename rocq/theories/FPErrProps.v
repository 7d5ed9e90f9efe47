(** C114: the rounding error of an operation is a value of the type, and a program can compute
    it. The vocabulary is that of FPSpec.v: [instance f x] (x is a value of the type f a program
    can get hold of), [fvalue x q] (x is finite and denotes the rational q), [wide f] (at least
    two exponent bits). *)
From Coq Require Import Lia ZArith QArith Qpower Qabs ZifyBool Lqa.
From Verif Require Import PyBase BVModel BVSpec BVFacts BVOps FPModel FPSpec FPRoundFacts FPPatFacts FPEncFacts FPDecFacts FPBracket FPQFacts FPRoundSpec FPInst FPArith FPMore FPProofs FP2Proofs FPAlgFacts FPAlgProofs FPExFacts FPExProofs FPErrFacts FPTwoSumFacts.
Open Scope Z_scope.
From Verif Require Import FPErrProofs.


(** ** C114: the error of a sum *)

(** With ieee_compliance and rounding to nearest, the error of a sum that does not overflow is
    a value of the type. If |y| <= |x|, it is y - (s - x), computed without further error. *)
Theorem C114_sum : forall f x y s a b c,
  wide f -> f_ieee f = true -> f_mode f = RNE -> instance f x -> instance f y -> fvalue x a -> fvalue y b ->
  fp_add x (AFP y) = Ok s -> fvalue s c ->
  (exists e, instance f e /\ fvalue e (a + b - c)) /\
  ((Qabs b <= Qabs a)%Q -> exists t e, fp_sub s (AFP x) = Ok t /\ fvalue t (c - a) /\ fp_sub y (AFP t) = Ok e /\ fvalue e (a + b - c)).
Proof. exact C114_sum_pf. Qed.
Print Assumptions C114_sum.
(** half precision: 1025 + 3/4 is 1026, and the error -1/4 is computed *)
Example C114_sum_ex :
  let f := Fmt 5 10 RNE true in let n s p q := fp_init f (NRat s p q) in
  wide f /\ instance f (n false 1025 1) /\ fvalue (n false 1025 1) 1025 /\ fvalue (n false 3 4) (3 # 4) /\
  fp_add (n false 1025 1) (AFP (n false 3 4)) = Ok (n false 1026 1) /\ fvalue (n false 1026 1) 1026 /\
  bind (fp_sub (n false 1026 1) (AFP (n false 1025 1))) (fun t => fp_sub (n false 3 4) (AFP t)) = Ok (n true 1 4).
Proof.
  cbn zeta. split; [split; cbn; lia|]. split; [apply I_init; split; reflexivity|].
  do 2 (split; [eexists; split; [vm_compute; reflexivity|vm_compute; reflexivity]|]). split; [vm_compute; reflexivity|].
  split; [eexists; split; [vm_compute; reflexivity|vm_compute; reflexivity]|]. vm_compute. reflexivity.
Qed.

(** No comparison is needed: for every x and y the error is dx + dy, where x' = s - y,
    y' = s - x', dx = x - x', dy = y - y', and only x' is rounded; provided x' does not overflow. *)
Theorem C114_two_sum : forall f x y s x' a b c d,
  wide f -> f_ieee f = true -> f_mode f = RNE -> instance f x -> instance f y -> fvalue x a -> fvalue y b ->
  fp_add x (AFP y) = Ok s -> fvalue s c -> fp_sub s (AFP y) = Ok x' -> fvalue x' d ->
  exists y' dx dy e,
    fp_sub s (AFP x') = Ok y' /\ fvalue y' (c - d) /\ fp_sub x (AFP x') = Ok dx /\ fvalue dx (a - d) /\
    fp_sub y (AFP y') = Ok dy /\ fvalue dy (b - (c - d)) /\ fp_add dx (AFP dy) = Ok e /\ fvalue e (a + b - c).
Proof. exact C114_two_sum_pf. Qed.
Print Assumptions C114_two_sum.
(** half precision, the smaller number first: 3/4 + 1025 is 1026, and the error -1/4 is computed *)
Example C114_two_sum_ex :
  let f := Fmt 5 10 RNE true in let n s p q := fp_init f (NRat s p q) in
  wide f /\ fvalue (n false 3 4) (3 # 4) /\ fvalue (n false 1025 1) 1025 /\
  fp_add (n false 3 4) (AFP (n false 1025 1)) = Ok (n false 1026 1) /\ fvalue (n false 1026 1) 1026 /\
  fp_sub (n false 1026 1) (AFP (n false 1025 1)) = Ok (n false 1 1) /\ fvalue (n false 1 1) 1 /\
  bind (fp_sub (n false 1026 1) (AFP (n false 1 1))) (fun y' => bind (fp_sub (n false 3 4) (AFP (n false 1 1))) (fun dx =>
    bind (fp_sub (n false 1025 1) (AFP y')) (fun dy => fp_add dx (AFP dy)))) = Ok (n true 1 4).
Proof.
  cbn zeta. split; [split; cbn; lia|].
  do 2 (split; [eexists; split; [vm_compute; reflexivity|vm_compute; reflexivity]|]). split; [vm_compute; reflexivity|].
  split; [eexists; split; [vm_compute; reflexivity|vm_compute; reflexivity]|]. split; [vm_compute; reflexivity|].
  split; [eexists; split; [vm_compute; reflexivity|vm_compute; reflexivity]|]. vm_compute. reflexivity.
Qed.

(** A sum that does not overflow is not enough: from the largest half precision value and -48
    the six operations give a NaN. *)
Theorem C114_two_sum_refuted : exists f x y s x' y' dx dy e a b c,
  wide f /\ f_ieee f = true /\ f_mode f = RNE /\ instance f x /\ instance f y /\ fvalue x a /\ fvalue y b /\
  fp_add x (AFP y) = Ok s /\ fvalue s c /\ fp_sub s (AFP y) = Ok x' /\ fp_is_infinite x' = true /\
  fp_sub s (AFP x') = Ok y' /\ fp_sub x (AFP x') = Ok dx /\ fp_sub y (AFP y') = Ok dy /\
  fp_add dx (AFP dy) = Ok e /\ fp_is_NaN e = true.
Proof. exact C114_two_sum_refuted_pf. Qed.
Print Assumptions C114_two_sum_refuted.

(** The error of a difference, with -y for y. *)
Theorem C114_difference : forall f x y s a b c,
  wide f -> f_ieee f = true -> f_mode f = RNE -> instance f x -> instance f y -> fvalue x a -> fvalue y b ->
  fp_sub x (AFP y) = Ok s -> fvalue s c ->
  (exists e, instance f e /\ fvalue e (a - b - c)) /\
  ((Qabs b <= Qabs a)%Q -> exists t e, fp_sub s (AFP x) = Ok t /\ fvalue t (c - a) /\ fp_sub (fp_neg y) (AFP t) = Ok e /\ fvalue e (a - b - c)).
Proof. exact C114_difference_pf. Qed.
Print Assumptions C114_difference.
(** half precision: 1025 - 3/4 is 1024, and the error 1/4 is computed *)
Example C114_difference_ex :
  let f := Fmt 5 10 RNE true in let n s p q := fp_init f (NRat s p q) in
  fp_sub (n false 1025 1) (AFP (n false 3 4)) = Ok (n false 1024 1) /\ fvalue (n false 1024 1) 1024 /\
  bind (fp_sub (n false 1024 1) (AFP (n false 1025 1))) (fun t => fp_sub (fp_neg (n false 3 4)) (AFP t)) = Ok (n false 1 4).
Proof.
  cbn zeta. split; [vm_compute; reflexivity|]. split; [eexists; split; [vm_compute; reflexivity|vm_compute; reflexivity]|]. vm_compute. reflexivity.
Qed.

(** The other directions leave errors that are no value of the type. *)
Theorem C114_sum_refuted : forall r, In r [RNA; RTP; RTN; RTZ] -> exists f x y s a b c,
  f_mode f = r /\ wide f /\ f_ieee f = true /\ instance f x /\ instance f y /\ fvalue x a /\ fvalue y b /\
  fp_add x (AFP y) = Ok s /\ fvalue s c /\ forall e, instance f e -> ~ fvalue e (a + b - c).
Proof. exact C114_sum_refuted_pf. Qed.
Print Assumptions C114_sum_refuted.

(** ** C114: the error of a product *)

(** With ieee_compliance, in every direction: if x * y is within the range of the type (not
    above the value v in size) and a whole multiple of some value w (not too small), the error
    of the product z is fma(x, y, -z), computed without further error. *)
Theorem C114_product : forall f x y z v w a b c m u k,
  wide f -> f_ieee f = true -> instance f x -> instance f y -> instance f v -> instance f w ->
  fvalue x a -> fvalue y b -> fvalue v m -> fvalue w u ->
  fp_mul x (AFP y) = Ok z -> fvalue z c ->
  (Qabs (a * b) <= Qabs m)%Q -> (a * b == inject_Z k * u)%Q ->
  exists e, fp_fma x (AFP y) (AFP (fp_neg z)) = Ok e /\ fvalue e (a * b - c).
Proof. exact C114_product_pf. Qed.
Print Assumptions C114_product.
(** half precision, rounding up: 1025/1024 squared *)
Example C114_product_ex :
  let f := Fmt 5 10 RTP true in let n s p q := fp_init f (NRat s p q) in
  wide f /\ instance f (n false 1025 1024) /\ fvalue (n false 1025 1024) (1025 # 1024) /\ fvalue (n false 2 1) 2 /\ fvalue (n false 1 (2 ^ 20)) (1 # 2 ^ 20) /\
  ((1025 # 1024) * (1025 # 1024) == inject_Z (1025 * 1025) * (1 # 2 ^ 20))%Q /\
  fp_mul (n false 1025 1024) (AFP (n false 1025 1024)) = Ok (n false 1027 1024) /\ fvalue (n false 1027 1024) (1027 # 1024) /\
  fp_fma (n false 1025 1024) (AFP (n false 1025 1024)) (AFP (fp_neg (n false 1027 1024))) = Ok (n true 1023 (2 ^ 20)).
Proof.
  cbn zeta. split; [split; cbn; lia|]. split; [apply I_init; split; reflexivity|].
  do 3 (split; [eexists; split; [vm_compute; reflexivity|vm_compute; reflexivity]|]). do 2 (split; [vm_compute; reflexivity|]).
  split; [eexists; split; [vm_compute; reflexivity|vm_compute; reflexivity]|]. vm_compute. reflexivity.
Qed.
(** A product that is too small has an error that cannot be computed. *)
Theorem C114_product_refuted : exists f x y z a b c e,
  wide f /\ f_ieee f = true /\ f_mode f = RNE /\ instance f x /\ instance f y /\ fvalue x a /\ fvalue y b /\
  fp_mul x (AFP y) = Ok z /\ fvalue z c /\ (Qabs (a * b) <= Qabs a)%Q /\
  fp_fma x (AFP y) (AFP (fp_neg z)) = Ok e /\ ~ fvalue e (a * b - c).
Proof. exact C114_product_refuted_pf. Qed.
Print Assumptions C114_product_refuted.

(** ** C114: the remainder of a division *)

(** With ieee_compliance, in every direction: if the quotient is within the range of the type
    (between the values w and v in size) and the product of the rounded quotient z with y is a
    whole multiple of w, then x - z * y is fma(-z, y, x), computed without error. *)
Theorem C114_quotient : forall f x y z v w a b c m u k,
  wide f -> f_ieee f = true -> instance f x -> instance f y -> instance f v -> instance f w ->
  fvalue x a -> fvalue y b -> fvalue v m -> fvalue w u -> ~ (b == 0)%Q -> ~ (u == 0)%Q ->
  fp_div x (AFP y) = Ok z -> fvalue z c ->
  (Qabs u <= Qabs (a / b))%Q -> (Qabs (a / b) <= Qabs m)%Q -> (c * b == inject_Z k * u)%Q ->
  exists e, fp_fma (fp_neg z) (AFP y) (AFP x) = Ok e /\ fvalue e (a - c * b).
Proof. exact C114_quotient_pf. Qed.
Print Assumptions C114_quotient.
(** half precision, rounding away: 1/3 is 1366/4096, and 1 - 3 * that is -2/4096 *)
Example C114_quotient_ex :
  let f := Fmt 5 10 RNA true in let n s p q := fp_init f (NRat s p q) in
  wide f /\ instance f (n false 1 1) /\ fvalue (n false 1 1) 1 /\ fvalue (n false 3 1) 3 /\ fvalue (n false 1 4096) (1 # 4096) /\
  fp_div (n false 1 1) (AFP (n false 3 1)) = Ok (n false 1366 4096) /\ fvalue (n false 1366 4096) (1366 # 4096) /\
  ((1366 # 4096) * 3 == inject_Z (1366 * 3) * (1 # 4096))%Q /\
  fp_fma (fp_neg (n false 1366 4096)) (AFP (n false 3 1)) (AFP (n false 1 1)) = Ok (n true 2 4096).
Proof.
  cbn zeta. split; [split; cbn; lia|]. split; [apply I_init; split; reflexivity|].
  do 3 (split; [eexists; split; [vm_compute; reflexivity|vm_compute; reflexivity]|]). split; [vm_compute; reflexivity|].
  split; [eexists; split; [vm_compute; reflexivity|vm_compute; reflexivity]|]. split; vm_compute; reflexivity.
Qed.

(** Without ieee_compliance errors below the smallest value are lost. *)
Theorem C114_compliance_refuted : exists f x y s t e a b c,
  wide f /\ f_ieee f = false /\ f_mode f = RNE /\ instance f x /\ instance f y /\ fvalue x a /\ fvalue y b /\ (Qabs b <= Qabs a)%Q /\
  fp_add x (AFP y) = Ok s /\ fvalue s c /\ fp_sub s (AFP x) = Ok t /\ fp_sub y (AFP t) = Ok e /\ ~ fvalue e (a + b - c).
Proof. exact C114_compliance_refuted_pf. Qed.
Print Assumptions C114_compliance_refuted.
