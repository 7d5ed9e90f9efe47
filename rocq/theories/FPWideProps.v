(** C115: computing in a wider type and rounding the result back, as float arithmetic done in
    double precision does. [via f g h x y] (FPWideSpec.v) is F(G(x) h G(y)). The other vocabulary
    is that of FPSpec.v: [instance f x] (x is a value of the type f a program can get hold of),
    [fvalue x q] (x is finite and denotes the rational q), [wide f] (at least two exponent bits),
    and [fits f g] of FloatSpec.v (every value of f is one of g). *)
From Coq Require Import Lia ZArith QArith Qpower Qabs ZifyBool Lqa.
From Verif Require Import PyBase BVModel BVSpec BVFacts BVOps FPModel FPSpec FPRoundFacts FPPatFacts FPEncFacts FPDecFacts FPBracket FPQFacts FPRoundSpec FPInst FPArith FPMore FPProofs FPSqrtSpec FP2Proofs FPAlgFacts FPAlgProofs FPExFacts FPExProofs FPErrFacts FPErrProofs FloatModel FloatSpec FloatProofs FPWideSpec FPWideFacts FPQuotFacts FPRootFacts.
Open Scope Z_scope.
From Verif Require Import FPWideProofs.


(** ** C115: the same direction twice *)

(** Between two types that round in the same direction other than to nearest, doing an operation
    in the wider type and rounding back changes nothing. *)
Theorem C115_directed : forall f g h x y a b q,
  wide f -> wide g -> fits f g -> f_mode g = f_mode f -> f_mode f <> RNE ->
  instance f x -> instance f y -> fvalue x a -> fvalue y b -> exact_result h a b q ->
  exists w z, via f g h x y = Ok w /\ h x (AFP y) = Ok z /\ same_result q w z.
Proof. exact C115_directed_pf. Qed.
Print Assumptions C115_directed.

(** The same for the fused multiply-add. *)
Theorem C115_directed_fma : forall f g x y u a b c,
  wide f -> wide g -> fits f g -> f_mode g = f_mode f -> f_mode f <> RNE ->
  instance f x -> instance f y -> instance f u -> fvalue x a -> fvalue y b -> fvalue u c ->
  exists x' y' u' r w z, fp_new (Some g) (PFP x) = Ok x' /\ fp_new (Some g) (PFP y) = Ok y' /\ fp_new (Some g) (PFP u) = Ok u' /\
    fp_fma x' (AFP y') (AFP u') = Ok r /\ fp_new (Some f) (PFP r) = Ok w /\ fp_fma x (AFP y) (AFP u) = Ok z /\ same_result (a * b + c) w z.
Proof. exact C115_directed_fma_pf. Qed.
Print Assumptions C115_directed_fma.

(** The same for the square root of a positive number. *)
Theorem C115_directed_sqrt : forall f g x a,
  wide f -> wide g -> fits f g -> f_mode g = f_mode f -> f_mode f <> RNE -> instance f x -> fvalue x a -> (0 < a)%Q ->
  exists x', fp_new (Some g) (PFP x) = Ok x' /\ fp_new (Some f) (PFP (fp_sqrt x')) = Ok (fp_sqrt x).
Proof. exact C115_directed_sqrt_pf. Qed.
Print Assumptions C115_directed_sqrt.

(** ** C115: products *)

(** If the wider type has at least two exponent bits more and, for mantissas of m bits, at least
    2m + 3 bits, it holds every product exactly: whatever the two directions, rounding back gives
    the product of the narrow type. *)
Theorem C115_product : forall f g x y a b,
  wide f -> wide g -> f_eb f + 2 <= f_eb g -> 2 * f_mb f + 3 <= f_mb g -> f_ieee g = true ->
  instance f x -> instance f y -> fvalue x a -> fvalue y b ->
  exists w z, via f g fp_mul x y = Ok w /\ fp_mul x (AFP y) = Ok z /\ same_result (a * b) w z.
Proof. exact C115_product_pf. Qed.
Print Assumptions C115_product.

(** ** C115: sums rounded to nearest *)

(** With the same room, sums and differences rounded to nearest may be computed in the wider
    type, in whatever direction that rounds: the second rounding does no harm. *)
Theorem C115_sum : forall f g h x y a b q,
  wide f -> wide g -> f_eb f + 2 <= f_eb g -> 2 * f_mb f + 3 <= f_mb g -> f_ieee g = true -> f_mode f = RNE ->
  instance f x -> instance f y -> fvalue x a -> fvalue y b -> (h = fp_add /\ q = a + b \/ h = fp_sub /\ q = a - b)%Q ->
  exists w z, via f g h x y = Ok w /\ h x (AFP y) = Ok z /\ same_result q w z.
Proof. exact C115_sum_pf. Qed.
Print Assumptions C115_sum.

(** ** C115: quotients rounded to nearest *)

(** Between types with ieee_compliance the same holds for quotients. *)
Theorem C115_quotient : forall f g x y a b,
  wide f -> wide g -> f_eb f + 2 <= f_eb g -> 2 * f_mb f + 3 <= f_mb g -> f_ieee f = true -> f_ieee g = true -> f_mode f = RNE ->
  instance f x -> instance f y -> fvalue x a -> fvalue y b -> ~ (b == 0)%Q ->
  exists w z, via f g fp_div x y = Ok w /\ fp_div x (AFP y) = Ok z /\ same_result (a / b) w z.
Proof. exact C115_quotient_pf. Qed.
Print Assumptions C115_quotient.

(** Between types with ieee_compliance and one bit more the same holds for square roots. *)
Theorem C115_sqrt : forall f g x a,
  wide f -> wide g -> f_eb f + 2 <= f_eb g -> 2 * f_mb f + 4 <= f_mb g -> f_ieee f = true -> f_ieee g = true -> f_mode f = RNE ->
  instance f x -> fvalue x a -> (0 < a)%Q ->
  exists x', fp_new (Some g) (PFP x) = Ok x' /\ fp_new (Some f) (PFP (fp_sqrt x')) = Ok (fp_sqrt x).
Proof. exact C115_sqrt_pf. Qed.
Print Assumptions C115_sqrt.
(** the root of 2 in single precision, computed in double precision *)
Example C115_sqrt_ex : let f := Fmt 8 23 RNE true in let g := Fmt 11 52 RTN true in let x := fp_init f (NRat false 2 1) in
  wide f /\ wide g /\ f_eb f + 2 <= f_eb g /\ 2 * f_mb f + 4 <= f_mb g /\ instance f x /\ fvalue x 2 /\
  fp_sqrt x = FPV f (MFin false 11863283 1).
Proof. cbv zeta. do 2 (split; [split; cbn; lia|]). do 2 (split; [cbn; lia|]). split; [apply I_init; cbn; lia|]. split; [eexists; split; vm_compute; reflexivity|vm_compute; reflexivity]. Qed.

(** half precision computed in single, single in double *)
Definition ph := Fmt 5 10 RNE true.
Definition ps := Fmt 8 23 RNE true.
Definition pd := Fmt 11 52 RTZ true.
Example C115_ex :
  (wide ph /\ wide ps /\ f_eb ph + 2 <= f_eb ps /\ 2 * f_mb ph + 3 <= f_mb ps) /\
  (wide pd /\ f_eb ps + 2 <= f_eb pd /\ 2 * f_mb ps + 3 <= f_mb pd) /\
  let x := fp_init ph (NRat false 1 1) in let y := fp_init ph (NRat false 17 32768) in
  via ph ps fp_add x y = Ok (fp_init ph (NRat false 1025 1024)) /\ fp_add x (AFP y) = Ok (fp_init ph (NRat false 1025 1024)) /\
  via ph ps fp_mul y y = fp_mul y (AFP y) /\ via ph ps fp_div x (fp_init ph (NRat false 3 1)) = Ok (FPV ph (MFin false 1365 (-1))).
Proof. split; [repeat split; cbn; lia|]. split; [repeat split; cbn; lia|]. vm_compute. repeat split; reflexivity. Qed.
Example C115_directed_ex :
  let f := Fmt 5 10 RTP true in let g := Fmt 5 11 RTP true in
  let x := fp_init f (NRat false 1 1) in let y := fp_init f (NRat false 3 1) in
  fits f g /\ via f g fp_div x y = fp_div x (AFP y) /\ fp_div x (AFP y) = Ok (FPV f (MFin false 1366 (-1))).
Proof. cbv zeta. split; [repeat split; cbn; auto; lia|]. vm_compute. repeat split; reflexivity. Qed.

(** Two bits more are not enough for rounding to nearest: 1 + (2^-11 + 2^-15) is rounded up, but
    down if it is first rounded to 13 bits. *)
Theorem C115_double_rounding_refuted : exists f g x y w z,
  wide f /\ wide g /\ fits f g /\ f_mb f + 2 = f_mb g /\ f_mode f = RNE /\ f_mode g = RNE /\ f_ieee f = true /\ f_ieee g = true /\
  instance f x /\ instance f y /\ fvalue x 1 /\ fvalue y (17 # 32768) /\
  via f g fp_add x y = Ok w /\ fvalue w 1 /\ fp_add x (AFP y) = Ok z /\ fvalue z (1025 # 1024).
Proof. exact C115_double_rounding_refuted_pf. Qed.
Print Assumptions C115_double_rounding_refuted.

(** Two different directions do not compose: 1 + 2^-14 rounded up is more than 1, but not if it
    is first rounded down to 12 bits. *)
Theorem C115_directions_refuted : exists f g x y w z,
  wide f /\ wide g /\ fits f g /\ f_mode f = RTP /\ f_mode g = RTZ /\ f_ieee f = true /\ f_ieee g = true /\
  instance f x /\ instance f y /\ fvalue x 1 /\ fvalue y (1 # 16384) /\
  via f g fp_add x y = Ok w /\ fvalue w 1 /\ fp_add x (AFP y) = Ok z /\ fvalue z (1025 # 1024).
Proof. exact C115_directions_refuted_pf. Qed.
Print Assumptions C115_directions_refuted.

(** The room that is enough for + - * / and sqrt is not enough for fma: 3 * 683 + 2^-14 is just above 2049, which is half-way
    between two values of half precision; single precision loses the 2^-14. *)
Theorem C115_fma_refuted : exists f g x y u x' y' u' r w z,
  wide f /\ wide g /\ f_eb f + 2 <= f_eb g /\ 2 * f_mb f + 3 <= f_mb g /\ f_mode f = RNE /\ f_mode g = RNE /\ f_ieee f = true /\ f_ieee g = true /\
  instance f x /\ instance f y /\ instance f u /\ fvalue x 3 /\ fvalue y 683 /\ fvalue u (1 # 16384) /\
  fp_new (Some g) (PFP x) = Ok x' /\ fp_new (Some g) (PFP y) = Ok y' /\ fp_new (Some g) (PFP u) = Ok u' /\
  fp_fma x' (AFP y') (AFP u') = Ok r /\ fp_new (Some f) (PFP r) = Ok w /\ fvalue w 2048 /\
  fp_fma x (AFP y) (AFP u) = Ok z /\ fvalue z 2050.
Proof. exact C115_fma_refuted_pf. Qed.
Print Assumptions C115_fma_refuted.
