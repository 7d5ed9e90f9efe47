(** C110: laws of floating-point arithmetic. Which rewritings of an expression keep its
    value, for every operand and every rounding direction. The vocabulary is that of FPSpec.v:
    [instance f x] (x is a value of the type f a program can get hold of), [fvalue x q] (x is
    finite and denotes the rational q), [wide f] (at least two exponent bits). *)
From Coq Require Import Lia ZArith QArith Qpower Qabs ZifyBool Lqa.
From Verif Require Import PyBase BVModel BVSpec BVFacts BVOps FPModel FPSpec FPRoundFacts FPPatFacts FPEncFacts FPDecFacts FPBracket FPQFacts FPRoundSpec FPInst FPArith FPMore FPProofs FPAlgFacts.
Open Scope Z_scope.
From Verif Require Import FPAlgProofs.


(** ** C110: commutativity *)

(** The order of the operands of +, *, min, max and of the factors of fma does not matter,
    whatever they are (NaNs, infinities and zeros of either sign included): the results are
    the same object value, or the same exception. *)
Theorem C110_commutative : forall f x y w,
  wide f -> instance f x -> instance f y -> instance f w ->
  fp_add x (AFP y) = fp_add y (AFP x) /\ fp_mul x (AFP y) = fp_mul y (AFP x) /\
  fp_min x (AFP y) = fp_min y (AFP x) /\ fp_max x (AFP y) = fp_max y (AFP x) /\
  fp_fma x (AFP y) (AFP w) = fp_fma y (AFP x) (AFP w) /\
  exists z, fp_add x (AFP y) = Ok z.
Proof. exact C110_commutative_pf. Qed.
Print Assumptions C110_commutative.
Example C110_commutative_ex :
  let f := Fmt 5 10 RTN true in
  let x := fp_init f (NRat false 1 3) in let y := fp_init f (NZero true) in
  wide f /\ instance f x /\ instance f y /\ fp_add x (AFP y) = Ok x /\ fp_add y (AFP x) = Ok x
  /\ fp_min (fp_init f (NZero false)) (AFP y) = Ok y /\ fp_min y (AFP (fp_init f (NZero false))) = Ok y.
Proof. cbn zeta. split; [split; reflexivity || (cbn; lia)|]. split; [apply I_init; split; reflexivity|]. split; [apply I_init; exact I|]. repeat split; vm_compute; reflexivity. Qed.

(** The sum of three numbers depends on the order in which they are added, and a product
    does not distribute. *)
Theorem C110_associative_refuted : exists f x y w,
  wide f /\ f_ieee f = true /\ instance f x /\ instance f y /\ instance f w /\
  bind (fp_add x (AFP y)) (fun s => fp_add s (AFP w)) <> bind (fp_add y (AFP w)) (fun s => fp_add x (AFP s)) /\
  bind (fp_add x (AFP y)) (fun s => fp_mul s (AFP w)) <>
  bind (fp_mul x (AFP w)) (fun p => bind (fp_mul y (AFP w)) (fun q => fp_add p (AFP q))).
Proof. exact C110_associative_refuted_pf. Qed.
Print Assumptions C110_associative_refuted.

(** ** C110: exact results are exact *)

(** If the exact result is a value of the type, that is the result, in every rounding
    direction and also without ieee_compliance. *)
Theorem C110_exact : forall f x y w a b c v,
  wide f -> instance f x -> instance f y -> instance f w -> instance f v ->
  fvalue x a -> fvalue y b -> fvalue w c ->
  (fvalue v (a + b) -> exists z, fp_add x (AFP y) = Ok z /\ fvalue z (a + b)) /\
  (fvalue v (a - b) -> exists z, fp_sub x (AFP y) = Ok z /\ fvalue z (a - b)) /\
  (fvalue v (a * b) -> exists z, fp_mul x (AFP y) = Ok z /\ fvalue z (a * b)) /\
  (~ (b == 0)%Q -> fvalue v (a / b) -> exists z, fp_div x (AFP y) = Ok z /\ fvalue z (a / b)) /\
  (fvalue v (a * b + c) -> exists z, fp_fma x (AFP y) (AFP w) = Ok z /\ fvalue z (a * b + c)).
Proof. exact C110_exact_pf. Qed.
Print Assumptions C110_exact.
(** 1/4 + 1/2 in a small type that rounds up *)
Example C110_exact_ex :
  let f := Fmt 3 2 RTP false in let n p q := fp_init f (NRat false p q) in
  wide f /\ instance f (n 1 4) /\ fvalue (n 1 4) (1 # 4) /\ fvalue (n 1 2) (1 # 2) /\ fvalue (n 3 4) ((1 # 4) + (1 # 2))
  /\ fp_add (n 1 4) (AFP (n 1 2)) = Ok (n 3 4).
Proof.
  cbn zeta. split; [split; cbn; lia|]. split; [apply I_init; split; reflexivity|].
  do 3 (split; [eexists; split; [vm_compute; reflexivity|vm_compute; reflexivity]|]). vm_compute. reflexivity.
Qed.

(** Neutral and inverse elements. x * 1 and x / 1 are x itself (the sign of a zero
    included), and so are x + 0 and x - 0 unless x is a zero; x - x and x + (-x) are zeros. *)
Theorem C110_identities : forall f x zero one a,
  wide f -> instance f x -> instance f zero -> instance f one ->
  fvalue x a -> fvalue zero 0 -> fvalue one 1 ->
  fp_mul x (AFP one) = Ok x /\ fp_div x (AFP one) = Ok x /\
  (~ (a == 0)%Q -> fp_add x (AFP zero) = Ok x /\ fp_sub x (AFP zero) = Ok x) /\
  (exists z, fp_sub x (AFP x) = Ok z /\ fp_is_zero z = true) /\
  (exists z, fp_add x (AFP (fp_neg x)) = Ok z /\ fp_is_zero z = true) /\
  (exists z, fp_mul x (AFP zero) = Ok z /\ fp_is_zero z = true) /\
  (~ (a == 0)%Q -> fp_div x (AFP x) = Ok one).
Proof. exact C110_identities_pf. Qed.
Print Assumptions C110_identities.
(** -0 * 1, 1/3 / 1 and 1/3 + (-0), rounding down *)
Example C110_identities_ex :
  let f := Fmt 5 10 RTN true in
  let one := fp_init f (NRat false 1 1) in let nz := fp_init f (NZero true) in let t := fp_init f (NRat false 1 3) in
  wide f /\ instance f nz /\ instance f one /\ fvalue nz 0 /\ fvalue one 1 /\
  fp_mul nz (AFP one) = Ok nz /\ fp_div t (AFP one) = Ok t /\ fp_add t (AFP nz) = Ok t /\
  fp_add nz (AFP (fp_init f (NZero false))) = Ok nz /\ fp_div t (AFP t) = Ok one.
Proof.
  cbn zeta. split; [split; cbn; lia|]. split; [apply I_init; exact I|]. split; [apply I_init; split; reflexivity|].
  do 2 (split; [eexists; split; [vm_compute; reflexivity|vm_compute; reflexivity]|]). repeat split; vm_compute; reflexivity.
Qed.

(** ** C110: monotonicity *)

(** Rounding never reverses an order: for x <= y, x + w <= y + w, x - w <= y - w,
    w - y <= w - x; for positive w also x * w <= y * w and x / w <= y / w. The results
    can be infinite, never a NaN. *)
Theorem C110_monotone : forall f x y w a b c,
  wide f -> instance f x -> instance f y -> instance f w ->
  fvalue x a -> fvalue y b -> fvalue w c -> (a <= b)%Q ->
  (exists z z', fp_add x (AFP w) = Ok z /\ fp_add y (AFP w) = Ok z' /\ fp_leq z (AFP z') = Ok true) /\
  (exists z z', fp_sub x (AFP w) = Ok z /\ fp_sub y (AFP w) = Ok z' /\ fp_leq z (AFP z') = Ok true) /\
  (exists z z', fp_sub w (AFP y) = Ok z /\ fp_sub w (AFP x) = Ok z' /\ fp_leq z (AFP z') = Ok true) /\
  ((0 < c)%Q ->
   (exists z z', fp_mul x (AFP w) = Ok z /\ fp_mul y (AFP w) = Ok z' /\ fp_leq z (AFP z') = Ok true) /\
   (exists z z', fp_div x (AFP w) = Ok z /\ fp_div y (AFP w) = Ok z' /\ fp_leq z (AFP z') = Ok true)).
Proof. exact C110_monotone_pf. Qed.
Print Assumptions C110_monotone.
(** Conversion of exact numbers is monotone. *)
Theorem C110_monotone_conversion : forall f p q a b,
  wide f -> num_value p a -> num_value q b -> (a < b)%Q -> fp_leq (fp_init f p) (AFP (fp_init f q)) = Ok true.
Proof. exact C110_monotone_conversion_pf. Qed.
Print Assumptions C110_monotone_conversion.
(** the sums of two neighbours with 65504 stay in order: the second overflows *)
Example C110_monotone_ex :
  let f := Fmt 5 10 RNE true in let n k := fp_init f (NRat false k 1) in
  wide f /\ instance f (n 15) /\ fvalue (n 15) 15 /\ fvalue (n 16) 16 /\ fvalue (n 65504) 65504 /\
  fp_add (n 15) (AFP (n 65504)) = Ok (n 65504) /\ fp_add (n 16) (AFP (n 65504)) = Ok (FPV f (MInf false)) /\
  fp_leq (n 65504) (AFP (FPV f (MInf false))) = Ok true /\ num_value (NRat true 1 3) (- (1 # 3)) /\
  fp_leq (fp_init f (NRat true 1 3)) (AFP (fp_init f (NRat true 333 1000))) = Ok true.
Proof.
  cbn zeta. split; [split; cbn; lia|]. split; [apply I_init; split; reflexivity|].
  do 3 (split; [eexists; split; [vm_compute; reflexivity|vm_compute; reflexivity]|]). do 3 (split; [vm_compute; reflexivity|]).
  split; [split; [reflexivity|split; [reflexivity|vm_compute; reflexivity]]|vm_compute; reflexivity].
Qed.

(** ** C110: gradual underflow *)

(** With ieee_compliance, x - y is a zero exactly if x == y (so dividing by x - y is safe
    after testing x != y), in every rounding direction. *)
Theorem C110_sub_zero : forall f x y a b,
  wide f -> f_ieee f = true -> instance f x -> instance f y -> fvalue x a -> fvalue y b ->
  exists z e, fp_sub x (AFP y) = Ok z /\ fp_eq x (AFP y) = Ok e /\ fp_is_zero z = e.
Proof. exact C110_sub_zero_pf. Qed.
Print Assumptions C110_sub_zero.
(** the two smallest subnormal halves differ by the smallest *)
Example C110_sub_zero_ex :
  let f := Fmt 5 10 RNE true in let t k := fp_init f (NRat false k (2 ^ 24)) in
  wide f /\ instance f (t 2) /\ fvalue (t 2) (2 # 2 ^ 24) /\ fvalue (t 3) (3 # 2 ^ 24) /\
  fp_sub (t 3) (AFP (t 2)) = Ok (t 1) /\ fp_is_zero (t 1) = false /\ fp_eq (t 3) (AFP (t 2)) = Ok false.
Proof.
  cbn zeta. split; [split; cbn; lia|]. split; [apply I_init; split; reflexivity|].
  do 2 (split; [eexists; split; [vm_compute; reflexivity|vm_compute; reflexivity]|]). repeat split; vm_compute; reflexivity.
Qed.
(** Without ieee_compliance it fails: small differences are flushed. *)
Theorem C110_sub_zero_refuted : exists f x y z,
  wide f /\ f_ieee f = false /\ instance f x /\ instance f y /\ fp_eq x (AFP y) = Ok false /\
  fp_sub x (AFP y) = Ok z /\ fp_is_zero z = true.
Proof. exact C110_sub_zero_refuted_pf. Qed.
Print Assumptions C110_sub_zero_refuted.

(** ** C110: subtraction *)

(** In every mode and for all operands, infinities, NaNs and zeros of either sign included, x - y is x + (-y), the same object up
    to identity; and -(-x) is x unless x is a NaN, when it is a NaN. *)
Theorem C110_subtraction : forall f x y, wide f -> instance f x -> instance f y ->
  fp_sub x (AFP y) = fp_add x (AFP (fp_neg y)) /\
  (fp_is_NaN x = false -> fp_neg (fp_neg x) = x) /\ (fp_is_NaN x = true -> fp_is_NaN (fp_neg x) = true).
Proof. exact C110_subtraction_pf. Qed.
Print Assumptions C110_subtraction.
(** -0 - 0 is -0, and inf - inf is a NaN, both ways *)
Example C110_subtraction_ex :
  let f := Fmt 5 10 RNE true in
  wide f /\ instance f (fp_init f (NZero true)) /\ instance f (fp_init f (NInf false)) /\
  fp_sub (fp_init f (NZero true)) (AFP (fp_init f (NZero false))) = Ok (fp_init f (NZero true)) /\
  fp_add (fp_init f (NInf false)) (AFP (fp_neg (fp_init f (NInf false)))) = Ok (fp_init f (NNaN false)).
Proof. cbn zeta. split; [split; cbn; lia|]. do 2 (split; [apply I_init; exact I|]). split; vm_compute; reflexivity. Qed.

(** ** C110: negation *)

(** To nearest even, away from zero and toward zero, negation moves through the operations:
    the operands negated give the result negated, and y - x is -(x - y) unless it is zero. *)
Theorem C110_negation : forall f x y a b,
  wide f -> In (f_mode f) [RNE; RNA; RTZ] -> instance f x -> instance f y -> fvalue x a -> fvalue y b ->
  (~ (a == b)%Q -> fp_sub y (AFP x) = rmap fp_neg (fp_sub x (AFP y))) /\
  (~ (a + b == 0)%Q -> fp_add (fp_neg x) (AFP (fp_neg y)) = rmap fp_neg (fp_add x (AFP y))) /\
  fp_mul (fp_neg x) (AFP y) = rmap fp_neg (fp_mul x (AFP y)) /\
  (~ (b == 0)%Q -> fp_div (fp_neg x) (AFP y) = rmap fp_neg (fp_div x (AFP y))).
Proof. exact C110_negation_pf. Qed.
Print Assumptions C110_negation.
Example C110_negation_ex :
  let f := Fmt 5 10 RNA true in let x := fp_init f (NRat false 1 1) in let y := fp_init f (NRat false 1 4096) in
  In (f_mode f) [RNE; RNA; RTZ] /\ fvalue x 1 /\ fvalue y (1 # 4096) /\
  fp_sub x (AFP y) = Ok x /\ fp_sub y (AFP x) = Ok (fp_neg x).
Proof. cbn zeta. split; [cbn; tauto|]. do 2 (split; [eexists; split; [vm_compute; reflexivity|vm_compute; reflexivity]|]). split; vm_compute; reflexivity. Qed.
(** In the directed modes it fails. *)
Theorem C110_negation_refuted : forall r, In r [RTP; RTN] -> exists f x y,
  f_mode f = r /\ wide f /\ f_ieee f = true /\ instance f x /\ instance f y /\
  fp_eq x (AFP y) = Ok false /\ fp_sub y (AFP x) <> rmap fp_neg (fp_sub x (AFP y)).
Proof. exact C110_negation_refuted_pf. Qed.
Print Assumptions C110_negation_refuted.
