(** C56-C62, C70, C71: floating point. The vocabulary (bit patterns, their values, rounding
    directions, reachable values of a type) is in FPSpec.v. A type needs at least two
    exponent bits for most of the statements ([wide]); the refutations show why. *)
From Coq Require Import Lia ZArith QArith Qpower Qabs ZifyBool.
From Verif Require Import PyBase BVModel BVSpec BVFacts BVOps FPModel FPSpec FPRoundFacts FPPatFacts FPEncFacts FPDecFacts FPBracket FPQFacts FPRoundSpec FPInst FPArith FPMore.
Open Scope Z_scope.
From Verif Require Import FPProofs.

(** ** C56: bit patterns round trip *)

(** For every format and every pattern of its size, held by a vector of any kind. *)
Theorem C56_bits : forall f k b,
  fmt_ok f = true -> f_ieee f = true -> is_pattern f b ->
  exists x c,
    reinterpret_from_bv f (BV (BVC k (f_size f)) b) = Ok x /\
    reinterpret_as_bv x = Ok (BV (BVC KBV (f_size f)) c) /\
    (~ pat_nan f b -> c = b) /\
    (pat_nan f b -> pat_nan f c /\ fp_is_NaN x = true).
Proof. exact C56_bits_pf. Qed.
Print Assumptions C56_bits.
(** single precision: pi, a subnormal, minus infinity, and a negative NaN *)
Example C56_bits_ex :
  let f := Fmt 8 23 RNE true in
  map (fun b => bind (reinterpret_from_bv f (BV (BVC KUInt 32) b)) reinterpret_as_bv)
    [0x40490FDB; 0x80000001; 0xFF800000; 0xFFC00123]
  = map (fun b => Ok (BV (BVC KBV 32) b)) [0x40490FDB; 0x80000001; 0xFF800000; 0x7F800001]
  /\ fmt_ok f = true /\ is_pattern f 0xFFC00123 /\ pat_nan f 0xFFC00123 /\ ~ pat_nan f 0x80000001.
Proof.
  repeat split; try (vm_compute; congruence). intros [H1 H2]. vm_compute in H1, H2. congruence.
Qed.

(** Vectors of another size are rejected. *)
Theorem C56_size : forall f v, bsize v <> f_size f -> reinterpret_from_bv f v = Raise ETypeError.
Proof. exact C56_size_pf. Qed.
Print Assumptions C56_size.
Example C56_size_ex : reinterpret_from_bv (Fmt 5 10 RNE true) (BV (BVC KBV 17) 3) = Raise ETypeError.
Proof. reflexivity. Qed.

(** ** C57: values round trip *)

(** Every value of the type a program can build, except NaNs, comes back identically: same
    number, same sign of zero. Missing: types with one exponent bit. *)
Theorem C57_values_partial : forall f x,
  wide f -> instance f x -> fp_is_NaN x = false ->
  exists b, reinterpret_as_bv x = Ok b /\ reinterpret_from_bv f b = Ok x.
Proof. exact C57_values_partial_pf. Qed.
Print Assumptions C57_values_partial.
(** -1/3 in half precision *)
Example C57_values_ex :
  let f := Fmt 5 10 RTN true in
  let x := fp_init f (NRat true 1 3) in
  wide f /\ instance f x /\ fp_is_NaN x = false /\ reinterpret_as_bv x = Ok (BV (BVC KBV 16) 0xB556)
  /\ reinterpret_from_bv f (BV (BVC KBV 16) 0xB556) = Ok x.
Proof. repeat split; try (vm_compute; congruence). constructor. split; reflexivity. Qed.

(** With one exponent bit gmpy2 can round to a finite number above the largest pattern. *)
Theorem C57_refuted : exists f x,
  fmt_ok f = true /\ f_ieee f = true /\ instance f x /\ fp_is_NaN x = false /\
  ~ exists b, reinterpret_as_bv x = Ok b /\ reinterpret_from_bv f b = Ok x.
Proof. exact C57_refuted_pf. Qed.
Print Assumptions C57_refuted.

(** ** C58: the values of a type are the values of its patterns *)

(** Every finite value of the type is the value of one of its patterns. *)
Theorem C58_values_partial : forall f x q,
  wide f -> instance f x -> fvalue x q -> exists b, representable f b /\ (pat_value f b == q)%Q.
Proof. exact C58_values_partial_pf. Qed.
Print Assumptions C58_values_partial.

(** The value of every finite pattern is a value of the type: however the exact number is
    written, its conversion has exactly that value. *)
Theorem C58_exact_partial : forall f b s n d,
  wide f -> representable f b -> 0 < n -> 0 < d -> (ratq s n d == pat_value f b)%Q ->
  fvalue (fp_init f (NRat s n d)) (pat_value f b).
Proof. exact C58_exact_partial_pf. Qed.
Print Assumptions C58_exact_partial.
(** the largest finite half, 65504 = 131008/2 *)
Example C58_exact_ex :
  let f := Fmt 5 10 RNE true in
  wide f /\ representable f 0x7BFF /\ (ratq false 131008 2 == pat_value f 0x7BFF)%Q
  /\ fvalue (fp_init f (NRat false 131008 2)) 65504.
Proof.
  repeat split; try (vm_compute; congruence). exists (inject_Z 2047 * pow2 5)%Q. split; vm_compute; reflexivity.
Qed.

Theorem C58_refuted : exists f x q,
  fmt_ok f = true /\ f_ieee f = true /\ instance f x /\ fvalue x q /\
  ~ exists b, representable f b /\ (pat_value f b == q)%Q.
Proof. exact C58_refuted_pf. Qed.
Print Assumptions C58_refuted.

(** ** C59: exactly one class *)

(** The classification methods return, exactly one of the five says yes, and each says yes
    exactly for the patterns of its class. Missing: types with one exponent bit. *)
Theorem C59_classes_partial : forall f x,
  wide f -> instance f x ->
  exists sub nor b,
    fp_is_subnormal x = Ok sub /\ fp_is_normal x = Ok nor /\
    reinterpret_as_bv x = Ok (BV (BVC KBV (f_size f)) b) /\
    exactly_one [fp_is_zero x; sub; nor; fp_is_infinite x; fp_is_NaN x] /\
    (fp_is_zero x = true <-> pat_zero f b) /\ (sub = true <-> pat_subnormal f b) /\
    (nor = true <-> pat_normal f b) /\ (fp_is_infinite x = true <-> pat_inf f b) /\
    (fp_is_NaN x = true <-> pat_nan f b).
Proof. exact C59_classes_partial_pf. Qed.
Print Assumptions C59_classes_partial.
Example C59_classes_ex :
  let f := Fmt 3 2 RNE true in
  let x := fp_init f (NRat true 1 16) in
  wide f /\ instance f x /\ fp_is_subnormal x = Ok true /\ fp_is_normal x = Ok false.
Proof. repeat split; try (vm_compute; congruence). constructor. split; reflexivity. Qed.

(** FPVector[1, 2, RTZ, False](3) has a value, but asking for its class fails. *)
Theorem C59_refuted : exists f x,
  fmt_ok f = true /\ instance f x /\ fp_is_normal x = Raise EAssertion.
Proof. exact C59_refuted_pf. Qed.
Print Assumptions C59_refuted.

(** ** C60: conversions are correctly rounded *)

(** RNE, RTP, RTN and RTZ are the directions of IEEE 754, for every nonzero exact number,
    including overflow and (for compliant types) gradual underflow. *)
Theorem C60_rounded_partial : forall f s n d,
  wide f -> f_mode f <> RNA -> 0 < n -> 0 < d ->
  exists b, reinterpret_as_bv (fp_init f (NRat s n d)) = Ok (BV (BVC KBV (f_size f)) b) /\
    rounds_to f (f_mode f) (ratq s n d) b.
Proof. exact C60_rounded_partial_pf. Qed.
Print Assumptions C60_rounded_partial.
(** 65520 is the first number that overflows in half precision. *)
Example C60_rounded_ex :
  let f := Fmt 5 10 RNE true in
  wide f /\ f_mode f <> RNA
  /\ reinterpret_as_bv (fp_init f (NRat false 65520 1)) = Ok (BV (BVC KBV 16) 0x7C00)
  /\ reinterpret_as_bv (fp_init f (NRat false 655199 10)) = Ok (BV (BVC KBV 16) 0x7BFF)
  /\ reinterpret_as_bv (fp_init f (NRat true 1 (2 ^ 25))) = Ok (BV (BVC KBV 16) 0x8000).
Proof. repeat split; vm_compute; congruence. Qed.

(** RNA stands for "to nearest, ties away" (SMT-LIB, IEEE 754); it is implemented as
    rounding away from zero. What it computes: *)
Theorem C60_away_partial : forall f s n d,
  wide f -> f_mode f = RNA -> 0 < n -> 0 < d ->
  exists b, reinterpret_as_bv (fp_init f (NRat s n d)) = Ok (BV (BVC KBV (f_size f)) b) /\
    rounds_away f (ratq s n d) b.
Proof. exact C60_away_partial_pf. Qed.
Print Assumptions C60_away_partial.
Example C60_away_ex :
  reinterpret_as_bv (fp_init (Fmt 3 2 RNA true) (NRat false 17 16)) = Ok (BV (BVC KBV 6) 13).
Proof. vm_compute. reflexivity. Qed.

(** 17/16 becomes 1.25 although 1 is a value of the type. *)
Theorem C60_refuted : exists f s n d b,
  wide f /\ f_mode f = RNA /\ 0 < n /\ 0 < d /\
  reinterpret_as_bv (fp_init f (NRat s n d)) = Ok (BV (BVC KBV (f_size f)) b) /\
  ~ rounds_to f RNA (ratq s n d) b.
Proof. exact C60_refuted_pf. Qed.
Print Assumptions C60_refuted.

(** Zeros keep their sign; infinities stay; NaNs stay, or become an infinity of their sign
    without compliance. *)
Theorem C60_special : forall f s,
  fmt_ok f = true ->
  exists z i n,
    reinterpret_as_bv (fp_init f (NZero s)) = Ok (BV (BVC KBV (f_size f)) z) /\ pat_zero f z /\ pat_sign f z = s /\
    reinterpret_as_bv (fp_init f (NInf s)) = Ok (BV (BVC KBV (f_size f)) i) /\ pat_inf f i /\ pat_sign f i = s /\
    reinterpret_as_bv (fp_init f (NNaN s)) = Ok (BV (BVC KBV (f_size f)) n) /\
    (if f_ieee f then pat_nan f n else n = i).
Proof. exact C60_special_pf. Qed.
Print Assumptions C60_special.
Example C60_special_ex :
  fmt_ok (Fmt 1 1 RNA false) = true
  /\ reinterpret_as_bv (fp_init (Fmt 5 10 RNE false) (NNaN true)) = Ok (BV (BVC KBV 16) 0xFC00).
Proof. repeat split; vm_compute; reflexivity. Qed.

(** ** C61: abs and neg *)

Theorem C61_neg_partial : forall f x,
  wide f -> instance f x -> fp_is_NaN x = false ->
  exists b c,
    reinterpret_as_bv x = Ok (BV (BVC KBV (f_size f)) b) /\
    reinterpret_as_bv (fp_neg x) = Ok (BV (BVC KBV (f_size f)) c) /\
    pat_sign f c = negb (pat_sign f b) /\ pat_exp f c = pat_exp f b /\ pat_man f c = pat_man f b.
Proof. exact C61_neg_partial_pf. Qed.
Print Assumptions C61_neg_partial.
(** Missing: negative zero, and types with one exponent bit. *)
Theorem C61_abs_partial : forall f x,
  wide f -> instance f x -> fp_is_NaN x = false ->
  exists b c,
    reinterpret_as_bv x = Ok (BV (BVC KBV (f_size f)) b) /\
    reinterpret_as_bv (fp_abs x) = Ok (BV (BVC KBV (f_size f)) c) /\
    (~ pat_zero f b -> pat_sign f c = false) /\ (pat_zero f b -> pat_sign f c = pat_sign f b) /\
    pat_exp f c = pat_exp f b /\ pat_man f c = pat_man f b.
Proof. exact C61_abs_partial_pf. Qed.
Print Assumptions C61_abs_partial.
Example C61_ex :
  let f := Fmt 5 10 RTP true in
  let x := fp_init f (NRat true 1 3) in
  wide f /\ instance f x /\ fp_is_NaN x = false
  /\ reinterpret_as_bv x = Ok (BV (BVC KBV 16) 0xB555)
  /\ reinterpret_as_bv (fp_abs x) = Ok (BV (BVC KBV 16) 0x3555)
  /\ reinterpret_as_bv (fp_neg x) = Ok (BV (BVC KBV 16) 0x3555).
Proof. repeat split; try (vm_compute; congruence). constructor. split; reflexivity. Qed.

(** The absolute value of -0 is -0, because -0 >= 0. *)
Theorem C61_refuted : exists f x b,
  wide f /\ instance f x /\ fp_is_NaN x = false /\
  reinterpret_as_bv (fp_abs x) = Ok (BV (BVC KBV (f_size f)) b) /\ pat_sign f b = true.
Proof. exact C61_refuted_pf. Qed.
Print Assumptions C61_refuted.

(** ** C62: without compliance *)

(** Subnormal patterns decode to the zero of their sign. *)
Theorem C62_subnormal : forall f k b,
  fmt_ok f = true -> f_ieee f = false -> is_pattern f b -> pat_subnormal f b ->
  exists x c,
    reinterpret_from_bv f (BV (BVC k (f_size f)) b) = Ok x /\ fp_is_zero x = true /\
    reinterpret_as_bv x = Ok (BV (BVC KBV (f_size f)) c) /\ pat_zero f c /\ pat_sign f c = pat_sign f b.
Proof. exact C62_subnormal_pf. Qed.
Print Assumptions C62_subnormal.
(** NaN patterns decode to plus infinity, whatever their sign. *)
Theorem C62_nan : forall f k b,
  fmt_ok f = true -> f_ieee f = false -> is_pattern f b -> pat_nan f b ->
  exists x c,
    reinterpret_from_bv f (BV (BVC k (f_size f)) b) = Ok x /\ fp_is_infinite x = true /\
    reinterpret_as_bv x = Ok (BV (BVC KBV (f_size f)) c) /\ pat_inf f c /\ pat_sign f c = false.
Proof. exact C62_nan_pf. Qed.
Print Assumptions C62_nan.
(** All other patterns round trip. *)
Theorem C62_other : forall f k b,
  fmt_ok f = true -> f_ieee f = false -> is_pattern f b -> ~ pat_subnormal f b -> ~ pat_nan f b ->
  exists x,
    reinterpret_from_bv f (BV (BVC k (f_size f)) b) = Ok x /\
    reinterpret_as_bv x = Ok (BV (BVC KBV (f_size f)) b).
Proof. exact C62_other_pf. Qed.
Print Assumptions C62_other.
Example C62_ex :
  let f := Fmt 5 10 RNE false in
  map (fun b => bind (reinterpret_from_bv f (BV (BVC KBV 16) b)) reinterpret_as_bv)
    [0x8001; 0xFC01; 0xB555]
  = map (fun b => Ok (BV (BVC KBV 16) b)) [0x8000; 0x7C00; 0xB555]
  /\ fmt_ok f = true /\ pat_subnormal f 0x8001 /\ pat_nan f 0xFC01.
Proof. repeat split; vm_compute; congruence. Qed.

(** No value of such a type is a NaN or subnormal, whatever the program computes. Missing:
    one exponent bit (C62_values_refuted). *)
Theorem C62_values_partial : forall f x,
  wide f -> f_ieee f = false -> instance f x ->
  fp_is_NaN x = false /\ fp_is_subnormal x = Ok false.
Proof. exact C62_values_partial_pf. Qed.
Print Assumptions C62_values_partial.
(** With one exponent bit the question fails: the largest finite value has the exponent field 0, and the assertion that
    only compliant types have subnormals is violated. *)
Theorem C62_values_refuted : exists f x,
  fmt_ok f = true /\ f_ieee f = false /\ instance f x /\ fp_is_subnormal x = Raise EAssertion.
Proof. exact C62_values_refuted_pf. Qed.
Print Assumptions C62_values_refuted.
(** infinity - infinity is an infinity *)
Example C62_values_ex :
  let f := Fmt 5 10 RNE false in
  let x := fp_init f (NInf false) in
  exists y, fp_sub x (AFP x) = Ok y /\ instance f y /\ fp_is_infinite y = true.
Proof.
  eexists. split; [vm_compute; reflexivity|]. split; [|reflexivity].
  eapply (I_bin (Fmt 5 10 RNE false) fp_sub (fp_init _ (NInf false)) (AFP (fp_init _ (NInf false)))).
  - cbn. auto.
  - now constructor.
  - intros z E. injection E as <-. now constructor.
  - discriminate.
  - vm_compute. reflexivity.
Qed.

(** ** C70: comparisons *)

(** On values that are not NaNs the six comparisons are the order of the numbers, infinities
    at the ends, both zeros equal. *)
Theorem C70_order : forall f x y a b,
  wide f -> instance f x -> instance f y -> xvalue x a -> xvalue y b ->
  exists lt le gt ge eq ne,
    fp_lt x (AFP y) = Ok lt /\ fp_leq x (AFP y) = Ok le /\ fp_gt x (AFP y) = Ok gt /\
    fp_geq x (AFP y) = Ok ge /\ fp_eq x (AFP y) = Ok eq /\ fp_ne x (AFP y) = Ok ne /\
    (lt = true <-> ext_lt a b) /\ (le = true <-> ext_lt a b \/ ext_eq a b) /\
    (gt = true <-> ext_lt b a) /\ (ge = true <-> ext_lt b a \/ ext_eq a b) /\
    (eq = true <-> ext_eq a b) /\ (ne = true <-> ~ ext_eq a b).
Proof. exact C70_order_pf. Qed.
Print Assumptions C70_order.
Example C70_order_ex :
  let f := Fmt 5 10 RNE true in
  let x := fp_init f (NRat true 1 3) in
  let y := fp_init f (NInf false) in
  wide f /\ instance f x /\ instance f y /\ xvalue x (XFin (-1365 # 4096)) /\ xvalue y (XInf false)
  /\ fp_lt x (AFP y) = Ok true /\ fp_eq (fp_init f (NZero true)) (AFP (fp_init f (NZero false))) = Ok true.
Proof.
  repeat split; try (vm_compute; congruence); try (constructor; split; reflexivity); try now constructor.
  eexists. split; vm_compute; reflexivity.
Qed.

(** A NaN is unordered: everything is false except !=. *)
Theorem C70_nan : forall x y,
  fv_fmt x = fv_fmt y -> fp_is_NaN x = true \/ fp_is_NaN y = true ->
  fp_lt x (AFP y) = Ok false /\ fp_leq x (AFP y) = Ok false /\ fp_gt x (AFP y) = Ok false /\
  fp_geq x (AFP y) = Ok false /\ fp_eq x (AFP y) = Ok false /\ fp_ne x (AFP y) = Ok true.
Proof. exact C70_nan_pf. Qed.
Print Assumptions C70_nan.
Example C70_nan_ex :
  let x := fp_init (Fmt 5 10 RNE true) (NNaN false) in
  fp_is_NaN x = true /\ fp_eq x (AFP x) = Ok false /\ fp_ne x (AFP x) = Ok true.
Proof. repeat split. Qed.

(** is_negative and is_positive compare with zero: neither holds of a zero (not even -0). *)
Theorem C70_sign : forall f x a,
  wide f -> instance f x -> xvalue x a ->
  (fp_is_negative x = true <-> ext_lt a (XFin 0)) /\ (fp_is_positive x = true <-> ext_lt (XFin 0) a).
Proof. exact C70_sign_pf. Qed.
Print Assumptions C70_sign.
Theorem C70_sign_nan : forall x, fp_is_NaN x = true -> fp_is_negative x = false /\ fp_is_positive x = false.
Proof. exact C70_sign_nan_pf. Qed.
Print Assumptions C70_sign_nan.
Example C70_sign_ex :
  let f := Fmt 5 10 RNE true in
  fp_is_negative (fp_init f (NRat true 1 3)) = true /\ fp_is_negative (fp_init f (NZero true)) = false
  /\ fp_is_negative (fp_init f (NInf true)) = true /\ fp_is_positive (fp_init f (NNaN false)) = false.
Proof. repeat split. Qed.

(** Operands of another type are rejected by every binary method, and a number is converted
    to the type first. *)
Theorem C70_operands : forall x y z,
  (fv_fmt y <> fv_fmt x ->
   (forall h, In h [fp_add; fp_sub; fp_mul; fp_div; fp_rem; fp_min; fp_max] -> h x (AFP y) = Raise ETypeError) /\
   (forall h, In h [fp_lt; fp_leq; fp_gt; fp_geq; fp_eq; fp_ne] -> h x (AFP y) = Raise ETypeError) /\
   (forall c, fp_fma x (AFP y) c = Raise ETypeError) /\
   (forall w, fv_fmt w = fv_fmt x -> fp_fma x (AFP w) (AFP y) = Raise ETypeError)) /\
  (forall h, In h [fp_add; fp_sub; fp_mul; fp_div; fp_rem; fp_min; fp_max] ->
     h x (ANum z) = h x (AFP (fp_init (fv_fmt x) z))) /\
  (forall h, In h [fp_lt; fp_leq; fp_gt; fp_geq; fp_eq; fp_ne] ->
     h x (ANum z) = h x (AFP (fp_init (fv_fmt x) z))).
Proof. exact C70_operands_pf. Qed.
Print Assumptions C70_operands.
(** the rounding mode is part of the type *)
Example C70_operands_ex :
  fp_add (fp_init (Fmt 5 10 RNE true) (NZero true)) (AFP (fp_init (Fmt 5 10 RTZ true) (NZero true))) = Raise ETypeError.
Proof. reflexivity. Qed.

(** ** C71: arithmetic is correctly rounded *)

(** The exact sum, difference, product, quotient or fused a*b+c, rounded once. *)
Theorem C71_arithmetic : forall f x y a b,
  wide f -> instance f x -> instance f y -> fvalue x a -> fvalue y b ->
  (exists z, fp_add x (AFP y) = Ok z /\ correct f (a + b) z) /\
  (exists z, fp_sub x (AFP y) = Ok z /\ correct f (a - b) z) /\
  (exists z, fp_mul x (AFP y) = Ok z /\ correct f (a * b) z) /\
  (~ (b == 0)%Q -> exists z, fp_div x (AFP y) = Ok z /\ correct f (a / b) z).
Proof. exact C71_arithmetic_pf. Qed.
Print Assumptions C71_arithmetic.
Theorem C71_fma : forall f x y w a b c,
  wide f -> instance f x -> instance f y -> instance f w -> fvalue x a -> fvalue y b -> fvalue w c ->
  exists z, fp_fma x (AFP y) (AFP w) = Ok z /\ correct f (a * b + c) z.
Proof. exact C71_fma_pf. Qed.
Print Assumptions C71_fma.
(** 1 + 2^-11 is a tie in half precision; the fused product keeps the last bit *)
Example C71_ex :
  let f := Fmt 5 10 RNE true in
  let one := fp_init f (NRat false 1 1) in
  let e := fp_init f (NRat false 1 2048) in
  let x := fp_init f (NRat false 1025 1024) in
  instance f one /\ fvalue e (1 # 2048) /\ fp_add one (AFP e) = Ok one
  /\ bind (fp_mul x (AFP x)) reinterpret_as_bv = Ok (BV (BVC KBV 16) 0x3C02)
  /\ bind (fp_fma x (AFP x) (ANum (NRat true 1026 1024))) reinterpret_as_bv = Ok (BV (BVC KBV 16) 0x0010).
Proof.
  split; [constructor; split; reflexivity|]. split; [eexists; split; vm_compute; reflexivity|]. repeat split; vm_compute; reflexivity.
Qed.

(** Remainder: x - k*y for the integer k nearest to x/y, ties to even. *)
Theorem C71_rem : forall f x y a b,
  wide f -> instance f x -> instance f y -> fvalue x a -> fvalue y b -> ~ (b == 0)%Q ->
  exists z k, fp_rem x (AFP y) = Ok z /\ correct f (a - inject_Z k * b) z /\
    (2 * Qabs (a - inject_Z k * b) <= Qabs b)%Q /\
    ((2 * Qabs (a - inject_Z k * b) == Qabs b)%Q -> Z.even k = true).
Proof. exact C71_rem_pf. Qed.
Print Assumptions C71_rem.
(** Rounding to an integer, in the direction of the type. *)
Theorem C71_integral : forall f x a,
  wide f -> instance f x -> fvalue x a ->
  exists k, correct f (inject_Z k) (fp_round_to_integral x) /\ integral (f_mode f) a k.
Proof. exact C71_integral_pf. Qed.
Print Assumptions C71_integral.
(** Minimum and maximum return one of the operands. *)
Theorem C71_minmax : forall f x y a b,
  wide f -> instance f x -> instance f y -> fvalue x a -> fvalue y b ->
  ((fp_min x (AFP y) = Ok x /\ (a <= b)%Q) \/ (fp_min x (AFP y) = Ok y /\ (b <= a)%Q)) /\
  ((fp_max x (AFP y) = Ok x /\ (b <= a)%Q) \/ (fp_max x (AFP y) = Ok y /\ (a <= b)%Q)).
Proof. exact C71_minmax_pf. Qed.
Print Assumptions C71_minmax.
Example C71_rem_ex :
  let f := Fmt 5 10 RTP true in
  let v n d := fp_init f (NRat false n d) in
  bind (fp_rem (v 7 2) (ANum (NRat false 1 1))) reinterpret_as_bv = Ok (BV (BVC KBV 16) 0xB800)
  /\ fp_round_to_integral (v 7 3) = v 3 1
  /\ fp_min (v 7 2) (AFP (v 3 1)) = Ok (v 3 1) /\ fp_max (v 7 2) (ANum (NNaN false)) = Ok (v 7 2).
Proof. repeat split; vm_compute; reflexivity. Qed.

(** Special operands: a NaN operand gives a NaN; invalid operations (inf - inf, 0 * inf, inf / inf, 0 / 0)
    give a NaN; in a type without compliance the NaN is plus infinity. A finite nonzero number
    divided by zero is the infinity of the exclusive or of the signs. *)
Theorem C71_invalid : forall f x y,
  wide f -> instance f x -> instance f y ->
  let nan := if f_ieee f then FPV f (MNaN false) else FPV f (MInf false) in
  (fp_is_NaN x = true \/ fp_is_NaN y = true ->
   forall h, In h [fp_add; fp_sub; fp_mul; fp_div; fp_rem] -> h x (AFP y) = Ok nan) /\
  (xvalue x (XInf false) -> xvalue y (XInf false) ->
   fp_sub x (AFP y) = Ok nan /\ fp_div x (AFP y) = Ok nan) /\
  (fvalue x 0 -> fvalue y 0 -> fp_div x (AFP y) = Ok nan) /\
  (forall s, fvalue x 0 -> xvalue y (XInf s) -> fp_mul x (AFP y) = Ok nan /\ fp_mul y (AFP x) = Ok nan) /\
  (forall a, fvalue x a -> ~ (a == 0)%Q -> fp_is_zero y = true ->
   fp_div x (AFP y) = Ok (FPV f (MInf (xorb (is_signed (fv_val x)) (is_signed (fv_val y)))))).
Proof. exact C71_invalid_pf. Qed.
Print Assumptions C71_invalid.
Example C71_invalid_ex :
  let f := Fmt 5 10 RTP true in
  fp_div (fp_init f (NRat true 1 3)) (ANum (NZero false)) = Ok (FPV f (MInf true))
  /\ fp_mul (fp_init f (NInf true)) (ANum (NZero false)) = Ok (FPV f (MNaN false)).
Proof. repeat split; vm_compute; reflexivity. Qed.

(** The sign of a zero result (IEEE 754, 6.3): a sum or difference that cancels is +0, or -0 in a type that rounds
    towards minus infinity; zeros of one sign add up to it; a product or quotient has the exclusive or of the signs;
    a remainder, and the rounding to an integer, the sign of the operand. *)
Theorem C71_zero_sign : forall f x y a b,
  wide f -> instance f x -> instance f y -> fvalue x a -> fvalue y b ->
  let neg v := is_signed (fv_val v) in
  ((a + b == 0)%Q -> ((a == 0)%Q -> neg x <> neg y) ->
     exists s, fp_add x (AFP y) = Ok (FPV f (MZero s)) /\ (s = true <-> f_mode f = RTN)) /\
  ((a == 0)%Q -> (b == 0)%Q -> neg x = neg y -> fp_add x (AFP y) = Ok (FPV f (MZero (neg x)))) /\
  ((a - b == 0)%Q -> ((a == 0)%Q -> neg x = neg y) ->
     exists s, fp_sub x (AFP y) = Ok (FPV f (MZero s)) /\ (s = true <-> f_mode f = RTN)) /\
  ((a == 0)%Q -> (b == 0)%Q -> neg x <> neg y -> fp_sub x (AFP y) = Ok (FPV f (MZero (neg x)))) /\
  ((a * b == 0)%Q -> fp_mul x (AFP y) = Ok (FPV f (MZero (xorb (neg x) (neg y))))) /\
  ((a == 0)%Q -> ~ (b == 0)%Q -> fp_div x (AFP y) = Ok (FPV f (MZero (xorb (neg x) (neg y))))) /\
  (forall k, ~ (b == 0)%Q -> (a == inject_Z k * b)%Q -> fp_rem x (AFP y) = Ok (FPV f (MZero (neg x)))) /\
  (forall s, fp_round_to_integral x = FPV f (MZero s) -> s = neg x).
Proof. exact C71_zero_sign_pf. Qed.
Print Assumptions C71_zero_sign.
(** half precision, rounding down: 1 - 1 is -0; -0 rem 3 is -0; -1/3 rounded up is -0 *)
Example C71_zero_sign_ex :
  let f := Fmt 5 10 RTN true in let one := fp_init f (NRat false 1 1) in
  let u := Fmt 5 10 RTP true in
  wide f /\ fp_sub one (AFP one) = Ok (FPV f (MZero true)) /\
  fp_add (fp_init u (NRat true 1 1)) (ANum (NRat false 1 1)) = Ok (FPV u (MZero false)) /\
  fp_rem (fp_init u (NRat true 6 1)) (ANum (NRat false 3 1)) = Ok (FPV u (MZero true)) /\
  fp_round_to_integral (fp_init u (NRat true 1 3)) = FPV u (MZero true).
Proof. split; [split; discriminate|]. repeat split; vm_compute; reflexivity. Qed.
