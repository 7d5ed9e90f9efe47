(** Specification vocabulary for floating point: the interchange encoding of IEEE 754 with
    arbitrary exponent and mantissa widths, and its rounding directions. A bit pattern is an
    integer below 2^(1+eb+mb); values are rationals. Only the format record and the names of
    the rounding modes come from the model. *)
From Coq Require Import ZArith QArith Qabs.
From Verif Require Import PyBase BVModel FPModel.
Open Scope Z_scope.

Definition bias (f : fmt) : Z := 2 ^ (f_eb f - 1) - 1.
Definition is_pattern (f : fmt) (b : Z) : Prop := 0 <= b < 2 ^ (1 + f_eb f + f_mb f).

(** The fields: sign | exponent | mantissa, most significant first. *)
Definition pat_sign (f : fmt) (b : Z) : bool := 2 ^ (f_eb f + f_mb f) <=? b.
Definition pat_exp (f : fmt) (b : Z) : Z := (b / 2 ^ f_mb f) mod 2 ^ f_eb f.
Definition pat_man (f : fmt) (b : Z) : Z := b mod 2 ^ f_mb f.

Definition all_ones (f : fmt) : Z := 2 ^ f_eb f - 1.
Definition pat_nan (f : fmt) (b : Z) : Prop := pat_exp f b = all_ones f /\ pat_man f b <> 0.
Definition pat_inf (f : fmt) (b : Z) : Prop := pat_exp f b = all_ones f /\ pat_man f b = 0.
Definition pat_zero (f : fmt) (b : Z) : Prop := pat_exp f b = 0 /\ pat_man f b = 0.
Definition pat_subnormal (f : fmt) (b : Z) : Prop := pat_exp f b = 0 /\ pat_man f b <> 0.
Definition pat_normal (f : fmt) (b : Z) : Prop :=
  pat_exp f b <> 0 /\ pat_exp f b <> all_ones f.
Definition pat_finite (f : fmt) (b : Z) : Prop :=
  is_pattern f b /\ pat_exp f b <> all_ones f.

(** The value of a finite pattern: (-1)^s 0.m 2^(1-bias) or (-1)^s 1.m 2^(e-bias). *)
Definition sgnq (s : bool) (q : Q) : Q := if s then - q else q.
Definition pow2 (e : Z) : Q := Qpower 2 e.
Definition pat_value (f : fmt) (b : Z) : Q :=
  sgnq (pat_sign f b)
    (if pat_exp f b =? 0
     then inject_Z (pat_man f b) * pow2 (1 - bias f - f_mb f)
     else inject_Z (2 ^ f_mb f + pat_man f b) * pow2 (pat_exp f b - bias f - f_mb f)).

(** The pattern of an infinity. *)
Definition inf_pattern (f : fmt) (s : bool) : Z :=
  b2z s * 2 ^ (f_eb f + f_mb f) + all_ones f * 2 ^ f_mb f.

(** IEEE 754, 4.3.1: under round to nearest an infinitely precise magnitude of at least
    2^emax (2 - 2^(1-p)/2) becomes an infinity (emax = bias, p = mb + 1). *)
Definition overflow_threshold (f : fmt) : Q :=
  (pow2 (bias f) * (2 - pow2 (- f_mb f) * (1 # 2)))%Q.

(** The patterns a type uses for finite values: without ieee_compliance there are no
    subnormal numbers. *)
Definition representable (f : fmt) (b : Z) : Prop :=
  pat_finite f b /\ (f_ieee f = false -> ~ pat_subnormal f b).

(** b is the pattern IEEE 754 prescribes for the nonzero exact value x in direction r. *)
Definition nearest (f : fmt) (x : Q) (b : Z) : Prop :=
  representable f b /\ (Qabs x < overflow_threshold f)%Q /\
  forall b', representable f b' -> (Qabs (x - pat_value f b) <= Qabs (x - pat_value f b'))%Q.
Definition tie (f : fmt) (x : Q) (b b' : Z) : Prop :=
  representable f b' /\ (Qabs (x - pat_value f b') == Qabs (x - pat_value f b))%Q /\
  ~ (pat_value f b' == pat_value f b)%Q.
Definition overflows (f : fmt) (x : Q) (b : Z) : Prop :=
  (overflow_threshold f <= Qabs x)%Q /\ pat_inf f b.
Definition rounds_to (f : fmt) (r : rmode) (x : Q) (b : Z) : Prop :=
  is_pattern f b /\ (pat_sign f b = true <-> (x < 0)%Q) /\
  match r with
  | RNE => (nearest f x b /\ forall b', tie f x b b' -> Z.even b = true) \/ overflows f x b
  | RNA => (nearest f x b /\
            forall b', tie f x b b' -> (Qabs (pat_value f b') <= Qabs (pat_value f b))%Q)
           \/ overflows f x b
  | RTP =>
      (representable f b /\ (x <= pat_value f b)%Q /\
       forall b', representable f b' -> (x <= pat_value f b')%Q -> (pat_value f b <= pat_value f b')%Q)
      \/ (pat_inf f b /\ (0 < x)%Q /\ forall b', representable f b' -> (pat_value f b' < x)%Q)
  | RTN =>
      (representable f b /\ (pat_value f b <= x)%Q /\
       forall b', representable f b' -> (pat_value f b' <= x)%Q -> (pat_value f b' <= pat_value f b)%Q)
      \/ (pat_inf f b /\ (x < 0)%Q /\ forall b', representable f b' -> (x < pat_value f b')%Q)
  | RTZ =>
      representable f b /\ (Qabs (pat_value f b) <= Qabs x)%Q /\
      forall b', representable f b' -> (Qabs (pat_value f b') <= Qabs x)%Q ->
        (Qabs (pat_value f b') <= Qabs (pat_value f b))%Q
  end.

(** Round away from zero: the closest representable magnitude not below |x|, or infinity. *)
Definition rounds_away (f : fmt) (x : Q) (b : Z) : Prop :=
  is_pattern f b /\ (pat_sign f b = true <-> (x < 0)%Q) /\
  ((representable f b /\ (Qabs x <= Qabs (pat_value f b))%Q /\
    forall b', representable f b' -> (Qabs x <= Qabs (pat_value f b'))%Q ->
      (Qabs (pat_value f b) <= Qabs (pat_value f b'))%Q)
   \/ (pat_inf f b /\ forall b', representable f b' -> (Qabs (pat_value f b') < Qabs x)%Q)).

(** The rational of an exact nonzero number. *)
Definition ratq (s : bool) (n d : Z) : Q := sgnq s (inject_Z n / inject_Z d).

(** The exact number x has the value q. *)
Definition num_value (x : num) (q : Q) : Prop :=
  match x with
  | NZero _ => (q == 0)%Q
  | NRat s n d => 0 < n /\ 0 < d /\ (q == ratq s n d)%Q
  | _ => False
  end.

(** The exact value an FPVector reports (its _value read as a rational). *)
Definition mpfr_value (p : Z) (v : mpfr) : option Q :=
  match v with
  | MZero _ => Some 0%Q
  | MFin s m E => Some (sgnq s (inject_Z m * pow2 (E - p)))
  | _ => None
  end.

(** Exact numbers with a positive numerator and denominator. *)
Definition num_ok (x : num) : Prop := match x with NRat _ n d => 0 < n /\ 0 < d | _ => True end.

(** Types with at least two exponent bits (and one mantissa bit). *)
Definition wide (f : fmt) : Prop := 2 <= f_eb f /\ 1 <= f_mb f.

(** The values of the type f a program can get hold of: conversions of exact numbers, of bit
    patterns, and results of the methods on such values and on numbers. *)
Inductive instance (f : fmt) : fpv -> Prop :=
| I_init x : num_ok x -> instance f (fp_init f x)
| I_bits b y : 0 <= bsize b -> 0 <= bval b < 2 ^ bsize b -> reinterpret_from_bv f b = Ok y -> instance f y
| I_abs x : instance f x -> instance f (fp_abs x)
| I_neg x : instance f x -> instance f (fp_neg x)
| I_random u s e : num_ok u -> instance f (fp_random f u s e)
| I_sqrt x : instance f x -> instance f (fp_sqrt x)
| I_rint x : instance f x -> instance f (fp_round_to_integral x)
| I_bin h x a y :
    In h [fp_add; fp_sub; fp_mul; fp_div; fp_rem; fp_min; fp_max] -> instance f x ->
    (forall z, a = AFP z -> instance f z) -> (forall z, a = ANum z -> num_ok z) ->
    h x a = Ok y -> instance f y
| I_fma x a c y :
    instance f x ->
    (forall z, a = AFP z \/ c = AFP z -> instance f z) ->
    (forall z, a = ANum z \/ c = ANum z -> num_ok z) ->
    fp_fma x a c = Ok y -> instance f y.

(** The rounding the types implement: RNA is away from zero. *)
Definition rounded (f : fmt) (q : Q) (b : Z) : Prop :=
  match f_mode f with RNA => rounds_away f q b | r => rounds_to f r q b end.

(** The exact value of an instance, if finite. *)
Definition fvalue (x : fpv) (q : Q) : Prop :=
  exists q', mpfr_value (f_mb (fv_fmt x) + 1) (fv_val x) = Some q' /\ (q' == q)%Q.
(** Exactly one of them holds. *)
Definition exactly_one (l : list bool) : Prop := length (filter (fun b => b) l) = 1%nat.

(** z carries the exact result q, correctly rounded. *)
Definition correct (f : fmt) (q : Q) (z : fpv) : Prop :=
  exists c, reinterpret_as_bv z = Ok (BV (BVC KBV (f_size f)) c) /\
    ((q == 0)%Q -> pat_zero f c) /\ (~ (q == 0)%Q -> rounded f q c).

(** z carries the square root of a, correctly rounded: a has a rational root whose rounding
    is z, or z is the rounding of every rational in an open interval around the root. *)
Definition correct_sqrt (f : fmt) (a : Q) (z : fpv) : Prop :=
  (exists r, (0 <= r)%Q /\ (r * r == a)%Q /\ correct f r z) \/
  (exists lo hi, (0 <= lo)%Q /\ (0 <= hi)%Q /\ (lo * lo < a)%Q /\ (a < hi * hi)%Q /\
     forall q, (lo < q)%Q -> (q < hi)%Q -> correct f q z).

(** k is the integer to which q is rounded in the direction of the type. *)
Definition integral (r : rmode) (q : Q) (k : Z) : Prop :=
  match r with
  | RNE => (Qabs (q - inject_Z k) <= 1 # 2)%Q /\ ((Qabs (q - inject_Z k) == 1 # 2)%Q -> Z.even k = true)
  | RNA => (Qabs q <= Qabs (inject_Z k))%Q /\ (Qabs (q - inject_Z k) < 1)%Q
  | RTP => (q <= inject_Z k)%Q /\ (Qabs (q - inject_Z k) < 1)%Q
  | RTN => (inject_Z k <= q)%Q /\ (Qabs (q - inject_Z k) < 1)%Q
  | RTZ => (Qabs (inject_Z k) <= Qabs q)%Q /\ (Qabs (q - inject_Z k) < 1)%Q
  end.

(** The values a number that is not a NaN can have, and their order. *)
Inductive ext := XInf (s : bool) | XFin (q : Q).
Definition xvalue (x : fpv) (e : ext) : Prop :=
  match e with
  | XInf s => fp_is_infinite x = true /\ is_signed (fv_val x) = s
  | XFin q => fvalue x q
  end.
Definition ext_lt (a b : ext) : Prop :=
  match a, b with
  | XInf s, XInf s' => s = true /\ s' = false
  | XInf s, XFin _ => s = true
  | XFin _, XInf s => s = false
  | XFin p, XFin q => (p < q)%Q
  end.
Definition ext_eq (a b : ext) : Prop :=
  match a, b with
  | XInf s, XInf s' => s = s'
  | XFin p, XFin q => (p == q)%Q
  | _, _ => False
  end.
