(** Model of hwtypes/fp_vector.py (FPVector) on top of gmpy2/MPFR. Definitions only.

    The first part models the library: what a call of gmpy2.mpfr, of an arithmetic operator
    or of a gmpy2 function does under a context (precision, emin, emax, round, subnormalize).
    gmpy2 is not in /repo; the definitions follow the documented MPFR algorithms: the
    operation is rounded to the precision with an unbounded exponent and a ternary value
    says on which side the exact result lies (mpfr_set_q, mpfr_add, ...), then
    mpfr_check_range applies emin and emax, then mpfr_subnormalize removes the bits below
    2^(emin-1) if the context asks for it. This is the trusted interface of the file.
    The second part models fp_vector.py. *)
From Verif Require Import PyBase BVModel.

(** ** gmpy2 *)

(** The rounding constants of gmpy2 used at fp_vector.py:12-18. *)
Inductive gmode := RoundToNearest | RoundAwayZero | RoundUp | RoundDown | RoundToZero.

(** An mpfr object whose precision is the precision p of the context. [MFin s m E] is
    (-1)^s * m * 2^(E-p) with 2^(p-1) <= m < 2^p, so that 2^(E-1) <= |x| < 2^E (the
    exponent convention of MPFR). Zeros, infinities and NaNs carry a sign. *)
Inductive mpfr :=
| MNaN (s : bool)
| MInf (s : bool)
| MZero (s : bool)
| MFin (s : bool) (m E : Z).

(** gmpy2.context(precision, emin, emax, round, subnormalize). *)
Record ctx := Ctx { c_prec : Z; c_emin : Z; c_emax : Z; c_rnd : gmode; c_sub : bool }.

(** An exact number handed to gmpy2 or computed by an operation before it is rounded:
    [NRat s n d] is (-1)^s * n / d with n and d positive. *)
Inductive num :=
| NNaN (s : bool)
| NInf (s : bool)
| NZero (s : bool)
| NRat (s : bool) (n d : Z).

(** Does the mode round towards zero a number of this sign (MPFR_IS_LIKE_RNDZ)? *)
Definition toward_zero (g : gmode) (s : bool) : bool :=
  match g with
  | RoundToZero => true
  | RoundUp => s
  | RoundDown => negb s
  | _ => false
  end.

(** Is t + r/D, with 0 <= r < D, rounded to t + 1? *)
Definition incr (g : gmode) (s : bool) (t r D : Z) : bool :=
  match g with
  | RoundToNearest => (D <? 2 * r) || ((D =? 2 * r) && Z.odd t)
  | _ => negb (r =? 0) && negb (toward_zero g s)
  end.
Definition round_int (g : gmode) (s : bool) (N D : Z) : Z :=
  N / D + b2z (incr g s (N / D) (N mod D) D).

(** n/d = N/D * 2^e. *)
Definition scaled (n d e : Z) : Z * Z :=
  if 0 <=? e then (n, d * 2 ^ e) else (n * 2 ^ (- e), d).

(** The E with 2^(E-1) <= n/d < 2^E. *)
Definition mag (n d : Z) : Z :=
  let e0 := Z.log2 n - Z.log2 d in
  let '(N, D) := scaled n d e0 in
  if D <=? N then e0 + 1 else e0.

(** A significand that reached 2^p. *)
Definition renorm (p m E : Z) : Z * Z :=
  if m =? 2 ^ p then (2 ^ (p - 1), E + 1) else (m, E).

(** mpfr_set_q (and any correctly rounded operation): significand, exponent, and the sign
    of |rounded| - |exact| (the ternary value up to the sign of the number). *)
Definition rnd_set (p : Z) (g : gmode) (s : bool) (n d : Z) : Z * Z * Z :=
  let E := mag n d in
  let '(N, D) := scaled n d (E - p) in
  let t := round_int g s N D in
  let '(m, E') := renorm p t E in
  (m, E', Z.sgn (t * D - N)).

(** mpfr_check_range. In the underflow case under RoundToNearest the number becomes zero if
    it is below 2^(emin-2), or equal to it and the exact value is not above. *)
Definition check_range (c : ctx) (s : bool) (m E tern : Z) : mpfr :=
  if E <? c_emin c then
    let to_zero :=
      match c_rnd c with
      | RoundToNearest =>
          (E + 1 <? c_emin c) || ((m =? 2 ^ (c_prec c - 1)) && (0 <=? tern))
      | g => toward_zero g s
      end in
    if to_zero then MZero s else MFin s (2 ^ (c_prec c - 1)) (c_emin c)
  else if c_emax c <? E then
    if toward_zero (c_rnd c) s then MFin s (2 ^ c_prec c - 1) (c_emax c) else MInf s
  else MFin s m E.

(** mpfr_subnormalize: for emin <= E <= emin+p-2 the significand loses its last emin+p-1-E
    bits; a tie under RoundToNearest is broken by the ternary value of the first rounding. *)
Definition subnormalize (c : ctx) (s : bool) (m E tern : Z) : mpfr :=
  if (c_emin c <=? E) && (E <=? c_emin c + c_prec c - 2) then
    let D := 2 ^ (c_emin c + c_prec c - 1 - E) in
    let t := m / D in
    let r := m mod D in
    let up :=
      match c_rnd c with
      | RoundToNearest =>
          (D <? 2 * r)
          || ((D =? 2 * r) && ((tern <? 0) || ((tern =? 0) && Z.odd t)))
      | g => negb (r =? 0) && negb (toward_zero g s)
      end in
    let '(m', E') := renorm (c_prec c) ((t + b2z up) * D) E in
    MFin s m' E'
  else MFin s m E.

(** What gmpy2 does with the result of every operation (check the range, then
    subnormalize if the context says so). A range error changes the ternary value, but then
    the significand is a power of two or all ones, at an exponent where the ternary
    value is not looked at (ties do not arise). *)
Definition finish (c : ctx) (s : bool) (m E tern : Z) : mpfr :=
  match check_range c s m E tern with
  | MFin s m' E' =>
      if c_sub c then subnormalize c s m' E' tern else MFin s m' E'
  | v => v
  end.
Definition mpfr_round (c : ctx) (x : num) : mpfr :=
  match x with
  | NNaN s => MNaN s
  | NInf s => MInf s
  | NZero s => MZero s
  | NRat s n d =>
      let '(m, E, tern) := rnd_set (c_prec c) (c_rnd c) s n d in
      finish c s m E tern
  end.

(** The exact number an mpfr object stands for. *)
Definition mnum (p : Z) (v : mpfr) : num :=
  match v with
  | MNaN s => NNaN s
  | MInf s => NInf s
  | MZero s => NZero s
  | MFin s m E => if p <=? E then NRat s (m * 2 ^ (E - p)) 1 else NRat s m (2 ^ (p - E))
  end.

(** Exact arithmetic behind +, -, *, / and fma, with the special cases of IEEE 754 (an
    exact zero sum is +0, or -0 when rounding down). NaN results have a clear sign. *)
Definition sgnz (s : bool) (n : Z) : Z := if s then - n else n.
Definition num_neg (x : num) : num :=
  match x with
  | NNaN s => NNaN (negb s)
  | NInf s => NInf (negb s)
  | NZero s => NZero (negb s)
  | NRat s n d => NRat (negb s) n d
  end.
Definition is_down (g : gmode) : bool := match g with RoundDown => true | _ => false end.
Definition num_add (g : gmode) (x y : num) : num :=
  match x, y with
  | NNaN _, _ | _, NNaN _ => NNaN false
  | NInf s, NInf s' => if eqb s s' then NInf s else NNaN false
  | NInf s, _ => NInf s
  | _, NInf s => NInf s
  | NZero s, NZero s' => if eqb s s' then NZero s else NZero (is_down g)
  | NZero _, y => y
  | x, NZero _ => x
  | NRat s n d, NRat s' n' d' =>
      let k := sgnz s n * d' + sgnz s' n' * d in
      if k =? 0 then NZero (is_down g) else NRat (k <? 0) (Z.abs k) (d * d')
  end.
Definition num_sub (g : gmode) (x y : num) : num := num_add g x (num_neg y).
Definition num_mul (x y : num) : num :=
  match x, y with
  | NNaN _, _ | _, NNaN _ => NNaN false
  | NInf _, NZero _ | NZero _, NInf _ => NNaN false
  | NInf s, (NInf s' | NRat s' _ _) => NInf (xorb s s')
  | NRat s _ _, NInf s' => NInf (xorb s s')
  | NZero s, (NZero s' | NRat s' _ _) => NZero (xorb s s')
  | NRat s _ _, NZero s' => NZero (xorb s s')
  | NRat s n d, NRat s' n' d' => NRat (xorb s s') (n * n') (d * d')
  end.
Definition num_div (x y : num) : num :=
  match x, y with
  | NNaN _, _ | _, NNaN _ => NNaN false
  | NInf _, NInf _ | NZero _, NZero _ => NNaN false
  | NInf s, (NZero s' | NRat s' _ _) => NInf (xorb s s')
  | NZero s, (NInf s' | NRat s' _ _) => NZero (xorb s s')
  | NRat s _ _, NInf s' => NZero (xorb s s')
  | NRat s _ _, NZero s' => NInf (xorb s s')
  | NRat s n d, NRat s' n' d' => NRat (xorb s s') (n * d') (d * n')
  end.
Definition num_fma (g : gmode) (x y z : num) : num := num_add g (num_mul x y) z.

(** Comparison of two mpfr objects: None if one of them is a NaN. *)
Definition num_cmp (x y : num) : option comparison :=
  match x, y with
  | NNaN _, _ | _, NNaN _ => None
  | NInf s, NInf s' => Some (if eqb s s' then Eq else if s then Lt else Gt)
  | NInf s, _ => Some (if s then Lt else Gt)
  | _, NInf s => Some (if s then Gt else Lt)
  | NZero _, NZero _ => Some Eq
  | NZero _, NRat s _ _ => Some (if s then Gt else Lt)
  | NRat s _ _, NZero _ => Some (if s then Lt else Gt)
  | NRat s n d, NRat s' n' d' => Some (sgnz s n * d' ?= sgnz s' n' * d)
  end.
Definition cmp_lt (o : option comparison) : bool := match o with Some Lt => true | _ => false end.
Definition cmp_le (o : option comparison) : bool :=
  match o with Some (Lt | Eq) => true | _ => false end.
Definition cmp_gt (o : option comparison) : bool := match o with Some Gt => true | _ => false end.
Definition cmp_ge (o : option comparison) : bool :=
  match o with Some (Gt | Eq) => true | _ => false end.
Definition cmp_eq (o : option comparison) : bool := match o with Some Eq => true | _ => false end.

(** gmpy2.minnum and maxnum (mpfr_min, mpfr_max): a NaN is ignored unless both are; -0 is
    below +0. *)
Definition num_sign (x : num) : bool :=
  match x with NNaN s | NInf s | NZero s | NRat s _ _ => s end.
Definition num_min (x y : num) : num :=
  match x, y with
  | NNaN _, NNaN _ => NNaN false
  | NNaN _, _ => y
  | _, NNaN _ => x
  | NZero s, NZero _ => if s then x else y
  | _, _ => if cmp_le (num_cmp x y) then x else y
  end.
Definition num_max (x y : num) : num :=
  match x, y with
  | NNaN _, NNaN _ => NNaN false
  | NNaN _, _ => y
  | _, NNaN _ => x
  | NZero s, NZero _ => if s then y else x
  | _, _ => if cmp_le (num_cmp x y) then y else x
  end.

(** gmpy2.remainder (mpfr_remainder): x - k*y, k the integer nearest to x/y, ties to even;
    a zero result has the sign of x. *)
Definition num_rem (x y : num) : num :=
  match x, y with
  | NNaN _, _ | _, NNaN _ => NNaN false
  | NInf _, _ | _, NZero _ => NNaN false
  | NZero s, _ => NZero s
  | NRat _ _ _, NInf _ => x
  | NRat s n d, NRat _ n' d' =>
      let k := round_int RoundToNearest false (n * d') (d * n') in
      let r := n * d' - k * (d * n') in
      if r =? 0 then NZero s else NRat (xorb s (r <? 0)) (Z.abs r) (d * d')
  end.

(** gmpy2.rint (mpfr_rint): the integer in the direction of the context. *)
Definition num_rint (g : gmode) (x : num) : num :=
  match x with
  | NRat s n d =>
      let k := round_int g s n d in
      if k =? 0 then NZero s else NRat s k 1
  | _ => x
  end.

(** gmpy2.sqrt (mpfr_sqrt): the root has about half the exponent; the significand is the
    integer part of the scaled root, incremented as the mode and the remainder say. The
    last component is the sign of rounded - exact. *)
Definition sqrt_set (p : Z) (g : gmode) (n d : Z) : Z * Z * Z :=
  let E := (mag n d + 1) / 2 in
  let '(N, D) := scaled n d (2 * (E - p)) in
  let k := Z.sqrt (N / D) in
  let half := (2 * k + 1) * (2 * k + 1) * D in
  let up :=
    match g with
    | RoundToNearest => (half <? 4 * N) || ((half =? 4 * N) && Z.odd k)
    | _ => negb (k * k * D =? N) && negb (toward_zero g false)
    end in
  let t := k + b2z up in
  let '(m, E') := renorm p t E in
  (m, E', Z.sgn (t * t * D - N)).
(** With allow_complex=False (fp_vector.py:104) the root of a negative number is a NaN. *)
Definition mpfr_sqrt (c : ctx) (x : num) : mpfr :=
  match x with
  | NNaN _ | NInf true | NRat true _ _ => MNaN false
  | NInf false => MInf false
  | NZero s => MZero s
  | NRat false n d =>
      let '(m, E, tern) := sqrt_set (c_prec c) (c_rnd c) n d in
      finish c false m E tern
  end.

(** is_signed, is_zero, is_infinite, is_nan. *)
Definition is_signed (v : mpfr) : bool :=
  match v with MNaN s | MInf s | MZero s | MFin s _ _ => s end.
Definition is_zero (v : mpfr) : bool := match v with MZero _ => true | _ => false end.
Definition is_infinite (v : mpfr) : bool := match v with MInf _ => true | _ => false end.
Definition is_nan (v : mpfr) : bool := match v with MNaN _ => true | _ => false end.

(** v.as_mantissa_exp(): the signed p-bit significand and its exponent (finite nonzero v). *)
Definition as_mantissa_exp (p : Z) (s : bool) (m E : Z) : Z * Z := (sgnz s m, E - p).

(** ** fp_vector_abc.py *)

(** RoundingMode, fp_vector_abc.py:9-14. *)
Inductive rmode := RNE | RNA | RTP | RTN | RTZ.

(** The binding (exponent bits, mantissa bits, mode, ieee_compliance) of a bound class,
    fp_vector_abc.py:17, 93-119. *)
Record fmt := Fmt { f_eb : Z; f_mb : Z; f_mode : rmode; f_ieee : bool }.

(** Class indexing accepts these, fp_vector_abc.py:60-61. *)
Definition fmt_ok (f : fmt) : bool := negb ((f_eb f <=? 0) || (f_mb f <=? 0)).

(** size, fp_vector_abc.py:82-83. *)
Definition f_size (f : fmt) : Z := 1 + f_eb f + f_mb f.

(** == on bindings (tuples), used at fp_vector.py:23. *)
Definition rmode_eqb (a b : rmode) : bool :=
  match a, b with
  | RNE, RNE | RNA, RNA | RTP, RTP | RTN, RTN | RTZ, RTZ => true
  | _, _ => false
  end.
Definition fmt_eqb (a b : fmt) : bool :=
  (f_eb a =? f_eb b) && (f_mb a =? f_mb b) && rmode_eqb (f_mode a) (f_mode b)
  && eqb (f_ieee a) (f_ieee b).

(** ** fp_vector.py *)

(** _mode_2_gmpy2, fp_vector.py:12-18. *)
Definition mode_2_gmpy2 (r : rmode) : gmode :=
  match r with
  | RNE => RoundToNearest
  | RNA => RoundAwayZero
  | RTP => RoundUp
  | RTN => RoundDown
  | RTZ => RoundToZero
  end.

(** The context of a bound class, __init_subclass__, fp_vector.py:84-105 and 133. The check
    that an inherited _ctx_ is the same (107-131) is left out: it is computed from the same
    binding. *)
Definition fctx (f : fmt) : ctx :=
  let precision := f_mb f + 1 in
  let emax := Z.shiftl 1 (f_eb f - 1) in
  let emin := if f_ieee f then 4 - emax - precision else 3 - emax in
  Ctx precision emin emax (mode_2_gmpy2 (f_mode f)) (f_ieee f).

(** An instance: its binding and _value. The class itself is not modelled; every method
    builds its result with type(self). *)
Record fpv := FPV { fv_fmt : fmt; fv_val : mpfr }.

(** The end of __init__, fp_vector.py:75-82. *)
Definition fp_store (f : fmt) (v : mpfr) : fpv :=
  if is_nan v && negb (f_ieee f)
  then FPV f (if is_signed v then MInf true else MInf false)
  else FPV f v.

(** __init__, fp_vector.py:43-82: the argument is given as the exact number it denotes (an
    int, float, mpz, mpq, mpfr, FPVector, or a number in a string); gmpy2.mpfr rounds it
    under the context. Arguments that are not numbers (TypeError, ValueError) are not
    modelled. *)
Definition fp_init (f : fmt) (x : num) : fpv := fp_store f (mpfr_round (fctx f) x).

(** type(self)(v) for an mpfr v that comes out of an operation under the same context,
    fp_vector.py:46-49. gmpy2.mpfr returns NaNs and infinities as they are. *)
Definition fp_wrap (f : fmt) (v : mpfr) : fpv := fp_init f (mnum (c_prec (fctx f)) v).

(** Arguments of the methods: an FPVector or a number. *)
Inductive fparg := AFP (y : fpv) | ANum (x : num).

(** _coerce, fp_vector.py:20-26. *)
Definition fp_coerce (f : fmt) (a : fparg) : res fpv :=
  match a with
  | ANum x => Ok (fp_init f x)
  | AFP y => if negb (fmt_eqb (fv_fmt y) f) then Raise ETypeError else Ok y
  end.

(** The exact number of an instance. *)
Definition fnum (x : fpv) : num := mnum (c_prec (fctx (fv_fmt x))) (fv_val x).

(** An operation under set_context (35-40): the exact result is rounded by gmpy2 under the
    context of the class, and wrapped. *)
Definition fp_op (f : fmt) (r : num) : fpv := fp_wrap f (mpfr_round (fctx f) r).

(** fp_abs, fp_vector.py:140-143. *)
Definition fp_abs (x : fpv) : fpv :=
  let f := fv_fmt x in
  if cmp_ge (num_cmp (fnum x) (NZero false)) then fp_wrap f (fv_val x)
  else fp_op f (num_neg (fnum x)).
(** fp_neg, fp_vector.py:145-147. *)
Definition fp_neg (x : fpv) : fpv := fp_op (fv_fmt x) (num_neg (fnum x)).

(** fp_cast, fp_vector.py:28-33. *)
Definition fp_cast {A} (fn : fpv -> fpv -> A) (self : fpv) (other : fparg) : res A :=
  y <- fp_coerce (fv_fmt self) other ;; Ok (fn self y).
Definition arith (h : gmode -> num -> num -> num) : fpv -> fparg -> res fpv :=
  fp_cast (fun x y =>
    let f := fv_fmt x in fp_op f (h (mode_2_gmpy2 (f_mode f)) (fnum x) (fnum y))).

(** fp_vector.py:149-167. *)
Definition fp_add := arith num_add.
Definition fp_sub := arith num_sub.
Definition fp_mul := arith (fun _ => num_mul).
Definition fp_div := arith (fun _ => num_div).
(** fp_fma, fp_vector.py:169-174. *)
Definition fp_fma (x : fpv) (coef offset : fparg) : res fpv :=
  let f := fv_fmt x in
  y <- fp_coerce f coef ;;
  z <- fp_coerce f offset ;;
  Ok (fp_op f (num_fma (mode_2_gmpy2 (f_mode f)) (fnum x) (fnum y) (fnum z))).
(** fp_sqrt, fp_vector.py:176-178. *)
Definition fp_sqrt (x : fpv) : fpv :=
  let f := fv_fmt x in fp_wrap f (mpfr_sqrt (fctx f) (fnum x)).
(** fp_rem, fp_vector.py:180-183; fp_round_to_integral, 185-187; fp_min and fp_max, 189-197. *)
Definition fp_rem := arith (fun _ => num_rem).
Definition fp_round_to_integral (x : fpv) : fpv :=
  let f := fv_fmt x in fp_op f (num_rint (mode_2_gmpy2 (f_mode f)) (fnum x)).
Definition fp_min := arith (fun _ => num_min).
Definition fp_max := arith (fun _ => num_max).

(** Comparisons, fp_vector.py:199-222; the Bit is its boolean. *)
Definition compare_op (h : option comparison -> bool) : fpv -> fparg -> res bool :=
  fp_cast (fun x y => h (num_cmp (fnum x) (fnum y))).
Definition fp_leq := compare_op cmp_le.
Definition fp_lt := compare_op cmp_lt.
Definition fp_geq := compare_op cmp_ge.
Definition fp_gt := compare_op cmp_gt.
Definition fp_eq := compare_op cmp_eq.
(** __ne__, fp_vector.py:372. *)
Definition fp_ne (x : fpv) (a : fparg) : res bool := rmap negb (fp_eq x a).

(** fp_vector.py:238-256. *)
Definition fp_is_zero (x : fpv) : bool := is_zero (fv_val x).
Definition fp_is_infinite (x : fpv) : bool := is_infinite (fv_val x).
Definition fp_is_NaN (x : fpv) : bool := is_nan (fv_val x).
Definition fp_is_negative (x : fpv) : bool := cmp_lt (num_cmp (fnum x) (NZero false)).
Definition fp_is_positive (x : fpv) : bool := cmp_gt (num_cmp (fnum x) (NZero false)).

(** int(v) of an mpfr object: NaNs raise ValueError, infinities OverflowError. Which of the
    two neighbours a number that is not an integer becomes depends on the release of gmpy2;
    it is given by the mode g. *)
Definition mpfr_int (g : gmode) (x : num) : res Z :=
  match x with
  | NNaN _ => Raise EValueError
  | NInf _ => Raise EOverflow
  | NZero _ => Ok 0
  | NRat s n d => Ok (sgnz s (round_int g s n d))
  end.
(** to_ubv and to_sbv, fp_vector.py:258-264. *)
Definition to_bv (k : kind) (g : gmode) (x : fpv) (size : Z) : res bv :=
  c <- sized k size ;; z <- mpfr_int g (fnum x) ;; bv_init c (VInt z).
Definition to_ubv := to_bv KBV.
Definition to_sbv := to_bv KSInt.

(** reinterpret_as_bv, fp_vector.py:266-310. The while loop at 295-297 shifts the significand
    right once for each missing exponent step (warnings dropped). *)
Definition reinterpret_as_bv (x : fpv) : res bv :=
  let f := fv_fmt x in
  sign_bit <- construct KBV 1 (VBool (is_signed (fv_val x))) ;;
  if fp_is_zero x then
    z <- construct KBV (f_size f - 1) (VInt 0) ;; concat z (VBV sign_bit)
  else if fp_is_infinite x || fp_is_NaN x then
    exp_bits <- construct KBV (f_eb f) (VInt (-1)) ;;
    mantissa_bits <- construct KBV (f_mb f) (VInt (if fp_is_infinite x then 0 else 1)) ;;
    a <- concat mantissa_bits (VBV exp_bits) ;; concat a (VBV sign_bit)
  else
    match fv_val x with
    | MFin s m E =>
        let bias := Z.shiftl 1 (f_eb f - 1) - 1 in
        let '(mantissa_int, exp) := as_mantissa_exp (c_prec (fctx f)) s m E in
        let exp := exp + f_mb f in
        let '(mantissa_int, exp) :=
          if exp <? 1 - bias then
            (if negb (f_ieee f) then 0 else Z.shiftr mantissa_int (1 - bias - exp), 0)
          else (mantissa_int, exp + bias) in
        if negb (bit_length exp <=? f_eb f) then Raise EAssertion else
        b <- bv_bool sign_bit ;;
        man <- construct KBV (f_mb f + 1) (VInt mantissa_int) ;;
        let man := if (b : bool) then bvneg man else man in
        exp_bits <- construct KBV (f_eb f) (VInt exp) ;;
        mantissa_bits <- getitem_slice man None (Some (f_mb f)) None ;;
        a <- concat mantissa_bits (VBV exp_bits) ;; concat a (VBV sign_bit)
    | _ => Raise EOutOfModel
    end.

(** fp_is_subnormal, fp_vector.py:228-235. *)
Definition fp_is_subnormal (x : fpv) : res bool :=
  b <- reinterpret_as_bv x ;;
  e <- getitem_slice b (Some (f_mb (fv_fmt x))) (Some (-1)) None ;;
  z <- bveq e (VInt 0) ;;
  if (z : bool) && negb (fp_is_zero x)
  then if f_ieee (fv_fmt x) then Ok true else Raise EAssertion
  else Ok false.
(** fp_is_normal, fp_vector.py:224-226. *)
Definition fp_is_normal (x : fpv) : res bool :=
  s <- fp_is_subnormal x ;;
  Ok (negb (fp_is_zero x || fp_is_infinite x || s || fp_is_NaN x)).

(** gmpy2.mpfr(s, precision, 2) on the string [sign][lead].[digits]e[exponent] built at
    fp_vector.py:335-338 and 357-360. The string is given in its parts; the digits are read
    one by one. *)
Fixpoint read_digits (acc : Z) (s : string) : Z :=
  match s with
  | EmptyString => acc
  | String c s => read_digits (2 * acc + (if ascii_dec c "1"%char then 1 else 0)) s
  end.
Definition mpfr_of_string (c : ctx) (neg : bool) (lead : Z) (digits : string) (exponent : Z) : mpfr :=
  let n := read_digits lead digits in
  let e := exponent - Z.of_nat (String.length digits) in
  if n =? 0 then MZero neg
  else mpfr_round c (if 0 <=? e then NRat neg (n * 2 ^ e) 1 else NRat neg n (2 ^ (- e))).

(** reinterpret_from_bv, fp_vector.py:312-360 (warnings dropped). *)
Definition reinterpret_from_bv (f : fmt) (value : bv) : res fpv :=
  if negb (f_size f =? bsize value) then Raise ETypeError else
  mantissa <- getitem_slice value None (Some (f_mb f)) None ;;
  exp <- getitem_slice value (Some (f_mb f)) (Some (-1)) None ;;
  sign <- getitem_slice value (Some (-1)) None None ;;
  if negb (bsize exp =? f_eb f) then Raise EAssertion else
  let bias := Z.shiftl 1 (f_eb f - 1) - 1 in
  e0 <- bveq exp (VInt 0) ;;
  if (e0 : bool) then
    mnz <- bvne mantissa (VInt 0) ;;
    sb <- getitem_int sign 0 ;;
    if (mnz : bool) then
      if negb (f_ieee f) then Ok (fp_init f (NZero sb))
      else Ok (fp_wrap f (mpfr_of_string (fctx f) sb 0 (binary_string mantissa) (1 - bias)))
    else Ok (fp_init f (NZero sb))
  else
    em <- bveq exp (VInt (-1)) ;;
    if (em : bool) then
      mz <- bveq mantissa (VInt 0) ;;
      if (mz : bool) then sb <- bv_bool sign ;; Ok (fp_init f (NInf sb))
      else Ok (fp_init f (NNaN false))
    else
      ub <- bvsub exp (VInt bias) ;;
      sb <- getitem_int sign 0 ;;
      e <- as_sint (rv_val exp ub) ;;
      Ok (fp_wrap f (mpfr_of_string (fctx f) sb 1 (binary_string mantissa) e)).

(** x ** y of two mpfr objects for a positive x and an integer y (the only use, 388 and 393). *)
Definition num_pow (x y : num) : num :=
  match x, y with
  | _, NZero _ => NRat false 1 1
  | NRat false n d, NRat s a b =>
      let k := a / b in if s then NRat false (d ^ k) (n ^ k) else NRat false (n ^ k) (d ^ k)
  | _, _ => NNaN false
  end.
Definition num_of_int (z : Z) : num := if z =? 0 then NZero false else NRat (z <? 0) (Z.abs z) 1.
(** random, fp_vector.py:380-393: u is what gmpy2.mpfr_random returns for a fresh
    gmpy2.random_state(), sign the random.choice, exp the random.randint between 1-bias and
    bias+1 (allow_inf) or bias. Every operation is rounded under the context. *)
Definition random_ok (f : fmt) (allow_inf : bool) (exp : Z) : bool :=
  let bias := Z.shiftl 1 (f_eb f - 1) - 1 in
  (1 - bias <=? exp) && (exp <=? if allow_inf then bias + 1 else bias).
Definition fp_random (f : fmt) (u : num) (sign : bool) (exp : Z) : fpv :=
  let c := fctx f in
  let rd x := mnum (c_prec c) (mpfr_round c x) in
  let mantissa := rd (num_add (c_rnd c) u (NRat false 1 1)) in
  let p := rd (num_pow (rd (NRat false 2 1)) (rd (num_of_int exp))) in
  fp_wrap f (mpfr_round c (num_mul (rd (num_mul mantissa (NRat sign 1 1))) p)).
