(** Model of the conversions of FPVector to and from other Python objects: every branch of __init__ (hwtypes/fp_vector.py:43-82), __float__
    (376-378), and the choice of the context of a class with its check of an inherited one (84-133). Definitions only. *)
From Verif Require Import PyBase FPModel MetaModel FMetaModel.

(** Python's float as a format; its rounding is the one of the conversion. *)
Definition double (r : rmode) : fmt := Fmt 11 52 r true.
(** float(x), fp_vector.py:376-378: mpfr_get_d rounds to a double in the direction of the context. The float is given as the number it is. *)
Definition fp_float (x : fpv) : num :=
  mnum 53 (mpfr_round (fctx (double (f_mode (fv_fmt x)))) (fnum x)).

(** The objects a program passes to the constructor, by the branch of __init__ they take. *)
Inductive pyarg :=
| PMpfr (x : num)                                (* 46-49: an mpfr of any precision *)
| PFP (y : fpv)                                  (* 50-51 *)
| PNumber (x : num)                              (* 52-53: int, float, mpz, mpq *)
| PStr (as_mpfr : option num) (as_mpq : res num) (* 54-63: what gmpy2.mpfr and gmpy2.mpq read in the string *)
| PFloat (x : res num)                           (* 64-65: another object with __float__, what float() gives *)
| PInt (x : res Z)                               (* 66-67: another object with __int__ *)
| PMisc (x : res num).                           (* 68-73: any other object, what gmpy2.mpfr makes of it *)
Definition is_value_error (e : exn) : bool := match e with EValueError => true | _ => false end.
(** The number that is rounded. *)
Definition arg_num (a : pyarg) : res num :=
  match a with
  | PMpfr x | PNumber x => Ok x
  | PFP y => Ok (fnum y)
  | PStr (Some x) _ => Ok x
  | PStr None q => match q with Raise e => if is_value_error e then Raise EValueError else Raise e | Ok x => Ok x end   (* 58-63 *)
  | PFloat x => x
  | PInt z => rmap num_of_int z
  | PMisc x => x                                 (* 71-73: a TypeError becomes a TypeError *)
  end.
(** K(value): an unbound class has no _ctx_ (set_context, 38). *)
Definition fp_new (k : option fmt) (a : pyarg) : res fpv :=
  match k with
  | None => Raise EAttributeError
  | Some f => rmap (fp_init f) (arg_num a)
  end.

(** The _ctx_ a class x itself has, where v is FPVector: __init_subclass__ gives one to every bound class below FPVector, 84-105, 133. *)
Definition own_ctx (s : fmeta) (v x : nat) : option ctx :=
  if fissub s x v && negb (Nat.eqb x v) then option_map fctx (fc_binding (get_fcls s x)) else None.
Fixpoint first_ctx (s : fmeta) (v : nat) (l : list nat) : option ctx :=
  match l with
  | [] => None
  | x :: l => match own_ctx s v x with Some c => Some c | None => first_ctx s v l end
  end.
Definition gmode_eqb (a b : gmode) : bool :=
  match a, b with
  | RoundToNearest, RoundToNearest | RoundAwayZero, RoundAwayZero | RoundUp, RoundUp | RoundDown, RoundDown | RoundToZero, RoundToZero => true
  | _, _ => false
  end.
(** The comparison of contexts, 112-127; the fields that are never set (real_prec, traps, ...) are the defaults on both sides. *)
Definition ctx_eqb (a b : ctx) : bool :=
  (c_prec a =? c_prec b) && gmode_eqb (c_rnd a) (c_rnd b) && (c_emax a =? c_emax b) && (c_emin a =? c_emin b) && eqb (c_sub a) (c_sub b).
(** __init_subclass__ of the class c, 84-133, when c has been made: the context it gets, or the TypeError of 131. A class statement whose body
    defines _ctx_ is not modelled. *)
Definition init_subclass (s : fmeta) (v c : nat) : res (option ctx) :=
  match fc_binding (get_fcls s c) with
  | None => Ok None
  | Some f =>
      match first_ctx s v (tl (fc_mro (get_fcls s c))) with
      | Some k => if ctx_eqb k (fctx f) then Ok (Some (fctx f)) else Raise ETypeError
      | None => Ok (Some (fctx f))
      end
  end.
(** c._ctx_ *)
Definition class_ctx (s : fmeta) (v c : nat) : res ctx :=
  match first_ctx s v (fc_mro (get_fcls s c)) with Some k => Ok k | None => Raise EAttributeError end.
