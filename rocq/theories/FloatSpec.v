(** Specification of the conversions of FPVector to and from Python numbers. *)
From Coq Require Import ZArith QArith.
From Verif Require Import PyBase FPModel FPSpec FloatModel.
Open Scope Z_scope.

(** Every value of the type f is one of the type g. *)
Definition fits (f g : fmt) : Prop := f_eb f <= f_eb g /\ f_mb f <= f_mb g /\ (f_ieee f = true -> f_ieee g = true).
(** The exact value the argument stands for. *)
Definition stands_for (a : pyarg) (q : Q) : Prop :=
  match a with
  | PMpfr x | PNumber x | PStr (Some x) _ | PStr None (Ok x) | PFloat (Ok x) | PMisc (Ok x) => num_value x q
  | PFP y => fvalue y q
  | PInt (Ok z) => (q == inject_Z z)%Q
  | _ => False
  end.
(** What Python's float() makes of an exact number: the nearest double. *)
Definition nearest_double (x : num) : num := fnum (fp_init (double RNE) x).
(** The extended number x is: finite, an infinity or a NaN, with its sign. *)
Definition same_number (x y : num) : Prop :=
  match x, y with
  | NNaN s, NNaN s' | NInf s, NInf s' | NZero s, NZero s' => s = s'
  | NRat s n d, NRat s' n' d' => s = s' /\ n * d' = n' * d
  | _, _ => False
  end.
