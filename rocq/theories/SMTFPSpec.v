(** Specification vocabulary for the symbolic floating-point types: the interface of AbstractFPVector, and the meaning
    of terms under an interpretation of the variables and functions. *)
From Verif Require Import PyBase BVModel FPModel SMTFPModel.
Open Scope string_scope.
Open Scope Z_scope.

(** The methods AbstractFPVector declares (fp_vector_abc.py:122-196) that take only floating-point operands: name,
    operands besides self, whether the result is a Bit (otherwise a floating-point value). *)
Definition interface : list (string * nat * bool) :=
  [("fp_abs", 0, false); ("fp_neg", 0, false); ("fp_sqrt", 0, false); ("fp_round_to_integral", 0, false);
   ("fp_add", 1, false); ("fp_sub", 1, false); ("fp_mul", 1, false); ("fp_div", 1, false); ("fp_rem", 1, false);
   ("fp_min", 1, false); ("fp_max", 1, false); ("fp_fma", 2, false);
   ("fp_leq", 1, true); ("fp_lt", 1, true); ("fp_geq", 1, true); ("fp_gt", 1, true); ("fp_eq", 1, true);
   ("fp_is_normal", 0, true); ("fp_is_subnormal", 0, true); ("fp_is_zero", 0, true); ("fp_is_infinite", 0, true);
   ("fp_is_NaN", 0, true); ("fp_is_negative", 0, true); ("fp_is_positive", 0, true)]%nat.

(** An instance of class c: its term has the sort of the class. *)
Definition of_class (c : fcls) (x : sfp) : Prop := sf_cls x = c /\ sort_of (sf_term x) = Some (FBV (fc_size c)).

(** Meaning: variables and functions get integers; a value of sort FBool is 0 or 1, one of sort FBV n is in
    [0, 2^n). *)
Definition norm (s : fsort) (z : Z) : Z :=
  match s with FBool => if z =? 0 then 0 else 1 | FBV n => z mod 2 ^ n end.
Record interp := Interp { iv : string -> Z; ifn : string -> list Z -> Z }.
Fixpoint eval (I : interp) (t : fterm) : Z :=
  match t with
  | TVar n s => norm s (iv I n)
  | TConst z _ => z
  | TNot t => 1 - eval I t
  | TApp f args => norm (snd (snd f)) (ifn I (fst f) (map (eval I) args))
  end.

(** The simplifier keeps sorts and meaning; the identity does. *)
Definition faithful_simp (simp : fterm -> fterm) : Prop :=
  forall t s, sort_of t = Some s -> sort_of (simp t) = Some s /\ forall I, eval I (simp t) = eval I t.

(** The meaning of a result, and its sort. *)
Definition res_term (r : fres) : fterm := match r with RFp x => sf_term x | RBit t => t | RVec _ t => t end.
Definition returns (c : fcls) (bit : bool) (r : fres) : Prop :=
  if bit then exists t, r = RBit t /\ sort_of t = Some FBool
  else exists x, r = RFp x /\ of_class c x.

(** No dot in a name. *)
Definition is_dot (a : ascii) : bool := Ascii.eqb a "."%char.
Fixpoint no_dot (s : string) : bool :=
  match s with EmptyString => true | String a s => negb (is_dot a) && no_dot s end.
