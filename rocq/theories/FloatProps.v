(** Conversions between FPVectors and Python numbers (C95) and the contexts of classes (C96). *)
From Coq Require Import ZArith QArith Lia.
From Verif Require Import PyBase BVModel FPModel FPSpec FPRoundFacts FPPatFacts FPEncFacts FPDecFacts FPBracket FPInst FPArith FPMore MetaModel FMetaModel FMetaSpec FloatModel FloatSpec.
From Verif Require FMetaFacts.
Open Scope Z_scope.
From Verif Require Import FloatProofs.

(** * C95: conversions *)
(** Converting to a type that is at least as wide keeps the number (its sign too), and converting back gives the same value again. *)
Theorem C95_widen : forall f g x, wide f -> wide g -> fits f g -> instance f x ->
  exists y, fp_new (Some g) (PFP x) = Ok y /\ same_number (fnum y) (fnum x) /\ fp_is_NaN y = fp_is_NaN x /\
    (forall q, fvalue x q -> fvalue y q) /\ fp_new (Some f) (PFP y) = Ok x.
Proof. exact C95_widen_pf. Qed.
Print Assumptions C95_widen.
(** float(x) is exact for the types that fit into a double, and K(float(x)) is x; x == float(x) unless x is a NaN. *)
Theorem C95_float : forall f x, wide f -> f_eb f <= 11 -> f_mb f <= 52 -> instance f x ->
  same_number (fp_float x) (fnum x) /\ fp_new (Some f) (PNumber (fp_float x)) = Ok x /\
  (fp_is_NaN x = false -> fp_eq x (ANum (fp_float x)) = Ok true).
Proof. exact C95_float_pf. Qed.
Print Assumptions C95_float.
(** For every type, float(x) is the double that the rounding direction of the type prescribes. *)
Theorem C95_float_rounded : forall f x q, wide f -> instance f x -> fvalue x q ->
  exists d, fp_float x = fnum d /\ correct (double (f_mode f)) q d.
Proof. exact C95_float_rounded_pf. Qed.
Print Assumptions C95_float_rounded.
Theorem C95_float_special : forall f s,
  fp_float (FPV f (MInf s)) = NInf s /\ fp_float (FPV f (MNaN s)) = NNaN s /\ fp_float (FPV f (MZero s)) = NZero s.
Proof. exact C95_float_special_pf. Qed.
Print Assumptions C95_float_special.
(** Any other argument: the number is correctly rounded, once. *)
Theorem C95_construct_partial : forall f a q, wide f -> stands_for a q -> (forall y, a = PFP y -> exists g, wide g /\ instance g y) ->
  exists z, fp_new (Some f) a = Ok z /\ correct f q z.
Proof. exact C95_construct_partial_pf. Qed.
Print Assumptions C95_construct_partial.
(** Missing: the number objects of other libraries. An object with __float__ (numpy.int64, fractions.Fraction, decimal.Decimal) is rounded to a
    double first: with a 60-bit mantissa the integer 2^53 + 1 becomes 2^53. *)
Theorem C95_construct_refuted : exists f n z, wide f /\ fp_new (Some f) (PFloat (Ok (nearest_double (num_of_int n)))) = Ok z /\
  ~ correct f (inject_Z n) z /\ exists w, fp_new (Some f) (PNumber (num_of_int n)) = Ok w /\ correct f (inject_Z n) w.
Proof. exact C95_construct_refuted_pf. Qed.
Print Assumptions C95_construct_refuted.
(** The errors: an unbound class, a string that is no number, a string that is a division by zero, an object no branch accepts; the exceptions of
    __float__ and __int__ go through. *)
Theorem C95_errors : forall f,
  (forall a, fp_new None a = Raise EAttributeError) /\
  fp_new (Some f) (PStr None (Raise EValueError)) = Raise EValueError /\
  fp_new (Some f) (PStr None (Raise EZeroDivision)) = Raise EZeroDivision /\
  fp_new (Some f) (PMisc (Raise ETypeError)) = Raise ETypeError /\
  (forall e, fp_new (Some f) (PFloat (Raise e)) = Raise e /\ fp_new (Some f) (PInt (Raise e)) = Raise e).
Proof. exact C95_errors_pf. Qed.
Print Assumptions C95_errors.
(** * C96: the context of a class *)
(** Making a class never fails because of an inherited context, whatever its bases and the history: the context it gets is the one its own
    parameters determine. *)
Theorem C96_never_conflicts : forall h v c, falive (fmrun h) c = true ->
  init_subclass (fmrun h) v c = Ok (option_map fctx (fc_binding (get_fcls (fmrun h) c))).
Proof. exact C96_never_conflicts_pf. Qed.
Print Assumptions C96_never_conflicts.
(** A class below FPVector computes in the context of its parameters if it is bound, and in none (AttributeError) if it is not. *)
Theorem C96_context : forall h v c, falive (fmrun h) c = true -> fissub (fmrun h) c v = true -> unbound (fmrun h) v ->
  class_ctx (fmrun h) v c = match fc_binding (get_fcls (fmrun h) c) with Some f => Ok (fctx f) | None => Raise EAttributeError end.
Proof. exact C96_context_pf. Qed.
Print Assumptions C96_context.
(** In particular two classes with the same parameters compute alike, and a class and any subclass of it do. *)
Theorem C96_inherited : forall h v c d f, falive (fmrun h) c = true -> falive (fmrun h) d = true -> unbound (fmrun h) v ->
  fsub (fmrun h) c v -> fsub (fmrun h) d c -> fc_binding (get_fcls (fmrun h) c) = Some f ->
  class_ctx (fmrun h) v d = Ok (fctx f) /\ class_ctx (fmrun h) v c = Ok (fctx f).
Proof. exact C96_inherited_pf. Qed.
Print Assumptions C96_inherited.

(** * Examples *)
Definition half := Fmt 5 10 RNE true.
Definition bfloat := Fmt 8 7 RTZ false.
Definition quad := Fmt 15 112 RTP true.
Definition third : fpv := fp_init half (NRat false 1 3).
(** Hypotheses of C95_widen: half fits into quad and into double; 1/3 in half; also a subnormal. *)
Example C95_widen_ex : fits half quad /\ fits half (double RNE) /\ fits bfloat quad /\ ~ fits half bfloat /\
  fp_new (Some quad) (PFP third) = Ok (FPV quad (MFin false (1365 * 2 ^ 102) (-1))) /\ third = FPV half (MFin false 1365 (-1)) /\
  fp_new (Some half) (PFP (FPV quad (MFin false (1365 * 2 ^ 102) (-1)))) = Ok third.
Proof.
  split; [repeat split; cbn; auto; lia|]. split; [repeat split; cbn; auto; lia|]. split; [repeat split; cbn; auto; lia|].
  split; [intros (_ & H & _); cbn in H; lia|]. vm_compute. repeat split.
Qed.
(** Narrowing rounds: the third of quad is not the third of half. *)
Example C95_narrow_ex : fp_new (Some half) (PFP (fp_init quad (NRat false 1 3))) = Ok third /\
  fp_new (Some quad) (PFP third) <> Ok (fp_init quad (NRat false 1 3)).
Proof. split; [vm_compute; reflexivity|vm_compute; discriminate]. Qed.
Example C95_float_ex : fp_float third = NRat false (1365 * 2 ^ 42) (2 ^ 54) /\ fp_eq third (ANum (fp_float third)) = Ok true /\
  fp_float (fp_init quad (NRat false 1 3)) = NRat false (6004799503160662) (2 ^ 54).
Proof. vm_compute. repeat split. Qed.
(** The same third, given as the string '1/3' (which mpfr does not read), as an mpq, and as an object with __float__; '1/0' and 'x'. *)
Example C95_construct_ex : fp_new (Some half) (PStr None (Ok (NRat false 1 3))) = Ok third /\ fp_new (Some half) (PNumber (NRat false 1 3)) = Ok third /\
  fp_new (Some half) (PFloat (Ok (nearest_double (NRat false 1 3)))) = Ok third /\
  stands_for (PStr None (Ok (NRat false 1 3))) (1 # 3) /\ stands_for (PInt (Ok 7)) 7 /\
  fp_new (Some half) (PStr None (Raise EZeroDivision)) = Raise EZeroDivision /\ fp_new None (PInt (Ok 7)) = Raise EAttributeError.
Proof. vm_compute. repeat split. Qed.
(** FPVector (2), class A(FPVector) (3), A[half] (5, with FPVector[half] 4), class B(A[half]) (6): B has the context of half, A none. *)
Definition hctx : list fmcall := (fbuiltin ++ [FMClass [2]; FMIndex 3 (FIdx half)])%nat ++ [FMClass [6]; FMIndex 2 (FIdx bfloat)]%nat.
Example C96_ex : let s := fmrun hctx in
  map (fun c => (falive s c, fissub s c 2, class_ctx s 2 c)) (seq 0 (length (fclasses s)))%nat =
    [(true, false, Raise EAttributeError); (true, false, Raise EAttributeError); (true, true, Raise EAttributeError); (true, true, Raise EAttributeError);
     (true, false, Raise EAttributeError); (true, true, Ok (fctx half)); (true, true, Ok (fctx half)); (true, true, Ok (fctx half)); (true, false, Raise EAttributeError); (true, true, Ok (fctx bfloat))].
Proof. vm_compute. reflexivity. Qed.
