(** C110, continued: the minimum and the maximum of floating-point values. *)
From Coq Require Import Lia ZArith QArith Qpower Qabs ZifyBool Lqa.
From Verif Require Import PyBase BVModel BVSpec BVFacts BVOps FPModel FPSpec FPRoundFacts FPPatFacts FPEncFacts FPDecFacts FPBracket FPQFacts FPRoundSpec FPInst FPArith FPMore FPProofs FPAlgFacts FPAlgProofs FPMinFacts.
Open Scope Z_scope.
From Verif Require Import FPMinProofs.


(** ** C110: minimum and maximum *)

(** The minimum of several values does not depend on how they are grouped, whatever they are, NaNs and zeros of either sign
    included, nor does the maximum. *)
Theorem C110_minmax_associative : forall f x y w,
  wide f -> instance f x -> instance f y -> instance f w ->
  (exists z, bind (fp_min x (AFP y)) (fun m => fp_min m (AFP w)) = Ok z /\ bind (fp_min y (AFP w)) (fun m => fp_min x (AFP m)) = Ok z) /\
  (exists z, bind (fp_max x (AFP y)) (fun m => fp_max m (AFP w)) = Ok z /\ bind (fp_max y (AFP w)) (fun m => fp_max x (AFP m)) = Ok z).
Proof. exact C110_minmax_associative_pf. Qed.
Print Assumptions C110_minmax_associative.

(** Apart from NaNs they are the minimum and maximum of a total order: equal operands are returned, each absorbs the other (here y
    may be a NaN), and they distribute. *)
Theorem C110_minmax_lattice : forall f x y w,
  wide f -> instance f x -> instance f y -> instance f w -> fp_is_NaN x = false ->
  fp_min x (AFP x) = Ok x /\ fp_max x (AFP x) = Ok x /\
  bind (fp_max x (AFP y)) (fun m => fp_min x (AFP m)) = Ok x /\
  bind (fp_min x (AFP y)) (fun m => fp_max x (AFP m)) = Ok x /\
  (fp_is_NaN y = false -> fp_is_NaN w = false ->
   exists z, bind (fp_max y (AFP w)) (fun m => fp_min x (AFP m)) = Ok z /\
     bind (fp_min x (AFP y)) (fun p => bind (fp_min x (AFP w)) (fun q => fp_max p (AFP q))) = Ok z).
Proof. exact C110_minmax_lattice_pf. Qed.
Print Assumptions C110_minmax_lattice.
(** -0, +0 and a NaN *)
Example C110_minmax_ex :
  let f := Fmt 5 10 RTN true in
  let x := fp_init f (NZero true) in let y := fp_init f (NZero false) in let w := fp_init f (NNaN true) in
  wide f /\ instance f x /\ instance f y /\ instance f w /\ fp_is_NaN x = false /\ x <> y /\
  fp_max x (AFP y) = Ok y /\ fp_min x (AFP y) = Ok x /\ fp_min w (AFP y) = Ok y /\ fp_is_NaN w = true.
Proof.
  cbn zeta. split; [split; cbn; lia|]. do 3 (split; [apply I_init; exact I|]). split; [reflexivity|]. split; [discriminate|].
  repeat split; vm_compute; reflexivity.
Qed.

(** With a NaN neither absorption nor distribution holds: min(NaN, max(NaN, 1)) is 1, and min(0, max(NaN, -1)) is -1 while the
    maximum of min(0, NaN) and min(0, -1) is 0. *)
Theorem C110_minmax_refuted : exists f x y w nan,
  wide f /\ instance f x /\ instance f y /\ instance f w /\ instance f nan /\ fp_is_NaN nan = true /\
  bind (fp_max nan (AFP y)) (fun m => fp_min nan (AFP m)) = Ok y /\ fp_is_NaN y = false /\
  bind (fp_max nan (AFP w)) (fun m => fp_min x (AFP m)) = Ok w /\
  bind (fp_min x (AFP nan)) (fun p => bind (fp_min x (AFP w)) (fun q => fp_max p (AFP q))) = Ok x /\ x <> w.
Proof. exact C110_minmax_refuted_pf. Qed.
Print Assumptions C110_minmax_refuted.
