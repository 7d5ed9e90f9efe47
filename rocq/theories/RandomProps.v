(** Random bit-vectors (C69). *)
From Coq Require Import Lia.
From Verif Require Import PyBase BVModel BVSpec BVFacts BVProofs RandomSpec.
From Verif Require Import RandomProofs.


(** * C69: random *)
(** lo and hi delimit exactly the numbers of the class; whatever number the source returns, the object denotes it. *)
Theorem C69_random : forall k w, 0 <= w -> (k = KSInt -> 1 <= w) ->
  exists lo hi, (forall z, lo <= z <= hi <-> in_range k w z) /\
  forall draw, lo <= draw lo hi <= hi -> exists x, bv_random k draw w = Ok x /\ wf x /\ bcls x = BVC (random_kind k) w /\ number x = draw lo hi.
Proof. exact C69_random_pf. Qed.
Print Assumptions C69_random.
(** So every value is produced, by the outcome that is its number; and two different outcomes produce two different values. *)
Theorem C69_every_value : forall x, wf x -> bkind x <> KNum -> (bkind x = KSInt -> 1 <= bsize x) ->
  exists draw, (forall lo hi, lo <= hi -> lo <= draw lo hi <= hi) /\ bv_random (bkind x) draw (bsize x) = Ok x.
Proof. exact C69_every_value_pf. Qed.
Print Assumptions C69_every_value.
Theorem C69_injective : forall k w z1 z2, 0 <= w -> (k = KSInt -> 1 <= w) -> in_range k w z1 -> in_range k w z2 ->
  bv_random k (fun _ _ => z1) w = bv_random k (fun _ _ => z2) w -> z1 = z2.
Proof. exact C69_injective_pf. Qed.
Print Assumptions C69_injective.
Theorem C69_zero_width_signed : forall draw, bv_random KSInt draw 0 = Raise EValueError.
Proof. exact C69_zero_width_signed_pf. Qed.
Print Assumptions C69_zero_width_signed.
Example C69_ex : bv_random KSInt (fun lo hi => lo) 4 = Ok (BV (BVC KSInt 4) 8) /\ number (BV (BVC KSInt 4) 8) = -8 /\
  bv_random KUInt (fun lo hi => hi) 4 = Ok (BV (BVC KUInt 4) 15) /\ bv_random KNum (fun lo hi => 3) 4 = Ok (BV (BVC KBV 4) 3).
Proof. vm_compute. auto. Qed.
