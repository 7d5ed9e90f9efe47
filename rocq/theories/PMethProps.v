(** C89: named methods of polymorphic values. *)
From Coq Require Import Lia ZifyBool.
From Verif Require Import PyBase BVModel BVSpec BVFacts BVOps BVPropFacts BVProofs OpModel OpSpec OpFacts IteModel IteSpec IteFacts SMTSpec PMethModel PMethSpec.
From Verif Require Import PMethProofs.


(** C89: every named method except ext and concat, called on v = c.ite(a, b), gives what it gives on the selected one: vectors of the same
    size and value, the same Bits and ints, the same exception *)
Theorem C89_methods : forall h tab c i j a b v id' m n,
  nth_error (objs (hrun h)) i = Some a -> nth_error (objs (hrun h)) j = Some b ->
  ite tab (next_id (hrun h)) c (BrVec a) (BrVec b) = Ok (BrVec v, id') -> plain_call m ->
  same_outcome (p_call n m v) (p_call n m (if c then a else b)).
Proof. exact C89_methods_pf. Qed.
Print Assumptions C89_methods.
(** C89: what the methods compute on a vector of any class, polymorphic or not: the results are in that class *)
Theorem C89_values : forall id x a u d c, pwf x -> 1 <= pn x -> operand (pn x) (arg_val a) u -> operand 1 (arg_val d) c ->
  let n := pn x in let s := signed n (pv x) in let vec w := Ok ([IVec (PObj (pc x) n w)], id) in
  (exists w, p_call id (CRol a) x = vec w /\ 0 <= w < 2 ^ n /\ forall i, 0 <= i < n -> Z.testbit w i = Z.testbit (pv x) ((i - u) mod n)) /\
  (exists w, p_call id (CRor a) x = vec w /\ 0 <= w < 2 ^ n /\ forall i, 0 <= i < n -> Z.testbit w i = Z.testbit (pv x) ((i + u) mod n)) /\
  p_call id (CSdiv a) x = vec (if u =? 0 then 2 ^ n - 1 else (s / signed n u) mod 2 ^ n) /\
  p_call id (CSrem a) x = vec (if u =? 0 then pv x else (s mod signed n u) mod 2 ^ n) /\
  p_call id CNot x = vec (2 ^ n - 1 - pv x) /\ p_call id CNeg x = vec ((- pv x) mod 2 ^ n) /\
  (exists w co, p_call id (CAdc a d) x = Ok ([IVec (PObj (pc x) n w); IBit co], id) /\ 0 <= w < 2 ^ n /\ w + 2 ^ n * (if co then 1 else 0) = pv x + u + c) /\
  p_call id CUint x = Ok ([INum (pv x)], id) /\ p_call id CSint x = Ok ([INum s], id) /\
  (forall i, - n <= i < n -> p_call id (CItem i) x = Ok ([IBit (Z.testbit (pv x) (i mod n))], id)).
Proof. exact C89_values_pf. Qed.
Print Assumptions C89_values.
Example C89_values_ex : let v := PObj (PPoly 0 (PBase KSInt) (PBase KUInt) true) 4 9 in
  pwf v /\ operand (pn v) (arg_val (AOther (VInt 3))) 3 /\ operand 1 (arg_val (AOther (VBit true))) 1 /\
  p_call 5 (CAdc (AOther (VInt 3)) (AOther (VBit true))) v = Ok ([IVec (PObj (pc v) 4 13); IBit false], 5%nat) /\
  p_call 5 (CSdiv (AOther (VInt 3))) v = Ok ([IVec (PObj (pc v) 4 13)], 5%nat).
Proof.
  cbv zeta. split; [split; cbn; lia|]. split; [apply Op_conv; [discriminate|exact (Cv_int 4 3)]|].
  split; [apply Op_conv; [discriminate|exact (Cv_bit 1 true)]|]. split; vm_compute; reflexivity.
Qed.
(** C89: ext by a positive amount extends with the sign exactly if the selected vector is signed *)
Theorem C89_ext : forall h tab c i j a b v id' e n,
  nth_error (objs (hrun h)) i = Some a -> nth_error (objs (hrun h)) j = Some b ->
  ite tab (next_id (hrun h)) c (BrVec a) (BrVec b) = Ok (BrVec v, id') -> 1 <= pn a -> 1 <= e ->
  let s := if c then a else b in
  let u := if is_signed (selected_kind (pc s)) then signed (pn s) (pv s) mod 2 ^ (pn s + e) else pv s in
  p_call n (CExt e) v = Ok ([IVec (PObj (pc v) (pn a + e) u)], n) /\ p_call n (CExt e) s = Ok ([IVec (PObj (pc s) (pn a + e) u)], n).
Proof. exact C89_ext_pf. Qed.
Print Assumptions C89_ext.
(** C89: ext by a negative amount raises ValueError *)
Theorem C89_ext_negative : forall id x e, e < 0 -> p_call id (CExt e) x = Raise EValueError.
Proof. exact C89_ext_negative_pf. Qed.
Print Assumptions C89_ext_negative.
(** C89: not for ext by 0: the method of the other branch runs too, and sext(0) raises. With v = Bit(1).ite(UIntVector[4](5), SIntVector[4](3)),
    v.ext(0) raises ValueError although UIntVector[4](5).ext(0) is 5 *)
Theorem C89_ext_zero_refuted : exists h tab c a b v id' r, nth_error (objs (hrun h)) 0 = Some a /\ nth_error (objs (hrun h)) 1 = Some b /\
  ite tab (next_id (hrun h)) c (BrVec a) (BrVec b) = Ok (BrVec v, id') /\
  p_call id' (CExt 0) v = Raise EValueError /\ p_call id' (CExt 0) (if c then a else b) = Ok (r, id').
Proof. exact C89_ext_zero_refuted_pf. Qed.
Print Assumptions C89_ext_zero_refuted.
(** C89: concat of two vectors of the class of v, of any sizes: the first is the low part *)
Theorem C89_concat : forall id x y, pwf x -> pwf y -> pc y = pc x ->
  p_call id (CConcat y) x = Ok ([IVec (PObj (pc x) (pn x + pn y) (pv x + pv y * 2 ^ pn x))], id).
Proof. exact C89_concat_pf. Qed.
Print Assumptions C89_concat.
(** C89: x.concat(v) for a vector x of a built-in class and v = c.ite(a, b): accepted exactly if both a and b are, because the class of v
    has the most specific built-in class above those of a and b; the value is then the one with the selected vector *)
Theorem C89_concat_builtin : forall h tab c i j a b v id' k n x u id,
  nth_error (objs (hrun h)) i = Some a -> nth_error (objs (hrun h)) j = Some b ->
  ite tab (next_id (hrun h)) c (BrVec a) (BrVec b) = Ok (BrVec v, id') -> x = PObj (PBase k) n u -> pwf x ->
  (p_call id (CConcat v) x = Raise ETypeError /\
     (p_call id (CConcat a) x = Raise ETypeError \/ p_call id (CConcat b) x = Raise ETypeError)) \/
  (exists r, p_call id (CConcat v) x = Ok r /\ p_call id (CConcat (if c then a else b)) x = Ok r /\
     forall y, y = a \/ y = b -> exists q, p_call id (CConcat y) x = Ok q).
Proof. exact C89_concat_builtin_pf. Qed.
Print Assumptions C89_concat_builtin.
Example C89_concat_builtin_ex : let h := [HNew KUInt 4 5; HNew KSInt 4 3; HIte true 0 1; HNew KBV 4 1; HIte false 2 3] in
  let num := PObj (PBase KNum) 4 7 in
  exists v w, nth_error (objs (hrun h)) 2 = Some v /\ nth_error (objs (hrun h)) 4 = Some w /\
    p_call 2 (CConcat v) num = Ok ([IVec (PObj (PBase KNum) 8 87)], 2%nat) /\ p_call 2 (CConcat w) num = Raise ETypeError /\
    p_call 2 (CConcat w) (PObj (PBase KBV) 4 7) = Ok ([IVec (PObj (PBase KBV) 8 23)], 2%nat).
Proof. do 2 eexists. repeat (split; [vm_compute; reflexivity|]). vm_compute; reflexivity. Qed.
(** C89: but concat with a vector of another class raises TypeError, although the selected class accepts it: with
    v = Bit(1).ite(BitVector[4](5), SIntVector[4](3)), v.concat(BitVector[4](2)) *)
Theorem C89_concat_refuted : exists h tab c a b y v id' r, nth_error (objs (hrun h)) 0 = Some a /\ nth_error (objs (hrun h)) 1 = Some b /\
  nth_error (objs (hrun h)) 2 = Some y /\ ite tab (next_id (hrun h)) c (BrVec a) (BrVec b) = Ok (BrVec v, id') /\
  p_call id' (CConcat y) v = Raise ETypeError /\ p_call id' (CConcat y) (if c then a else b) = Ok (r, id').
Proof. exact C89_concat_refuted_pf. Qed.
Print Assumptions C89_concat_refuted.

(** C89: on the built-in classes these are the methods of the concrete model *)
Theorem C89_builtin : forall id c k n v, builtin_call c ->
  p_call id c (PObj (PBase k) n v) = rmap (fun l => (map of_builtin l, id)) (b_call real_arg c (BV (BVC k n) v)).
Proof. exact C89_builtin_pf. Qed.
Print Assumptions C89_builtin.
(* Non-vacuity: a nested polymorphic vector of 4 bits, its signed extension, rotation and addition with carry. *)
Example C89_case : let h := [HNew KBV 4 3; HNew KSInt 4 (-7); HNew KUInt 4 5; HIte true 1 2; HIte false 0 3] in
  let v := PObj (PPoly 1 (PBase KBV) (PPoly 0 (PBase KSInt) (PBase KUInt) true) false) 4 9 in
  nth_error (objs (hrun h)) 4 = Some v /\ p_call 2 (CExt 4) v = Ok ([IVec (PObj (pc v) 8 249)], 2%nat) /\
  p_call 2 (CRol (AOther (VInt 1))) v = Ok ([IVec (PObj (pc v) 4 3)], 2%nat) /\
  p_call 2 (CAdc (AVec (PObj (PBase KUInt) 4 8)) (AOther (VBit true))) v = Ok ([IVec (PObj (pc v) 4 2); IBit true], 2%nat) /\
  plain_call (CRol (AOther (VInt 1))) /\ pwf v /\ builtin_call (CAdc (AVec (PObj (PBase KUInt) 4 8)) (AOther (VBit true))).
Proof.
  cbv zeta. split; [vm_compute; reflexivity|]. split; [vm_compute; reflexivity|]. split; [vm_compute; reflexivity|]. split; [vm_compute; reflexivity|].
  split; [exact I|]. split; [split; cbn; lia|]. split; exact I.
Qed.
