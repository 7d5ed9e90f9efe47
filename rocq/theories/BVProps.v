(** Property theorems for the concrete bit-vector methods. Statements use BVSpec.v only. *)
From Coq Require Import Lia ZifyBool.
From Verif Require Import PyBase BVModel BVSpec BVFacts BVOps SliceFacts BVPropFacts.
From Verif Require Import BVProofs.


Example operand_int_ex : operand 4 (VInt (-3)) 13.
Proof. apply Op_conv; [discriminate|]. exact (Cv_int 4 (-3)). Qed.
Example operand_seq_ex : operand 4 (VSeq [VBool true; VBit false; VInt 7]) 5.
Proof.
  apply Op_conv; [discriminate|].  apply (Cv_seq 4 _ [true; false; true]).
  repeat constructor.
Qed.

(** * C02: construction reduces modulo 2^n *)
Theorem C02_construct_int : forall k n z, 0 <= n ->
  construct k n (VInt z) = Ok (BV (BVC k n) (z mod 2 ^ n)).
Proof. exact C02_construct_int_pf. Qed.
Print Assumptions C02_construct_int.

Theorem C02_construct_any : forall k n v u, 0 <= n -> converts n v u ->
  construct k n v = Ok (BV (BVC k n) u).
Proof. exact C02_construct_any_pf. Qed.
Print Assumptions C02_construct_any.

(** Nothing else is ever accepted: a constructor call that succeeds is one of the conversions above. *)
Theorem C02_construct_only : forall k n v y, arg_wf v -> construct k n v = Ok y ->
  0 <= n /\ bcls y = BVC k n /\ converts n v (bval y).
Proof. exact C02_construct_only_pf. Qed.
Print Assumptions C02_construct_only.
Theorem C02_construct_reject : forall k n v, 0 <= n -> unsupported v ->
  construct k n v = Raise ETypeError.
Proof. exact C02_construct_reject_pf. Qed.
Print Assumptions C02_construct_reject.
Theorem C02_negative_size : forall k n v, n < 0 -> construct k n v = Raise EValueError.
Proof. exact C02_negative_size_pf. Qed.
Print Assumptions C02_negative_size.
Example C02_ex : construct KBV 4 (VInt (-35)) = Ok (BV (BVC KBV 4) 13) /\ unsupported (VOther None None true).
Proof. split; [vm_compute; reflexivity|constructor]. Qed.

(** * C03: bit lists *)
Theorem C03_bits : forall x, wf x ->
  length (bits x) = Z.to_nat (bsize x) /\
  forall i, 0 <= i < bsize x ->
    nth (Z.to_nat i) (bits x) 0 = (if Z.testbit (bval x) i then 1 else 0).
Proof. exact C03_bits_pf. Qed.
Print Assumptions C03_bits.
Theorem C03_from_bits : forall x, wf x ->
  construct (bkind x) (bsize x) (VSeq (map VInt (bits x))) = Ok x.
Proof. exact C03_from_bits_pf. Qed.
Print Assumptions C03_from_bits.
Theorem C03_to_bits : forall k l bs, Forall2 truthy l bs ->
  exists y, construct k (Z.of_nat (length l)) (VSeq l) = Ok y /\
    bits y = map (fun b : bool => if b then 1 else 0) bs /\ as_bool_list y = bs.
Proof. exact C03_to_bits_pf. Qed.
Print Assumptions C03_to_bits.
Theorem C03_binary_string : forall x, wf x ->
  read_binary 0 (binary_string x) = Some (bval x) /\
  String.length (binary_string x) = Z.to_nat (bsize x) /\
  as_binary_string x = ("0b" ++ binary_string x)%string.
Proof. exact C03_binary_string_pf. Qed.
Print Assumptions C03_binary_string.
Example C03_ex : bits (s4 13) = [1; 0; 1; 1] /\ binary_string (s4 13) = "1101"%string.
Proof. vm_compute. auto. Qed.

(** * C04: signed and unsigned readings *)
Theorem C04_as_sint : forall x, wf x -> 1 <= bsize x ->
  exists s, as_sint x = Ok s /\ - 2 ^ (bsize x - 1) <= s < 2 ^ (bsize x - 1) /\
    s mod 2 ^ bsize x = as_uint x.
Proof. exact C04_as_sint_pf. Qed.
Print Assumptions C04_as_sint.
Theorem C04_as_sint_is_signed : forall x, wf x -> 1 <= bsize x ->
  as_sint x = Ok (signed (bsize x) (as_uint x)).
Proof. exact C04_as_sint_is_signed_pf. Qed.
Print Assumptions C04_as_sint_is_signed.
Theorem C04_signed_unique : forall n u s, 1 <= n -> 0 <= u < 2 ^ n ->
  - 2 ^ (n - 1) <= s < 2 ^ (n - 1) -> s mod 2 ^ n = u -> s = signed n u.
Proof. exact C04_signed_unique_pf. Qed.
Print Assumptions C04_signed_unique.
Theorem C04_int : forall x, wf x -> 1 <= bsize x ->
  bv_int x = Ok (match bkind x with KSInt => signed (bsize x) (bval x) | _ => bval x end).
Proof. exact C04_int_pf. Qed.
Print Assumptions C04_int.
Theorem C04_sint_roundtrip : forall x, wf x -> 1 <= bsize x ->
  (s <- as_sint x ;; construct (bkind x) (bsize x) (VInt s)) = Ok x.
Proof. exact C04_sint_roundtrip_pf. Qed.
Print Assumptions C04_sint_roundtrip.
Theorem C04_empty : forall x, bsize x = 0 -> as_sint x = Raise EIndexError.
Proof. exact C04_empty_pf. Qed.
Print Assumptions C04_empty.
Example C04_ex : as_sint (s4 13) = Ok (-3) /\ bv_int (b8 200) = Ok 200.
Proof. vm_compute. auto. Qed.

(** * C05: modular arithmetic *)
Theorem C05_add : forall x v u, wf x -> operand (bsize x) v u ->
  bvadd x v = Ok (New (BV (bcls x) ((bval x + u) mod 2 ^ bsize x))).
Proof. exact C05_add_pf. Qed.
Print Assumptions C05_add.
Theorem C05_sub : forall x v u, wf x -> operand (bsize x) v u ->
  bvsub x v = Ok (New (BV (bcls x) ((bval x - u) mod 2 ^ bsize x))).
Proof. exact C05_sub_pf. Qed.
Print Assumptions C05_sub.
Theorem C05_mul : forall x v u, wf x -> operand (bsize x) v u ->
  bvmul x v = Ok (New (BV (bcls x) ((bval x * u) mod 2 ^ bsize x))).
Proof. exact C05_mul_pf. Qed.
Print Assumptions C05_mul.
Theorem C05_neg : forall x, wf x -> bvneg x = BV (bcls x) ((- bval x) mod 2 ^ bsize x).
Proof. exact C05_neg_pf. Qed.
Print Assumptions C05_neg.
Example C05_ex : bvadd (s4 13) (VInt (-3)) = Ok (New (s4 10)).
Proof. exact (C05_add (s4 13) (VInt (-3)) 13 s4_wf operand_int_ex). Qed.

(** * C06: bitwise operators *)

Theorem C06_not : forall x, wf x -> has_bits x (bvnot x) (fun i => negb (Z.testbit (bval x) i)).
Proof. exact C06_not_pf. Qed.
Print Assumptions C06_not.

Theorem C06_and : forall x v u, wf x -> operand (bsize x) v u -> exists r, bvand x v = Ok (New r) /\
  has_bits x r (fun i => Z.testbit (bval x) i && Z.testbit u i).
Proof. exact C06_and_pf. Qed.
Print Assumptions C06_and.
Theorem C06_or : forall x v u, wf x -> operand (bsize x) v u -> exists r, bvor x v = Ok (New r) /\
  has_bits x r (fun i => Z.testbit (bval x) i || Z.testbit u i).
Proof. exact C06_or_pf. Qed.
Print Assumptions C06_or.
Theorem C06_xor : forall x v u, wf x -> operand (bsize x) v u -> exists r, bvxor x v = Ok (New r) /\
  has_bits x r (fun i => xorb (Z.testbit (bval x) i) (Z.testbit u i)).
Proof. exact C06_xor_pf. Qed.
Print Assumptions C06_xor.

Theorem C06_nand : forall x v u, wf x -> operand (bsize x) v u -> exists r, bvnand x v = Ok (New r) /\
  has_bits x r (fun i => negb (Z.testbit (bval x) i && Z.testbit u i)).
Proof. exact C06_nand_pf. Qed.
Print Assumptions C06_nand.
Theorem C06_nor : forall x v u, wf x -> operand (bsize x) v u -> exists r, bvnor x v = Ok (New r) /\
  has_bits x r (fun i => negb (Z.testbit (bval x) i || Z.testbit u i)).
Proof. exact C06_nor_pf. Qed.
Print Assumptions C06_nor.
Theorem C06_xnor : forall x v u, wf x -> operand (bsize x) v u -> exists r, bvxnor x v = Ok (New r) /\
  has_bits x r (fun i => negb (xorb (Z.testbit (bval x) i) (Z.testbit u i))).
Proof. exact C06_xnor_pf. Qed.
Print Assumptions C06_xnor.
Example C06_ex : bvxor (s4 13) (VSeq [VBool true; VBit false; VInt 7]) = Ok (New (s4 8)).
Proof. vm_compute. reflexivity. Qed.

(** * C07: shifts *)
Theorem C07_shl : forall x v u, wf x -> operand (bsize x) v u ->
  bvshl x v = Ok (New (BV (bcls x) ((bval x * 2 ^ u) mod 2 ^ bsize x))).
Proof. exact C07_shl_pf. Qed.
Print Assumptions C07_shl.
Theorem C07_lshr : forall x v u, wf x -> operand (bsize x) v u ->
  bvlshr x v = Ok (New (BV (bcls x) (bval x / 2 ^ u))).
Proof. exact C07_lshr_pf. Qed.
Print Assumptions C07_lshr.
Theorem C07_ashr : forall x v u, wf x -> operand (bsize x) v u -> 1 <= bsize x ->
  bvashr x v = Ok (New (BV (bcls x) ((signed (bsize x) (bval x) / 2 ^ u) mod 2 ^ bsize x))).
Proof. exact C07_ashr_pf. Qed.
Print Assumptions C07_ashr.
Theorem C07_saturate : forall x v u, wf x -> operand (bsize x) v u -> bsize x <= u ->
  bvshl x v = Ok (New (BV (bcls x) 0)) /\ bvlshr x v = Ok (New (BV (bcls x) 0)) /\
  (1 <= bsize x -> bvashr x v =
     Ok (New (BV (bcls x) (if Z.testbit (bval x) (bsize x - 1) then 2 ^ bsize x - 1 else 0)))).
Proof. exact C07_saturate_pf. Qed.
Print Assumptions C07_saturate.
Example C07_ex : bvashr (s4 13) (VInt 1) = Ok (New (s4 14)) /\ operand 4 (VInt 9) 9.
Proof. split; [vm_compute; reflexivity|]. apply Op_conv; [discriminate|exact (Cv_int 4 9)]. Qed.

(** * C08: unsigned division. The value of the result is [rv_val x r]. *)
Theorem C08_udiv_urem : forall x v u, wf x -> operand (bsize x) v u ->
  exists q r, bvudiv x v = Ok q /\ bvurem x v = Ok r /\
    bcls (rv_val x q) = bcls x /\ bcls (rv_val x r) = bcls x /\
    (u <> 0 -> bval x = bval (rv_val x q) * u + bval (rv_val x r) /\ 0 <= bval (rv_val x r) < u) /\
    (u = 0 -> bval (rv_val x q) = 2 ^ bsize x - 1 /\ bval (rv_val x r) = bval x).
Proof. exact C08_udiv_urem_pf. Qed.
Print Assumptions C08_udiv_urem.
Example C08_ex : bvudiv (b8 200) (VInt 7) = Ok (New (b8 28)) /\ bvurem (b8 200) (VInt 0) = Ok Self.
Proof. vm_compute. auto. Qed.

(** * C09: signed division floors *)
Theorem C09_sdiv : forall x v u, wf x -> operand (bsize x) v u -> 1 <= bsize x ->
  bvsdiv x v = Ok (New (BV (bcls x)
    (if u =? 0 then 2 ^ bsize x - 1
     else (signed (bsize x) (bval x) / signed (bsize x) u) mod 2 ^ bsize x))).
Proof. exact C09_sdiv_pf. Qed.
Print Assumptions C09_sdiv.
Theorem C09_srem : forall x v u, wf x -> operand (bsize x) v u -> 1 <= bsize x ->
  exists r, bvsrem x v = Ok r /\ rv_val x r = BV (bcls x)
    (if u =? 0 then bval x
     else (signed (bsize x) (bval x) mod signed (bsize x) u) mod 2 ^ bsize x).
Proof. exact C09_srem_pf. Qed.
Print Assumptions C09_srem.
Theorem C09_identity : forall x v u q r, wf x -> 1 <= bsize x -> operand (bsize x) v u -> u <> 0 ->
  bvsdiv x v = Ok (New q) -> bvsrem x v = Ok (New r) ->
  (bval q * u + bval r) mod 2 ^ bsize x = bval x.
Proof. exact C09_identity_pf. Qed.
Print Assumptions C09_identity.
Example C09_ex : bvsdiv (s4 9) (VInt 2) = Ok (New (s4 12)) /\ bvsrem (s4 9) (VInt 2) = Ok (New (s4 1))
  /\ bvsdiv (s4 8) (VInt (-1)) = Ok (New (s4 8)).
Proof. vm_compute. auto. Qed.

(** * C10: comparisons *)
Theorem C10_unsigned : forall x v u, wf x -> operand (bsize x) v u ->
  bveq x v = Ok (bval x =? u) /\ bvne x v = Ok (negb (bval x =? u)) /\
  bvult x v = Ok (bval x <? u) /\ bvule x v = Ok (bval x <=? u) /\
  bvugt x v = Ok (u <? bval x) /\ bvuge x v = Ok (u <=? bval x) /\
  bvcomp x v = Ok (New (BV (BVC (bkind x) 1) (if bval x =? u then 1 else 0))).
Proof. exact C10_unsigned_pf. Qed.
Print Assumptions C10_unsigned.
Theorem C10_signed : forall x v u, wf x -> operand (bsize x) v u -> 1 <= bsize x ->
  let a := signed (bsize x) (bval x) in let b := signed (bsize x) u in
  bvslt x v = Ok (a <? b) /\ bvsle x v = Ok (a <=? b) /\
  bvsgt x v = Ok (b <? a) /\ bvsge x v = Ok (b <=? a).
Proof. exact C10_signed_pf. Qed.
Print Assumptions C10_signed.
Example C10_ex : bvslt (s4 13) (VInt 2) = Ok true /\ bvult (s4 13) (VInt 2) = Ok false.
Proof. vm_compute. auto. Qed.

(** * C11: concat and slices *)
Theorem C11_concat : forall x y, wf x -> wf y -> kind_le (bkind y) (bkind x) = true ->
  concat x (VBV y) =
    Ok (BV (BVC (bkind x) (bsize x + bsize y)) (bval x + bval y * 2 ^ bsize x)).
Proof. exact C11_concat_pf. Qed.
Print Assumptions C11_concat.
Theorem C11_concat_reject : forall x v,
  (forall y, v = VBV y -> kind_le (bkind y) (bkind x) = false) -> concat x v = Raise ETypeError.
Proof. exact C11_concat_reject_pf. Qed.
Print Assumptions C11_concat_reject.
Theorem C11_slice_range : forall x a b, wf x -> 0 <= a -> a <= b -> b <= bsize x ->
  getitem_slice x (Some a) (Some b) None =
    Ok (BV (BVC (bkind x) (b - a)) ((bval x / 2 ^ a) mod 2 ^ (b - a))).
Proof. exact C11_slice_range_pf. Qed.
Print Assumptions C11_slice_range.
Theorem C11_slice_any : forall x a b s, wf x -> s <> Some 0 ->
  exists y, getitem x (ISlice a b s) = Ok (VBV y) /\ wf y /\
    bcls y = BVC (bkind x) (Z.of_nat (length (slice_positions (bsize x) a b s))) /\
    bits y = map (fun p => if Z.testbit (bval x) p then 1 else 0) (slice_positions (bsize x) a b s).
Proof. exact C11_slice_any_pf. Qed.
Print Assumptions C11_slice_any.
Theorem C11_slice_step0 : forall x a b, wf x -> getitem x (ISlice a b (Some 0)) = Raise EValueError.
Proof. exact C11_slice_step0_pf. Qed.
Print Assumptions C11_slice_step0.
Theorem C11_split_join : forall x k, wf x -> 0 <= k <= bsize x ->
  exists lo hi, getitem_slice x None (Some k) None = Ok lo /\
    getitem_slice x (Some k) None None = Ok hi /\ concat lo (VBV hi) = Ok x.
Proof. exact C11_split_join_pf. Qed.
Print Assumptions C11_split_join.
Example C11_ex : slice_positions 8 (Some (-2)) None (Some (-3)) = [6; 3; 0] /\
  getitem (b8 200) (ISlice (Some (-2)) None (Some (-3))) = Ok (VBV (BV (BVC KBV 3) 3)).
Proof. vm_compute. auto. Qed.

(** * C12: zero extension; ext of the unsigned classes *)
Theorem C12_zext : forall x e, wf x -> 0 <= e ->
  zext x e = Ok (BV (BVC (bkind x) (bsize x + e)) (bval x)).
Proof. exact C12_zext_pf. Qed.
Print Assumptions C12_zext.
Theorem C12_negative : forall x e, e < 0 -> zext x e = Raise EValueError.
Proof. exact C12_negative_pf. Qed.
Print Assumptions C12_negative.
Theorem C12_ext_unsigned : forall x e, wf x -> 0 <= e -> bkind x <> KSInt ->
  ext x e = Ok (BV (BVC (bkind x) (bsize x + e)) (bval x)).
Proof. exact C12_ext_unsigned_pf. Qed.
Print Assumptions C12_ext_unsigned.
Example C12_ex : zext (s4 13) 2 = Ok (BV (BVC KSInt 6) 13).
Proof. vm_compute. reflexivity. Qed.

(** * C66: sign extension (full claim: every e >= 0). The model raises ValueError for e = 0. *)
Theorem C66_sext_partial : forall x e, wf x -> 1 <= bsize x -> 1 <= e ->
  exists y, sext x e = Ok y /\ wf y /\ bcls y = BVC (bkind x) (bsize x + e) /\
    signed (bsize x + e) (bval y) = signed (bsize x) (bval x).
Proof. exact C66_sext_partial_pf. Qed.
Print Assumptions C66_sext_partial.
Theorem C66_ext_signed_partial : forall x e, wf x -> 1 <= bsize x -> 1 <= e -> bkind x = KSInt ->
  exists y, ext x e = Ok y /\ wf y /\ bcls y = BVC KSInt (bsize x + e) /\
    signed (bsize x + e) (bval y) = signed (bsize x) (bval x).
Proof. exact C66_ext_signed_partial_pf. Qed.
Print Assumptions C66_ext_signed_partial.
Theorem C66_negative : forall x e, e < 0 -> sext x e = Raise EValueError.
Proof. exact C66_negative_pf. Qed.
Print Assumptions C66_negative.
Theorem C66_sext_zero_refuted : exists x, wf x /\ 1 <= bsize x /\ sext x 0 = Raise EValueError.
Proof. exact C66_sext_zero_refuted_pf. Qed.
Print Assumptions C66_sext_zero_refuted.
Theorem C66_sext_zero_always : forall x, wf x -> 1 <= bsize x -> sext x 0 = Raise EValueError.
Proof. exact C66_sext_zero_always_pf. Qed.
Print Assumptions C66_sext_zero_always.
Example C66_ex : sext (s4 13) 2 = Ok (BV (BVC KSInt 6) 61).
Proof. vm_compute. reflexivity. Qed.

(** * C13: repeat *)
Theorem C13_repeat : forall x r, wf x -> 1 <= r ->
  exists y, bv_repeat x r = Ok y /\ bcls y = BVC (bkind x) (r * bsize x) /\ wf y /\
    forall i, 0 <= i < r * bsize x -> Z.testbit (bval y) i = Z.testbit (bval x) (i mod bsize x).
Proof. exact C13_repeat_pf. Qed.
Print Assumptions C13_repeat.
Theorem C13_reject : forall x r, r <= 0 -> bv_repeat x r = Raise EValueError.
Proof. exact C13_reject_pf. Qed.
Print Assumptions C13_reject.
Example C13_ex : bv_repeat (s4 13) 2 = Ok (BV (BVC KSInt 8) 221).
Proof. vm_compute. reflexivity. Qed.

(** * C14: rotations *)
Theorem C14_rol : forall x v u, wf x -> 1 <= bsize x -> operand (bsize x) v u ->
  exists y, bvrol x v = Ok (New y) /\ bcls y = bcls x /\ wf y /\
    forall i, 0 <= i < bsize x -> Z.testbit (bval y) i = Z.testbit (bval x) ((i - u) mod bsize x).
Proof. exact C14_rol_pf. Qed.
Print Assumptions C14_rol.
Theorem C14_ror : forall x v u, wf x -> 1 <= bsize x -> operand (bsize x) v u ->
  exists y, bvror x v = Ok (New y) /\ bcls y = bcls x /\ wf y /\
    forall i, 0 <= i < bsize x -> Z.testbit (bval y) i = Z.testbit (bval x) ((i + u) mod bsize x).
Proof. exact C14_ror_pf. Qed.
Print Assumptions C14_ror.
Theorem C14_inverse : forall x v u, wf x -> 1 <= bsize x -> operand (bsize x) v u ->
  (exists y, bvrol x v = Ok (New y) /\ bvror y v = Ok (New x)) /\
  (exists y, bvror x v = Ok (New y) /\ bvrol y v = Ok (New x)).
Proof. exact C14_inverse_pf. Qed.
Print Assumptions C14_inverse.
Example C14_ex : bvrol (s4 13) (VInt 6) = Ok (New (s4 7)).
Proof. vm_compute. reflexivity. Qed.

(** * C15: add with carry *)
Theorem C15_adc : forall x v u cv c, wf x -> operand (bsize x) v u -> operand 1 cv c ->
  exists s (co : bool), adc x v cv = Ok (s, co) /\ bcls s = bcls x /\ wf s /\
    bval s + 2 ^ bsize x * (if co then 1 else 0) = bval x + u + c.
Proof. exact C15_adc_pf. Qed.
Print Assumptions C15_adc.
Example C15_ex : adc (s4 13) (VInt 5) (VBit true) = Ok (s4 3, true) /\ operand 1 (VBit true) 1.
Proof. split; [vm_compute; reflexivity|]. apply Op_conv; [discriminate|exact (Cv_bit 1 true)]. Qed.

(** * C16: overflow *)
Theorem C16_overflow : forall n a b s, 1 <= n -> wf a -> wf b -> bsize a = n -> bsize b = n ->
  bvadd a (VBV b) = Ok (New s) ->
  overflow a b s = Ok (negb ((- 2 ^ (n - 1) <=? signed n (bval a) + signed n (bval b)) &&
                             (signed n (bval a) + signed n (bval b) <? 2 ^ (n - 1)))).
Proof. exact C16_overflow_pf. Qed.
Print Assumptions C16_overflow.
Example C16_ex : bvadd (s4 5) (VBV (s4 6)) = Ok (New (s4 11)) /\ overflow (s4 5) (s4 6) (s4 11) = Ok true.
Proof. vm_compute. auto. Qed.

(** * C17: item access *)
Theorem C17_getitem : forall x i, wf x -> - bsize x <= i < bsize x ->
  getitem x (IInt i) = Ok (VBit (Z.testbit (bval x) (i mod bsize x))).
Proof. exact C17_getitem_pf. Qed.
Print Assumptions C17_getitem.
Theorem C17_getitem_range : forall x i, ~ (- bsize x <= i < bsize x) ->
  getitem x (IInt i) = Raise EIndexError.
Proof. exact C17_getitem_range_pf. Qed.
Print Assumptions C17_getitem_range.
Theorem C17_setitem : forall x i b v, wf x -> - bsize x <= i < bsize x ->
  v = VBool b \/ v = VBit b \/ v = VInt (if b then 1 else 0) ->
  exists y, setitem x (IInt i) v = Ok y /\ bcls y = bcls x /\ wf y /\
    forall j, 0 <= j < bsize x ->
      Z.testbit (bval y) j = if j =? i mod bsize x then b else Z.testbit (bval x) j.
Proof. exact C17_setitem_pf. Qed.
Print Assumptions C17_setitem.
Theorem C17_setitem_range : forall x i b, ~ (- bsize x <= i < bsize x) ->
  setitem x (IInt i) (VBit b) = Raise EIndexError.
Proof. exact C17_setitem_range_pf. Qed.
Print Assumptions C17_setitem_range.
Theorem C17_setitem_reject : forall x i v,
  (forall b, v <> VBool b) -> (forall b, v <> VBit b) -> v <> VInt 0 -> v <> VInt 1 ->
  setitem x (IInt i) v = Raise EValueError.
Proof. exact C17_setitem_reject_pf. Qed.
Print Assumptions C17_setitem_reject.
Theorem C17_setitem_slice : forall x a b s v, setitem x (ISlice a b s) v = Raise ENotImplementedErr.
Proof. exact C17_setitem_slice_pf. Qed.
Print Assumptions C17_setitem_slice.
(** An index that is neither an int nor a slice: the value is looked at first. *)
Theorem C17_setitem_other : forall x v,
  (exists b, v = VBool b \/ v = VBit b \/ v = VInt (if b then 1 else 0)) -> setitem x IOther v = Raise ETypeError.
Proof. exact C17_setitem_other_pf. Qed.
Print Assumptions C17_setitem_other.
Theorem C17_setitem_other_reject : forall x v,
  (forall b, v <> VBool b) -> (forall b, v <> VBit b) -> v <> VInt 0 -> v <> VInt 1 ->
  setitem x IOther v = Raise EValueError.
Proof. exact C17_setitem_other_reject_pf. Qed.
Print Assumptions C17_setitem_other_reject.
Example C17_ex : setitem (s4 13) (IInt (-1)) (VBool false) = Ok (s4 5).
Proof. vm_compute. reflexivity. Qed.

(** * C27: implicit sizing. The claim for SIntVector is false for every positive integer. *)
Theorem C27_implicit_unsigned_partial : forall k z, 0 <= z ->
  exists y, construct_implicit k (VInt z) = Ok y /\ as_uint y = z /\ bkind y = k.
Proof. exact C27_implicit_unsigned_partial_pf. Qed.
Print Assumptions C27_implicit_unsigned_partial.
(** K(v) is K[n](v) for the width n that v implies; every argument that has a conversion implies a width. *)
Theorem C27_width : forall k v n, implied_width v n -> construct_implicit k v = construct k n v.
Proof. exact C27_width_pf. Qed.
Print Assumptions C27_width.
Theorem C27_arguments : forall k v, (exists n, implied_width v n) \/ (exists e b t, v = VOther (Some (Raise e)) b t /\ construct_implicit k v = Raise e) \/
  (exists b t, v = VOther None b t /\ construct_implicit k v = Raise ETypeError).
Proof. exact C27_arguments_pf. Qed.
Print Assumptions C27_arguments.
Example C27_width_ex : implied_width (VInt (-5)) 3 /\ implied_width (VSeq [VInt 1; VBool false]) 2 /\
  construct_implicit KUInt (VInt (-5)) = Ok (BV (BVC KUInt 3) 3) /\ construct_implicit KBV (VBool true) = Ok (BV (BVC KBV 1) 1).
Proof.
  split; [|split; [|split; reflexivity]].
  - constructor. split; [lia|]. split; [reflexivity|]. intros m Hm. assert (m = 1 \/ m = 2) as [-> | ->] by lia; discriminate.
  - apply (Iw_seq [VInt 1; VBool false]). discriminate.
Qed.
Theorem C27_implicit_copy : forall k x, wf x ->
  construct_implicit k (VBV x) = Ok (BV (BVC k (bsize x)) (bval x)).
Proof. exact C27_implicit_copy_pf. Qed.
Print Assumptions C27_implicit_copy.
Theorem C27_implicit_signed_refuted : forall z, 0 < z -> exists y,
  construct_implicit KSInt (VInt z) = Ok y /\ exists s, as_sint y = Ok s /\ s < 0.
Proof. exact C27_implicit_signed_refuted_pf. Qed.
Print Assumptions C27_implicit_signed_refuted.
Example C27_ex : construct_implicit KSInt (VInt 5) = Ok (BV (BVC KSInt 3) 5) /\
  as_sint (BV (BVC KSInt 3) 5) = Ok (-3).
Proof. vm_compute. auto. Qed.
