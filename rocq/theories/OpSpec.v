(** What Python's infix operators and comparisons must mean on n-bit patterns: integer arithmetic,
    independent of the model's methods. *)
From Verif Require Import PyBase BVModel BVSpec OpModel.

(** Value of [a op b] on n-bit patterns a, b; [sg] selects the signed readings for >>, //, %. *)
Definition op_value (op : binop) (sg : bool) (n a b : Z) : Z :=
  match op with
  | OAnd => Z.land a b
  | OOr => Z.lor a b
  | OXor => Z.lxor a b
  | OShl => (a * 2 ^ b) mod 2 ^ n
  | OShr => if sg then (signed n a / 2 ^ b) mod 2 ^ n else a / 2 ^ b
  | OAdd => (a + b) mod 2 ^ n
  | OSub => (a - b) mod 2 ^ n
  | OMul => (a * b) mod 2 ^ n
  | OFloorDiv => if b =? 0 then 2 ^ n - 1
                 else if sg then (signed n a / signed n b) mod 2 ^ n else a / b
  | OMod => if b =? 0 then a
            else if sg then (signed n a mod signed n b) mod 2 ^ n else a mod b
  end.

Definition cmp_value (c : cmpop) (sg : bool) (n a b : Z) : bool :=
  let l := if sg then signed n a else a in
  let r := if sg then signed n b else b in
  match c with
  | CEq => a =? b | CNe => negb (a =? b)
  | CLt => l <? r | CLe => l <=? r | CGt => r <? l | CGe => r <=? l
  end.

Definition is_signed (k : kind) : bool := match k with KSInt => true | _ => false end.

(** Signedness of an operator between two bit-vectors: the left class is SIntVector, or the right class is
    SIntVector and a proper subclass of the left one (BitVector or NumVector, not UIntVector). *)
Definition signed_pair (k1 k2 : kind) : bool :=
  match k1, k2 with
  | KSInt, _ => true
  | KBV, KSInt => true
  | KNum, KSInt => true
  | _, _ => false
  end.

(** Operands that are neither Bits nor bit-vectors; strings are excluded where % means formatting. *)
Definition plain_operand (v : pyval) : Prop :=
  match v with VBit _ | VBV _ | VStr _ => False | _ => True end.
