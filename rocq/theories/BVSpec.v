(** Independent specification vocabulary for bit-vectors: integers, bits and truth tables.
    Uses only the data types [bv], [pyval] of the model, none of its functions. *)
From Verif Require Import PyBase BVModel.

(** A well-formed object: what property C01 establishes for every reachable object. *)
Definition wf (x : bv) : Prop :=
  0 <= csize (bcls x) /\ 0 <= bval x < 2 ^ csize (bcls x).

(** Two's-complement reading of an n-bit pattern u. *)
Definition signed (n u : Z) : Z := if 2 * u <? 2 ^ n then u else u - 2 ^ n.

(** The number whose binary digits, least significant first, are l. *)
Fixpoint bits_value (l : list bool) : Z :=
  match l with
  | [] => 0
  | b :: l => (if b then 1 else 0) + 2 * bits_value l
  end.

(** Python truth of an argument, as a relation (what bool(v) returns). *)
Inductive truthy : pyval -> bool -> Prop :=
| T_int z : truthy (VInt z) (negb (z =? 0))
| T_bool b : truthy (VBool b) b
| T_bit b : truthy (VBit b) b
| T_bv x : wf x -> (1 <= csize (bcls x) \/ ck (bcls x) <> KSInt) -> truthy (VBV x) (negb (bval x =? 0))
| T_seq_nil : truthy (VSeq []) false
| T_seq_cons v l : truthy (VSeq (v :: l)) true
| T_str_nil : truthy (VStr 0) false
| T_str_cons n : truthy (VStr (S n)) true
| T_other_bool i b t : truthy (VOther i (Some (Ok b)) t) b
| T_other i t : truthy (VOther i None t) t.

(** [converts n v u]: the argument v is converted to the n-bit pattern u by T[n](v). *)
Inductive converts (n : Z) : pyval -> Z -> Prop :=
| Cv_int z : converts n (VInt z) (z mod 2 ^ n)
| Cv_bool b : converts n (VBool b) ((if b then 1 else 0) mod 2 ^ n)
| Cv_bit b : converts n (VBit b) ((if b then 1 else 0) mod 2 ^ n)
| Cv_bv x : converts n (VBV x) (bval x mod 2 ^ n)
| Cv_seq l bs : Forall2 truthy l bs -> converts n (VSeq l) (bits_value bs mod 2 ^ n)
| Cv_str k : converts n (VStr k) (bits_value (repeat true k) mod 2 ^ n)
| Cv_other z b t : converts n (VOther (Some (Ok z)) b t) (z mod 2 ^ n).

(** n is the number of bits the magnitude of z takes, at least one. *)
Definition least_width (z n : Z) : Prop := 1 <= n /\ Z.abs z < 2 ^ n /\ forall m, 1 <= m < n -> 2 ^ m <= Z.abs z.
(** The width of K(v) without a size: that of a vector, 1 for Bits and bools, the length of a sequence (at least 1), the
    least width of a number. *)
Inductive implied_width : pyval -> Z -> Prop :=
| Iw_bv x : implied_width (VBV x) (csize (bcls x))
| Iw_bit b : implied_width (VBit b) 1
| Iw_bool b : implied_width (VBool b) 1
| Iw_int z n : least_width z n -> implied_width (VInt z) n
| Iw_seq l : l <> [] -> implied_width (VSeq l) (Z.of_nat (length l))
| Iw_str k : k <> 0%nat -> implied_width (VStr k) (Z.of_nat k)
| Iw_empty : implied_width (VSeq []) 1
| Iw_empty_str : implied_width (VStr 0) 1
| Iw_other z n b t : least_width z n -> implied_width (VOther (Some (Ok z)) b t) n.

(** [operand n v u]: v is acceptable as the second operand of an n-bit operation and stands for
    the n-bit pattern u. Bit-vectors must have exactly n bits; everything else is converted. *)
Inductive operand (n : Z) : pyval -> Z -> Prop :=
| Op_bv y : wf y -> csize (bcls y) = n -> operand n (VBV y) (bval y)
| Op_conv v u : (forall y, v <> VBV y) -> converts n v u -> operand n v u.

(** Every wf object nested in an argument. *)
Fixpoint arg_wf (v : pyval) : Prop :=
  match v with
  | VBV x => wf x
  | VSeq l => (fix all (l : list pyval) : Prop :=
                 match l with [] => True | v :: l => arg_wf v /\ all l end) l
  | _ => True
  end.

(** The positions l[a:b:s] denotes for a list of n elements (Python reference, "slicings"):
    walk the positions upwards (step > 0) or downwards (step < 0), keep those between the
    clipped bounds whose distance from the first bound is a multiple of the step. *)
Definition clip (lo hi i : Z) : Z := Z.max lo (Z.min hi i).
Definition slice_positions (n : Z) (a b s : option Z) : list Z :=
  let up := map Z.of_nat (seq 0 (Z.to_nat n)) in
  let step := match s with None => 1 | Some s => s end in
  let at_ i := if i <? 0 then i + n else i in
  if 0 <? step then
    let first := match a with None => 0 | Some i => clip 0 n (at_ i) end in
    let last := match b with None => n | Some i => clip 0 n (at_ i) end in
    filter (fun p => (first <=? p) && (p <? last) && ((p - first) mod step =? 0)) up
  else
    let first := match a with None => n - 1 | Some i => clip (-1) (n - 1) (at_ i) end in
    let last := match b with None => -1 | Some i => clip (-1) (n - 1) (at_ i) end in
    filter (fun p => (p <=? first) && (last <? p) && ((first - p) mod (- step) =? 0)) (rev up).

(** Reading a string of binary digits, most significant first. *)
Fixpoint read_binary (acc : Z) (s : string) : option Z :=
  match s with
  | EmptyString => Some acc
  | String c s =>
      if Ascii.eqb c "0" then read_binary (2 * acc) s
      else if Ascii.eqb c "1" then read_binary (2 * acc + 1) s
      else None
  end.

(** Arguments that cannot be converted to a bit-vector: no __int__ and not a sequence, an __int__ that
    raises TypeError, or a sequence with an element whose truth value raises TypeError (a symbolic Bit). *)
Inductive unsupported : pyval -> Prop :=
| U_no_int b t : unsupported (VOther None b t)
| U_int_raises b t : unsupported (VOther (Some (Raise ETypeError)) b t)
| U_seq l1 bs i t l2 : Forall2 truthy l1 bs ->
    unsupported (VSeq (l1 ++ VOther i (Some (Raise ETypeError)) t :: l2)).

(** Arguments acceptable where a Bit is expected, with the Boolean they stand for. *)
Inductive bit_operand : pyval -> bool -> Prop :=
| B_bit b : bit_operand (VBit b) b
| B_bool b : bit_operand (VBool b) b
| B_zero : bit_operand (VInt 0) false
| B_one : bit_operand (VInt 1) true
| B_bv x : wf x -> (1 <= csize (bcls x) \/ ck (bcls x) <> KSInt) -> bit_operand (VBV x) (negb (bval x =? 0))
| B_other i b t : bit_operand (VOther i (Some (Ok b)) t) b.

(** r is a well-formed vector of x's class whose bit i is f i. *)
Definition has_bits (x r : bv) (f : Z -> bool) : Prop :=
  bcls r = bcls x /\ wf r /\ forall i, 0 <= i < bsize x -> Z.testbit (bval r) i = f i.

(** Sample vectors used by the non-vacuity examples. *)
Definition s4 (u : Z) : bv := BV (BVC KSInt 4) u.
Definition b8 (u : Z) : bv := BV (BVC KBV 8) u.
Example s4_wf : wf (s4 13). Proof. split; vm_compute; intuition congruence. Qed.
Example b8_wf : wf (b8 200). Proof. split; vm_compute; intuition congruence. Qed.
