(** The programs that mean the same in all families: a checker that looks at the classes of the inputs and at the program
    text only. What it leaves out is refuted in C30-C33 and C38. *)
From Verif Require Import PyBase BVModel OpModel SMTTerm SMTModel SMTSpec Z3Spec ProgModel.

(** The type of a result: a vector of a class, or a Bit. *)
Inductive ty := TVec (c : bvcls) | TBit.

Definition tvec (ts : list ty) (i : nat) : option bvcls :=
  match nth_error ts i with Some (TVec c) => Some c | _ => None end.
Definition tbit (ts : list ty) (i : nat) : bool :=
  match nth_error ts i with Some TBit => true | _ => false end.
Definition obind {A B} (a : option A) (f : A -> option B) : option B := match a with Some x => f x | None => None end.
Notation "x <-! a ;; b" := (obind a (fun x => b)) (at level 61, a at next level, right associativity).
Definition guard {A} (b : bool) (a : A) : option A := if b then Some a else None.

(** Second operands of an n-bit operation: ints, Bits, and vectors of n bits. *)
Definition fits (ts : list ty) (n : Z) (o : operand) : bool :=
  match o with
  | Num _ => true
  | Reg i => match nth_error ts i with Some TBit => true | Some (TVec c) => csize c =? n | None => false end
  end.
(** Second operands of a Bit: 0, 1 and Bits. *)
Definition bit_like (ts : list ty) (o : operand) : bool :=
  match o with Num z => (z =? 0) || (z =? 1) | Reg i => tbit ts i end.

(** Operators whose families differ: // and % of signed vectors, and operators that the signed class redefines with a
    signed vector to the right of one of a class above it. *)
Definition same_op (ts : list ty) (op : binop) (c : bvcls) (o : operand) : bool :=
  negb (signed_division op (ck c)) &&
  match o with
  | Num _ => true
  | Reg i =>
      match nth_error ts i with
      | Some (TVec d) => negb (signed_division op (ck d)) && negb (redefined op && kind_eqb (ck d) KSInt && above_signed (ck c))
      | _ => true
      end
  end.

(** The bounds of x[a:b]. *)
Definition lower (n : Z) (a : option Z) : Z := match a with None => 0 | Some i => if i <? 0 then n + i else i end.
Definition upper (n : Z) (b : option Z) : Z := Z.min (match b with None => n | Some i => if i <? 0 then n + i else i end) n.

Definition check1 (ts : list ty) (i : instr) : option (list ty) :=
  match i with
  | PLit c _ => guard (1 <=? csize c) [TVec c]
  | PBit _ => Some [TBit]
  | PConv c x => match nth_error ts x with Some _ => guard (1 <=? csize c) [TVec c] | None => None end
  | PPack c l => guard ((1 <=? csize c) && (Z.of_nat (length l) =? csize c) && forallb (tbit ts) l) [TVec c]
  | PMeth m x y => c <-! tvec ts x ;; guard (fits ts (csize c) y) [TVec (match m with MComp => BVC (ck c) 1 | _ => c end)]
  | PRel _ x y => c <-! tvec ts x ;; guard (fits ts (csize c) y) [TBit]
  | PInv x => match nth_error ts x with Some t => Some [t] | None => None end
  | PNeg x => c <-! tvec ts x ;; Some [TVec c]
  | PRol x k | PRor x k => c <-! tvec ts x ;; guard ((0 <=? k) && (k <=? csize c)) [TVec c]
  | POp op x y =>
      match nth_error ts x with
      | Some (TVec c) => guard (fits ts (csize c) y && same_op ts op c y) [TVec c]
      | Some TBit => guard (match op with OAnd | OOr | OXor => true | _ => false end && bit_like ts y) [TBit]
      | None => None
      end
  | PCmp c x y =>
      match nth_error ts x with
      | Some (TVec k) => guard (fits ts (csize k) y) [TBit]
      | Some TBit => guard (match c with CEq | CNe => true | _ => false end && bit_like ts y) [TBit]
      | None => None
      end
  | PCmpInt _ _ y => _ <-! tvec ts y ;; Some [TBit]
  | PItem x i => c <-! tvec ts x ;; guard ((- csize c <=? i) && (i <? csize c)) [TBit]
  | PSlice x a b =>
      c <-! tvec ts x ;;
      let lo := lower (csize c) a in let hi := upper (csize c) b in
      guard ((0 <=? lo) && (lo <? hi)) [TVec (BVC (ck c) (hi - lo))]
  | PConcat x y =>
      c <-! tvec ts x ;; d <-! tvec ts y ;; guard (kind_le (ck d) (ck c)) [TVec (BVC (ck c) (csize c + csize d))]
  | PZext x k => c <-! tvec ts x ;; guard (0 <=? k) [TVec (BVC (ck c) (csize c + k))]
  | PSext x k => c <-! tvec ts x ;; guard (1 <=? k) [TVec (BVC (ck c) (csize c + k))]
  | PExt x k => c <-! tvec ts x ;; guard ((1 <=? k) && negb (kind_eqb (ck c) KSInt)) [TVec (BVC (ck c) (csize c + k))]
  | PSet x i b => c <-! tvec ts x ;; guard ((- csize c <=? i) && (i <? csize c) && bit_like ts b) [TVec c]
  | PAdc x y b => c <-! tvec ts x ;; guard (fits ts (csize c) y && fits ts 1 b) [TVec c; TBit]
  | PIte b x y =>
      c <-! tvec ts x ;; d <-! tvec ts y ;; guard (tbit ts b && cls_eqb c d) [TVec c]
  end.
(** The types of all results, in order, if the program is in the common fragment. *)
Fixpoint check (ts : list ty) (p : list instr) : option (list ty) :=
  match p with
  | [] => Some ts
  | i :: p => us <-! check1 ts i ;; check (ts ++ us) p
  end.

(** Values of a type. *)
Definition conc_has (v : pyval) (t : ty) : Prop :=
  match v, t with
  | VBV x, TVec c => bcls x = c /\ 1 <= csize c /\ 0 <= bval x < 2 ^ csize c
  | VBit _, TBit => True
  | _, _ => False
  end.
Definition sym_has (v : sval) (t : ty) : Prop :=
  match v, t with
  | SVec x, TVec c => scls x = c /\ swf x
  | SBit b, TBit => bwf b = true
  | _, _ => False
  end.

(** Fresh symbolic inputs of the given types: T(name=s). *)
Definition input (s : string) (t : ty) : sval :=
  match t with TVec c => SVec (SV c (VVar s (csize c))) | TBit => SBit (BVar s) end.
Definition inputs (names : list string) (ts : list ty) : list sval := map (fun p => input (fst p) (snd p)) (combine names ts).
Definition sized_ty (t : ty) : Prop := match t with TVec c => 1 <= csize c | TBit => True end.
