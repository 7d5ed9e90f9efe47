(** What it means for a symbolic value to stand for a concrete one. Uses the data types of the models and the
    meaning of terms (SMTTerm.v), none of the functions of SMTModel.v except the tables of methods at the end. *)
From Verif Require Import PyBase BVModel BVSpec OpModel SMTTerm SMTModel.

(** The concrete bit-vector a symbolic one denotes under an assignment: same class, value of the term. *)
Definition meaning (e : env) (x : svec) : bv := BV (scls x) (evalv e (sterm x)).

(** The concrete argument a symbolic argument denotes. *)
Fixpoint vmeaning (e : env) (v : sval) : pyval :=
  match v with
  | SInt z => VInt z
  | SBool b => VBool b
  | SBit t => VBit (evalb e t)
  | SVec x => VBV (meaning e x)
  | SNodeB t => VBit (evalb e t)
  | SNodeV t => VBV (BV (BVC KBV (width t)) (evalv e t))
  | SSeq l => VSeq (map (vmeaning e) l)
  | SOther i b => VOther i b true
  end.

(** A symbolic vector is in order: at least one bit, and its term is well sorted with the width of its class. *)
Definition swf (x : svec) : Prop :=
  1 <= csize (scls x) /\ vwf (sterm x) = true /\ width (sterm x) = csize (scls x).

(** Sequence elements that stand for one bit. *)
Inductive bit_elem : sval -> Prop :=
| E_zero : bit_elem (SInt 0)
| E_one : bit_elem (SInt 1)
| E_bool b : bit_elem (SBool b)
| E_bit t : bwf t = true -> bit_elem (SBit t)
| E_vec x : swf x -> csize (scls x) = 1 -> bit_elem (SVec x).

(** Arguments K[n] converts: integers, booleans, Bits, vectors of any width, sequences of exactly n bits, and
    objects whose __int__ is in range. *)
Inductive convertible (n : Z) : sval -> Prop :=
| V_int z : convertible n (SInt z)
| V_bool b : convertible n (SBool b)
| V_bit t : bwf t = true -> convertible n (SBit t)
| V_vec x : swf x -> convertible n (SVec x)
| V_seq l : Z.of_nat (length l) = n -> Forall bit_elem l -> convertible n (SSeq l)
| V_obj z b : 0 <= z < 2 ^ n -> convertible n (SOther (Some (Ok z)) b).

(** Second operands of an n-bit operation: the same, except that vectors must have n bits. *)
Definition accepted (n : Z) (v : sval) : Prop :=
  convertible n v /\ match v with SVec x => csize (scls x) = n | _ => True end.

(** The Python values that can stand to the left of a symbolic operand without being one. *)
Definition plain (v : sval) : Prop :=
  match v with SInt _ | SBool _ | SSeq _ | SOther _ _ => True | _ => False end.

(** Arguments SMTBit(v) takes, with the term they stand for. *)
Inductive bit_arg : sval -> Prop :=
| R_bool b : bit_arg (SBool b)
| R_bit t : bwf t = true -> bit_arg (SBit t)
| R_zero : bit_arg (SInt 0)
| R_one : bit_arg (SInt 1)
| R_obj i b : bit_arg (SOther i (Some (Ok b))).

(** Named methods with one operand and a vector result, in both families (bvsdiv, bvsrem: property C31). *)
Inductive vmeth := MAnd | MNand | MOr | MNor | MXor | MXnor | MShl | MLshr | MAshr
                 | MAdd | MSub | MMul | MUdiv | MUrem | MComp.
Definition smt_meth (S : simplifier) (m : vmeth) : svec -> sval -> res svec :=
  match m with
  | MAnd => s_bvand S | MNand => s_bvnand S | MOr => s_bvor S | MNor => s_bvnor S | MXor => s_bvxor S
  | MXnor => s_bvxnor S | MShl => s_bvshl S | MLshr => s_bvlshr S | MAshr => s_bvashr S | MAdd => s_bvadd S
  | MSub => s_bvsub S | MMul => s_bvmul S | MUdiv => s_bvudiv S | MUrem => s_bvurem S | MComp => s_bvcomp S
  end.
Definition conc_meth (m : vmeth) : bv -> pyval -> res rv :=
  match m with
  | MAnd => bvand | MNand => bvnand | MOr => bvor | MNor => bvnor | MXor => bvxor
  | MXnor => bvxnor | MShl => bvshl | MLshr => bvlshr | MAshr => bvashr | MAdd => bvadd
  | MSub => bvsub | MMul => bvmul | MUdiv => bvudiv | MUrem => bvurem | MComp => bvcomp
  end.

(** Named comparisons. *)
Inductive rmeth := REq | RNe | RUlt | RUle | RUgt | RUge | RSlt | RSle | RSgt | RSge.
Definition smt_rel (S : simplifier) (m : rmeth) : svec -> sval -> res bterm :=
  match m with
  | REq => s_bveq S | RNe => s_bvne S | RUlt => s_bvult S | RUle => s_bvule S | RUgt => s_bvugt S
  | RUge => s_bvuge S | RSlt => s_bvslt S | RSle => s_bvsle S | RSgt => s_bvsgt S | RSge => s_bvsge S
  end.
Definition conc_rel (m : rmeth) : bv -> pyval -> res bool :=
  match m with
  | REq => bveq | RNe => bvne | RUlt => bvult | RUle => bvule | RUgt => bvugt
  | RUge => bvuge | RSlt => bvslt | RSle => bvsle | RSgt => bvsgt | RSge => bvsge
  end.

(** // and % that run the signed division (whose symbolic form is property C31): the left class, or for two
    vectors either class, is the signed one. *)
Definition signed_division (op : binop) (k : kind) : bool :=
  match op, k with
  | OFloorDiv, KSInt | OMod, KSInt => true
  | _, _ => false
  end.

(** A sample assignment and symbolic vectors for the non-vacuity examples. *)
Definition env0 : env := Env (fun s => String.eqb s "p") (fun s w => if String.eqb s "x" then 11 else 6) (fun _ => -3).
Definition sx (k : kind) (w : Z) : svec := SV (BVC k w) (VVar "x" w).
Definition sy (k : kind) (w : Z) : svec := SV (BVC k w) (VVar "y" w).

(** ** Substitution: rebinding the replaced symbols, the last pair for a symbol wins. *)
Definition rebind1 (e : env) (p : spair) (acc : env) : env :=
  match p with
  | PairB (BVar s) t => Env (fun s' => if String.eqb s' s then evalb e t else ebool acc s') (evec acc) (eint acc)
  | PairV (VVar s w) t =>
      Env (ebool acc) (fun s' w' => if String.eqb s' s && (w' =? w) then evalv e t else evec acc s' w') (eint acc)
  | _ => acc
  end.
Definition rebind (e : env) (l : list spair) : env := fold_left (fun acc p => rebind1 e p acc) l e.
(** Pairs of a variable and a well-sorted term of its sort. *)
Definition good_pair (p : spair) : Prop :=
  match p with
  | PairB (BVar _) t => bwf t = true
  | PairV (VVar _ w) t => vwf t = true /\ width t = w
  | _ => False
  end.

(** ** Integers *)
(** The integer an operand of an SMTInt stands for: an SMTInt, an int, a bool, the unsigned reading of a vector, an
    object with __int__. *)
Inductive int_arg (e : env) : ival -> Z -> Prop :=
| J_term t : iwf t = true -> int_arg e (TInt t) (evali e t)
| J_int z : int_arg e (TVal (SInt z)) z
| J_bool b : int_arg e (TVal (SBool b)) (if b then 1 else 0)
| J_vec x : swf x -> int_arg e (TVal (SVec x)) (evalv e (sterm x))
| J_obj z b : int_arg e (TVal (SOther (Some (Ok z)) b)) z.
Definition iop_value (op : iop) (a b : Z) : Z :=
  match op with JAdd => a + b | JSub => a - b | JMul => a * b end.
Definition icmp_value (c : cmpop) (a b : Z) : bool :=
  match c with
  | CEq => a =? b | CNe => negb (a =? b) | CLt => a <? b | CLe => a <=? b | CGt => b <? a | CGe => b <=? a
  end.

(** ** Formula trees *)
Fixpoint holds (e : env) (f : formula) : bool :=
  match f with
  | FBit t => evalb e t
  | FAnd l => forallb (holds e) l
  | FOr l => existsb (holds e) l
  | FImplies p q => implb (holds e p) (holds e q)
  end.
Fixpoint formula_wf (f : formula) : Prop :=
  match f with
  | FBit t => bwf t = true
  | FAnd l | FOr l => (fix all (l : list formula) : Prop := match l with [] => True | f :: l => formula_wf f /\ all l end) l
  | FImplies p q => formula_wf p /\ formula_wf q
  end.
