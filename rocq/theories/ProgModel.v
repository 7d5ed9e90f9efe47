(** Programs written against the bit-vector API, and what they do in the three families: the concrete classes
    (hwtypes/bit_vector.py), the pySMT classes (hwtypes/smt_bit_vector.py) and the z3 classes
    (hwtypes/z3_bit_vector.py). An instruction is one call of the API on earlier results; the run calls the function of
    the family's model that carries the same Python name. Definitions only. *)
From Verif Require Import PyBase BVModel OpModel IteModel SMTTerm SMTModel SMTSpec Z3Model Z3Spec SIteModel.

(** Operands: the result with the given number, or an int of the program text. *)
Inductive operand := Reg (i : nat) | Num (z : Z).

(** The API calls: construction (K[n](z), Bit(b), K[n](x), K[n]([b, ...])), named methods and comparisons, ~ and -,
    rotations by an int, infix operators and comparisons (also with an int on the left), x[i], x[i:j], concat, zext, sext,
    ext, item assignment on a copy (y = type(x)(x); y[i] = b), adc (two results) and c.ite(x, y). *)
Inductive instr :=
| PLit (c : bvcls) (z : Z)
| PBit (b : bool)
| PConv (c : bvcls) (x : nat)
| PPack (c : bvcls) (l : list nat)
| PMeth (m : vmeth) (x : nat) (y : operand)
| PRel (m : rmeth) (x : nat) (y : operand)
| PInv (x : nat)
| PNeg (x : nat)
| PRol (x : nat) (k : Z)
| PRor (x : nat) (k : Z)
| POp (op : binop) (x : nat) (y : operand)
| PCmp (c : cmpop) (x : nat) (y : operand)
| PCmpInt (c : cmpop) (z : Z) (y : nat)
| PItem (x : nat) (i : Z)
| PSlice (x : nat) (a b : option Z)
| PConcat (x y : nat)
| PZext (x : nat) (k : Z)
| PSext (x : nat) (k : Z)
| PExt (x : nat) (k : Z)
| PSet (x : nat) (i : Z) (b : operand)
| PAdc (x : nat) (y c : operand)
| PIte (c x y : nat).

Section Run.
  (** The values of a family, the way its int arguments are passed, and the meaning of a call. *)
  Context {V : Type}.
  Variable int : Z -> V.
  Variable call : (nat -> res V) -> (operand -> res V) -> instr -> res (list V).

  (** Results are numbered in order; the inputs come first. Using a number that does not exist is a NameError. *)
  Definition reg (rs : list V) (i : nat) : res V := match nth_error rs i with Some v => Ok v | None => Raise ENameError end.
  Definition opnd (rs : list V) (o : operand) : res V := match o with Reg i => reg rs i | Num z => Ok (int z) end.
  Fixpoint run (rs : list V) (p : list instr) : res (list V) :=
    match p with
    | [] => Ok rs
    | i :: p => vs <- call (reg rs) (opnd rs) i ;; run (rs ++ vs) p
    end.
End Run.

(** ** The concrete family. A method called on a Bit instead of a vector, or the reverse, is left out. *)
Definition as_vec (v : pyval) : res bv := match v with VBV x => Ok x | _ => Raise EOutOfModel end.
Definition as_bit (v : pyval) : res bool := match v with VBit b => Ok b | _ => Raise EOutOfModel end.
Definition of_cmp (r : oret) : res pyval := match r with ONew v => Ok v | _ => Raise EOutOfModel end.
Definition one {A} (r : res A) : res (list A) := rmap (fun v => [v]) r.
(** bit_vector.py, and Bit.ite on two vectors. *)
Definition conc_call (reg : nat -> res pyval) (op : operand -> res pyval) (i : instr) : res (list pyval) :=
  match i with
  | PLit c z => one (rmap VBV (bv_init c (VInt z)))
  | PBit b => one (rmap VBit (bit_init (VBool b)))
  | PConv c x => v <- reg x ;; one (rmap VBV (bv_init c v))
  | PPack c l => vs <- mapM reg l ;; one (rmap VBV (bv_init c (VSeq vs)))
  | PMeth m x y => v <- reg x ;; a <- as_vec v ;; w <- op y ;; one (rmap (fun o => VBV (rv_val a o)) (conc_meth m a w))
  | PRel m x y => v <- reg x ;; a <- as_vec v ;; w <- op y ;; one (rmap VBit (conc_rel m a w))
  | PInv x =>
      v <- reg x ;;
      match v with
      | VBV a => Ok [VBV (bvnot a)]
      | VBit b => Ok [VBit (bit_invert b)]
      | _ => Raise EOutOfModel
      end
  | PNeg x => v <- reg x ;; a <- as_vec v ;; Ok [VBV (bvneg a)]
  | PRol x k => v <- reg x ;; a <- as_vec v ;; one (rmap (fun o => VBV (rv_val a o)) (bvrol a (VInt k)))
  | PRor x k => v <- reg x ;; a <- as_vec v ;; one (rmap (fun o => VBV (rv_val a o)) (bvror a (VInt k)))
  | POp o x y => v <- reg x ;; w <- op y ;; one (py_binop_val o v w)
  | PCmp c x y => v <- reg x ;; w <- op y ;; one (r <- py_cmp c v w ;; of_cmp r)
  | PCmpInt c z y => w <- reg y ;; one (r <- py_cmp c (VInt z) w ;; of_cmp r)
  | PItem x i => v <- reg x ;; a <- as_vec v ;; one (rmap VBit (getitem_int a i))
  | PSlice x lo hi => v <- reg x ;; a <- as_vec v ;; one (rmap VBV (getitem_slice a lo hi None))
  | PConcat x y => v <- reg x ;; a <- as_vec v ;; w <- reg y ;; one (rmap VBV (concat a w))
  | PZext x k => v <- reg x ;; a <- as_vec v ;; one (rmap VBV (zext a k))
  | PSext x k => v <- reg x ;; a <- as_vec v ;; one (rmap VBV (sext a k))
  | PExt x k => v <- reg x ;; a <- as_vec v ;; one (rmap VBV (ext a k))
  | PSet x i b =>
      v <- reg x ;; a <- as_vec v ;; w <- op b ;;
      y <- bv_init (bcls a) (VBV a) ;; one (rmap VBV (setitem_int y i w))
  | PAdc x y c => v <- reg x ;; a <- as_vec v ;; w <- op y ;; u <- op c ;;
      rmap (fun r => [VBV (fst r); VBit (snd r)]) (adc a w u)
  | PIte c x y => w <- reg c ;; b <- as_bit w ;; v <- reg x ;; a <- as_vec v ;; v' <- reg y ;; a' <- as_vec v' ;;
      r <- ite no_protocols 0 b (vec_branch a) (vec_branch a') ;;
      match fst r with
      | BrVec (PObj (PBase k) n z) => Ok [VBV (BV (BVC k n) z)]
      | _ => Raise EOutOfModel
      end
  end.
Definition conc_run : list pyval -> list instr -> res (list pyval) := run VInt conc_call.

(** ** The symbolic families *)
Definition s_vec (v : sval) : res svec := match v with SVec x => Ok x | _ => Raise EOutOfModel end.
Definition s_bit (v : sval) : res bterm := match v with SBit b => Ok b | _ => Raise EOutOfModel end.
(** The protocol table is not consulted for vectors. *)
Definition s_no_protos : sptypes := fun _ => SProto (BVC KBV 1) (fun _ => Ok 0) (fun _ => SV (BVC KBV 1) (VConst 0 1)).
Definition s_vec_branch (x : svec) : sbranch := SBrVec (SPObj (SPBase (skind x)) (ssize x) (sterm x)).

(** smt_bit_vector.py. *)
Definition smt_call (S : simplifier) (reg : nat -> res sval) (op : operand -> res sval) (i : instr) : res (list sval) :=
  match i with
  | PLit c z => one (rmap SVec (s_init S c (SInt z)))
  | PBit b => one (rmap SBit (sbit_init S (SBool b)))
  | PConv c x => v <- reg x ;; one (rmap SVec (s_init S c v))
  | PPack c l => vs <- mapM reg l ;; one (rmap SVec (s_init S c (SSeq vs)))
  | PMeth m x y => v <- reg x ;; a <- s_vec v ;; w <- op y ;; one (rmap SVec (smt_meth S m a w))
  | PRel m x y => v <- reg x ;; a <- s_vec v ;; w <- op y ;; one (rmap SBit (smt_rel S m a w))
  | PInv x =>
      v <- reg x ;;
      match v with
      | SVec a => one (rmap SVec (s_bvnot S a))
      | SBit b => one (rmap SBit (sbit_invert S b))
      | _ => Raise EOutOfModel
      end
  | PNeg x => v <- reg x ;; a <- s_vec v ;; one (rmap SVec (s_bvneg S a))
  | PRol x k => v <- reg x ;; a <- s_vec v ;; one (rmap SVec (s_bvrol S a (SInt k)))
  | PRor x k => v <- reg x ;; a <- s_vec v ;; one (rmap SVec (s_bvror S a (SInt k)))
  | POp o x y => v <- reg x ;; w <- op y ;; one (s_binop S o v w)
  | PCmp c x y => v <- reg x ;; w <- op y ;; one (s_compare S c v w)
  | PCmpInt c z y => w <- reg y ;; one (s_compare S c (SInt z) w)
  | PItem x i => v <- reg x ;; a <- s_vec v ;; one (rmap SBit (s_getitem_int S a i))
  | PSlice x lo hi => v <- reg x ;; a <- s_vec v ;; one (rmap SVec (s_getitem_slice S a lo hi None))
  | PConcat x y => v <- reg x ;; a <- s_vec v ;; w <- reg y ;; one (rmap SVec (s_concat S a w))
  | PZext x k => v <- reg x ;; a <- s_vec v ;; one (rmap SVec (s_zext S a k))
  | PSext x k => v <- reg x ;; a <- s_vec v ;; one (rmap SVec (s_sext S a k))
  | PExt x k => v <- reg x ;; a <- s_vec v ;; one (rmap SVec (s_ext S a k))
  | PSet x i b =>
      v <- reg x ;; a <- s_vec v ;; w <- op b ;;
      y <- s_init S (scls a) (SVec a) ;; one (rmap SVec (s_setitem_int S y i w))
  | PAdc x y c => v <- reg x ;; a <- s_vec v ;; w <- op y ;; u <- op c ;;
      rmap (fun r => [SVec (fst r); SBit (snd r)]) (s_adc S a w u)
  | PIte c x y => w <- reg c ;; b <- s_bit w ;; v <- reg x ;; a <- s_vec v ;; v' <- reg y ;; a' <- s_vec v' ;;
      r <- s_ite S s_no_protos 0 b (s_vec_branch a) (s_vec_branch a') ;;
      match fst r with
      | SBrVec (SPObj (SPBase k) n t) => Ok [SVec (SV (BVC k n) t)]
      | _ => Raise EOutOfModel
      end
  end.
Definition smt_run (S : simplifier) : list sval -> list instr -> res (list sval) := run SInt (smt_call S).

(** z3_bit_vector.py. *)
Definition z3_call (S : simplifier) (reg : nat -> res sval) (op : operand -> res sval) (i : instr) : res (list sval) :=
  match i with
  | PLit c z => one (rmap SVec (z_init S c (SInt z)))
  | PBit b => one (rmap SBit (z_bit_init S (SBool b)))
  | PConv c x => v <- reg x ;; one (rmap SVec (z_init S c v))
  | PPack c l => vs <- mapM reg l ;; one (rmap SVec (z_init S c (SSeq vs)))
  | PMeth m x y => v <- reg x ;; a <- s_vec v ;; w <- op y ;; one (rmap SVec (z3_meth S m a w))
  | PRel m x y => v <- reg x ;; a <- s_vec v ;; w <- op y ;; one (rmap SBit (z3_rel S m a w))
  | PInv x =>
      v <- reg x ;;
      match v with
      | SVec a => one (rmap SVec (z_bvnot S a))
      | SBit b => one (rmap SBit (z_bit_invert S b))
      | _ => Raise EOutOfModel
      end
  | PNeg x => v <- reg x ;; a <- s_vec v ;; one (rmap SVec (z_bvneg S a))
  | PRol x k => v <- reg x ;; a <- s_vec v ;; one (rmap SVec (z_bvrol S a (SInt k)))
  | PRor x k => v <- reg x ;; a <- s_vec v ;; one (rmap SVec (z_bvror S a (SInt k)))
  | POp o x y => v <- reg x ;; w <- op y ;; one (z_binop S o v w)
  | PCmp c x y => v <- reg x ;; w <- op y ;; one (z_compare S c v w)
  | PCmpInt c z y => w <- reg y ;; one (z_compare S c (SInt z) w)
  | PItem x i => v <- reg x ;; a <- s_vec v ;; one (rmap SBit (z_index S a i))
  | PSlice x lo hi => v <- reg x ;; a <- s_vec v ;; one (rmap SVec (z_slice S a lo hi None))
  | PConcat x y => v <- reg x ;; a <- s_vec v ;; w <- reg y ;; one (rmap SVec (z_concat S a w))
  | PZext x k => v <- reg x ;; a <- s_vec v ;; one (rmap SVec (z_zext S a k))
  | PSext x k => v <- reg x ;; a <- s_vec v ;; one (rmap SVec (z_sext S a k))
  | PExt x k => v <- reg x ;; a <- s_vec v ;; one (rmap SVec (z_ext S a k))
  | PSet x i b =>
      v <- reg x ;; a <- s_vec v ;; w <- op b ;;
      y <- z_init S (scls a) (SVec a) ;; one (rmap SVec (z_setitem_int S y i w))
  | PAdc x y c => v <- reg x ;; a <- s_vec v ;; w <- op y ;; u <- op c ;;
      rmap (fun r => [SVec (fst r); SBit (snd r)]) (z_adc S a w u)
  | PIte c x y => w <- reg c ;; b <- s_bit w ;; v <- reg x ;; v' <- reg y ;; one (rmap SVec (z_ite S b v v'))
  end.
Definition z3_run (S : simplifier) : list sval -> list instr -> res (list sval) := run SInt (z3_call S).
