(** Programs that assign bits in place (x[i] = b) on vectors that several variables may refer to, in the three families.
    The other calls are those of ProgModel.v. Definitions only. *)
From Verif Require Import PyBase BVModel OpModel SMTTerm SMTModel SMTSpec Z3Model Z3Spec ProgModel ADTModel.

(** y = one call of the API; y = x; x[i] = b. Variables are numbered in the order in which they are set. *)
Inductive minstr := MCall (i : instr) | MAlias (x : nat) | MSet (x : nat) (i : Z) (b : operand).

Section MRun.
  (** The values of a family, the way its int arguments are passed, the meaning of a call, the variable whose object the call
      returns (if it does not return new objects), and item assignment. *)
  Context {V : Type}.
  Variable int : Z -> V.
  Variable call : (nat -> res V) -> (operand -> res V) -> instr -> res (list V).
  Variable self : (nat -> res V) -> (operand -> res V) -> instr -> option nat.
  Variable set : V -> Z -> V -> res V.

  (** Objects and variables; a variable refers to an object. What the variables hold. *)
  Definition mstate : Type := list V * list nat.
  Definition holds (st : mstate) : list V := flat_map (fun o => match nth_error (fst st) o with Some v => [v] | None => [] end) (snd st).
  Definition mstep (st : mstate) (m : minstr) : res mstate :=
    let '(h, rs) := st in
    let vs := holds st in
    match m with
    | MCall i =>
        ws <- call (reg vs) (opnd int vs) i ;;
        match self (reg vs) (opnd int vs) i with
        | Some x => match nth_error rs x with Some o => Ok (h, rs ++ [o]) | None => Raise ENameError end
        | None => Ok (h ++ ws, rs ++ seq (length h) (length ws))
        end
    | MAlias x => match nth_error rs x with Some o => Ok (h, rs ++ [o]) | None => Raise ENameError end
    | MSet x i b =>
        match nth_error rs x with
        | Some o => v <- reg vs x ;; w <- opnd int vs b ;; v' <- set v i w ;; Ok (update o v' h, rs)
        | None => Raise ENameError
        end
    end.
  Fixpoint msteps (st : mstate) (p : list minstr) : res mstate :=
    match p with [] => Ok st | m :: p => st' <- mstep st m ;; msteps st' p end.
  (** The program on inputs that are different objects; what the variables hold in the end. *)
  Definition mrun (vs : list V) (p : list minstr) : res (list V) := rmap holds (msteps (vs, seq 0 (length vs)) p).
End MRun.

(** bit_vector.py: bvurem and bvsrem return self if the divisor is 0 (385, 399), and so does %; everything else makes new
    objects (C26). *)
Definition conc_self (reg : nat -> res pyval) (op : operand -> res pyval) (i : instr) : option nat :=
  match i with
  | PMeth m x y => match (v <- reg x ;; a <- as_vec v ;; w <- op y ;; conc_meth m a w) with Ok Self => Some x | _ => None end
  | PRol x k => match (v <- reg x ;; a <- as_vec v ;; bvrol a (VInt k)) with Ok Self => Some x | _ => None end
  | PRor x k => match (v <- reg x ;; a <- as_vec v ;; bvror a (VInt k)) with Ok Self => Some x | _ => None end
  | POp o x y =>
      match (v <- reg x ;; w <- op y ;; py_binop o v w) with
      | Ok OLeft => Some x
      | Ok ORight => match y with Reg j => Some j | Num _ => None end
      | _ => None
      end
  | _ => None
  end.
(** BitVector.__setitem__, bit_vector.py:226-241. *)
Definition conc_set (v : pyval) (i : Z) (b : pyval) : res pyval := a <- as_vec v ;; rmap VBV (setitem_int a i b).
Definition conc_mrun : list pyval -> list minstr -> res (list pyval) := mrun VInt conc_call conc_self conc_set.

(** smt_bit_vector.py: every result is type(self)(...) or another class called; __setitem__ 351-365. *)
Definition new_only {V} (reg : nat -> res V) (op : operand -> res V) (i : instr) : option nat := None.
Definition smt_set (S : simplifier) (v : sval) (i : Z) (b : sval) : res sval := a <- s_vec v ;; rmap SVec (s_setitem_int S a i b).
Definition smt_mrun (S : simplifier) : list sval -> list minstr -> res (list sval) := mrun SInt (smt_call S) new_only (smt_set S).
(** z3_bit_vector.py: the same; __setitem__ 302-316. *)
Definition z3_set (S : simplifier) (v : sval) (i : Z) (b : sval) : res sval := a <- s_vec v ;; rmap SVec (z_setitem_int S a i b).
Definition z3_mrun (S : simplifier) : list sval -> list minstr -> res (list sval) := mrun SInt (z3_call S) new_only (z3_set S).
