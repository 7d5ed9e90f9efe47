(** Model of the constructors of the formula classes And, Or, Implies and of their serialize method
    (hwtypes/smt_utils.py:24-49, 55-60, 65-74) on the formulas of SMTModel.v. Definitions only. The argument [ser] is pySMT's
    serialize of the formula an SMTBit holds. *)
From Coq Require Import String Ascii.
From Verif Require Import PyBase SMTTerm SMTModel.
Local Open Scope string_scope.

(** "\n" *)
Definition nl : string := String (ascii_of_nat 10) "".
(** sep.join(l) *)
Fixpoint sjoin (sep : string) (l : list string) : string :=
  match l with
  | [] => ""
  | [s] => s
  | s :: l => s ++ sep ++ sjoin sep l
  end.
(** _op_to_str, smt_utils.py:30-36, given the texts of the operands. *)
Definition op_to_str (name prefix : string) (operands : list string) : string :=
  sjoin nl [prefix ++ name ++ "("; sjoin ("," ++ nl) operands; prefix ++ ")"].
(** _value_to_str, smt_utils.py:24-28, and serialize(line_prefix, indent), 46-47, 60-61, 72-73. *)
Fixpoint serialize (ser : bterm -> string) (indent : string) (f : formula) (prefix : string) : string :=
  match f with
  | FBit t => prefix ++ ser t
  | FAnd l => op_to_str "And" prefix (map (fun f => serialize ser indent f (prefix ++ indent)) l)
  | FOr l => op_to_str "Or" prefix (map (fun f => serialize ser indent f (prefix ++ indent)) l)
  | FImplies p q => op_to_str "Implies" prefix [serialize ser indent p (prefix ++ indent); serialize ser indent q (prefix ++ indent)]
  end.

(** The objects a program passes to the constructors: SMTBits and formulas, and any other object. *)
Inductive fval := FV (f : formula) | FVOther.
(** _check, smt_utils.py:37-39. *)
Definition operand (v : fval) : res formula := match v with FV f => Ok f | FVOther => Raise EValueError end.
(** And(values), Or(values), Implies(p, q), smt_utils.py:42-44, 56-58, 67-70. *)
Definition mk_and (vs : list fval) : res formula := fs <- mapM operand vs ;; Ok (FAnd fs).
Definition mk_or (vs : list fval) : res formula := fs <- mapM operand vs ;; Ok (FOr fs).
Definition mk_implies (p q : fval) : res formula := a <- operand p ;; b <- operand q ;; Ok (FImplies a b).
