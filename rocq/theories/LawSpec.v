(** Equations between expressions of the bit-vector API, in the three families: hwtypes/bit_vector.py,
    hwtypes/smt_bit_vector.py and hwtypes/z3_bit_vector.py. An expression is a nest of the calls of ProgModel.v.
    Definitions only. *)
From Verif Require Import PyBase BVModel OpModel SMTTerm SMTModel SMTSpec Z3Model Z3Spec ProgModel ProgSpec.

(** An input, or result number k of a call on the values of other expressions (only adc has a result 1). *)
Inductive expr := Var (i : nat) | App (k : nat) (i : instr) (l : list expr).

(** All values in order, the first exception otherwise. *)
Section Each.
  Context {A B : Type}.
  Variable f : A -> res B.
  Fixpoint each (l : list A) : res (list B) :=
    match l with [] => Ok [] | a :: l => b <- f a ;; bs <- each l ;; Ok (b :: bs) end.
  Variable g : A -> option B.
  Fixpoint oeach (l : list A) : option (list B) :=
    match l with [] => Some [] | a :: l => b <-! g a ;; bs <-! oeach l ;; Some (b :: bs) end.
End Each.
Section Eval.
  Context {V : Type}.
  Variable int : Z -> V.
  Variable call : (nat -> res V) -> (operand -> res V) -> instr -> res (list V).
  (** Arguments first, from left to right; then the call. *)
  Fixpoint ev (rs : list V) (e : expr) : res V :=
    match e with
    | Var i => reg rs i
    | App k i l => vs <- each (ev rs) l ;; ws <- call (reg vs) (opnd int vs) i ;; reg ws k
    end.
End Eval.
Definition conc_ev : list pyval -> expr -> res pyval := ev VInt conc_call.
Definition smt_ev (S : simplifier) : list sval -> expr -> res sval := ev SInt (smt_call S).
Definition z3_ev (S : simplifier) : list sval -> expr -> res sval := ev SInt (z3_call S).

(** The type the checker of ProgSpec.v gives to an expression. *)
Fixpoint ety (ts : list ty) (e : expr) : option ty :=
  match e with
  | Var i => nth_error ts i
  | App k i l => us <-! oeach (ety ts) l ;; vs <-! check1 us i ;; nth_error vs k
  end.

(** The equation l = r holds for inputs of the types ts: the concrete values are the same object contents for all
    inputs; in both symbolic families neither side raises and the two terms have the same value under every
    assignment, whatever (faithful) simplifier runs. *)
Definition equation (ts : list ty) (l r : expr) : Prop :=
  exists t,
  (forall cs, Forall2 conc_has cs ts -> exists v, conc_ev cs l = Ok v /\ conc_ev cs r = Ok v /\ conc_has v t) /\
  (forall S rs, faithful S -> Forall2 sym_has rs ts -> exists v w,
     smt_ev S rs l = Ok v /\ smt_ev S rs r = Ok w /\ sym_has v t /\ sym_has w t /\ forall e, vmeaning e v = vmeaning e w) /\
  (forall S rs, faithful S -> Forall2 sym_has rs ts -> exists v w,
     z3_ev S rs l = Ok v /\ z3_ev S rs r = Ok w /\ sym_has v t /\ sym_has w t /\ forall e, vmeaning e v = vmeaning e w).

(** Abbreviations that read like the Python text. *)
Definition X := Var 0. Definition Y := Var 1. Definition Z_ := Var 2.
Definition op2 (o : binop) (a b : expr) := App 0 (POp o 0 (Reg 1)) [a; b].
Definition op2i (o : binop) (a : expr) (z : Z) := App 0 (POp o 0 (Num z)) [a].
Definition cmp2 (o : cmpop) (a b : expr) := App 0 (PCmp o 0 (Reg 1)) [a; b].
Definition cmp2i (o : cmpop) (a : expr) (z : Z) := App 0 (PCmp o 0 (Num z)) [a].
Definition meth (m : vmeth) (a b : expr) := App 0 (PMeth m 0 (Reg 1)) [a; b].
Definition methi (m : vmeth) (a : expr) (z : Z) := App 0 (PMeth m 0 (Num z)) [a].
Definition rel (m : rmeth) (a b : expr) := App 0 (PRel m 0 (Reg 1)) [a; b].
Definition inv (a : expr) := App 0 (PInv 0) [a].
Definition neg (a : expr) := App 0 (PNeg 0) [a].
Definition lit (c : bvcls) (z : Z) := App 0 (PLit c z) [].
Definition true_ := App 0 (PBit true) [].
Definition rol (a : expr) (k : Z) := App 0 (PRol 0 k) [a].
Definition ror (a : expr) (k : Z) := App 0 (PRor 0 k) [a].
Definition item (a : expr) (i : Z) := App 0 (PItem 0 i) [a].
Definition slice (a : expr) (i j : Z) := App 0 (PSlice 0 (Some i) (Some j)) [a].
Definition cat (a b : expr) := App 0 (PConcat 0 1) [a; b].
Definition zxt (a : expr) (k : Z) := App 0 (PZext 0 k) [a].
Definition sxt (a : expr) (k : Z) := App 0 (PSext 0 k) [a].
Definition sum (a b : expr) (c : Z) := App 0 (PAdc 0 (Reg 1) (Num c)) [a; b].
Definition carry (a b : expr) (c : Z) := App 1 (PAdc 0 (Reg 1) (Num c)) [a; b].
Definition sel (c a b : expr) := App 0 (PIte 0 1 2) [c; a; b].

Declare Scope api_scope.
Delimit Scope api_scope with api.
Notation "a + b" := (op2 OAdd a b) : api_scope.
Notation "a - b" := (op2 OSub a b) : api_scope.
Notation "a * b" := (op2 OMul a b) : api_scope.
Notation "a // b" := (op2 OFloorDiv a b) (at level 40, left associativity) : api_scope.
Notation "a %% b" := (op2 OMod a b) (at level 40, left associativity) : api_scope.
Notation "a & b" := (op2 OAnd a b) (at level 45, left associativity) : api_scope.
Notation "a ^ b" := (op2 OXor a b) : api_scope.
Notation "a || b" := (op2 OOr a b) : api_scope.
Notation "a == b" := (cmp2 CEq a b) (at level 70, no associativity) : api_scope.
Notation "a != b" := (cmp2 CNe a b) (at level 70, no associativity) : api_scope.
Notation "a < b" := (cmp2 CLt a b) : api_scope.
Notation "a <= b" := (cmp2 CLe a b) : api_scope.
Notation "a > b" := (cmp2 CGt a b) : api_scope.
Notation "a >= b" := (cmp2 CGe a b) : api_scope.
Notation "~ a" := (inv a) : api_scope.
Notation "- a" := (neg a) : api_scope.
Inductive eqn := Eqn (l r : expr).
Notation "l ~= r" := (Eqn l%api r%api) (at level 95, no associativity).
(** All equations of a list. *)
Definition laws (ts : list ty) (l : list eqn) : Prop := Forall (fun p => match p with Eqn l r => equation ts l r end) l.
(** An equation that fails for some concrete inputs. *)
Definition fails (ts : list ty) (l r : expr) : Prop :=
  exists cs v w, Forall2 conc_has cs ts /\ conc_ev cs l = Ok v /\ conc_ev cs r = Ok w /\ v <> w.
