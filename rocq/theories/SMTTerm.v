(** SMT-LIB terms of sort Bool, BitVec and Int as built by pySMT, their sorts and their meaning.
    This file is the trusted reading of the SMT-LIB theory FixedSizeBitVectors (operators bvnot ... bvsge,
    extract, concat, zero_extend, sign_extend, rotate_left, rotate_right, bvcomp), Core and Ints; it models
    no hwtypes source lines. *)
From Verif Require Import PyBase.

Inductive bterm :=
| BConst (b : bool)
| BVar (s : string)
| BNot (p : bterm)
| BAnd (p q : bterm)
| BOr (p q : bterm)
| BIff (p q : bterm)
| BIte (c p q : bterm)
| BEq (a b : vterm)
| BUlt (a b : vterm)
| BUle (a b : vterm)
| BSlt (a b : vterm)
| BSle (a b : vterm)
| BIEq (a b : iterm)
| BILt (a b : iterm)
| BILe (a b : iterm)
with vterm :=
| VConst (v w : Z)
| VVar (s : string) (w : Z)
| VNot (a : vterm)
| VNeg (a : vterm)
| VBin (op : vop) (a b : vterm)
| VConcat (a b : vterm)
| VExtract (lo hi : Z) (a : vterm)
| VZExt (k : Z) (a : vterm)
| VSExt (k : Z) (a : vterm)
| VRol (k : Z) (a : vterm)
| VRor (k : Z) (a : vterm)
| VComp (a b : vterm)
| VIte (c : bterm) (a b : vterm)
with vop := XAnd | XOr | XXor | XAdd | XSub | XMul | XUDiv | XURem | XSDiv | XSRem | XSMod | XShl | XLShr | XAShr
           | XRol | XRor                    (* z3 only: ext_rotate_left, ext_rotate_right *)
with iterm :=
| IConst (z : Z)
| IVar (s : string)
| IAdd (a b : iterm)
| ISub (a b : iterm)
| IMul (a b : iterm)
| INat (a : vterm).

(** An assignment: a value for every symbol of every sort. *)
Record env := Env { ebool : string -> bool; evec : string -> Z -> Z; eint : string -> Z }.

Fixpoint width (t : vterm) : Z :=
  match t with
  | VConst _ w | VVar _ w => w
  | VNot a | VNeg a | VRol _ a | VRor _ a => width a
  | VBin _ a _ => width a
  | VConcat a b => width a + width b
  | VExtract lo hi _ => hi - lo + 1
  | VZExt k a | VSExt k a => width a + k
  | VComp _ _ => 1
  | VIte _ a _ => width a
  end.

(** Two's complement sign bit and negation on w-bit patterns. *)
Definition msb (w a : Z) : bool := 2 ^ (w - 1) <=? a.
Definition neg (w a : Z) : Z := (- a) mod 2 ^ w.
Definition udiv (w a b : Z) : Z := if b =? 0 then 2 ^ w - 1 else a / b.
Definition urem (a b : Z) : Z := if b =? 0 then a else a mod b.
Definition sdiv (w a b : Z) : Z :=
  match msb w a, msb w b with
  | false, false => udiv w a b
  | true, false => neg w (udiv w (neg w a) b)
  | false, true => neg w (udiv w a (neg w b))
  | true, true => udiv w (neg w a) (neg w b)
  end.
Definition srem (w a b : Z) : Z :=
  match msb w a, msb w b with
  | false, false => urem a b
  | true, false => neg w (urem (neg w a) b)
  | false, true => urem a (neg w b)
  | true, true => neg w (urem (neg w a) (neg w b))
  end.
(** bvsmod: the sign follows the divisor. *)
Definition smod (w a b : Z) : Z :=
  let aa := if msb w a then neg w a else a in
  let ab := if msb w b then neg w b else b in
  let u := urem aa ab in
  if u =? 0 then u
  else match msb w a, msb w b with
       | false, false => u
       | true, false => (neg w u + b) mod 2 ^ w
       | false, true => (u + b) mod 2 ^ w
       | true, true => neg w u
       end.
(** The number a w-bit pattern denotes in two's complement. *)
Definition to_int (w a : Z) : Z := if msb w a then a - 2 ^ w else a.

Definition op_sem (op : vop) (w a b : Z) : Z :=
  match op with
  | XAnd => Z.land a b
  | XOr => Z.lor a b
  | XXor => Z.lxor a b
  | XAdd => (a + b) mod 2 ^ w
  | XSub => (a - b) mod 2 ^ w
  | XMul => (a * b) mod 2 ^ w
  | XUDiv => udiv w a b
  | XURem => urem a b
  | XSDiv => sdiv w a b
  | XSRem => srem w a b
  | XSMod => smod w a b
  | XShl => (a * 2 ^ b) mod 2 ^ w
  | XLShr => a / 2 ^ b
  | XAShr => (to_int w a / 2 ^ b) mod 2 ^ w
  | XRol => let k := b mod w in (a * 2 ^ k) mod 2 ^ w + a / 2 ^ (w - k)
  | XRor => let k := b mod w in a / 2 ^ k + (a * 2 ^ (w - k)) mod 2 ^ w
  end.

Fixpoint evalb (e : env) (t : bterm) : bool :=
  match t with
  | BConst b => b
  | BVar s => ebool e s
  | BNot p => negb (evalb e p)
  | BAnd p q => evalb e p && evalb e q
  | BOr p q => evalb e p || evalb e q
  | BIff p q => Bool.eqb (evalb e p) (evalb e q)
  | BIte c p q => if evalb e c then evalb e p else evalb e q
  | BEq a b => evalv e a =? evalv e b
  | BUlt a b => evalv e a <? evalv e b
  | BUle a b => evalv e a <=? evalv e b
  | BSlt a b => to_int (width a) (evalv e a) <? to_int (width b) (evalv e b)
  | BSle a b => to_int (width a) (evalv e a) <=? to_int (width b) (evalv e b)
  | BIEq a b => evali e a =? evali e b
  | BILt a b => evali e a <? evali e b
  | BILe a b => evali e a <=? evali e b
  end
with evalv (e : env) (t : vterm) : Z :=
  match t with
  | VConst v _ => v
  | VVar s w => evec e s w mod 2 ^ w
  | VNot a => 2 ^ width a - 1 - evalv e a
  | VNeg a => neg (width a) (evalv e a)
  | VBin op a b => op_sem op (width a) (evalv e a) (evalv e b)
  | VConcat a b => evalv e a * 2 ^ width b + evalv e b           (* a is the more significant part *)
  | VExtract lo hi a => (evalv e a / 2 ^ lo) mod 2 ^ (hi - lo + 1)
  | VZExt _ a => evalv e a
  | VSExt k a => to_int (width a) (evalv e a) mod 2 ^ (width a + k)
  | VRol k a => let w := width a in (evalv e a * 2 ^ k) mod 2 ^ w + evalv e a / 2 ^ (w - k)
  | VRor k a => let w := width a in evalv e a / 2 ^ k + (evalv e a * 2 ^ (w - k)) mod 2 ^ w
  | VComp a b => if evalv e a =? evalv e b then 1 else 0
  | VIte c a b => if evalb e c then evalv e a else evalv e b
  end
with evali (e : env) (t : iterm) : Z :=
  match t with
  | IConst z => z
  | IVar s => eint e s
  | IAdd a b => evali e a + evali e b
  | ISub a b => evali e a - evali e b
  | IMul a b => evali e a * evali e b
  | INat a => evalv e a
  end.

(** Well-sortedness: the checks pySMT makes when a node is created (equal widths; constants and extraction
    bounds in range; rotations at most the width; positive widths). *)
Fixpoint bwf (t : bterm) : bool :=
  match t with
  | BConst _ | BVar _ => true
  | BNot p => bwf p
  | BAnd p q | BOr p q | BIff p q => bwf p && bwf q
  | BIte c p q => bwf c && bwf p && bwf q
  | BEq a b | BUlt a b | BUle a b | BSlt a b | BSle a b => vwf a && vwf b && (width a =? width b)
  | BIEq a b | BILt a b | BILe a b => iwf a && iwf b
  end
with vwf (t : vterm) : bool :=
  match t with
  | VConst v w => (1 <=? w) && (0 <=? v) && (v <? 2 ^ w)
  | VVar _ w => 1 <=? w
  | VNot a | VNeg a => vwf a
  | VBin _ a b => vwf a && vwf b && (width a =? width b)
  | VConcat a b => vwf a && vwf b
  | VExtract lo hi a => vwf a && (0 <=? lo) && (lo <=? hi) && (hi <? width a)
  | VZExt k a | VSExt k a => vwf a && (0 <=? k)
  | VRol k a | VRor k a => vwf a && (0 <=? k) && (k <=? width a)
  | VComp a b => vwf a && vwf b && (width a =? width b)
  | VIte c a b => bwf c && vwf a && vwf b && (width a =? width b)
  end
with iwf (t : iterm) : bool :=
  match t with
  | IConst _ | IVar _ => true
  | IAdd a b | ISub a b | IMul a b => iwf a && iwf b
  | INat a => vwf a
  end.

(** pySMT's simplifier: any rewriting that keeps sorts and meaning (a hypothesis of the theorems, not an axiom). *)
Record simplifier := Simp { simp_b : bterm -> bterm; simp_v : vterm -> vterm; simp_i : iterm -> iterm }.
Definition faithful (S : simplifier) : Prop :=
  (forall t, bwf t = true -> bwf (simp_b S t) = true /\ forall e, evalb e (simp_b S t) = evalb e t) /\
  (forall t, vwf t = true -> vwf (simp_v S t) = true /\ width (simp_v S t) = width t /\ forall e, evalv e (simp_v S t) = evalv e t) /\
  (forall t, iwf t = true -> iwf (simp_i S t) = true /\ forall e, evali e (simp_i S t) = evali e t).
(** The identity is one, so the hypothesis can be met. *)
Definition no_simp : simplifier := Simp (fun t => t) (fun t => t) (fun t => t).
