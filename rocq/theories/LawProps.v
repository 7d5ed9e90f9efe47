(** C112: the algebra of bit-vectors. [laws ts l] (LawSpec.v): every equation of the list l holds for all inputs of the
    types ts, in the concrete, the pySMT and the z3 family; X, Y, Z_ are the inputs, and the expressions are nests of
    API calls ([lit c 3] is c(3), [op2i OShl X 1] is X << 1, [meth m X Y] is X.m(Y), [sel b X Y] is b.ite(X, Y), [cat X Y]
    is X.concat(Y), [sum] and [carry] are the two results of X.adc(Y, c), and %% is Python's %). *)
From Coq Require Import Lia ZifyBool.
From Verif Require Import PyBase BVModel BVSpec BVFacts BVOps OpModel OpSpec SMTTerm SMTModel SMTSpec SMTFacts ProgModel ProgSpec ProgFacts ProgInputs LawSpec LawFacts.
From Verif Require Import LawProofs.


(** ** C112: arithmetic modulo 2^n *)

(** Vectors of one class are a commutative ring, and minus is what it should be. *)
Theorem C112_ring : forall c, 1 <= csize c -> laws [TVec c; TVec c; TVec c] [
  X + Y ~= Y + X; X + Y + Z_ ~= X + (Y + Z_); X + lit c 0 ~= X; X + - X ~= lit c 0;
  X - Y ~= X + - Y; X - X ~= lit c 0; - - X ~= X; - (X + Y) ~= - X - Y;
  X * Y ~= Y * X; X * Y * Z_ ~= X * (Y * Z_); X * lit c 1 ~= X; X * lit c 0 ~= lit c 0;
  X * (Y + Z_) ~= X * Y + X * Z_; X * (Y - Z_) ~= X * Y - X * Z_; - X * Y ~= - (X * Y)].
Proof. exact C112_ring_pf. Qed.
Print Assumptions C112_ring.

Example C112_ring_ex : let c := BVC KSInt 4 in let cs := [VBV (BV c 9); VBV (BV c 12); VBV (BV c 15)] in
  Forall2 conc_has cs [TVec c; TVec c; TVec c] /\ conc_ev cs (X * (Y + Z_))%api = Ok (VBV (BV c 3)).
Proof. split; [repeat constructor; vm_compute; congruence|vm_compute; reflexivity]. Qed.

(** ** C112: Boolean algebra *)
Theorem C112_boolean : forall c, 1 <= csize c -> laws [TVec c; TVec c; TVec c] [
  X & Y ~= Y & X; X || Y ~= Y || X; X ^ Y ~= Y ^ X;
  X & Y & Z_ ~= X & (Y & Z_); X || Y || Z_ ~= X || (Y || Z_); (X ^ Y) ^ Z_ ~= X ^ (Y ^ Z_);
  X & (Y || Z_) ~= (X & Y) || (X & Z_); X || (Y & Z_) ~= (X || Y) & (X || Z_); X & (Y ^ Z_) ~= (X & Y) ^ (X & Z_);
  X & X ~= X; X || X ~= X; X & (X || Y) ~= X; X || (X & Y) ~= X;
  ~ (~ X) ~= X; ~ (X & Y) ~= (~ X) || (~ Y); ~ (X || Y) ~= (~ X) & (~ Y); X ^ Y ~= (X & (~ Y)) || ((~ X) & Y);
  X & (~ X) ~= lit c 0; X || (~ X) ~= lit c (-1); X ^ X ~= lit c 0; X & lit c (-1) ~= X; X || lit c 0 ~= X; X ^ lit c (-1) ~= ~ X].
Proof. exact C112_boolean_pf. Qed.
Print Assumptions C112_boolean.

Example C112_boolean_ex : let c := BVC KUInt 4 in let cs := [VBV (BV c 9); VBV (BV c 12); VBV (BV c 15)] in
  Forall2 conc_has cs [TVec c; TVec c; TVec c] /\ conc_ev cs (~ (X & Y))%api = Ok (VBV (BV c 7)).
Proof. split; [repeat constructor; vm_compute; congruence|vm_compute; reflexivity]. Qed.

(** ** C112: arithmetic and bits *)

(** Two's complement; addition from its bitwise parts; the adder. *)
Theorem C112_complement : forall c, 1 <= csize c -> laws [TVec c; TVec c] [
  - X ~= (~ X) + lit c 1; ~ X ~= - X - lit c 1; X - Y ~= X + (~ Y) + lit c 1;
  X + Y ~= (X || Y) + (X & Y); X + Y ~= (X ^ Y) + op2i OShl (X & Y) 1; X - Y ~= (X ^ Y) - op2i OShl ((~ X) & Y) 1;
  sum X Y 0 ~= X + Y; sum X (~ Y) 1 ~= X - Y; ~ (X + Y) ~= (~ X) - Y].
Proof. exact C112_complement_pf. Qed.
Print Assumptions C112_complement.
Example C112_complement_ex : let c := BVC KBV 4 in let cs := [VBV (BV c 9); VBV (BV c 12)] in
  Forall2 conc_has cs [TVec c; TVec c] /\ conc_ev cs (sum X (~ Y)%api 1) = Ok (VBV (BV c 13)).
Proof. split; [repeat constructor; vm_compute; congruence|vm_compute; reflexivity]. Qed.

(** ** C112: comparisons *)

(** The infix comparisons (signed for SIntVector) are one total order; equality, unsigned and signed order from
    arithmetic: x == y is x - y == 0, x < y unsigned is the missing carry of x - y, and signed order is unsigned order
    with the sign bits flipped. *)
Theorem C112_compare : forall c, 1 <= csize c -> laws [TVec c; TVec c; TVec c] [
  X == Y ~= Y == X; X != Y ~= ~ (X == Y); X < Y ~= Y > X; X <= Y ~= ~ (X > Y); X >= Y ~= ~ (X < Y);
  X <= Y ~= (X < Y) || (X == Y); X == Y ~= (X <= Y) & (Y <= X);
  (~ ((X < Y) & (Y < Z_))) || (X < Z_) ~= true_;
  X == Y ~= X - Y == lit c 0; X == Y ~= X ^ Y == lit c 0; X + Z_ == Y + Z_ ~= X == Y;
  rel RUlt X Y ~= ~ (carry X (~ Y)%api 1); rel RUlt (~ X)%api (~ Y)%api ~= rel RUlt Y X;
  rel RSlt X Y ~= rel RUlt (X ^ lit c (2 ^ (csize c - 1)))%api (Y ^ lit c (2 ^ (csize c - 1)))%api;
  rel RSlt X Y ~= (rel RUlt X Y ^ item X (csize c - 1)) ^ item Y (csize c - 1);
  rel RSlt X (lit c 0) ~= item X (csize c - 1)].
Proof. exact C112_compare_pf. Qed.
Print Assumptions C112_compare.
Example C112_compare_ex : let c := BVC KSInt 4 in let cs := [VBV (BV c 9); VBV (BV c 2); VBV (BV c 7)] in
  Forall2 conc_has cs [TVec c; TVec c; TVec c] /\ conc_ev cs (X < Y)%api = Ok (VBit true) /\ conc_ev cs (rel RUlt X Y) = Ok (VBit false).
Proof. split; [repeat constructor; vm_compute; congruence|vm_compute; auto]. Qed.
(** What does not hold: x < y from the sign of x - y, order after addition, dividing a product. *)
Theorem C112_wrap_refuted : let c := BVC KSInt 4 in let d := BVC KUInt 4 in
  fails [TVec c; TVec c] (X < Y)%api (X - Y < lit c 0)%api /\
  fails [TVec d; TVec d] (X < X + Y)%api (lit d 0 < Y)%api /\
  fails [TVec d; TVec d] (X * Y // Y)%api X /\
  fails [TVec c; TVec c] ((- X) >= lit c 0)%api (X <= lit c 0)%api.
Proof. exact C112_wrap_refuted_pf. Qed.
Print Assumptions C112_wrap_refuted.

(** ** C112: shifts and rotations by a number *)
Theorem C112_shift : forall c k, 1 <= csize c -> 0 <= k < csize c -> laws [TVec c; TVec c] [
  op2i OShl X k ~= X * lit c (2 ^ k); methi MLshr X k ~= methi MUdiv X (2 ^ k);
  op2i OShl (X + Y)%api k ~= op2i OShl X k + op2i OShl Y k;
  ~ (methi MAshr (~ X)%api k) ~= methi MAshr X k; methi MLshr (methi MLshr X k) (csize c - k) ~= lit c 0;
  methi MLshr (op2i OShl X k) k ~= X & lit c (2 ^ (csize c - k) - 1); op2i OShl (methi MLshr X k) k ~= X & (- lit c (2 ^ k));
  rol X k ~= op2i OShl X k || methi MLshr X (csize c - k); ror X k ~= rol X (csize c - k); ror (rol X k) k ~= X;
  rol (X & Y)%api k ~= rol X k & rol Y k; rol (~ X)%api k ~= ~ (rol X k)].
Proof. exact C112_shift_pf. Qed.
Print Assumptions C112_shift.
Example C112_shift_ex : let c := BVC KSInt 4 in let cs := [VBV (BV c 9); VBV (BV c 2)] in
  Forall2 conc_has cs [TVec c; TVec c] /\ conc_ev cs (rol X 3) = Ok (VBV (BV c 12)) /\ conc_ev cs (ror X 1) = Ok (VBV (BV c 12)).
Proof. split; [repeat constructor; vm_compute; congruence|vm_compute; auto]. Qed.

(** ** C112: taking vectors apart and putting them together *)

(** Slices of results, concatenation, extension. *)
Theorem C112_parts : forall c k, 2 <= csize c -> 0 < k < csize c -> let n := csize c in
  laws [TVec c; TVec c] [
    cat (slice X 0 k) (slice X k n) ~= X; slice (cat X Y) 0 n ~= X; slice (cat X Y) n (n + n) ~= Y; slice (zxt X k) 0 n ~= X;
    slice (sxt X k) 0 n ~= X] /\
  laws [TVec c; TVec c] [
    slice (X & Y)%api k n ~= slice X k n & slice Y k n; slice (X ^ Y)%api k n ~= slice X k n ^ slice Y k n; slice (~ X)%api k n ~= ~ (slice X k n)] /\
  laws [TVec c; TVec c] [
    slice (X + Y)%api 0 k ~= slice X 0 k + slice Y 0 k; slice (X * Y)%api 0 k ~= slice X 0 k * slice Y 0 k; slice (- X)%api 0 k ~= - slice X 0 k] /\
  laws [TVec c; TVec c] [
    cat X Y & cat Y X ~= cat (X & Y)%api (Y & X)%api; ~ (cat X Y) ~= cat (~ X)%api (~ Y)%api; cat X (lit c 0) ~= zxt X n].
Proof. exact C112_parts_pf. Qed.
Print Assumptions C112_parts.
Example C112_parts_ex : let c := BVC KUInt 4 in let cs := [VBV (BV c 9); VBV (BV c 2)] in
  Forall2 conc_has cs [TVec c; TVec c] /\ conc_ev cs (slice (X * Y)%api 0 3) = Ok (VBV (BV (BVC KUInt 3) 2)) /\
  conc_ev cs (cat X Y) = Ok (VBV (BV (BVC KUInt 8) 41)).
Proof. split; [repeat constructor; vm_compute; congruence|vm_compute; auto]. Qed.

(** ** C112: division *)

(** Quotient and remainder of the unsigned classes, with no exception for a zero divisor. *)
Theorem C112_division : forall c, 1 <= csize c -> ck c <> KSInt ->
  laws [TVec c; TVec c] [(X // Y) * Y + X %% Y ~= X; X - (X // Y) * Y ~= X %% Y; X // lit c 1 ~= X] /\
  laws [TVec c; TVec c] [(Y == lit c 0) || (X %% Y < Y) ~= true_; (Y == lit c 0) || (X // Y <= X) ~= true_; X < Y ~= (X // Y == lit c 0) & (Y != lit c 0)].
Proof. exact C112_division_pf. Qed.
Print Assumptions C112_division.
Example C112_division_ex : let c := BVC KUInt 4 in let cs := [VBV (BV c 9); VBV (BV c 0)] in
  Forall2 conc_has cs [TVec c; TVec c] /\ conc_ev cs (X // Y)%api = Ok (VBV (BV c 15)) /\ conc_ev cs (X %% Y)%api = Ok (VBV (BV c 9)).
Proof. split; [repeat constructor; vm_compute; congruence|vm_compute; auto]. Qed.

(** ** C112: ite *)
Theorem C112_ite : forall c, 1 <= csize c -> let B := Var 0 in let X := Var 1 in let Y := Var 2 in let Z_ := Var 3 in
  laws [TBit; TVec c; TVec c; TVec c] [
    sel B X X ~= X; sel (~ B)%api X Y ~= sel B Y X; sel true_ X Y ~= X; sel B (sel B X Y) Z_ ~= sel B X Z_; sel B X (sel B Y Z_) ~= sel B X Z_;
    sel B X Y + Z_ ~= sel B (X + Z_)%api (Y + Z_)%api; sel B X Y * Z_ ~= sel B (X * Z_)%api (Y * Z_)%api; ~ (sel B X Y) ~= sel B (~ X)%api (~ Y)%api;
    sel (X == Y)%api X Y ~= Y; sel (X < Y)%api X Y ~= sel (Y < X)%api Y X; sel (X < Y)%api X Y + sel (X < Y)%api Y X ~= X + Y].
Proof. exact C112_ite_pf. Qed.
Print Assumptions C112_ite.
Example C112_ite_ex : let c := BVC KUInt 4 in let cs := [VBit false; VBV (BV c 9); VBV (BV c 2); VBV (BV c 3)] in
  Forall2 conc_has cs [TBit; TVec c; TVec c; TVec c] /\ conc_ev cs (sel (Var 0) (Var 1) (Var 2) + Var 3)%api = Ok (VBV (BV c 5)).
Proof. split; [repeat constructor; vm_compute; congruence|vm_compute; auto]. Qed.

(** ** C112: checking an equation with a solver *)

(** If the checker accepts both sides, an equation holds in all families as soon as it holds of all concrete inputs, and
    as soon as a solver says that the two terms built from fresh variables are equal under every assignment, in either
    symbolic family. *)
Theorem C112_transfer : forall ts l r t, ety ts l = Some t -> ety ts r = Some t ->
  ((forall cs, Forall2 conc_has cs ts -> conc_ev cs l = conc_ev cs r) <-> equation ts l r) /\
  forall S names v w, faithful S -> Forall sized_ty ts -> NoDup names -> length names = length ts ->
    (smt_ev S (inputs names ts) l = Ok v /\ smt_ev S (inputs names ts) r = Ok w) \/
    (z3_ev S (inputs names ts) l = Ok v /\ z3_ev S (inputs names ts) r = Ok w) ->
    ((forall e, vmeaning e v = vmeaning e w) <-> equation ts l r).
Proof. exact C112_transfer_pf. Qed.
Print Assumptions C112_transfer.
Example C112_transfer_ex : let c := BVC KUInt 4 in let ts := [TVec c; TVec c] in
  ety ts (X + Y)%api = Some (TVec c) /\ ety ts (Y + X)%api = Some (TVec c) /\ Forall sized_ty ts /\ NoDup ["x"; "y"]%string /\
  (exists v w, smt_ev no_simp (inputs ["x"; "y"]%string ts) (X + Y)%api = Ok v /\ smt_ev no_simp (inputs ["x"; "y"]%string ts) (Y + X)%api = Ok w /\ v <> w).
Proof.
  cbv zeta. split; [reflexivity|]. split; [reflexivity|]. split; [repeat constructor; vm_compute; discriminate|]. split; [repeat constructor; cbn; intuition discriminate|].
  do 2 eexists. split; [vm_compute; reflexivity|]. split; [vm_compute; reflexivity|]. discriminate.
Qed.
