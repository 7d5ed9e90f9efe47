(** Vocabulary for the text of formulas (C93). *)
From Coq Require Import String Ascii.
From Verif Require Import PyBase SMTTerm SMTModel SerModel.
Local Open Scope string_scope.

(** The text of a leaf is one line, is not empty, does not end in a comma and does not look like the first line of a connective. *)
Definition one_line (s : string) : Prop := forall a b, s <> a ++ nl ++ b.
Definition leaf_text (s : string) : Prop :=
  one_line s /\ s <> "" /\ (forall a, s <> a ++ ",") /\ s <> "And(" /\ s <> "Or(" /\ s <> "Implies(".
(** Every SMTBit in the formula has such a text. *)
Fixpoint leaves (P : bterm -> Prop) (f : formula) : Prop :=
  match f with
  | FBit t => P t
  | FAnd l | FOr l => (fix all (l : list formula) : Prop := match l with [] => True | f :: l => leaves P f /\ all l end) l
  | FImplies p q => leaves P p /\ leaves P q
  end.
(** The same connectives, nested in the same way, over SMTBits related by R in the same order. *)
Inductive alike (R : bterm -> bterm -> Prop) : formula -> formula -> Prop :=
| A_bit t u : R t u -> alike R (FBit t) (FBit u)
| A_and l m : Forall2 (alike R) l m -> alike R (FAnd l) (FAnd m)
| A_or l m : Forall2 (alike R) l m -> alike R (FOr l) (FOr m)
| A_implies p q p' q' : alike R p p' -> alike R q q' -> alike R (FImplies p q) (FImplies p' q').
