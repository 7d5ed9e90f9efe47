(** C93: the text of formulas. *)
From Coq Require Import String Ascii.
From Verif Require Import PyBase SMTTerm SMTModel SMTSpec SMTMore SerModel SerSpec SerFacts.
Local Open Scope string_scope.
From Verif Require Import SerProofs.

(** C93: the text determines the formula: two formulas that print the same, with the same prefix and indentation, have the same connectives,
    nested in the same way, over SMTBits that print the same, in the same order *)
Theorem C93_text_determines : forall ser prefix indent f g, one_line prefix -> one_line indent ->
  leaves (fun t => leaf_text (ser t)) f -> leaves (fun t => leaf_text (ser t)) g ->
  serialize ser indent f prefix = serialize ser indent g prefix -> alike (fun t u => ser t = ser u) f g.
Proof. exact C93_text_determines_pf. Qed.
Print Assumptions C93_text_determines.
(** C93: so formulas that print the same mean the same, if SMTBits that print the same do *)
Theorem C93_meaning : forall ser prefix indent f g e, one_line prefix -> one_line indent ->
  leaves (fun t => leaf_text (ser t)) f -> leaves (fun t => leaf_text (ser t)) g -> (forall t u, ser t = ser u -> evalb e t = evalb e u) ->
  serialize ser indent f prefix = serialize ser indent g prefix -> holds e f = holds e g.
Proof. exact C93_meaning_pf. Qed.
Print Assumptions C93_meaning.
(** C93: And, Or and Implies accept exactly SMTBits and formulas; anything else among the operands is a ValueError *)
Theorem C93_operands : forall vs,
  (forall fs, vs = map FV fs -> mk_and vs = Ok (FAnd fs) /\ mk_or vs = Ok (FOr fs) /\
     forall p q, fs = [p; q] -> mk_implies (FV p) (FV q) = Ok (FImplies p q)) /\
  (In FVOther vs -> mk_and vs = Raise EValueError /\ mk_or vs = Raise EValueError /\
     forall p q, vs = [p; q] -> mk_implies p q = Raise EValueError).
Proof. exact C93_operands_pf. Qed.
Print Assumptions C93_operands.
(* Non-vacuity: two variables p and q, nested formulas, an empty And; what is printed. *)
Definition show (t : bterm) : string := match t with BVar n => n | _ => "?" end.
Definition f0 : formula := FImplies (FAnd [FBit (BVar "p"); FOr [FBit (BVar "q"); FAnd []]]) (FBit (BVar "q")).

Example C93_ex : leaves (fun t => leaf_text (show t)) f0 /\ one_line "" /\
  serialize show "|   " f0 "" = sjoin nl ["Implies("; "|   And("; "|   |   p,"; "|   |   Or("; "|   |   |   q,"; "|   |   |   And("; ""; "|   |   |   )";
    "|   |   )"; "|   ),"; "|   q"; ")"].
Proof.
  split; [|split].
  - cbn [leaves f0]. repeat split; try (apply one_char_text; discriminate).
    all: first [discriminate|idtac].
  - intros a b E. destruct a; discriminate.
  - vm_compute. reflexivity.
Qed.
Example C93_operands_ex : mk_and [FV (FBit (BVar "p")); FVOther] = Raise EValueError /\ mk_implies FVOther (FV f0) = Raise EValueError.
Proof. split; reflexivity. Qed.
