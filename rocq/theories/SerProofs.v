(** Proofs of the theorems stated in SerProps.v. *)
From Coq Require Import String Ascii.
From Verif Require Import PyBase SMTTerm SMTModel SMTSpec SMTMore SerModel SerSpec SerFacts.
Local Open Scope string_scope.

Lemma C93_text_determines_pf : forall ser prefix indent f g, one_line prefix -> one_line indent ->
  leaves (fun t => leaf_text (ser t)) f -> leaves (fun t => leaf_text (ser t)) g ->
  serialize ser indent f prefix = serialize ser indent g prefix -> alike (fun t u => ser t = ser u) f g.
Proof.
  intros ser p i f g P I F G E. apply one_line_plain in P, I. apply (all_good ser i I f g p "" "" P F G); [now left|now left|]. now rewrite !app_nil.
Qed.

Lemma C93_meaning_pf : forall ser prefix indent f g e, one_line prefix -> one_line indent ->
  leaves (fun t => leaf_text (ser t)) f -> leaves (fun t => leaf_text (ser t)) g -> (forall t u, ser t = ser u -> evalb e t = evalb e u) ->
  serialize ser indent f prefix = serialize ser indent g prefix -> holds e f = holds e g.
Proof. intros ser p i f g e P I F G H E. apply (alike_meaning (fun t u => ser t = ser u)); [exact H|]. exact (C93_text_determines_pf ser p i f g P I F G E). Qed.

Lemma C93_operands_pf : forall vs,
  (forall fs, vs = map FV fs -> mk_and vs = Ok (FAnd fs) /\ mk_or vs = Ok (FOr fs) /\
     forall p q, fs = [p; q] -> mk_implies (FV p) (FV q) = Ok (FImplies p q)) /\
  (In FVOther vs -> mk_and vs = Raise EValueError /\ mk_or vs = Raise EValueError /\
     forall p q, vs = [p; q] -> mk_implies p q = Raise EValueError).
Proof.
  intros vs. split.
  - intros fs ->. assert (M : mapM operand (map FV fs) = Ok fs) by (induction fs as [|f fs IH]; cbn; [|rewrite IH]; reflexivity).
    unfold mk_and, mk_or. rewrite M. split; [|split]; reflexivity.
  - intros I. assert (M : mapM operand vs = Raise EValueError).
    { induction vs as [|v vs IH]; [destruct I|]. cbn [mapM]. destruct I as [->|I]; [reflexivity|]. rewrite (IH I). destruct v; reflexivity. }
    unfold mk_and, mk_or. rewrite M. split; [reflexivity|split; [reflexivity|]]. intros p q ->. destruct I as [->|[->|[]]]; [reflexivity|].
    destruct p; reflexivity.
Qed.

Lemma one_char_line c : c <> ascii_of_nat 10 -> one_line (String c "").
Proof.
  intros N a b E. destruct a as [|x a]; cbn in E; [injection E; intros; subst; now apply N|]. injection E as _ E. destruct a; discriminate.
Qed.

Lemma one_char_text c : c <> ascii_of_nat 10 -> c <> "," %char -> leaf_text (String c "").
Proof.
  intros N M. split; [now apply one_char_line|]. split; [discriminate|]. split.
  - intros a E. destruct a as [|x a]; cbn in E; [injection E; intros; subst; now apply M|]. injection E as _ E. destruct a; discriminate.
  - repeat split; discriminate.
Qed.
