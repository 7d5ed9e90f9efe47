(** Lemmas on printed symbolic values. *)
From Coq Require Import Lia ZifyBool String Ascii DecimalString.
From Verif Require Import PyBase BVModel OpModel OpFacts SMTTerm SPrintModel SPrintSpec.
From Verif Require FPModel SMTFPModel NameModel.
Local Open Scope string_scope.

Fixpoint no_paren (s : string) : bool := match s with EmptyString => true | String c s => negb (Ascii.eqb c "(") && no_paren s end.
Lemma paren_split a : forall b s t, no_paren a = true -> no_paren b = true -> a ++ "(" ++ s = b ++ "(" ++ t -> a = b /\ s = t.
Proof.
  induction a as [|c a IH]; intros [|d b] s t A B E.
  - cbn in E. injection E as ->. auto.
  - cbn in E. injection E as <- E. discriminate B.
  - cbn in E. injection E as -> E. discriminate A.
  - cbn in A, B, E. injection E as -> E. apply andb_prop in A as [_ A]. apply andb_prop in B as [_ B]. destruct (IH b s t A B E) as [-> ->]. auto.
Qed.
Lemma no_paren_app a b : no_paren (a ++ b) = no_paren a && no_paren b.
Proof. induction a as [|c a IH]; cbn; [reflexivity|]. rewrite IH. now rewrite Bool.andb_assoc. Qed.
Lemma uint_no_paren d : no_paren (NilEmpty.string_of_uint d) = true.
Proof. induction d; cbn; auto. Qed.
Lemma cls_no_paren c : no_paren (pcls_text c) = true.
Proof. destruct c as [[]| |[] [[] n]]; try reflexivity; unfold pcls_text, cls_name; rewrite !no_paren_app; unfold decimal; rewrite uint_no_paren; reflexivity. Qed.
Lemma close_inj a : forall b, a ++ ")" = b ++ ")" -> a = b.
Proof.
  assert (N : forall s c, s ++ String c EmptyString <> "") by (intros [|? ?] c H; discriminate H).
  induction a as [|c a IH]; intros [|d b] E; cbn in E; auto.
  - injection E as _ E. symmetry in E. now apply N in E.
  - injection E as _ E. now apply N in E.
  - injection E as -> E. now rewrite (IH b E).
Qed.
Lemma cls_name_eq c d : 0 <= csize c -> 0 <= csize d -> cls_name c = cls_name d -> c = d.
Proof.
  destruct c as [k n], d as [l m]. unfold cls_name. cbn [ck csize]. intros N M E.
  assert (K : k = l /\ decimal n ++ "]" = decimal m ++ "]") by (destruct k, l; cbn in E; injection E; auto; intros; discriminate).
  destruct K as [-> K]. assert (D : decimal n = decimal m).
  { revert K. generalize (decimal n) (decimal m). intros a. induction a as [|c a IH]; intros [|d b] F; cbn in F; auto.
    - injection F as _ F. destruct b; discriminate F.
    - injection F as _ F. destruct a; discriminate F.
    - injection F as -> F. now rewrite (IH b F). }
  now rewrite (decimal_inj n m N M D).
Qed.
Lemma cls_text_eq c d : real_cls c -> real_cls d -> pcls_text c = pcls_text d -> c = d.
Proof.
  assert (V : forall k n s, pcls_text (PVec FSMT (BVC k n)) = String "<" s -> False) by (intros k n s H; discriminate H).
  destruct c as [[]| |[] c], d as [[]| |[] d]; intros C D E; try reflexivity; try discriminate E.
  all: cbn [pcls_text] in E; apply append_inv_head in E; now rewrite (cls_name_eq _ _ C D E).
Qed.
Definition inner (show : formula -> string) (x : pobj) : string := match p_name x with Some n => n | None => show (p_term x) end.
Lemma srepr_inner show x : srepr show x = pcls_text (p_cls x) ++ "(" ++ (inner show x ++ ")").
Proof. unfold srepr, inner. destruct (p_name x); reflexivity. Qed.
Lemma srepr_split show x y : real_cls (p_cls x) -> real_cls (p_cls y) -> srepr show x = srepr show y -> p_cls x = p_cls y /\ inner show x = inner show y.
Proof.
  intros X Y E. rewrite !srepr_inner in E. apply paren_split in E as [E F]; [|apply cls_no_paren..]. split; [now apply cls_text_eq|now apply close_inj].
Qed.

Lemma zero_uint_no_paren d : no_paren (NilZero.string_of_uint d) = true.
Proof. unfold NilZero.string_of_uint. destruct d; try reflexivity; apply uint_no_paren. Qed.
Lemma fp_no_paren f : no_paren ("<class 'hwtypes.fp_vector." ++ SMTFPModel.bound_name "FPVector" f ++ "'>") = true.
Proof.
  unfold SMTFPModel.bound_name, NameModel.dec. rewrite !no_paren_app, !zero_uint_no_paren. destruct f as [e m r i]. destruct r, i; reflexivity.
Qed.
Lemma quote_inj a : forall b, a ++ "'>" = b ++ "'>" -> a = b.
Proof.
  assert (N : forall c d, c <> ">"%char -> d ++ "'>" <> String c EmptyString) by (intros c [|x d] H E; [discriminate E|injection E as _ E; destruct d; discriminate E]).
  induction a as [|c a IH]; intros [|d b] E; cbn in E; auto.
  - injection E as _ E. destruct b as [|x [|y b]]; discriminate E.
  - injection E as _ E. destruct a as [|x [|y a]]; discriminate E.
  - injection E as -> E. now rewrite (IH b E).
Qed.
