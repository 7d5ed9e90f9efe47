(** Proofs of the theorems stated in SPrintProps.v. *)
From Coq Require Import Lia ZifyBool String Ascii.
From Verif Require Import PyBase BVModel OpModel OpFacts SMTTerm SMTSpec NameModel NameSpec NameProofs Z3NameModel Z3NameSpec Z3NameProofs SPrintModel SPrintSpec SPrintFacts.
From Verif Require FPModel SMTFPModel SFPProofs.
Local Open Scope string_scope.

Lemma C117_class_pf : forall show x y, made x -> made y -> srepr show x = srepr show y -> p_cls x = p_cls y.
Proof. intros show x y [X _] [Y _] E. now destruct (srepr_split show x y X Y E). Qed.

Lemma C117_variables_pf : forall show h (cls : nat -> pcls) i j n m, (forall i, real_cls (cls i)) ->
  variable (run init h) Core i n -> variable (run init h) Core j m ->
  srepr show (new_variable (cls i) n) = srepr show (new_variable (cls j) m) -> i = j.
Proof.
  intros show h cls i j n m R I J E. destruct (srepr_split show (new_variable (cls i) n) (new_variable (cls j) m) (R i) (R j) E) as [_ Q].
  cbn in Q. subst m. exact (C34_distinct_pf h Core i j n I J).
Qed.

Lemma C117_z3_variables_pf : forall show s (cls : nat -> pcls) i j n m, (forall i, real_cls (cls i)) -> zreach s ->
  zvariable s i n -> zvariable s j m ->
  srepr show (new_variable (cls i) n) = srepr show (new_variable (cls j) m) -> i = j.
Proof.
  intros show s cls i j n m R Z I J E. destruct (srepr_split show (new_variable (cls i) n) (new_variable (cls j) m) (R i) (R j) E) as [_ Q].
  cbn in Q. subst m. exact (C87_distinct_pf s i j n Z I J).
Qed.

Lemma C117_variables_meaning_pf : forall show c d n m, has_values c -> has_values d ->
  (srepr show (new_variable c n) = srepr show (new_variable d m) <->
   c = d /\ forall e, stands_for e (p_term (new_variable c n)) = stands_for e (p_term (new_variable d m))).
Proof.
  intros show c d n m C D. assert (R : forall c, has_values c -> real_cls c) by (intros [f| |f [k w]]; cbn; auto; lia). split.
  - intros E. destruct (srepr_split show (new_variable c n) (new_variable d m) (R c C) (R d D) E) as [E1 E2]. cbn in E1, E2. subst. auto.
  - intros [<- E]. specialize (E (Env (String.eqb n) (fun s _ => if String.eqb n s then 1 else 0) (fun s => if String.eqb n s then 1 else 0))).
    assert (Q : String.eqb n m = true).
    { destruct (String.eqb n m) eqn:Q; [reflexivity|exfalso]. destruct c as [f| |f [k w]]; cbn in E, C; rewrite String.eqb_refl, Q in E; try discriminate E.
      injection E as E. assert (2 <= 2 ^ w) by (replace 2 with (2 ^ 1) at 1 by reflexivity; apply Z.pow_le_mono_r; lia). rewrite !Z.mod_small in E by lia. discriminate E. }
    apply String.eqb_eq in Q. now subst m.
Qed.

Lemma C117_meaning_pf : forall show x y, tells_apart show (p_term x) (p_term y) -> made x -> made y -> plain_name show x -> plain_name show y ->
  srepr show x = srepr show y -> p_cls x = p_cls y /\ forall e, stands_for e (p_term x) = stands_for e (p_term y).
Proof.
  intros show x y T [X MX] [Y MY] PX PY E. destruct (srepr_split show x y X Y E) as [C I]. split; [exact C|].
  assert (SH : forall z, (z = new_value (p_cls z) (p_term z) \/ exists n, z = new_variable (p_cls z) n) -> plain_name show z -> inner show z = show (p_term z)).
  { intros z [H|[n H]] P; unfold inner; rewrite H; cbn; [reflexivity|]. rewrite H in P. symmetry. exact (P n eq_refl). }
  rewrite (SH x MX PX), (SH y MY PY) in I. apply T in I. intros e. now rewrite I.
Qed.

Lemma C117_fp_pf : forall show x y, FPModel.fmt_ok (FPModel.fv_fmt x) = true -> FPModel.fmt_ok (FPModel.fv_fmt y) = true ->
  fp_repr show x = fp_repr show y ->
  FPModel.fv_fmt x = FPModel.fv_fmt y /\
  ((show (FPModel.fv_val x) = show (FPModel.fv_val y) -> FPModel.fv_val x = FPModel.fv_val y) -> x = y).
Proof.
  intros show [f v] [g w] F G E. unfold fp_repr in E. cbn [FPModel.fv_fmt FPModel.fv_val] in *.
  apply paren_split in E as [E Q]; [|apply fp_no_paren..]. apply append_inv_head in E. apply quote_inj in E. apply close_inj in Q.
  pose proof (SFPProofs.C72_names_pf _ f g F G E) as H. split; [exact H|]. intros T. now rewrite H, (T Q).
Qed.

Lemma C117_name_refuted_pf : forall show k n z f, 1 <= n -> 0 <= z < 2 ^ n ->
  let c := PVec f (BVC k n) in
  let v := new_value c (FV (VConst z n)) in
  exists name, let x := new_variable c name in
    made x /\ made v /\
    snd (step init (OVar (NStr name) None false (SVec (Z.to_nat n)))) = Created 0 name /\
    srepr show x = srepr show v /\ exists e, stands_for e (p_term x) <> stands_for e (p_term v).
Proof.
  intros show k n z f N Z c v. exists (show (FV (VConst z n))). cbv zeta. split; [split; [cbn; lia|right; eexists; reflexivity]|].
  split; [split; [cbn; lia|now left]|]. split; [reflexivity|]. split; [reflexivity|].
  exists (Env (fun _ => false) (fun _ _ => (z + 1) mod 2 ^ n) (fun _ => 0)). cbn [new_variable new_value symbol p_term stands_for csize v c evalv]. intros E. injection E as E.
  assert (P : 2 <= 2 ^ n) by (replace 2 with (2 ^ 1) at 1 by reflexivity; apply Z.pow_le_mono_r; lia).
  rewrite ?Z.mod_mod in E by lia. destruct (Z.eq_dec (z + 1) (2 ^ n)) as [Q|Q]; [rewrite Q, Z.mod_same in E by lia|rewrite Z.mod_small in E by lia]; lia.
Qed.
