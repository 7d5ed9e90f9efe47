(** C100: named methods of symbolic polymorphic values. *)
From Coq Require Import Lia ZifyBool.
From Verif Require Import PyBase BVModel BVSpec BVFacts OpModel OpSpec OpFacts IteModel IteSpec IteFacts SMTTerm SMTModel SMTSpec SMTFacts SMTProofs SIteModel SIteSpec SIteFacts.
From Verif Require Import PMethModel PMethSpec SPMethModel SPMethSpec SPMethFacts.
From Verif Require Import SPMethProofs.


(** C100: every named method except ext and concat, called on v = sel.ite(a, b), evaluates under every assignment to what it evaluates to on
    the vector selected there: vectors of the same size and value, the same Bits and integers, or the same exception *)
Theorem C100_methods : forall S, faithful S -> forall tab id sel a b v id' m n, bwf sel = true -> obj_ok a -> obj_ok b ->
  s_ite S tab id sel (SBrVec a) (SBrVec b) = Ok (SBrVec v, id') -> splain_call m ->
  forall e, same_outcome (result_meaning e (sp_call S n m v)) (result_meaning e (sp_call S n m (if evalb e sel then a else b))).
Proof. exact C100_methods_pf. Qed.
Print Assumptions C100_methods.
Example C100_methods_ex : let a := SPObj (SPBase KUInt) 4 (VVar "x" 4) in let b := SPObj (SPBase KSInt) 4 (VVar "y" 4) in
  let v := SPObj (SPPoly 0 (SPBase KUInt) (SPBase KSInt) (BVar "q")) 4 (VIte (BVar "q") (VVar "x" 4) (VVar "y" 4)) in
  obj_ok a /\ obj_ok b /\ s_ite no_simp s_no_protocols 0 (BVar "q") (SBrVec a) (SBrVec b) = Ok (SBrVec v, 1%nat) /\
  splain_call (QRel RUlt (SAVec a)) /\
  result_meaning env0 (sp_call no_simp 1 (QRel RUlt (SAVec a)) v) = Ok ([IBit true], 1%nat) /\
  result_meaning env0 (sp_call no_simp 1 (QRol (SAOther (SInt 5))) v) = Raise EValueError.
Proof.
  cbv zeta. split; [split; [exact I|unfold swf; cbn; lia]|]. split; [split; [exact I|unfold swf; cbn; lia]|]. repeat split.
Qed.

(** C100: on a symbolic vector of any class, polymorphic or not, the methods succeed and evaluate under every assignment to what the concrete
    methods compute on the values, including the class of the result *)
Theorem C100_values : forall S, faithful S -> forall id x c, obj_ok x -> call_ok x c ->
  exists l id', sp_call S id c x = Ok (l, id') /\ Forall item_ok l /\
    forall e, p_call id (call_meaning e c) (obj_meaning e x) = Ok (map (item_meaning e) l, id').
Proof. exact C100_values_pf. Qed.
Print Assumptions C100_values.
Example C100_values_ex : let x := SPObj (SPPoly 0 (SPBase KUInt) (SPBase KSInt) (BVar "q")) 4 (VVar "x" 4) in
  obj_ok x /\ call_ok x (QAdc (SAVec x) (SAOther (SBit (BVar "p")))) /\ call_ok x (QExt 2) /\ call_ok x (QConcat x) /\
  result_meaning env0 (sp_call no_simp 5 (QAdc (SAVec x) (SAOther (SBit (BVar "p")))) x) =
    Ok ([IVec (PObj (PPoly 0 (PBase KUInt) (PBase KSInt) false) 4 7); IBit true], 5%nat) /\
  result_meaning env0 (sp_call no_simp 5 (QExt 2) x) = Ok ([IVec (PObj (PPoly 0 (PBase KUInt) (PBase KSInt) false) 6 59)], 5%nat).
Proof.
  intros x. assert (O : obj_ok x) by (split; [cbn; auto|unfold swf; cbn; lia]). split; [exact O|].
  split; [split; [split; [exact O|reflexivity]|split; [now constructor|exact I]]|]. split; [cbn; lia|]. split; [split; [exact O|reflexivity]|].
  split; vm_compute; reflexivity.
Qed.
(** C100: ext by any amount that is not negative succeeds and extends with the sign exactly under the assignments that select a signed
    variant; unlike in the concrete family 0 is no exception *)
Theorem C100_ext : forall S, faithful S -> forall id x k, obj_ok x -> 0 <= k ->
  exists t, sp_call S id (QExt k) x = Ok ([SIVec (SPObj (spc x) (spn x + k) t)], id) /\
    forall e, evalv e t = if is_signed (selected_kind (cls_meaning e (spc x))) then signed (spn x) (evalv e (spt x)) mod 2 ^ (spn x + k) else evalv e (spt x).
Proof. exact C100_ext_pf. Qed.
Print Assumptions C100_ext.
(** C100: so ext of v = sel.ite(a, b) evaluates to ext of the selected vector, whose class may be polymorphic again *)
Theorem C100_ext_selected : forall S, faithful S -> forall tab id sel a b v id' k n, bwf sel = true -> obj_ok a -> obj_ok b ->
  (spcls_eqb (spc a) (spc b) = true -> spc a = spc b) ->
  s_ite S tab id sel (SBrVec a) (SBrVec b) = Ok (SBrVec v, id') -> 0 <= k ->
  forall e, same_outcome (result_meaning e (sp_call S n (QExt k) v)) (result_meaning e (sp_call S n (QExt k) (if evalb e sel then a else b))).
Proof. exact C100_ext_selected_pf. Qed.
Print Assumptions C100_ext_selected.
(** C100: ext by a negative amount raises ValueError *)
Theorem C100_ext_negative : forall S id x k, k < 0 -> sp_call S id (QExt k) x = Raise EValueError.
Proof. exact C100_ext_negative_pf. Qed.
Print Assumptions C100_ext_negative.
(** C100: x.concat(v) for x of a built-in class k: accepted exactly if k is at or above the built-in class of v; for v = sel.ite(a, b) that is
    exactly if both a and b are accepted. Under every assignment the result is then the one with the selected vector *)
Theorem C100_concat_builtin : forall S, faithful S -> forall tab id sel a b v id' k n u i, bwf sel = true -> obj_ok a -> obj_ok b ->
  spcls_eqb (spc a) (spc b) = false ->
  s_ite S tab id sel (SBrVec a) (SBrVec b) = Ok (SBrVec v, id') -> let x := SPObj (SPBase k) n u in obj_ok x ->
  (sp_call S i (QConcat v) x = Raise ETypeError /\ (sp_call S i (QConcat a) x = Raise ETypeError \/ sp_call S i (QConcat b) x = Raise ETypeError)) \/
  (exists t ta tb, sp_call S i (QConcat v) x = Ok ([SIVec (SPObj (SPBase k) (n + spn a) t)], i) /\
     sp_call S i (QConcat a) x = Ok ([SIVec (SPObj (SPBase k) (n + spn a) ta)], i) /\ sp_call S i (QConcat b) x = Ok ([SIVec (SPObj (SPBase k) (n + spn a) tb)], i) /\
     forall e, evalv e t = evalv e u + evalv e (spt v) * 2 ^ n /\ evalv e t = evalv e (if evalb e sel then ta else tb)).
Proof. exact C100_concat_builtin_pf. Qed.
Print Assumptions C100_concat_builtin.
(** C100: but concat of v with a vector of another class raises TypeError although the selected class accepts it, as in the concrete family: with
    v = p.ite(SMTBitVector x, SMTSIntVector y), v.concat(SMTBitVector x) where p holds *)
Theorem C100_concat_refuted : exists a b v r, s_ite no_simp s_no_protocols 0 (BVar "p") (SBrVec a) (SBrVec b) = Ok (SBrVec v, 1%nat) /\
  evalb env0 (BVar "p") = true /\ obj_ok a /\ obj_ok b /\
  sp_call no_simp 1 (QConcat a) v = Raise ETypeError /\ sp_call no_simp 1 (QConcat a) a = Ok (r, 1%nat).
Proof. exact C100_concat_refuted_pf. Qed.
Print Assumptions C100_concat_refuted.
Example C100_ext_ex : let x := SPObj (SPPoly 1 (SPBase KBV) (SPPoly 0 (SPBase KSInt) (SPBase KUInt) (BVar "p")) (BVar "q")) 4 (VVar "x" 4) in
  obj_ok x /\ selected_kind (cls_meaning env0 (spc x)) = KSInt /\
  result_meaning env0 (sp_call no_simp 2 (QExt 4) x) = Ok ([IVec (PObj (cls_meaning env0 (spc x)) 8 251)], 2%nat) /\
  result_meaning env0 (sp_call no_simp 2 (QExt 0) x) = Ok ([IVec (PObj (cls_meaning env0 (spc x)) 4 11)], 2%nat).
Proof. cbv zeta. split; [split; [cbn; auto|unfold swf; cbn; lia]|]. split; [reflexivity|]. split; vm_compute; reflexivity. Qed.
Example C100_concat_ex : let a := SPObj (SPBase KUInt) 4 (VVar "x" 4) in let b := SPObj (SPBase KSInt) 4 (VVar "y" 4) in
  let x := SPObj (SPBase KNum) 3 (VVar "z" 3) in obj_ok a /\ obj_ok b /\ obj_ok x /\ spcls_eqb (spc a) (spc b) = false /\
  match s_ite no_simp s_no_protocols 0 (BVar "p") (SBrVec a) (SBrVec b) with
  | Ok (SBrVec v, _) => result_meaning env0 (sp_call no_simp 1 (QConcat v) x) = Ok ([IVec (PObj (PBase KNum) 7 94)], 1%nat)
  | _ => False
  end.
Proof.
  cbv zeta. do 3 (split; [split; [exact I|unfold swf; cbn; lia]|]). split; [reflexivity|]. vm_compute. reflexivity.
Qed.
