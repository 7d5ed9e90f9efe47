(** C109: programs over algebraic data types mean the same in every family. The programs are those of DProgModel.v;
    DProgSpec.v runs them on classes to say which of them use only what the families share. *)
From Coq Require Import Lia ZifyBool.
From Verif Require Import PyBase BVModel BVFacts OpModel SMTTerm SMTModel SMTSpec SMTFacts SMTProofs Z3Model Z3Spec Z3Proofs ProgModel ProgFacts ProgInputs MProgModel MProgSpec MProgProofs ADTTy ADTTyFacts ADTModel ADTSpec ADTFacts AliasModel AliasSpec AliasFacts DProgModel DProgSpec DProgFacts DProgSim.
From Verif Require BVSpec ProgSpec.
From Verif Require Import DProgProofs.

(** With pySMT: where the run on classes succeeds, the symbolic run succeeds, and under every assignment the concrete run
    succeeds; every variable of the symbolic run then has the class found, in its family, and stands for what the variable of
    the concrete run holds. Components are reached by longer programs. *)
Theorem C109_smt_partial : forall H S, faithful S -> forall p ts rs cs, program_classes H ts p = Ok cs -> Forall2 ProgSpec.sym_has rs ts ->
  exists st, smt_drun H S rs p = Ok st /\
    forall e, exists st', conc_drun H (map (vmeaning e) rs) p = Ok st' /\ variables_agree 1 e cs (observe (sym_cls 1) st) (observe conc_cls st').
Proof. exact C109_smt_partial_pf. Qed.
Print Assumptions C109_smt_partial.
(** With z3. *)
Theorem C109_z3_partial : forall H S, faithful S -> forall p ts rs cs, program_classes H ts p = Ok cs -> Forall2 ProgSpec.sym_has rs ts ->
  exists st, z3_drun H S rs p = Ok st /\
    forall e, exists st', conc_drun H (map (vmeaning e) rs) p = Ok st' /\ variables_agree 2 e cs (observe (sym_cls 2) st) (observe conc_cls st').
Proof. exact C109_z3_partial_pf. Qed.
Print Assumptions C109_z3_partial.
(** Where the run on classes raises, the program raises the same exception in all families, for all values of the inputs. *)
Theorem C109_raises : forall H S, faithful S -> forall p ts rs x, program_classes H ts p = Raise x -> x <> EOutOfModel -> Forall2 ProgSpec.sym_has rs ts ->
  smt_drun H S rs p = Raise x /\ z3_drun H S rs p = Raise x /\ forall e, conc_drun H (map (vmeaning e) rs) p = Raise x.
Proof. exact C109_raises_pf. Qed.
Print Assumptions C109_raises.
(** Asking the solver about a program over data types: a Bit that it computes on variables of different names can be made true
    exactly when some concrete inputs make the concrete program compute a true Bit there. *)
Theorem C109_sat_partial : forall H S, faithful S -> forall p names ts cs i st b, program_classes H ts p = Ok cs -> Forall ProgSpec.sized_ty ts -> NoDup names -> length names = length ts ->
  (smt_drun H S (ProgSpec.inputs names ts) p = Ok st /\ nth_error (map snd (observe (sym_cls 1) st)) i = Some (Some (SBit b))) \/
  (z3_drun H S (ProgSpec.inputs names ts) p = Ok st /\ nth_error (map snd (observe (sym_cls 2) st)) i = Some (Some (SBit b))) ->
  ((exists e, evalb e b = true) <->
   exists vs st', Forall2 ProgSpec.conc_has vs ts /\ conc_drun H vs p = Ok st' /\ nth_error (map snd (observe conc_cls st')) i = Some (Some (VBit true))).
Proof. exact C109_sat_partial_pf. Qed.
Print Assumptions C109_sat_partial.
(** It is true under every assignment exactly when all concrete inputs give a true Bit. *)
Theorem C109_valid_partial : forall H S, faithful S -> forall p names ts cs i st b, program_classes H ts p = Ok cs -> Forall ProgSpec.sized_ty ts -> NoDup names -> length names = length ts ->
  (smt_drun H S (ProgSpec.inputs names ts) p = Ok st /\ nth_error (map snd (observe (sym_cls 1) st)) i = Some (Some (SBit b))) \/
  (z3_drun H S (ProgSpec.inputs names ts) p = Ok st /\ nth_error (map snd (observe (sym_cls 2) st)) i = Some (Some (SBit b))) ->
  ((forall e, evalb e b = true) <->
   forall vs, Forall2 ProgSpec.conc_has vs ts -> exists st', conc_drun H vs p = Ok st' /\ nth_error (map snd (observe conc_cls st')) i = Some (Some (VBit true))).
Proof. exact C109_valid_partial_pf. Qed.
Print Assumptions C109_valid_partial.
(** A Product of two vectors x and y, z = p.a + p.b, w = p.b + p.a, and z == w, which is valid. *)
Example C109_valid_ex : let c := BVC KUInt 8 in let tv := TLeaf (LVec 0 KUInt (Some 8)) in let P := TNode (KProd "P" 0) [] [("a"%string, tv); ("b"%string, tv)] in
  let p := [DNew P [0%nat; 1%nat] []; DAttr 2 "a"; DAttr 2 "b"; DCall [3%nat; 4%nat] (POp OAdd 0 (Reg 1)); DCall [3%nat; 4%nat] (POp OAdd 1 (Reg 0)); DCall [5%nat; 6%nat] (PCmp CEq 0 (Reg 1))] in
  let ts := [ProgSpec.TVec c; ProgSpec.TVec c] in
  exists cs st b, program_classes Z.eqb ts p = Ok cs /\ Forall ProgSpec.sized_ty ts /\ NoDup ["x"; "y"]%string /\
    smt_drun Z.eqb no_simp (ProgSpec.inputs ["x"; "y"]%string ts) p = Ok st /\ nth_error (map snd (observe (sym_cls 1) st)) 7 = Some (Some (SBit b)).
Proof.
  cbv zeta. do 3 eexists. split; [vm_compute; reflexivity|]. split; [repeat constructor; vm_compute; discriminate|]. split; [repeat constructor; cbn; intuition discriminate|].
  split; vm_compute; reflexivity.
Qed.
(** The subclass relation between types does not depend on the family. *)
Theorem C109_subclass : forall H f s t, pure s = true -> pure t = true -> ADTTy.sub H (ty_fam f s) (ty_fam f t) = ADTTy.sub H s t.
Proof. exact C109_subclass_pf. Qed.
Print Assumptions C109_subclass.
(** x, y = inputs; P = Product(a=BitVector[4], b=Bit); p = P(a=x, b=y); z = p.a; z[0] = y; s = Sum[BitVector[4], Bit](z); w = s[BitVector[4]].value;
    p.a = w + x: with x = 6, y = 1 the variables x, z and w are one object, 7, and p.a is a new one. *)
Example C109_ex : let c := BVC KBV 4 in let tv := TLeaf (LVec 0 KBV (Some 4)) in let tb := TLeaf (LBit 0) in
  let P := TNode (KProd "P" 0) [] [("a"%string, tv); ("b"%string, tb)] in let U := TNode KSum [] [(""%string, tv); (""%string, tb)] in
  let p := [DNew P [] [("a"%string, 0%nat); ("b"%string, 1%nat)]; DAttr 2 "a"; DSetBit 3 0 (Reg 1); DNew U [3%nat] []; DMatch 4 tv; DCall [5%nat; 0%nat] (POp OAdd 0 (Reg 1)); DSetAttr 2 "a" 6; DItem 2 0] in
  program_classes Z.eqb [ProgSpec.TVec c; ProgSpec.TBit] p = Ok [tv; tb; P; tv; U; tv; tv; tv] /\
  rmap (fun st => map snd (observe conc_cls st)) (conc_drun Z.eqb [VBV (BV c 6); VBit true] p) = Ok [Some (VBV (BV c 7)); Some (VBit true); None; Some (VBV (BV c 7)); None; Some (VBV (BV c 7)); Some (VBV (BV c 14)); Some (VBV (BV c 14))].
Proof. split; vm_compute; reflexivity. Qed.
(** Product(a=BitVector[4])(a=y) for a Bit y. *)
Example C109_raises_ex : let tv := TLeaf (LVec 0 KBV (Some 4)) in
  program_classes Z.eqb [ProgSpec.TVec (BVC KBV 4); ProgSpec.TBit] [DNew (TNode (KProd "P" 0) [] [("a"%string, tv)]) [] [("a"%string, 1%nat)]] = Raise ETypeError.
Proof. vm_compute; reflexivity. Qed.
(** What the statements do to the store, in any family (any values [V], calls and assignments). No statement changes what an
    old variable refers to, and the only object a statement changes is the one that is assigned to. *)
Theorem C109_frame : forall V H fam cls lcall self set (st st' : dstate (V := V)) d, dstep H fam cls lcall self set st d = Ok st' ->
  match d with
  | DSetBit x _ _ | DSetItem x _ _ | DSetAttr x _ _ =>
      snd st' = snd st /\ length (fst st') = length (fst st) /\ exists o, refers st x o /\ forall q, q <> o -> nth_error (fst st') q = nth_error (fst st) q
  | _ => (exists new, fst st' = fst st ++ new) /\ exists new, snd st' = snd st ++ new
  end.
Proof. exact C109_frame_pf. Qed.
Print Assumptions C109_frame.
(** y = x: y refers to the object of x. *)
Theorem C109_alias : forall V H fam cls lcall self set (st : dstate (V := V)) x o, refers st x o -> dstep H fam cls lcall self set st (DAlias x) = Ok (and_then st o).
Proof. exact C109_alias_pf. Qed.
Print Assumptions C109_alias.
(** x[i] = b puts into the object of x the vector that the assignment of the concrete family leaves. *)
Theorem C109_assign_bit : forall H st st' x i b, dstep H (fun t => t) conc_cls (fun vs => conc_call (reg vs) (opnd VInt vs)) (fun vs => conc_self (reg vs) (opnd VInt vs)) (fun vs i b => v <- reg vs 0 ;; w <- opnd VInt vs b ;; conc_set v i w) st (DSetBit x i b) = Ok st' ->
  exists o a w a', refers st x o /\ nth_error (fst st) o = Some (GLeaf (VBV a)) /\ setitem_int a i w = Ok a' /\ nth_error (fst st') o = Some (GLeaf (VBV a')) /\
    match b with Num z => w = VInt z | Reg y => exists p, refers st y p /\ nth_error (fst st) p = Some (GLeaf w) end.
Proof. exact C109_assign_bit_pf. Qed.
Print Assumptions C109_assign_bit.
(** What was assigned to a component is read back: the same object, not a copy. *)
Theorem C109_read_attribute : forall V H fam cls lcall self set (st st' : dstate (V := V)) x n v, dstep H fam cls lcall self set st (DSetAttr x n v) = Ok st' ->
  exists o, refers st v o /\ (dstep H fam cls lcall self set st' (DAttr x n) = Ok (and_then st' o) \/ dstep H fam cls lcall self set st' (DTag x n) = Ok (and_then st' o)).
Proof. exact C109_read_attribute_pf. Qed.
Print Assumptions C109_read_attribute.
Theorem C109_read_item : forall V H fam cls lcall self set (st st' : dstate (V := V)) x k v, dstep H fam cls lcall self set st (DSetItem x k v) = Ok st' ->
  exists o, refers st v o /\ match k with
    | IxInt i => dstep H fam cls lcall self set st' (DItem x i) = Ok (and_then st' o)
    | IxTy t => dstep H fam cls lcall self set st' (DMatch x t) = Ok (and_then st' o)
    | _ => False
    end.
Proof. exact C109_read_item_pf. Qed.
Print Assumptions C109_read_item.
(** Construction makes one new object of the class, whose components are the objects passed: by position, by keyword (of a type
    whose field names are different), the value of a Sum or TaggedUnion. *)
Theorem C109_construct : forall V H fam cls lcall self set (st st' : dstate (V := V)) t pos kw k fs, dstep H fam cls lcall self set st (DNew t pos kw) = Ok st' -> node_of (fam t) = Some (k, fs) ->
  let y := length (snd st) in
  refers st' y (length (fst st)) /\ gtype cls (fst st') (length (fst st)) = fam t /\
  (match k with KTuple | KAnon | KProd _ _ => True | _ => False end -> forall i x, nth_error pos i = Some x -> exists o, refers st x o /\ dstep H fam cls lcall self set st' (DItem y (Z.of_nat i)) = Ok (and_then st' o)) /\
  (NoDup (names fs) -> NoDup (map fst kw) -> match k with KAnon | KProd _ _ => True | _ => False end -> forall n x, In (n, x) kw -> exists o, refers st x o /\ dstep H fam cls lcall self set st' (DAttr y n) = Ok (and_then st' o)) /\
  (match k with KTag _ _ => True | _ => False end -> exists n x o, kw = [(n, x)] /\ pos = [] /\ refers st x o /\ dstep H fam cls lcall self set st' (DTag y n) = Ok (and_then st' o)) /\
  (k = KSum -> exists x o, (pos = [x] /\ kw = [] \/ pos = [] /\ kw = [("value"%string, x)]) /\ refers st x o /\
    forall u, fam u = gtype cls (fst st) o -> (o < length (fst st))%nat -> dstep H fam cls lcall self set st' (DMatch y u) = Ok (and_then st' o)).
Proof. exact C109_construct_pf. Qed.
Print Assumptions C109_construct.
(** Concrete states these are about: after P(a=x, b=y), z = p.a; p.b = y. *)
Example C109_store_ex : let tv := TLeaf (LVec 0 KBV (Some 4)) in let tb := TLeaf (LBit 0) in let P := TNode (KProd "P" 0) [] [("a"%string, tv); ("b"%string, tb)] in
  exists st, conc_drun Z.eqb [VBV (BV (BVC KBV 4) 6); VBit true; VBit false] [DNew P [] [("b"%string, 1%nat); ("a"%string, 0%nat)]; DAttr 3 "a"; DSetBit 4 0 (Num 1); DSetAttr 3 "b" 2; DAttr 3 "b"; DAlias 4] = Ok st /\
    snd st = [0%nat; 1%nat; 2%nat; 3%nat; 0%nat; 2%nat; 0%nat] /\ nth_error (fst st) 0 = Some (GLeaf (VBV (BV (BVC KBV 4) 7))).
Proof. eexists. split; [vm_compute; reflexivity|]. split; reflexivity. Qed.
