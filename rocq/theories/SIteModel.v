(** SMTBit.ite on nested tuples, symbolic vectors and protocol objects, and the operators of the polymorphic
    classes it creates (hwtypes/smt_bit_vector.py:154-159, hwtypes/bit_vector_util.py). The shape follows
    IteModel.v; the selector is a term, so both branches stay in the result. Definitions only. *)
From Verif Require Import PyBase BVModel OpModel IteModel SMTTerm SMTModel.

(** Unsized symbolic classes, as IteModel.pcls; a polymorphic class stores the SMTBit select. *)
Inductive spcls := SPBase (k : kind) | SPPoly (id : nat) (t0 t1 : spcls) (sel : bterm).
Definition spcls_eqb (a b : spcls) : bool :=
  match a, b with
  | SPBase k, SPBase l => kind_eqb k l
  | SPPoly i _ _ _, SPPoly j _ _ _ => Nat.eqb i j
  | _, _ => false
  end.
(** bit_vector_util.py:100-119, 133-145. *)
Fixpoint sbase_kind (c : spcls) : kind :=
  match c with
  | SPBase k => k
  | SPPoly _ t0 t1 _ => kind_join (sbase_kind t0) (sbase_kind t1)
  end.
(** A symbolic vector object: unsized class, size, _value. *)
Record spobj := SPObj { spc : spcls; spn : Z; spt : vterm }.
Definition s_same_cls (x y : spobj) : bool := spcls_eqb (spc x) (spc y) && (spn x =? spn y).
(** The object as a plain symbolic vector (the methods look at size and _value only). *)
Definition as_svec (x : spobj) : svec := SV (BVC KBV (spn x)) (spt x).
Definition slike (x : spobj) (b : svec) : spobj := SPObj (spc x) (ssize b) (sterm b).

(** User types implementing the protocol with a symbolic class; instances are numbered. *)
Record sproto := SProto { sp_cls : bvcls; sp_from : svec -> res Z; sp_to : Z -> svec }.
Definition sptypes := nat -> sproto.

Inductive sbranch :=
| SBrTuple (l : list sbranch)
| SBrBit (t : bterm)
| SBrVec (x : spobj)
| SBrProto (i : nat) (payload : Z)
| SBrOther.
Inductive srtype := SRTuple (l : list srtype) | SRBit | SRVec (c : spcls) (n : Z) | SRProto (i : nat).
(** What push_ite returns: tuples of the nodes _ite builds. *)
Inductive snode := NTuple (l : list snode) | NBit (t : bterm) | NVec (t : vterm).

Section SIte.
Variable S : simplifier.

(** determine_return_type, bit_vector_util.py:185-216. *)
Fixpoint s_return_type (id : nat) (sel : bterm) (t f : sbranch) : res (srtype * nat) :=
  match t, f with
  | SBrTuple lt, SBrTuple lf =>
      let fix go (id : nat) (lt lf : list sbranch) : res (list srtype * nat) :=
        match lt, lf with
        | [], [] => Ok ([], id)
        | t :: lt, f :: lf =>
            r <- s_return_type id sel t f ;;
            rs <- go (snd r) lt lf ;;
            Ok (fst r :: fst rs, snd rs)
        | _, _ => Raise ETypeError                       (* lengths differ: 192, 198-200 *)
        end in
      match go id lt lf with
      | Ok (l, id) => Ok (SRTuple l, id)
      | Raise e => if is_type_error e then Raise ETypeError else Raise e
      end
  | SBrTuple _, _ | _, SBrTuple _ => Raise ETypeError    (* 198-200 *)
  | SBrBit _, SBrBit _ => Ok (SRBit, id)                 (* 201-203 *)
  | SBrVec x, SBrVec y =>                                (* 205-208 *)
      if s_same_cls x y then Ok (SRVec (spc x) (spn x), id)
      else if negb (spn x =? spn y) then Raise EInconsistentSize
      else Ok (SRVec (SPPoly id (spc x) (spc y) sel) (spn x), Datatypes.S id)
  | SBrProto i _, SBrProto j _ =>                        (* 209-212 *)
      if Nat.eqb i j then Ok (SRProto i, id) else Raise ETypeError
  | _, _ => Raise ETypeError                             (* 213-214 *)
  end.

(** push_ite, bit_vector_util.py:226-237, with _ite of smt_bit_vector.py:155-156: smt.Ite of the values. *)
Fixpoint s_push_ite (tab : sptypes) (sel : bterm) (t f : sbranch) : res snode :=
  match t, f with
  | SBrTuple lt, SBrTuple lf =>
      let fix go (lt lf : list sbranch) : res (list snode) :=
        match lt, lf with
        | [], [] => Ok []
        | t :: lt, f :: lf => r <- s_push_ite tab sel t f ;; rs <- go lt lf ;; Ok (r :: rs)
        | _, _ => Raise EAssertion                                    (* 230 *)
        end in
      rmap NTuple (go lt lf)
  | SBrTuple _, _ => Raise EAssertion                                 (* 229 *)
  | SBrProto i a, SBrProto j b =>
      if negb (Nat.eqb i j) then Raise EAssertion                     (* 233 *)
      else Ok (NVec (VIte sel (sterm (sp_to (tab i) a)) (sterm (sp_to (tab i) b))))
  | SBrProto _ _, _ => Raise EAssertion
  | SBrBit p, SBrBit q => Ok (NBit (BIte sel p q))
  | SBrVec x, SBrVec y => Ok (NVec (VIte sel (spt x) (spt y)))
  | _, _ => Raise EOutOfModel                                         (* determine_return_type has raised *)
  end.

(** coerce_branch, bit_vector_util.py:218-224: SMTBit(node), K[n](node), T._from_bitvector_(T._bitvector_t_()(node)). *)
Fixpoint s_coerce_branch (tab : sptypes) (r : srtype) (b : snode) : res sbranch :=
  match r, b with
  | SRTuple lr, NTuple lb =>
      let fix go (lr : list srtype) (lb : list snode) : res (list sbranch) :=
        match lr, lb with
        | [], [] => Ok []
        | r :: lr, b :: lb => x <- s_coerce_branch tab r b ;; xs <- go lr lb ;; Ok (x :: xs)
        | _, _ => Raise EAssertion
        end in
      rmap SBrTuple (go lr lb)
  | SRTuple _, _ => Raise EAssertion
  | SRBit, NBit t => rmap SBrBit (bit_node S t)
  | SRVec c n, NVec t => x <- vec_node S (BVC KBV n) t ;; Ok (SBrVec (SPObj c n (sterm x)))
  | SRProto i, NVec t => x <- vec_node S (sp_cls (tab i)) t ;; rmap (SBrProto i) (sp_from (tab i) x)
  | _, _ => Raise EOutOfModel
  end.

(** build_ite, bit_vector_util.py:239-243. *)
Definition s_ite (tab : sptypes) (id : nat) (sel : bterm) (t f : sbranch) : res (sbranch * nat) :=
  r <- s_return_type id sel t f ;;
  v <- s_push_ite tab sel t f ;;
  w <- s_coerce_branch tab (fst r) v ;;
  Ok (w, snd r).

(** ** Methods of polymorphic classes *)
(** build_VCall, bit_vector_util.py:166-176. *)
Inductive spmeth := SMLeaf (signed_variant : bool) | SMVCall (sel : bterm) (m0 m1 : spmeth).
Definition s_build_vcall (sel : bterm) (m0 m1 : spmeth) : spmeth :=
  match m0, m1 with
  | SMLeaf a, SMLeaf b => if Bool.eqb a b then m0 else SMVCall sel m0 m1
  | _, _ => SMVCall sel m0 m1
  end.
(** SMTSIntVector overrides the same operators as SIntVector (smt_bit_vector.py:614-675). *)
Fixpoint s_resolve (overridden : bool) (c : spcls) : spmeth :=
  match c with
  | SPBase k => SMLeaf (overridden && kind_eqb k KSInt)
  | SPPoly _ t0 t1 sel => s_build_vcall sel (s_resolve overridden t0) (s_resolve overridden t1)
  end.

Inductive sarg := SAVec (y : spobj) | SAOther (v : sval).
Definition sarg_val (a : sarg) : sval := match a with SAVec y => SVec (as_svec y) | SAOther v => v end.
Inductive spret := SPNotImpl | SPVec (x : spobj) | SPBit (t : bterm).
Definition s_no_protocols : sptypes := fun _ => SProto (BVC KBV 1) (fun _ => Ok 0) (fun _ => SV (BVC KBV 1) (VConst 0 1)).
Definition s_as_branch (r : spret) : sbranch :=
  match r with SPVec x => SBrVec x | SPBit b => SBrBit b | SPNotImpl => SBrOther end.
Definition s_as_ret (b : sbranch) : spret :=
  match b with SBrVec x => SPVec x | SBrBit b => SPBit b | _ => SPNotImpl end.

(** The end of VCall, bit_vector_util.py:171-175. *)
Definition s_vcall (sel : bterm) (v0 v1 : spret) (id : nat) : res (spret * nat) :=
  match v0 with
  | SPNotImpl => Ok (SPNotImpl, id)
  | _ => r <- s_ite s_no_protocols id sel (s_as_branch v0) (s_as_branch v1) ;; Ok (s_as_ret (fst r), snd r)
  end.

(** x.__op__(other), smt_bit_vector.py:522-552, 615-643. *)
Definition s_leaf_forward (op : binop) (s : bool) (x : spobj) (a : sarg) : res spret :=
  match s_dispatch (rmap SVec (s_op_method S op (variant s) (as_svec x) (sarg_val a))) with
  | Ok SNotImpl => Ok SPNotImpl
  | Ok (SRet (SVec b)) => Ok (SPVec (slike x b))
  | Ok _ => Raise EOutOfModel
  | Raise e => Raise e
  end.
(** x.__rop__(other), smt_bit_vector.py:523-552. *)
Definition s_leaf_reflected (op : binop) (s : bool) (x : spobj) (a : sarg) : res spret :=
  match op, s with
  | OShr, false => s_leaf_forward OShr false x a         (* __rrshift__ = dispatch_oper(__rshift__), 535 *)
  | _, _ =>
      match s_coerce S (BVC KBV (spn x)) (sarg_val a) with
      | Raise _ => Raise ENameError
      | Ok o =>
          let o := match a with SAVec y => y | SAOther _ => SPObj (spc x) (ssize o) (sterm o) end in
          s_leaf_forward op s o (SAVec x)
      end
  end.
(** Comparison methods, smt_bit_vector.py:554-559, 645-675. *)
Definition s_leaf_cmp (c : cmpop) (s : bool) (x : spobj) (a : sarg) : res spret :=
  match s_cmp_method S c (variant s) (as_svec x) (sarg_val a) with
  | Ok b => Ok (SPBit b)
  | Raise EInconsistentSize => Raise EInconsistentSize
  | Raise ETypeError => Ok SPNotImpl
  | Raise e => Raise e
  end.
Fixpoint s_run_meth (leaf : bool -> spobj -> sarg -> res spret) (m : spmeth) (id : nat) (x : spobj) (a : sarg)
  : res (spret * nat) :=
  match m with
  | SMLeaf s => r <- leaf s x a ;; Ok (r, id)
  | SMVCall sel m0 m1 =>
      v0 <- s_run_meth leaf m0 id x a ;;
      v1 <- s_run_meth leaf m1 (snd v0) x a ;;
      s_vcall sel (fst v0) (fst v1) (snd v1)
  end.
Definition sp_forward (op : binop) (id : nat) (x : spobj) (a : sarg) : res (spret * nat) :=
  s_run_meth (s_leaf_forward op) (s_resolve (op_overridden op) (spc x)) id x a.
Definition sp_reflected (op : binop) (id : nat) (x : spobj) (a : sarg) : res (spret * nat) :=
  s_run_meth (s_leaf_reflected op) (s_resolve (op_overridden op) (spc x)) id x a.
Definition sp_cmp (c : cmpop) (id : nat) (x : spobj) (a : sarg) : res (spret * nat) :=
  s_run_meth (s_leaf_cmp c) (s_resolve (cmp_overridden c) (spc x)) id x a.

Definition s_sub_cls (y x : spobj) : bool :=
  (spn y =? spn x) && (spcls_eqb (spc y) (spc x) ||
    match spc x with SPBase k => kind_le (sbase_kind (spc y)) k | _ => false end).
Definition s_meth_eqb (m1 m2 : spmeth) : bool :=
  match m1, m2 with SMLeaf a, SMLeaf b => Bool.eqb a b | _, _ => false end.
Definition s_r_overloaded (op : binop) (x y : spobj) : bool :=
  negb (s_meth_eqb (s_resolve (op_overridden op) (spc x)) (s_resolve (op_overridden op) (spc y))).

Fixpoint sp_first (id : nat) (l : list (nat -> res (spret * nat))) : res (spret * nat) :=
  match l with
  | [] => Raise ETypeError
  | m :: l => match m id with Ok (SPNotImpl, id) => sp_first id l | r => r end
  end.
(** x op a for a symbolic vector x of any class; right operands that are SMTBits are not covered. *)
Definition sp_binop (op : binop) (id : nat) (x : spobj) (a : sarg) : res (spret * nat) :=
  match a with
  | SAVec y =>
      if s_same_cls x y then sp_first id [fun id => sp_forward op id x a]
      else if s_sub_cls y x && s_r_overloaded op x y
      then sp_first id [fun id => sp_reflected op id y (SAVec x); fun id => sp_forward op id x a]
      else sp_first id [fun id => sp_forward op id x a; fun id => sp_reflected op id y (SAVec x)]
  | SAOther _ => sp_first id [fun id => sp_forward op id x a]
  end.
Fixpoint sp_cmp_first (id : nat) (l : list (nat -> res (spret * nat))) : res (spret * nat) :=
  match l with
  | [] => Raise EOutOfModel                              (* identity fallback: SMTModel.s_cmp_first_of *)
  | m :: l => match m id with Ok (SPNotImpl, id) => sp_cmp_first id l | r => r end
  end.
(** x cmp a, CPython do_richcompare. *)
Definition sp_compare (c : cmpop) (id : nat) (x : spobj) (a : sarg) : res (spret * nat) :=
  match a with
  | SAVec y =>
      if negb (s_same_cls x y) && s_sub_cls y x
      then sp_cmp_first id [fun id => sp_cmp (cmp_swap c) id y (SAVec x); fun id => sp_cmp c id x a]
      else sp_cmp_first id [fun id => sp_cmp c id x a; fun id => sp_cmp (cmp_swap c) id y (SAVec x)]
  | SAOther _ => sp_cmp_first id [fun id => sp_cmp c id x a]
  end.
End SIte.
