(** Programs over algebraic data types, run with the vectors of one family: calls on vectors and Bits (ProgModel.v), bit
    assignments in place (MProgModel.v), construction of Tuples, Products, Sums and TaggedUnions, access to and assignment of
    their components (the operations of ADTModel.v, on objects that are shared, not copied). Definitions only. *)
From Verif Require Import PyBase BVModel OpModel SMTTerm SMTModel Z3Model ProgModel MProgModel ADTTy ADTModel.

(** A type of the concrete family, written with the vectors and Bits of family [f]: the program text names
    family.BitVector[n], family.Bit (bit_vector_util.py:41-49, TypeFamily). *)
Definition leaf_fam (f : Z) (l : leaf) : leaf :=
  match l with
  | LVec g k n => LVec (if g =? 0 then f else g) k n
  | LBit g => LBit (if g =? 0 then f else g)
  | l => l
  end.
Fixpoint ty_fam (f : Z) (t : ty) : ty :=
  match t with
  | TLeaf l => TLeaf (leaf_fam f l)
  | TEnum n ms => TEnum n ms
  | TNode k u fs => TNode k u (map (fun p => (fst p, ty_fam f (snd p))) fs)
  | TMod m t => TMod m (ty_fam f t)
  end.

(** Objects: a vector or Bit, or an instance whose components are other objects. *)
Inductive gobj (V : Type) := GLeaf (v : V) | GNode (t : ty) (s : shape nat).
Arguments GLeaf {V}. Arguments GNode {V}.

(** Statements; variables are numbered in the order in which they are set. *)
Inductive dinstr :=
| DCall (args : list nat) (i : instr)                          (* y = one call whose operand k is the variable args[k] *)
| DAlias (x : nat)                                             (* y = x *)
| DSetBit (x : nat) (i : Z) (b : operand)                      (* x[i] = b for a vector x *)
| DNew (t : ty) (pos : list nat) (kw : list (string * nat))    (* y = T( *pos, **kw) *)
| DTuple (pos : list nat)                                      (* y = Tuple( *pos), adt.py:16-21 *)
| DItem (x : nat) (i : Z)                                      (* y = x[i] for a Tuple or Product, adt.py:45-46 *)
| DAttr (x : nat) (n : string)                                 (* y = x.n for a Product, adt_meta.py:440-443 *)
| DMatch (x : nat) (t : ty)                                    (* y = x[T].value for a Sum or TaggedUnion, adt.py:125-130, 149-154 *)
| DTag (x : nat) (n : string)                                  (* y = x.n.value for a TaggedUnion, adt_meta.py:555-558 *)
| DSetItem (x : nat) (k : key) (v : nat)                       (* x[k] = v *)
| DSetAttr (x : nat) (n : string) (v : nat).                   (* x.n = v *)

Section DRun.
  (** issubclass between the other classes; the classes the program text names; the class of a vector or Bit; calls, the
      operand whose object a call returns, item assignment to operand 0. *)
  Context {V : Type}.
  Variable H : Z -> Z -> bool.
  Variable fam : ty -> ty.
  Variable cls : V -> ty.
  Variable lcall : list V -> instr -> res (list V).
  Variable self : list V -> instr -> option nat.
  Variable set : list V -> Z -> operand -> res V.

  Definition dstate : Type := list (gobj V) * list nat.
  Definition gtype (h : list (gobj V)) (r : nat) : ty :=
    match nth_error h r with Some (GLeaf v) => cls v | Some (GNode t _) => t | None => TLeaf LObject end.
  Definition leaf_at (h : list (gobj V)) (r : nat) : res V :=
    match nth_error h r with Some (GLeaf v) => Ok v | Some (GNode _ _) => Raise EOutOfModel | None => Raise ENameError end.
  Definition node_at (h : list (gobj V)) (r : nat) : res (ty * shape nat) :=
    match nth_error h r with Some (GNode t s) => Ok (t, s) | Some (GLeaf _) => Raise EOutOfModel | None => Raise ENameError end.
  Definition var (rs : list nat) (x : nat) : res nat := match nth_error rs x with Some o => Ok o | None => Raise ENameError end.
  Definition kwvar (rs : list nat) (p : string * nat) : res (string * nat) := o <- var rs (snd p) ;; Ok (fst p, o).
  (** self._value_[i]: a Python tuple or list of components. *)
  Definition component (s : shape nat) (i : Z) : res nat :=
    match s with
    | STup _ xs => q <- py_index (length xs) i ;; match nth_error xs q with Some r => Ok r | None => Raise EIndexError end
    | _ => Raise EOutOfModel
    end.
  Definition field (t : ty) (s : shape nat) (n : string) : res nat :=
    match node_of t with
    | Some (KAnon, fs) | Some (KProd _ _, fs) =>
        match index_of n (names fs) with Some i => component s (Z.of_nat i) | None => Raise EAttributeError end
    | _ => Raise EOutOfModel
    end.
  Definition dstep (st : dstate) (d : dinstr) : res dstate :=
    let '(h, rs) := st in
    match d with
    | DCall args i =>
        os <- mapM (var rs) args ;; vs <- mapM (leaf_at h) os ;; ws <- lcall vs i ;;
        match self vs i with
        | Some k => o <- var os k ;; Ok (h, rs ++ [o])
        | None => Ok (h ++ map GLeaf ws, rs ++ seq (length h) (length ws))
        end
    | DAlias x => o <- var rs x ;; Ok (h, rs ++ [o])
    | DSetBit x i b =>
        o <- var rs x ;; v <- leaf_at h o ;;
        v' <- match b with
              | Num z => set [v] i (Num z)
              | Reg y => p <- var rs y ;; w <- leaf_at h p ;; set [v; w] i (Reg 1)
              end ;;
        Ok (update o (GLeaf v') h, rs)
    | DNew t pos kw =>
        os <- mapM (var rs) pos ;; ks <- mapM (kwvar rs) kw ;; s <- call H (gtype h) (fam t) os ks ;;
        Ok (h ++ [GNode (fam t) s], rs ++ [length h])
    | DTuple pos =>
        os <- mapM (var rs) pos ;;
        (let t := TNode KTuple [] (unnamed (map (gtype h) os)) in
         s <- call H (gtype h) t os [] ;; Ok (h ++ [GNode t s], rs ++ [length h]))
    | DItem x i => o <- var rs x ;; n <- node_at h o ;; r <- component (snd n) i ;; Ok (h, rs ++ [r])
    | DAttr x f => o <- var rs x ;; n <- node_at h o ;; r <- field (fst n) (snd n) f ;; Ok (h, rs ++ [r])
    | DMatch x t => o <- var rs x ;; n <- node_at h o ;; m <- sum_get H (gtype h) (fst n) (snd n) (fam t) ;; r <- match_value m ;; Ok (h, rs ++ [r])
    | DTag x f => o <- var rs x ;; n <- node_at h o ;; m <- tag_get (fst n) (snd n) f ;; r <- match_value m ;; Ok (h, rs ++ [r])
    | DSetItem x k v =>
        o <- var rs x ;; n <- node_at h o ;; p <- var rs v ;;
        s <- setitem H (gtype h) (fst n) (snd n) (match k with IxTy t => IxTy (fam t) | k => k end) p ;;
        Ok (update o (GNode (fst n) s) h, rs)
    | DSetAttr x f v =>
        o <- var rs x ;; n <- node_at h o ;; p <- var rs v ;;
        s <- setattr H (gtype h) (fst n) (snd n) f p ;; Ok (update o (GNode (fst n) s) h, rs)
    end.
  Fixpoint dsteps (st : dstate) (p : list dinstr) : res dstate :=
    match p with [] => Ok st | d :: p => st' <- dstep st d ;; dsteps st' p end.
  (** The program on inputs that are different vectors and Bits. *)
  Definition drun (vs : list V) (p : list dinstr) : res dstate := dsteps (map GLeaf vs, seq 0 (length vs)) p.
  (** What each variable refers to: its class and, for a vector or Bit, its value. *)
  Definition observe (st : dstate) : list (ty * option V) :=
    map (fun o => (gtype (fst st) o, match nth_error (fst st) o with Some (GLeaf v) => Some v | _ => None end)) (snd st).
End DRun.

(** The concrete family (0). *)
Definition conc_cls (v : pyval) : ty :=
  match v with VBV x => TLeaf (LVec 0 (ck (bcls x)) (Some (csize (bcls x)))) | VBit _ => TLeaf (LBit 0) | _ => TLeaf LObject end.
Definition conc_drun (H : Z -> Z -> bool) : list pyval -> list dinstr -> res dstate :=
  drun H (fun t => t) conc_cls (fun vs => conc_call (reg vs) (opnd VInt vs)) (fun vs => conc_self (reg vs) (opnd VInt vs))
    (fun vs i b => v <- reg vs 0 ;; w <- opnd VInt vs b ;; conc_set v i w).
(** The pySMT (1) and z3 (2) families. *)
Definition sym_cls (f : Z) (v : sval) : ty :=
  match v with SVec x => TLeaf (LVec f (ck (scls x)) (Some (csize (scls x)))) | SBit _ => TLeaf (LBit f) | _ => TLeaf LObject end.
Definition smt_drun (H : Z -> Z -> bool) (S : simplifier) : list sval -> list dinstr -> res dstate :=
  drun H (ty_fam 1) (sym_cls 1) (fun vs => smt_call S (reg vs) (opnd SInt vs)) (fun vs => new_only (reg vs) (opnd SInt vs))
    (fun vs i b => v <- reg vs 0 ;; w <- opnd SInt vs b ;; smt_set S v i w).
Definition z3_drun (H : Z -> Z -> bool) (S : simplifier) : list sval -> list dinstr -> res dstate :=
  drun H (ty_fam 2) (sym_cls 2) (fun vs => z3_call S (reg vs) (opnd SInt vs)) (fun vs => new_only (reg vs) (opnd SInt vs))
    (fun vs i b => v <- reg vs 0 ;; w <- opnd SInt vs b ;; z3_set S v i w).
