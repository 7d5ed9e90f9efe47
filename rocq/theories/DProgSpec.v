(** The programs over algebraic data types that mean the same in all families (C109): the program is run on classes only. *)
From Verif Require Import PyBase BVModel OpModel SMTTerm SMTModel SMTSpec Z3Spec ProgModel MProgModel MProgSpec ADTTy ADTModel DProgModel.
From Verif Require ProgSpec.

(** Types whose vectors and Bits are those of the family 0, standing for the family that runs the program. *)
Definition leaf_pure (l : leaf) : bool := match l with LVec f _ _ | LBit f => f =? 0 | _ => true end.
Fixpoint pure (t : ty) : bool :=
  match t with
  | TLeaf l => leaf_pure l
  | TEnum _ _ => true
  | TNode _ _ fs => forallb (fun p => pure (snd p)) fs
  | TMod _ t => pure t
  end.
Definition pure_instr (d : dinstr) : bool :=
  match d with DNew t _ _ | DMatch _ t | DSetItem _ (IxTy t) _ => pure t | _ => true end.

(** Running on classes: a vector or Bit is known by its class only. *)
Definition class_of (t : ProgSpec.ty) : ty :=
  match t with ProgSpec.TVec c => TLeaf (LVec 0 (ck c) (Some (csize c))) | ProgSpec.TBit => TLeaf (LBit 0) end.
Definition class_call (ts : list ProgSpec.ty) (i : instr) : res (list ProgSpec.ty) :=
  match ProgSpec.check1 ts i with Some us => Ok us | None => Raise EOutOfModel end.
Definition class_set (ts : list ProgSpec.ty) (i : Z) (b : operand) : res ProgSpec.ty :=
  match ProgSpec.tvec ts 0 with
  | Some c => if (- csize c <=? i) && (i <? csize c) && ProgSpec.bit_like ts b then Ok (ProgSpec.TVec c) else Raise EOutOfModel
  | None => Raise EOutOfModel
  end.
Definition class_step (H : Z -> Z -> bool) : dstate -> dinstr -> res dstate :=
  dstep H (fun t => t) class_of class_call (fun _ _ => None) class_set.

(** Dividends and results of remainders, which may not be assigned to (C108). *)
Definition protect (st : dstate (V := ProgSpec.ty)) (fixed : list nat) (d : dinstr) : list nat :=
  match d with
  | DCall args i =>
      match dividend i with
      | Some k => match (x <- var args k ;; var (snd st) x) with Ok o => o :: length (fst st) :: fixed | Raise _ => fixed end
      | None => fixed
      end
  | _ => fixed
  end.
Definition allowed (st : dstate (V := ProgSpec.ty)) (fixed : list nat) (d : dinstr) : bool :=
  pure_instr d &&
  match d with
  | DSetBit x _ _ => match var (snd st) x with Ok o => negb (existsb (Nat.eqb o) fixed) | Raise _ => true end
  | _ => true
  end.
(** [Raise EOutOfModel]: not known to mean the same in all families. *)
Fixpoint dcheck (H : Z -> Z -> bool) (st : dstate (V := ProgSpec.ty)) (fixed : list nat) (p : list dinstr) : res (dstate (V := ProgSpec.ty)) :=
  match p with
  | [] => Ok st
  | d :: p => if allowed st fixed d then st' <- class_step H st d ;; dcheck H st' (protect st fixed d) p else Raise EOutOfModel
  end.
(** The classes of all variables in the end, for inputs of the given types. *)
Definition program_classes (H : Z -> Z -> bool) (ts : list ProgSpec.ty) (p : list dinstr) : res (list ty) :=
  rmap (fun st => map fst (observe class_of st)) (dcheck H (map GLeaf ts, seq 0 (length ts)) [] p).

(** A variable of class [t]: what it refers to in a symbolic run of family [f] and in the concrete run under the assignment
    [e]. *)
Definition same_meaning (f : Z) (e : env) (t : ty) (a : ty * option sval) (b : ty * option pyval) : Prop :=
  fst a = ty_fam f t /\ fst b = t /\ snd b = option_map (vmeaning e) (snd a).
Fixpoint variables_agree (f : Z) (e : env) (ts : list ty) (l : list (ty * option sval)) (l' : list (ty * option pyval)) : Prop :=
  match ts, l, l' with
  | [], [], [] => True
  | t :: ts, a :: l, b :: l' => same_meaning f e t a b /\ variables_agree f e ts l l'
  | _, _, _ => False
  end.

(** The variable [x] refers to the object [o]; the state with one more variable that does. *)
Definition refers {V} (st : dstate (V := V)) (x o : nat) : Prop := nth_error (snd st) x = Some o.
Definition and_then {V} (st : dstate (V := V)) (o : nat) : dstate (V := V) := (fst st, snd st ++ [o]).
