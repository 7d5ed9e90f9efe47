(** What is said about objects shared by threads (C103, C104). *)
From Verif Require Import PyBase BVModel ADTTy ADTModel ADTSpec ShareModel.

(** One call by itself: the object afterwards and the answer, by the functions of properties C17, C40, C43 and C44. *)
Definition seq_call (H : Z -> Z -> bool) (o : sobj) (c : scall) : sobj * res sans :=
  let put (r : res sobj) := match r with Ok o' => (o', Ok ADone) | Raise e => (o, Raise e) end in
  match o, c with
  | ShVec x, CSetBit i b => put (rmap ShVec (BVModel.setitem x (IInt i) (VBool b)))
  | ShVec x, CGetBit i => (o, r <- BVModel.getitem x (IInt i) ;; match r with VBit b => Ok (ABit b) | _ => Raise EOutOfModel end)
  | ShAdt t (STup b xs), CSetItem k v => put (rmap (ShAdt t) (ADTModel.setitem H vtype t (STup b xs) k v))
  | ShAdt t (STup b xs), CSetAttr n v => put (rmap (ShAdt t) (setattr H vtype t (STup b xs) n v))
  | ShAdt t (STup b xs), CGetItem i => (o, rmap AVal (tup_get xs i))
  | ShAdt t (SSum x), CSetItem k v => put (rmap (ShAdt t) (ADTModel.setitem H vtype t (SSum x) k v))
  | ShAdt t (SSum x), CGetSum u => (o, rmap (fun m => AMatch (fst m) (snd m)) (sum_get H vtype t (SSum x) u))
  | ShAdt t (STag a x), CSetAttr n v => put (rmap (ShAdt t) (setattr H vtype t (STag a x) n v))
  | ShAdt t (STag a x), CSetItem k v => put (rmap (ShAdt t) (ADTModel.setitem H vtype t (STag a x) k v))
  | ShAdt t (STag a x), CGetField n => (o, rmap (fun m => AMatch (fst m) (snd m)) (tag_get t (STag a x) n))
  | _, _ => (o, Raise EOutOfModel)
  end.
(** The calls of a log made one after the other on [o] leave [o'], and the answers are those of the log; [skip] exempts the
    answers of some calls. *)
Fixpoint explains (H : Z -> Z -> bool) (skip : nat -> scall -> bool) (o : sobj) (l : list (nat * scall * res sans)) (o' : sobj) : Prop :=
  match l with
  | [] => o' = o
  | (i, c, r) :: l => (skip i c = true \/ snd (seq_call H o c) = r) /\ explains H skip (fst (seq_call H o c)) l o'
  end.

Definition is_get (c : scall) : bool := match c with CGetBit _ | CGetItem _ | CGetSum _ | CGetField _ => true | _ => false end.
Definition is_match (c : scall) : bool := match c with CGetSum _ | CGetField _ => true | _ => false end.
Definition is_tagged (o : sobj) : bool := match o with ShAdt _ (STag _ _) => true | _ => false end.
(** The threads other than [w] only look. *)
Definition one_writer (w : nat) (progs : list (list scall)) : Prop :=
  forall i l c, i <> w -> nth_error progs i = Some l -> In c l -> is_get c = true.
Definition outside (p : spool) (i : nat) : Prop := forall t, nth_error (p_thr p) i = Some t -> s_ctl t = SIdle.
(** Every step is made while the other threads are outside of their calls. *)
Fixpoint exclusive (H : Z -> Z -> bool) (p : spool) (l : list sevent) : Prop :=
  match l with
  | [] => True
  | e :: l => match e with EStep i => forall j, j <> i -> outside p j | EInt _ => False end /\ exclusive H (sh_event H p e) l
  end.
(** Some thread calls [c]. *)
Definition called (progs : list (list scall)) (c : scall) : Prop := exists l, In l progs /\ In c l.
(** The call assigns [v] to component [p] of a Tuple or Product with the fields [fs]. *)
Definition assigns (fs : list (string * ty)) (c : scall) (p : nat) (v : val) : Prop :=
  match c with
  | CSetItem (IxInt i) w => (p < length fs)%nat /\ (i = Z.of_nat p \/ i = Z.of_nat p - Z.of_nat (length fs)) /\ w = v
  | CSetAttr n w => index_of n (map fst fs) = Some p /\ w = v
  | _ => False
  end.
Definition assigned (progs : list (list scall)) (fs : list (string * ty)) (p : nat) (v : val) : Prop := exists c, called progs c /\ assigns fs c p v.
(** The object holds what its type declares, as far as [vok] (ADTSpec.v). *)
Definition sound (H : Z -> Z -> bool) (o : sobj) : Prop :=
  match o with ShVec x => 0 <= bsize x /\ 0 <= bval x < 2 ^ bsize x | ShAdt t s => vok H (mk_val t s) end.
(** [b] was bit [j] of [x] at the start, or some thread assigns it. *)
Definition bit_from (x : bv) (progs : list (list scall)) (j : Z) (b : bool) : Prop :=
  b = Z.testbit (bval x) j \/ exists i, - bsize x <= i < bsize x /\ i mod bsize x = j /\ called progs (CSetBit i b).
Definition component_from (vs : list val) (progs : list (list scall)) (fs : list (string * ty)) (p : nat) (v : val) : Prop :=
  nth_error vs p = Some v \/ assigned progs fs p v.
Definition sum_from (x : val) (progs : list (list scall)) (v : val) : Prop := v = x \/ exists u, called progs (CSetItem (IxTy u) v).
Definition field_from (x : val) (progs : list (list scall)) (v : val) : Prop := v = x \/ exists n, called progs (CSetAttr n v).
Definition tag_from (a : nat) (progs : list (list scall)) (fs : list (string * ty)) (k : nat) : Prop :=
  k = a \/ exists n v, index_of n (map fst fs) = Some k /\ called progs (CSetAttr n v).
(** [v] is an instance of a class among the fields. *)
Definition of_some_field (H : Z -> Z -> bool) (fs : list (string * ty)) (v : val) : Prop := exists f, In f fs /\ sub H (vtype v) (snd f) = true.
(** [c], made by some thread, is the assignment that ended last without an exception. *)
Definition last_put (log : list (nat * scall * res sans)) (c : scall) : Prop :=
  exists i l1 l2, log = l1 ++ (i, c, Ok ADone) :: l2 /\ forall j d, ~ In (j, d, Ok ADone) l2.
(** No answer is exempt; the answers s[T] and u.name give to the readers are. *)
Definition no_skip (i : nat) (c : scall) : bool := false.
Definition reader_skip (w : nat) (i : nat) (c : scall) : bool := is_match c && negb (Nat.eqb i w).
(** Every thread has made all of its calls. *)
Definition finished (p : spool) : Prop := forall t, In t (p_thr p) -> s_prog t = [].
