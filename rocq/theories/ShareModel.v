(** One BitVector, Tuple, Product, Sum or TaggedUnion object used by several threads (hwtypes/bit_vector.py:227-254,
    adt.py:45-54, 149-163, adt_meta.py:442-452, 542-554). No method takes a lock. A step of a thread is one access to the
    attributes _value, _value_ and _tag_ of the object; CPython runs each of them under its global lock. An exception
    (KeyboardInterrupt, say) may reach a thread between any two steps. Definitions only.
    Simplified: the assigned items of a vector are bools; components are values (their own state is another object's);
    a Tuple subscript is an int, a Sum subscript a class. *)
From Verif Require Import PyBase BVModel ADTTy ADTModel.

Inductive sobj := ShVec (x : bv) | ShAdt (t : ty) (s : shape val).

(** x[i] = b; x[i]; t[k] = v; t.n = v; t[i]; s[u] on a Sum; u.n on a TaggedUnion. *)
Inductive scall :=
| CSetBit (i : Z) (b : bool)
| CGetBit (i : Z)
| CSetItem (k : key) (v : val)
| CSetAttr (n : string) (v : val)
| CGetItem (i : Z)
| CGetSum (u : ty)
| CGetField (n : string).
(** What a call returns: nothing, a Bit, a component, a Match with its two fields. *)
Inductive sans := ADone | ABit (b : bool) | AVal (v : val) | AMatch (m : bool) (v : val).

(** Where a thread is inside the call at the head of its program. *)
Inductive scontrol :=
| SIdle                        (* outside of a call *)
| SAnd (i : Z) (b : bool) (r : bv)   (* bit_vector.py:241, self | mask is r, self & ~mask is next *)
| SStoreV (y : bv)             (* 241, both are there, the store is next *)
| SStoreT (s : shape val)      (* adt.py:52, the new list is there, the store is next *)
| SStoreTag (k : nat)          (* adt_meta.py:552, the value is stored, the tag is next *)
| SMatch (m : bool).           (* adt.py:152 and adt_meta.py:547, the first argument is there, self._value_ is next *)
Record sthread := SThread { s_prog : list scall; s_ctl : scontrol }.

(** The index and the mask of x[i] = b, bit_vector.py:234-240. *)
Definition set_index (x : bv) (i : Z) : res Z :=
  let i := if i <? 0 then bsize x + i else i in
  if negb ((0 <=? i) && (i <? bsize x)) then Raise EIndexError else Ok i.
Definition set_mask (x : bv) (i : Z) : bv := mk (bcls x) (Z.shiftl 1 i).
(** t[i], adt.py:45-46. *)
Definition tup_get (xs : list val) (i : Z) : res val :=
  p <- py_index (length xs) i ;; match nth_error xs p with Some v => Ok v | None => Raise EIndexError end.

(** What a step does: the call ends with an answer, or goes on. *)
Inductive sout := SEnd (r : res sans) | SGo (c : scontrol).

(** The first step of a call: the checks, and the first access to the object. *)
Definition sh_start (H : Z -> Z -> bool) (o : sobj) (c : scall) : sobj * sout :=
  match o, c with
  | ShVec x, CSetBit i b =>                                                (* bit_vector.py:234-241, self | mask *)
      match i' <- set_index x i ;; r <- bvor x (VBV (set_mask x i')) ;; Ok (i', rv_val x r) with
      | Ok (i', r) => (o, SGo (SAnd i' b r))
      | Raise e => (o, SEnd (Raise e))
      end
  | ShVec x, CGetBit i => (o, SEnd (rmap ABit (getitem_int x i)))          (* 247-252 *)
  | ShAdt t (STup b xs), (CSetItem _ _ | CSetAttr _ _) =>                  (* adt.py:48-51, adt_meta.py:448-450 *)
      match (match c with CSetItem k v => ADTModel.setitem H vtype t (STup b xs) k v
                        | CSetAttr n v => setattr H vtype t (STup b xs) n v | _ => Raise EOutOfModel end) with
      | Ok s => (o, SGo (SStoreT s))
      | Raise e => (o, SEnd (Raise e))
      end
  | ShAdt t (STup b xs), CGetItem i => (o, SEnd (rmap AVal (tup_get xs i)))   (* adt.py:45-46 *)
  | ShAdt t (SSum x), CSetItem k v =>                                      (* adt.py:157-163 *)
      match ADTModel.setitem H vtype t (SSum x) k v with
      | Ok s => (ShAdt t s, SEnd (Ok ADone))
      | Raise e => (o, SEnd (Raise e))
      end
  | ShAdt t (SSum x), CGetSum u =>                                         (* adt.py:149-152, isinstance(self._value_, T) *)
      match sum_get H vtype t (SSum x) u with
      | Ok (m, _) => (o, SGo (SMatch m))
      | Raise e => (o, SEnd (Raise e))
      end
  | ShAdt t (STag a x), CSetAttr n v =>                                    (* util.py:104-109, adt_meta.py:551 *)
      match setattr H vtype t (STag a x) n v with
      | Ok (STag k y) => (ShAdt t (STag a y), SGo (SStoreTag k))
      | Ok _ => (o, SEnd (Raise EOutOfModel))
      | Raise e => (o, SEnd (Raise e))
      end
  | ShAdt t (STag a x), CSetItem k v =>                                    (* adt.py:223-224 *)
      match ADTModel.setitem H vtype t (STag a x) k v with
      | Ok _ => (o, SEnd (Raise EOutOfModel))
      | Raise e => (o, SEnd (Raise e))
      end
  | ShAdt t (STag a x), CGetField n =>                                     (* adt_meta.py:545-547, self._tag_ == tag *)
      match tag_get t (STag a x) n with
      | Ok (m, _) => (o, SGo (SMatch m))
      | Raise e => (o, SEnd (Raise e))
      end
  | _, _ => (o, SEnd (Raise EOutOfModel))
  end.
(** The later steps. *)
Definition sh_resume (o : sobj) (c : scontrol) : sobj * sout :=
  match o, c with
  | ShVec x, SAnd i b r =>                                                 (* bit_vector.py:241, self & ~mask, ite *)
      match bvand x (VBV (bvnot (set_mask x i))) with
      | Ok f => (o, SGo (SStoreV (BV (bcls x) (bval (mk (bcls x) (bval (if b then r else rv_val x f)))))))
      | Raise e => (o, SEnd (Raise e))
      end
  | ShVec _, SStoreV y => (ShVec y, SEnd (Ok ADone))
  | ShAdt t _, SStoreT s => (ShAdt t s, SEnd (Ok ADone))                   (* adt.py:52 *)
  | ShAdt t (STag _ x), SStoreTag k => (ShAdt t (STag k x), SEnd (Ok ADone))  (* adt_meta.py:552 *)
  | ShAdt t (SSum x), SMatch m | ShAdt t (STag _ x), SMatch m => (o, SEnd (Ok (AMatch m x)))
  | _, _ => (o, SEnd (Raise EOutOfModel))
  end.

(** The object, the threads, and what every call returned, in the order in which they ended. *)
Record spool := SPool { p_obj : sobj; p_thr : list sthread; p_log : list (nat * scall * res sans) }.
Inductive sevent := EStep (i : nat) | EInt (i : nat).
Definition sh_event (H : Z -> Z -> bool) (p : spool) (e : sevent) : spool :=
  match e with
  | EStep i =>
      match nth_error (p_thr p) i with
      | Some (SThread (c :: l) ctl) =>
          let '(o, r) := match ctl with SIdle => sh_start H (p_obj p) c | _ => sh_resume (p_obj p) ctl end in
          match r with
          | SEnd a => SPool o (update i (SThread l SIdle) (p_thr p)) (p_log p ++ [(i, c, a)])
          | SGo ctl => SPool o (update i (SThread (c :: l) ctl) (p_thr p)) (p_log p)
          end
      | _ => p
      end
  | EInt i =>                                          (* the call being made is given up *)
      match nth_error (p_thr p) i with
      | Some (SThread (_ :: l) _) => SPool (p_obj p) (update i (SThread l SIdle) (p_thr p)) (p_log p)
      | _ => p
      end
  end.
Definition sh_run (H : Z -> Z -> bool) (p : spool) (l : list sevent) : spool := fold_left (sh_event H) l p.
Definition sh_spawn (o : sobj) (progs : list (list scall)) : spool := SPool o (map (fun l => SThread l SIdle) progs) [].
