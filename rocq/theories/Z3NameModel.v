(** Names of the variables of the z3 family: hwtypes/z3_bit_vector.py:19-30, 58-73 (z3Bit), 183-202 (z3BitVector). _free_names is
    never filled, so it is left out. Names are generated as in NameModel.v, with the prefix V. Definitions only. *)
From Coq Require Import String.
From Verif Require Import NameModel.

(** A z3 constant is a name and a sort; constants of the same name and different sorts are different. *)
Inductive zsort := ZBool | ZVec (n : nat).
Definition zsym := (string * zsort)%type.
(** An object of z3Bit or z3BitVector: identity, the name it is registered under, whether its constructor finished, the constants
    in its formula. *)
Record zobj := ZObj { z_id : nat; z_name : option string; z_ok : bool; z_syms : list zsym }.
(** zheap: the objects not yet collected; ztab: _name_table; zcount: _var_counter; zcreated: the names of all variables so far, and
    whether they were generated (the code does not read it). *)
Record zstate := ZSt { zheap : list zobj; ztab : list (string * nat); zcount : nat; znext : nat; zcreated : list (bool * zsym) }.
Definition zinit : zstate := ZSt [] [] 0 0 [].

Fixpoint zfind (l : list (string * nat)) (n : string) : option nat :=
  match l with [] => None | (m, i) :: l => if String.eqb n m then Some i else zfind l n end.
(** name in _name_table: the table is weak. *)
Definition zused (s : zstate) (n : string) : bool :=
  match zfind (ztab s) n with Some i => existsb (fun o => Nat.eqb (z_id o) i) (zheap s) | None => false end.

(** Results: a variable, another value, or an exception (TypeError, ValueError, z3's for the sort of no bits). *)
Inductive zerr := ZTypeErr | ZValueErr | ZSortErr.
Inductive zout := ZCreated (i : nat) (name : string) | ZFailed (e : zerr) | ZDone.
(** _name_table[name] = self, then z3.Bool(name) or z3.BitVecSort(size), z3.BitVec(name, T). *)
Definition zregister (s : zstate) (g : bool) (k : nat) (n : string) (t : zsort) : zstate * zout :=
  let bad := match t with ZVec 0 => true | _ => false end in
  (ZSt (zheap s ++ [ZObj (znext s) (Some n) (negb bad) (if bad then [] else [(n, t)])]) ((n, znext s) :: ztab s) k (S (znext s))
     ((g, (n, t)) :: zcreated s),
   if bad then ZFailed ZSortErr else ZCreated (znext s) n).
(** z3Bit(value, name=) and z3BitVector[n](value, name=), 58-71 and 183-196. *)
Definition znew (s : zstate) (nm : narg) (value : bool) (t : zsort) : zstate * zout :=
  match nm, value with
  | NAuto, true => (s, ZDone)
  | _, true => (s, ZFailed ZTypeErr)
  | NNotStr, false => (s, ZFailed ZTypeErr)
  | NStr n, false => if zused s n then (s, ZFailed ZValueErr) else zregister s false (zcount s) n t
  | NAuto, false =>                                                  (* _gen_name, 23-30 *)
      match search (zused s) "V" (S (List.length (zheap s))) (zcount s) with
      | Some k => zregister s true (S k) (gen "V" k) t
      | None => (s, ZDone)                                           (* never: C87_generation *)
      end
  end.
(** Values made from others keep some of their constants. *)
Definition zsyms_of (s : zstate) (is : list nat) : list zsym :=
  flat_map z_syms (filter (fun o => existsb (Nat.eqb (z_id o)) is) (zheap s)).
Definition zexpr (s : zstate) (is : list nat) (keep : zsym -> bool) : zstate :=
  ZSt (zheap s ++ [ZObj (znext s) None true (filter keep (zsyms_of s is))]) (ztab s) (zcount s) (S (znext s)) (zcreated s).
Definition zcollect (s : zstate) (i : nat) : zstate :=
  ZSt (filter (fun o => negb (Nat.eqb (z_id o) i)) (zheap s)) (ztab s) (zcount s) (znext s) (zcreated s).

Inductive zop := ZVar (nm : narg) (value : bool) (t : zsort) | ZExpr (is : list nat) (keep : zsym -> bool) | ZCollect (i : nat).
Definition zstep (s : zstate) (o : zop) : zstate * zout :=
  match o with
  | ZVar nm v t => znew s nm v t
  | ZExpr is keep => (zexpr s is keep, ZDone)
  | ZCollect i => (zcollect s i, ZDone)
  end.
Fixpoint zrun (s : zstate) (l : list zop) : zstate := match l with [] => s | o :: l => zrun (fst (zstep s o)) l end.
