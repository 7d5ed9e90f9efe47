(** Symbolic variables made by several threads. The constructors take no lock: the name tables are looked up and written
    in separate steps, hwtypes/smt_bit_vector.py:27-31, 64-81 and 228-247, hwtypes/smt_int.py:28-46,
    hwtypes/smt_fp_vector.py:43-51. The shared state is NameModel's. Definitions only. *)
From Coq Require Import String.
From Verif Require Import NameModel.

(** Where a thread is inside a constructor. *)
Inductive phase :=
| PIdle                                        (* outside *)
| PNamed (f : family) (n : string) (t : sort)  (* name= was looked up and is free; about to store it *)
| PDraw (p : prefix) (t : sort)                (* about to take the next number, smt_bit_vector.py:28, 30 *)
| PLook (p : prefix) (n : string) (t : sort)   (* about to look the generated name up, 29 *)
| PFree (p : prefix) (n : string) (t : sort).  (* _gen_name found it free, 31; about to store it *)

(** Any number of threads, by number; [log]: how each constructor call ended, newest first. *)
Record tstate := TS { shared : state; ph : nat -> phase; log : list (nat * out) }.
Definition tinit : tstate := TS init (fun _ => PIdle) [].
Definition set_ph (f : nat -> phase) (i : nat) (x : phase) : nat -> phase := fun j => if Nat.eqb j i then x else f j.

(** EStart: an idle thread starts an operation. EStep: a thread inside a constructor goes on. ECollect: the collector
    takes an object, while any threads are anywhere. *)
Inductive event := EStart (i : nat) (o : op) | EStep (i : nat) | ECollect (j : nat).

(** The part of a constructor up to the first change of thread that can matter. The checks of the arguments and the first
    look at the table are one step. Simplified: pySMT's symbol table is read and written in the same step as the name
    table (nothing in between reads either), and an SMTFPVector without name=, which uses no name table, is one step. *)
Definition start (s : tstate) (i : nat) (o : op) : tstate :=
  match o with
  | OVar NAuto pf false t => TS (shared s) (set_ph (ph s) i (PDraw (match pf with Some p => p | None => PStr "V" end) t)) (log s)
  | OVar (NStr n) None false t =>
      if in_table (shared s) Core n then TS (shared s) (ph s) ((i, Failed ValueErr) :: log s)
      else TS (shared s) (set_ph (ph s) i (PNamed Core n t)) (log s)
  | OFP (NStr n) t =>
      if in_table (shared s) FP n then TS (shared s) (ph s) ((i, Failed ValueErr) :: log s)
      else TS (shared s) (set_ph (ph s) i (PNamed FP n t)) (log s)
  | _ => let '(s', r) := step (shared s) o in TS s' (ph s) ((i, r) :: log s)
  end.
(** _name_table[name] = self and the rest of the constructor. *)
Definition finish (s : tstate) (i : nat) (f : family) (p : option prefix) (n : string) (t : sort) : tstate :=
  let '(s', r) := register (note (shared s) p n) f n t in TS s' (set_ph (ph s) i PIdle) ((i, r) :: log s).
(** One step of thread i. next() of a counter, a lookup and a store are each atomic in CPython. *)
Definition resume (s : tstate) (i : nat) : tstate :=
  match ph s i with
  | PIdle => s
  | PNamed f n t => finish s i f None n t
  | PDraw p t =>                                                              (* 28, 30 *)
      let k := counter (counters (shared s)) p in
      TS (set_counter (shared s) p (S k)) (set_ph (ph s) i (PLook p (gen (ptext p) k) t)) (log s)
  | PLook p n t =>                                                            (* 29 *)
      TS (shared s) (set_ph (ph s) i (if in_table (shared s) Core n then PDraw p t else PFree p n t)) (log s)
  | PFree p n t => finish s i Core (Some p) n t
  end.
Definition tstep (s : tstate) (e : event) : tstate :=
  match e with
  | EStart i o => match ph s i with PIdle => start s i o | _ => s end
  | EStep i => resume s i
  | ECollect j => TS (collect (shared s) j) (ph s) (log s)
  end.
Definition trun (s : tstate) (l : list event) : tstate := fold_left tstep l s.
