(** Vocabulary for the names of z3 variables. *)
From Coq Require Import String.
From Verif Require Import NameModel Z3NameModel.

(** Live variables with their names; constants that occur in a live formula. *)
Definition zvariable (s : zstate) (i : nat) (n : string) : Prop :=
  exists o, In o (zheap s) /\ z_id o = i /\ z_name o = Some n /\ z_ok o = true.
Definition zoccurs (s : zstate) (x : zsym) : Prop := exists o, In o (zheap s) /\ In x (z_syms o).
(** Names passed with name= in a history. *)
Fixpoint zexplicit (l : list zop) : list string :=
  match l with [] => [] | ZVar (NStr n) _ _ :: l => n :: zexplicit l | _ :: l => zexplicit l end.
(** The names generated so far. *)
Definition zgenerated (s : zstate) : list string := flat_map (fun x : bool * zsym => if fst x then [fst (snd x)] else []) (zcreated s).
(** A sort z3 has. *)
Definition has_bits (t : zsort) : Prop := t <> ZVec 0.
(** A live object, finished or not, is registered under n. *)
Definition zregistered (s : zstate) (n : string) : Prop := exists o, In o (zheap s) /\ z_name o = Some n.
(** The constants of the object i. *)
Definition zconstants (s : zstate) (i : nat) (x : zsym) : Prop := exists o, In o (zheap s) /\ z_id o = i /\ In x (z_syms o).
(** Every state the module can reach. *)
Definition zreach (s : zstate) : Prop := exists l, s = zrun zinit l.
