(** Vocabulary for the naming properties. *)
From Coq Require Import String.
From Verif Require Import NameModel.

(** Live symbolic variables: objects in the heap that were created as variables, with their name. *)
Definition variable (s : state) (f : family) (i : nat) (n : string) : Prop :=
  exists o, In o (heap s) /\ o_id o = i /\ o_fam o = f /\ o_name o = Some n /\ o_ok o = true.
(** n occurs in a live formula. *)
Definition occurs (s : state) (n : string) : Prop := exists o, In o (heap s) /\ In n (o_syms o).

(** Names passed with name= in a history. *)
Fixpoint explicit_names (l : list op) : list string :=
  match l with
  | [] => []
  | (OVar (NStr n) _ _ _ | OFP (NStr n) _) :: l => n :: explicit_names l
  | _ :: l => explicit_names l
  end.
(** Every prefix= argument is a string. *)
Definition string_prefixes (l : list op) : Prop :=
  Forall (fun o => match o with OVar _ (Some (PObj _ _)) _ _ => False | _ => True end) l.
(** The names generated so far (automatically or from a prefix) in the history that led to s. *)
Definition generated (s : state) : list string :=
  flat_map (fun x => match x with (Some _, n) => [n] | _ => [] end) (created s).
(** Those generated automatically or from a prefix that is a string. *)
Definition string_name (x : option prefix * string) : list string :=
  match x with (Some (PStr _), n) => [n] | _ => [] end.
Definition generated_from_strings (s : state) : list string := flat_map string_name (created s).
(** Those generated from one prefix object ("V" when there is no prefix argument). *)
Definition prefix_eq_dec (p q : prefix) : {p = q} + {p <> q}.
Proof. decide equality; try apply string_dec; apply Nat.eq_dec. Defined.
Definition generated_with (p : prefix) (s : state) : list string :=
  flat_map (fun x => match x with (Some q, n) => if prefix_eq_dec q p then [n] else [] | _ => [] end) (created s).
(** n occurs in the formula of the live object i. *)
Definition occurs_in (s : state) (i : nat) (n : string) : Prop := exists o, In o (heap s) /\ o_id o = i /\ In n (o_syms o).
