(** What is said about names and threads. *)
From Coq Require Import String.
From Verif Require Import NameModel NameSpec NThreadModel.

(** The operation is the constructor of a class with family f called with name=n. *)
Definition names (o : op) (f : family) (n : string) : Prop :=
  match o with
  | OVar (NStr m) None false _ => f = Core /\ n = m
  | OFP (NStr m) _ => f = FP /\ n = m
  | _ => False
  end.
(** The operation makes a variable whose name is generated from a prefix ("V" without a prefix argument). *)
Definition generates (o : op) (p : prefix) : Prop :=
  match o with OVar NAuto pf false _ => p = match pf with Some q => q | None => PStr "V" end | _ => False end.
(** Every prefix= argument is a string. *)
Definition all_strings (h : list event) : Prop := forall i o p, In (EStart i o) h -> generates o p -> exists q, p = PStr q.
(** Nobody is inside a constructor. *)
Definition all_idle (s : tstate) : Prop := forall i, ph s i = PIdle.
(** A lock is held around each creation of a variable: one is only started when no thread is inside another. *)
Definition creates (o : op) : Prop := match o with OVar _ _ false _ | OFP _ _ => True | _ => False end.
Definition locked (h : list event) : Prop :=
  forall h1 i o h2, h = h1 ++ EStart i o :: h2 -> creates o -> all_idle (trun tinit h1).
(** Thread i has seen that the name n is free in the table of f and has not yet stored it. *)
Definition decided (s : tstate) (i : nat) (f : family) (n : string) : Prop :=
  match ph s i with
  | PNamed g m _ => f = g /\ n = m
  | PFree _ m _ => f = Core /\ n = m
  | _ => False
  end.
(** The same names, objects and counters. *)
Definition same_state (a b : state) : Prop :=
  heap a = heap b /\ tab a = tab b /\ symtab a = symtab b /\ fresh a = fresh b /\ next a = next b /\ created a = created b
  /\ forall p, counter (counters a) p = counter (counters b) p.
