(** What is said about sized classes and threads. *)
From Verif Require Import PyBase MetaModel MetaSpec ThreadModel.

(** Thread [i] of [p] has got the answer [r] for the request c[n]. *)
Definition answered (p : pool) (i : nat) (c : nat) (n : Z) (r : res nat) : Prop :=
  exists t, nth_error (p_threads p) i = Some t /\ In (c, n, r) (t_got t).
(** No thread is in the middle of a request. *)
Definition quiet (p : pool) : Prop := forall t, In t (p_threads p) -> t_ctl t = Idle /\ t_stack t = [].
(** All requests are for bit-vector classes that exist. *)
Definition requests_ok (s : meta) (progs : list (list (nat * Z))) : Prop :=
  forall r c n, In r progs -> In (c, n) r -> is_bv s c.
