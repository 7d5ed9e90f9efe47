(** Loops by position (C105). *)
From Verif Require Import PyBase ADTTy ADTModel.

(** for k in range(first, first + n): v = item(k); body(v). The item is looked up when its turn comes. *)
Fixpoint range_loop {St It : Type} (item : St -> nat -> It) (body : St -> It -> res St) (first n : nat) (s : St) : St * list It * option exn :=
  match n with
  | O => (s, [], None)
  | S m =>
      let v := item s first in
      match body s v with
      | Ok s => let '(s, l, e) := range_loop item body (S first) m s in (s, v :: l, e)
      | Raise e => (s, [v], Some e)
      end
  end.
(** The components of a Tuple or Product. *)
Definition components (x : val) : list val := match x with VTup _ _ vs => vs | _ => [] end.
