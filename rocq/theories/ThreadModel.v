(** K[n] evaluated by several threads (hwtypes/bit_vector_abc.py:75-97). The metaclass takes no lock: the cache is
    read (77-80), the sized bases are made one after the other by the same method (90), the class is made (93-94)
    and it is then stored whatever the cache holds by now (96). A schedule interleaves these steps. Definitions
    only. *)
From Verif Require Import PyBase MetaModel.

(** A call in progress, 90-92: the class, the size, the bases still to look at, the sized bases so far. *)
Record frame := Frame { f_cls : nat; f_n : Z; f_todo : list nat; f_done : list nat }.

(** Where a thread is inside the innermost call. *)
Inductive control :=
| Idle                          (* outside of any call *)
| Enter (c : nat) (n : Z)       (* about to read the cache, 77 *)
| Loop                          (* in the loop over the bases, 91 *)
| Made (c : nat) (n : Z) (t : nat)  (* between 94 and 96 *)
| Got (t : nat)                 (* returning *)
| Failed (e : exn).             (* an exception is on its way out *)

(** A thread evaluates the requests c[n] of [t_prog] one after the other and keeps every answer, with the request.
    The request being evaluated is the head of [t_prog]. *)
Record thread := Thread { t_prog : list (nat * Z); t_stack : list frame; t_ctl : control;
  t_got : list (nat * Z * res nat) }.

(** One step of a thread, 75-97. A step is one access to the shared state: a lookup in the cache, the creation of a
    class, or a store into the cache; CPython runs each of them under its global lock. Simplified: an entry that is
    stored over an older one hides it instead of replacing it, which is the same as long as nothing is collected;
    threads keep all they got, so nothing is. *)
Definition tstep (s : meta) (t : thread) : meta * thread :=
  let '(Thread prog stack ctl got) := t in
  match ctl with
  | Idle =>
      match prog with
      | [] => (s, t)
      | (c, n) :: _ => (s, Thread prog stack (Enter c n) got)
      end
  | Enter c n =>
      match find_cache s c n with                                              (* 77-80 *)
      | Some x => (s, Thread prog stack (Got x) got)
      | None =>
          if n <? 0 then (s, Thread prog stack (Failed EValueError) got) else  (* 84-85 *)
          match c_size (get_cls s c) with
          | Some _ => (s, Thread prog stack (Failed ETypeError) got)           (* 87-88 *)
          | None => (s, Thread prog (Frame c n (c_bases (get_cls s c)) [] :: stack) Loop got)
          end
      end
  | Loop =>
      match stack with
      | [] => (s, t)
      | Frame c n (b :: bs) done :: stack =>
          if c_bv (get_cls s b)                                                (* 91 *)
          then (s, Thread prog (Frame c n bs done :: stack) (Enter b n) got)
          else (s, Thread prog (Frame c n bs done :: stack) Loop got)
      | Frame c n [] done :: stack =>
          match new_class s true (c :: done) (Some c) (Some n) with            (* 92-94 *)
          | Ok (s, x) => (s, Thread prog stack (Made c n x) got)
          | Raise e => (s, Thread prog stack (Failed e) got)
          end
      end
  | Made c n x =>                                                              (* 96 *)
      (Meta (classes s) (dead s) ((c, n, x) :: cache s) (vars s), Thread prog stack (Got x) got)
  | Got x =>                                                                   (* 97, and 91 in the caller *)
      match stack with
      | Frame c n bs done :: stack => (s, Thread prog (Frame c n bs (done ++ [x]) :: stack) Loop got)
      | [] =>
          match prog with
          | [] => (s, t)
          | (c, n) :: prog => (s, Thread prog [] Idle (got ++ [(c, n, Ok x)]))
          end
      end
  | Failed e =>
      match prog with
      | [] => (s, t)
      | (c, n) :: prog => (s, Thread prog [] Idle (got ++ [(c, n, Raise e)]))
      end
  end.

(** The interpreter: the shared state and the threads. The scheduler picks any thread at any moment. *)
Record pool := Pool { p_meta : meta; p_threads : list thread }.
Fixpoint set_nth {A} (l : list A) (i : nat) (x : A) : list A :=
  match l, i with
  | [], _ => []
  | _ :: l, O => x :: l
  | y :: l, S i => y :: set_nth l i x
  end.
Definition sched (p : pool) (i : nat) : pool :=
  match nth_error (p_threads p) i with
  | None => p
  | Some t => let '(s, t) := tstep (p_meta p) t in Pool s (set_nth (p_threads p) i t)
  end.
Definition prun (p : pool) (l : list nat) : pool := fold_left sched l p.
(** Threads started after the history [h], each with its own requests. *)
Definition spawn (h : list mcall) (progs : list (list (nat * Z))) : pool :=
  Pool (mrun h) (map (fun r => Thread r [] Idle []) progs).
(** One thread running alone for [k] steps. *)
Fixpoint alone (k : nat) (s : meta) (t : thread) : meta * thread :=
  match k with O => (s, t) | S k => let '(s, t) := tstep s t in alone k s t end.
