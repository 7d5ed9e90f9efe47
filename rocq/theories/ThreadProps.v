(** Sized classes made by several threads (C99), over every number of threads, every list of requests and every
    interleaving of their steps, after every history of class statements and indexing. *)
From Coq Require Import Lia.
From Verif Require Import PyBase BVFacts MetaModel MetaSpec MetaFacts ThreadModel ThreadSpec ThreadFacts.
From Verif Require Import ThreadProofs.


(** * C99: K[n] evaluated by threads *)
(** Whatever the other threads do: a negative size is a ValueError, a sized class a TypeError, and a class that is
    returned has the size n and the unsized class K, and is a subclass of K. *)
Theorem C99_answers : forall h progs l i k n r, requests_ok (mrun h) progs ->
  let p := prun (spawn h progs) l in let s := p_meta p in
  answered p i k n r ->
  (n < 0 -> r = Raise EValueError) /\ (0 <= n -> ~ unsized s k -> r = Raise ETypeError)
  /\ forall t, r = Ok t ->
       c_size (get_cls s t) = Some n /\ c_unsized (get_cls s t) = Some k /\ c_bv (get_cls s t) = true /\ issub s t k = true.
Proof. exact C99_answers_pf. Qed.
Print Assumptions C99_answers.
(** As soon as no evaluation is under way, K[n] is settled for ever if it was ever made: indexing gives one class and
    makes nothing, and that class is what every later evaluation gives, in every thread and under every schedule. *)
Theorem C99_settled : forall h progs l i k n y, requests_ok (mrun h) progs ->
  let p := prun (spawn h progs) l in
  quiet p -> answered p i k n (Ok y) ->
  exists t, getitem_cls (p_meta p) k (XInt n) = Ok (p_meta p, t)
    /\ forall l2 j a b, nth_error (p_threads p) j = Some a -> nth_error (p_threads (prun p l2)) j = Some b ->
         exists new, t_got b = t_got a ++ new /\ forall r, In (k, n, r) new -> r = Ok t.
Proof. exact C99_settled_pf. Qed.
Print Assumptions C99_settled.
(** A class that exists before the threads start is what every one of them gets. *)
Theorem C99_warm : forall h progs l i k n t r, requests_ok (mrun h) progs -> is_bv (mrun h) k ->
  getitem_cls (mrun h) k (XInt n) = Ok (mrun h, t) ->
  answered (prun (spawn h progs) l) i k n r -> r = Ok t.
Proof. exact C99_warm_pf. Qed.
Print Assumptions C99_warm.
(** A thread that is alone computes what the single-threaded program does: the same class, the same classes made,
    the same cache. *)
Theorem C99_alone : forall h k n s t, getitem_cls (mrun h) k (XInt n) = Ok (s, t) ->
  exists steps, alone steps (mrun h) (Thread [(k, n)] [] Idle []) = (s, Thread [] [] Idle [(k, n, Ok t)]).
Proof. exact C99_alone_pf. Qed.
Print Assumptions C99_alone.
(** What does not hold: two threads that evaluate BitVector[8] at the same time may get two different classes, *)
Theorem C99_one_class_refuted : exists progs l t u, requests_ok (mrun builtin) progs /\
  let p := prun (spawn builtin progs) l in
  quiet p /\ answered p 0 2%nat 8 (Ok t) /\ answered p 1 2%nat 8 (Ok u) /\ t <> u.
Proof. exact C99_one_class_refuted_pf. Qed.
Print Assumptions C99_one_class_refuted.
(** and from then on, although UIntVector is a subclass of BitVector and both UIntVector[8] and BitVector[8] are
    settled, issubclass(UIntVector[8], BitVector[8]) is False. *)
Theorem C99_order_refuted : exists progs l t u, requests_ok (mrun builtin) progs /\
  let p := prun (spawn builtin progs) l in let s := p_meta p in
  quiet p /\ getitem_cls s 4 (XInt 8) = Ok (s, t) /\ getitem_cls s 2 (XInt 8) = Ok (s, u)
  /\ issub s 4 2 = true /\ issub s t u = false.
Proof. exact C99_order_refuted_pf. Qed.
Print Assumptions C99_order_refuted.
(** A race can even leave the program unable to make a class: here K[8] is fine without threads, and after a race
    over BitVector[8] it raises TypeError, because the method resolution orders of the sized bases disagree about
    the two classes BitVector[8]. *)
Theorem C99_makes_refuted : exists h progs l k, requests_ok (mrun h) progs
  /\ (exists s t, getitem_cls (mrun h) k (XInt 8) = Ok (s, t))
  /\ let p := prun (spawn h progs) l in
     quiet p /\ answered p 1 k 8 (Raise ETypeError) /\ getitem_cls (p_meta p) k (XInt 8) = Raise ETypeError.
Proof. exact C99_makes_refuted_pf. Qed.
Print Assumptions C99_makes_refuted.
(** The hypotheses are met: three threads that overlap, all of them answered, the last request after a quiet moment. *)
Example C99_ex : let progs := [[(2%nat, 8); (4%nat, -1)]; [(4%nat, 8); (2%nat, 8)]; [(5%nat, 8)]] in
  let p := prun (spawn builtin progs) (repeat 0%nat 9 ++ repeat 1%nat 12 ++ [2;0;1;2;0;1]%nat ++ repeat 2%nat 40
    ++ repeat 0%nat 6 ++ repeat 1%nat 40) in
  requests_ok (mrun builtin) progs
  /\ map (fun t => map snd (t_got t)) (p_threads p)
     = [[Ok 7%nat; Raise EValueError]; [Ok 11%nat; Ok 7%nat]; [Ok 10%nat]].
Proof.
  split; [|vm_compute; reflexivity].
  intros r c n [<-|[<-|[<-|[]]]] I; repeat (destruct I as [I|I]; [inv I; split; reflexivity|]); destruct I.
Qed.
(** A class made before the threads start: BitVector[8] of the history. *)
Example C99_ex_warm : let h := builtin ++ [MIndex 2 (XInt 8)] in
  getitem_cls (mrun h) 2 (XInt 8) = Ok (mrun h, 7%nat) /\ is_bv (mrun h) 2
  /\ map (fun t => map snd (t_got t)) (p_threads (prun (spawn h [[(2%nat, 8)]; [(2%nat, 8)]]) [0;1;0;1;0;1]%nat))
     = [[Ok 7%nat]; [Ok 7%nat]].
Proof. vm_compute. auto. Qed.
