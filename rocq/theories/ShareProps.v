(** One object used by several threads (C103: vectors, Tuples and Products; C104: Sums and TaggedUnions), over every
    number of threads, every list of calls, every interleaving of their steps and every set of interrupted calls. *)
From Coq Require Import Lia.
From Verif Require Import PyBase BVModel BVSpec BVFacts ADTTy ADTTyFacts ADTModel ADTSpec ADTFacts ShareModel ShareSpec ShareFacts ShareProv.
From Verif Require Import ShareProofs.


(** * C103: vectors, Tuples and Products shared by threads *)
(** Whatever the schedule and wherever calls are interrupted: the vector keeps its class and a value in range; each of its
    bits, and each bit a thread reads, is the initial bit at that place or one some thread assigns at that place; and the
    bit assigned by the call that ended last is there. *)
Theorem C103_vector : forall H x progs l, wf x ->
  let p := sh_run H (sh_spawn (ShVec x) progs) l in
  exists y, p_obj p = ShVec y /\ bcls y = bcls x /\ wf y
    /\ (forall j, 0 <= j < bsize x -> bit_from x progs j (Z.testbit (bval y) j))
    /\ (forall k i b, In (k, CGetBit i, Ok (ABit b)) (p_log p) -> - bsize x <= i < bsize x /\ bit_from x progs (i mod bsize x) b)
    /\ (forall i b, last_put (p_log p) (CSetBit i b) -> Z.testbit (bval y) (i mod bsize x) = b).
Proof. exact C103_vector_pf. Qed.
Print Assumptions C103_vector.
(** The same for Tuples and Products: the components remain instances of the declared classes, each one, and each one a
    thread reads, is the initial one or one assigned at that place, and the last assignment to end is there. *)
Theorem C103_tuple : forall H t k fs b vs progs l, node_of t = Some (k, fs) -> tuple_like k ->
  Forall2 (fun f v => sub H (vtype v) (snd f) = true) fs vs ->
  let p := sh_run H (sh_spawn (ShAdt t (STup b vs)) progs) l in
  exists b' ws, p_obj p = ShAdt t (STup b' ws) /\ Forall2 (fun f v => sub H (vtype v) (snd f) = true) fs ws
    /\ (forall q v, nth_error ws q = Some v -> component_from vs progs fs q v)
    /\ (forall i j v, In (i, CGetItem j, Ok (AVal v)) (p_log p) ->
          exists q, (q < length fs)%nat /\ (j = Z.of_nat q \/ j = Z.of_nat q - Z.of_nat (length fs)) /\ component_from vs progs fs q v)
    /\ (forall c q v, last_put (p_log p) c -> assigns fs c q v -> nth_error ws q = Some v).
Proof. exact C103_tuple_pf. Qed.
Print Assumptions C103_tuple.
(** One thread writes and the others read: the calls that have ended, taken in that order, one at a time, give the object
    and the answers (all of them for vectors, Tuples and Products; s[T] answers of other threads are left out), and this
    at every moment, wherever calls are interrupted. *)
Theorem C103_one_writer : forall H o progs w l, is_tagged o = false -> one_writer w progs ->
  let p := sh_run H (sh_spawn o progs) l in
  explains H (reader_skip w) o (p_log p) (p_obj p).
Proof. exact C103_one_writer_pf. Qed.
Print Assumptions C103_one_writer.
(** If no two calls overlap (a lock held around each call, say) and none is interrupted, the calls are serial, on every
    kind of object. *)
Theorem C103_locked : forall H o progs l, exclusive H (sh_spawn o progs) l ->
  let p := sh_run H (sh_spawn o progs) l in
  (forall i, outside p i) -> explains H no_skip o (p_log p) (p_obj p).
Proof. exact C103_locked_pf. Qed.
Print Assumptions C103_locked.
(** Two threads each assign a bit of one vector (a component of one Tuple), both calls end normally, and one of the two
    assignments is lost; no order of the calls explains that. *)
Theorem C103_lost_update_refuted : exists x l1 t vs l2,
  let q1 := [[CSetBit 0 true]; [CSetBit 1 true]] in
  let p1 := sh_run nosub (sh_spawn (ShVec x) q1) l1 in
  let q2 := [[CSetItem (IxInt 0) (VAtom bv4 7)]; [CSetItem (IxInt 1) (VAtom bv4 9)]] in
  let p2 := sh_run nosub (sh_spawn (ShAdt t (STup true vs)) q2) l2 in
  finished p1 /\ map snd (p_log p1) = [Ok ADone; Ok ADone] /\ p_obj p1 = ShVec (BV (bcls x) 1)
  /\ (forall log, (forall i c r, In (i, c, r) log <-> In (i, c, r) (p_log p1)) -> length log = 2%nat -> ~ explains nosub no_skip (ShVec x) log (p_obj p1))
  /\ finished p2 /\ map snd (p_log p2) = [Ok ADone; Ok ADone] /\ p_obj p2 = ShAdt t (STup false [VAtom bv4 7; VAtom bv4 0]).
Proof. exact C103_lost_update_refuted_pf. Qed.
Print Assumptions C103_lost_update_refuted.
Example C103_ex : let x := BV (BVC KBV 4) 8 in
  let progs := [[CSetBit 0 true; CSetBit (-1) false]; [CGetBit 0; CGetBit 3; CGetBit 9]] in
  let l := [EStep 1; EStep 0; EStep 0; EStep 0; EStep 1; EStep 0; EStep 1; EInt 0] in
  let p := sh_run nosub (sh_spawn (ShVec x) progs) l in
  wf x /\ one_writer 0 progs /\ p_obj p = ShVec (BV (BVC KBV 4) 9) /\ last_put (p_log p) (CSetBit 0 true) /\
  p_log p = [(1%nat, CGetBit 0, Ok (ABit false)); (0%nat, CSetBit 0 true, Ok ADone); (1%nat, CGetBit 3, Ok (ABit true)); (1%nat, CGetBit 9, Raise EIndexError)].
Proof.
  cbv zeta. split; [unfold wf, bsize; cbn; lia|]. split.
  - intros [|[|i]] m c N E I; [congruence| |destruct i; discriminate]. injection E as <-. destruct I as [<-|[<-|[<-|[]]]]; reflexivity.
  - split; [vm_compute; reflexivity|]. split; [|vm_compute; reflexivity].
    exists 0%nat, [(1%nat, CGetBit 0, Ok (ABit false))], [(1%nat, CGetBit 3, Ok (ABit true)); (1%nat, CGetBit 9, Raise EIndexError)].
    split; [vm_compute; reflexivity|]. intros j d [D|[D|[]]]; discriminate.
Qed.
Example C103_locked_ex : let o := ShAdt point (STup true [VAtom bv4 1; VAtom bv4 2]) in
  let progs := [[CSetAttr "y" (VAtom bv4 5)]; [CSetItem (IxInt (-2)) (VAtom bv4 6); CGetItem 1; CSetAttr "z" (VAtom bv4 0)]] in
  let l := [EStep 1; EStep 1; EStep 0; EStep 0; EStep 1; EStep 1] in
  let p := sh_run nosub (sh_spawn o progs) l in
  exclusive nosub (sh_spawn o progs) l /\ (forall i, outside p i) /\ p_obj p = ShAdt point (STup false [VAtom bv4 6; VAtom bv4 5]) /\
  map snd (p_log p) = [Ok ADone; Ok ADone; Ok (AVal (VAtom bv4 5)); Raise EAttributeError].
Proof.
  cbv zeta. split.
  - cbn [exclusive]. repeat split; intros j N t; destruct j as [|[|j]]; try congruence; vm_compute; try (intros E; injection E as <-; reflexivity); destruct j; discriminate.
  - split; [intros [|[|i]] t E; vm_compute in E; [injection E as <-; reflexivity|injection E as <-; reflexivity|destruct i; discriminate]|]. split; vm_compute; reflexivity.
Qed.

(** * C104: Sums and TaggedUnions shared by threads *)
(** A Sum holds, at every moment and after every interruption, a value of one of its classes, initial or assigned by some
    thread; so do the values that s[T] hands out; the last assignment to end is the one that is there. *)
Theorem C104_sum : forall H t fs x progs l, node_of t = Some (KSum, fs) -> of_some_field H fs x ->
  let p := sh_run H (sh_spawn (ShAdt t (SSum x)) progs) l in
  (exists y, p_obj p = ShAdt t (SSum y) /\ of_some_field H fs y /\ sum_from x progs y) /\ sound H (p_obj p)
  /\ (forall i c m v, In (i, c, Ok (AMatch m v)) (p_log p) -> of_some_field H fs v /\ sum_from x progs v)
  /\ (forall u v, last_put (p_log p) (CSetItem (IxTy u) v) -> p_obj p = ShAdt t (SSum v)).
Proof. exact C104_sum_pf. Qed.
Print Assumptions C104_sum.
(** A TaggedUnion holds, at every moment and after every interruption, a tag that is initial or assigned and a value that
    is initial or assigned, of the class of some field; so do the values that u.name hands out. *)
Theorem C104_tagged : forall H t n e fs a x progs l, node_of t = Some (KTag n e, fs) -> (a < length fs)%nat -> of_some_field H fs x ->
  let p := sh_run H (sh_spawn (ShAdt t (STag a x)) progs) l in
  (exists k y, p_obj p = ShAdt t (STag k y) /\ (k < length fs)%nat /\ tag_from a progs fs k /\ of_some_field H fs y /\ field_from x progs y)
  /\ (forall i c m v, In (i, c, Ok (AMatch m v)) (p_log p) -> of_some_field H fs v /\ field_from x progs v).
Proof. exact C104_tagged_pf. Qed.
Print Assumptions C104_tagged.
(** If all the fields have one class, every object and every value handed out is of that class: no schedule and no
    interruption leaves a TaggedUnion that its type does not allow. *)
Theorem C104_uniform : forall H t n e fs u a x progs l, node_of t = Some (KTag n e, fs) -> (forall f, In f fs -> snd f = u) ->
  (a < length fs)%nat -> sub H (vtype x) u = true ->
  let p := sh_run H (sh_spawn (ShAdt t (STag a x)) progs) l in
  sound H (p_obj p) /\ forall i c m v, In (i, c, Ok (AMatch m v)) (p_log p) -> sub H (vtype v) u = true.
Proof. exact C104_uniform_pf. Qed.
Print Assumptions C104_uniform.
(** With one writing thread that is not interrupted, whenever it is outside of its calls the object is what its calls,
    one at a time, leave, and is well typed. *)
Theorem C104_one_writer : forall H o progs w l, is_tagged o = true -> one_writer w progs -> ~ In (EInt w) l ->
  let p := sh_run H (sh_spawn o progs) l in
  outside p w -> explains H (reader_skip w) o (p_log p) (p_obj p) /\ (sound H o -> sound H (p_obj p)).
Proof. exact C104_one_writer_pf. Qed.
Print Assumptions C104_one_writer.
(** A thread reads field "a" of a TaggedUnion that holds "a" while another sets "c": the reader is told that the field
    matches and is handed the value of "c". *)
Theorem C104_read_refuted : exists l,
  let progs := [[CGetField "a"]; [CSetAttr "c" (VAtom col 1)]] in
  let p := sh_run nosub (sh_spawn (ShAdt tagged (STag 0 (VAtom bv4 3))) progs) l in
  one_writer 1 progs /\ finished p /\ sound nosub (ShAdt tagged (STag 0 (VAtom bv4 3))) /\ In (0%nat, CGetField "a", Ok (AMatch true (VAtom col 1))) (p_log p)
  /\ sub nosub col bv4 = false.
Proof. exact C104_read_refuted_pf. Qed.
Print Assumptions C104_read_refuted.
(** Two threads set different fields; when both are done the value and the tag are of different fields, for ever. *)
Theorem C104_writers_refuted : exists l,
  let p := sh_run nosub (sh_spawn (ShAdt tagged (STag 0 (VAtom bv4 3))) [[CSetAttr "b" (VAtom bv4 5)]; [CSetAttr "c" (VAtom col 1)]]) l in
  finished p /\ map snd (p_log p) = [Ok ADone; Ok ADone] /\ p_obj p = ShAdt tagged (STag 1 (VAtom col 1)) /\ ~ sound nosub (p_obj p).
Proof. exact C104_writers_refuted_pf. Qed.
Print Assumptions C104_writers_refuted.
(** One thread alone: an exception between the two stores of u.c = v leaves the new value under the old tag. *)
Theorem C104_interrupt_refuted : exists l,
  let p := sh_run nosub (sh_spawn (ShAdt tagged (STag 0 (VAtom bv4 3))) [[CSetAttr "c" (VAtom col 1); CGetField "a"]]) l in
  finished p /\ p_obj p = ShAdt tagged (STag 0 (VAtom col 1)) /\ p_log p = [(0%nat, CGetField "a", Ok (AMatch true (VAtom col 1)))] /\ ~ sound nosub (p_obj p).
Proof. exact C104_interrupt_refuted_pf. Qed.
Print Assumptions C104_interrupt_refuted.
(** s[T] loads the value twice: the reader is told that it is a T and is handed another thread's value of another class. *)
Theorem C104_sum_read_refuted : exists t x y u l,
  let progs := [[CGetSum u]; [CSetItem (IxTy bit) y]] in
  let p := sh_run nosub (sh_spawn (ShAdt t (SSum x)) progs) l in
  one_writer 1 progs /\ finished p /\ In (0%nat, CGetSum u, Ok (AMatch true y)) (p_log p) /\ sub nosub (vtype y) u = false.
Proof. exact C104_sum_read_refuted_pf. Qed.
Print Assumptions C104_sum_read_refuted.
Example C104_ex : let o := ShAdt tagged (STag 0 (VAtom bv4 3)) in
  let progs := [[CGetField "a"; CGetField "c"]; [CSetAttr "c" (VAtom col 1); CSetAttr "a" (VAtom col 0)]] in
  let l := [EStep 0; EStep 0; EStep 1; EStep 0; EStep 1; EStep 0; EStep 1] in
  let p := sh_run nosub (sh_spawn o progs) l in
  is_tagged o = true /\ one_writer 1 progs /\ ~ In (ShareModel.EInt 1) l /\ outside p 1 /\ sound nosub o /\
  p_obj p = ShAdt tagged (STag 2 (VAtom col 1)) /\
  p_log p = [(0%nat, CGetField "a", Ok (AMatch true (VAtom bv4 3))); (1%nat, CSetAttr "c" (VAtom col 1), Ok ADone); (0%nat, CGetField "c", Ok (AMatch false (VAtom col 1))); (1%nat, CSetAttr "a" (VAtom col 0), Raise ETypeError)].
Proof.
  cbv zeta. split; [reflexivity|]. split.
  - intros [|[|i]] m c N E I; [|congruence|destruct i; discriminate]. injection E as <-. destruct I as [<-|[<-|[]]]; reflexivity.
  - split; [intros I; repeat (destruct I as [I|I]; [discriminate|]); exact I|]. split; [intros t E; vm_compute in E; injection E as <-; reflexivity|].
    split; [eapply vok_tag with (i := 0%nat); vm_compute; reflexivity|]. split; vm_compute; reflexivity.
Qed.
Example C104_uniform_ex : let t := TNode (KTag "W" 0) [] [("a"%string, bv4); ("b"%string, bv4)] in
  (forall f, In f [("a"%string, bv4); ("b"%string, bv4)] -> snd f = bv4) /\ node_of t = Some (KTag "W" 0, [("a"%string, bv4); ("b"%string, bv4)]) /\ sub nosub bv4 bv4 = true /\
  p_obj (sh_run nosub (sh_spawn (ShAdt t (STag 0 (VAtom bv4 3))) [[CSetAttr "b" (VAtom bv4 5)]; [CSetAttr "a" (VAtom bv4 6)]]) [EStep 0; EStep 1; EStep 1; EStep 0]) = ShAdt t (STag 1 (VAtom bv4 6)).
Proof. cbv zeta. split; [intros f [<-|[<-|[]]]; reflexivity|]. split; [reflexivity|]. split; vm_compute; reflexivity. Qed.
Example C104_sum_ex : let t := TNode KSum [] (unnamed (type_set [bv4; bit])) in
  node_of t = Some (KSum, unnamed (type_set [bv4; bit])) /\ of_some_field nosub (unnamed (type_set [bv4; bit])) (VAtom bv4 3) /\
  p_log (sh_run nosub (sh_spawn (ShAdt t (SSum (VAtom bv4 3))) [[CSetItem (IxTy bit) (VAtom bit 1); CSetItem (IxTy bit) (VAtom bv4 1)]; [CGetSum bit]]) [EStep 0; EStep 1; EStep 0; EStep 1])
  = [(0%nat, CSetItem (IxTy bit) (VAtom bit 1), Ok ADone); (0%nat, CSetItem (IxTy bit) (VAtom bv4 1), Raise ETypeError); (1%nat, CGetSum bit, Ok (AMatch true (VAtom bit 1)))].
Proof.
  cbv zeta. split; [reflexivity|]. split; [|vm_compute; reflexivity]. exists (EmptyString, bv4). split; [vm_compute; tauto|reflexivity].
Qed.
