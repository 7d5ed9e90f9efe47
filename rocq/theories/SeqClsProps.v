(** Classes as Python sequences (C106), after every history of class statements, indexing, dropped references and garbage
    collection. *)
From Coq Require Import Lia.
From Verif Require Import PyBase BVFacts MetaModel MetaSpec MetaFacts MetaProofs SeqModel SeqFacts SeqClsModel.
From Verif Require HierModel HierSpec NewModel ItemProofs.
From Verif Require Import SeqClsProofs.


(** A for loop over an unsized class that can be indexed never ends by itself: after any number of steps it has run the
    body on K[0], K[1], ..., all different, whatever the body does other than raising or dropping K. *)
Theorem C106_unsized_loop : forall k body h fuel, is_bv (mrun h) k -> unsized (mrun h) k -> mixins_last (mrun h) k ->
  (forall g t, alive (mrun g) k = true -> exists l, body g t = Ok (g ++ l) /\ alive (mrun (g ++ l)) k = true) ->
  exists l ts, for_loop (cls_get k) fuel body h (Some 0) = (h ++ l, ts, LMore) /\ length ts = fuel /\ NoDup ts
    /\ forall n t, nth_error ts n = Some t ->
         c_size (get_cls (mrun (h ++ l)) t) = Some (Z.of_nat n) /\ c_unsized (get_cls (mrun (h ++ l)) t) = Some k /\ issub (mrun (h ++ l)) t k = true.
Proof. exact C106_unsized_loop_pf. Qed.
Print Assumptions C106_unsized_loop.
(** x in K finds K[n] after n + 1 steps, and never answers if x is no K[n]. *)
Theorem C106_unsized_in : forall k x h, is_bv (mrun h) k -> unsized (mrun h) k -> mixins_last (mrun h) k ->
  (forall n s, getitem_cls (mrun h) k (XInt n) = Ok (s, x) -> cls_in (S (Z.to_nat n)) k x (h ++ [MIndex k (XInt n)]) = Some (Ok true)) /\
  ((x < length (classes (mrun h)))%nat -> c_unsized (get_cls (mrun h) x) <> Some k -> forall fuel, cls_in fuel k x h = None).
Proof. exact C106_unsized_in_pf. Qed.
Print Assumptions C106_unsized_in.
(** An unsized class has no length: len, list, tuple, reversed and bool raise AttributeError; unpacking raises ValueError for
    every number of names. *)
Theorem C106_unsized_refuted : forall k h, is_bv (mrun h) k -> unsized (mrun h) k ->
  cls_len (mrun h) k = Raise EAttributeError /\ cls_truth (mrun h) k = Raise EAttributeError /\
  (forall fuel, cls_list fuel k h = (h, [], LExc EAttributeError)) /\ cls_reversed k h = (h, [], LExc EAttributeError) /\
  (mixins_last (mrun h) k -> forall m, seq_unpack (cls_get k) m h = Raise EValueError).
Proof. exact C106_unsized_refuted_pf. Qed.
Print Assumptions C106_unsized_refuted.
(** A sized class K[n]: len is n, so it counts as false if n is 0; it cannot be iterated, and x in K[n] raises TypeError. *)
Theorem C106_sized : forall k h n, is_bv (mrun h) k -> c_size (get_cls (mrun h) k) = Some n ->
  cls_len (mrun h) k = Ok n /\ (cls_truth (mrun h) k = Ok false <-> n = 0) /\ (cls_truth (mrun h) k = Ok true <-> n <> 0) /\
  (forall fuel body, for_loop (cls_get k) (S fuel) body h (Some 0) = (h, [], LExc ETypeError)) /\
  (forall fuel, cls_list (S fuel) k h = (h, [], LExc ETypeError)) /\
  (forall fuel x, cls_in (S fuel) k x h = Some (Raise ETypeError)).
Proof. exact C106_sized_pf. Qed.
Print Assumptions C106_sized.
(** The sizes of the classes that indexing gives are the indices, hence bool(K[n]) is n != 0. *)
Theorem C106_truth : forall h k n s t, is_bv (mrun h) k -> getitem_cls (mrun h) k (XInt n) = Ok (s, t) ->
  cls_len s t = Ok n /\ cls_truth s t = Ok (negb (n =? 0)).
Proof. exact C106_truth_pf. Qed.
Print Assumptions C106_truth.
Example C106_ex : let h := builtin in let h8 := h ++ [MIndex 5 (XInt 8); MIndex 5 (XInt 0)]%nat in
  (* for k in SIntVector: del k *)
  let body := fun g t => Ok (g ++ [MDrop t]) in
  (is_bv (mrun h) 5 /\ unsized (mrun h) 5 /\ mixins_last (mrun h) 5) /\
  (forall g t, alive (mrun g) 5 = true -> exists l, body g t = Ok (g ++ l) /\ alive (mrun (g ++ l)) 5 = true) /\
  snd (fst (for_loop (cls_get 5) 4 body h (Some 0))) = [9; 13; 17; 21]%nat /\
  is_bv (mrun h8) 9 /\ c_size (get_cls (mrun h8) 9) = Some 8 /\ cls_in 9 5 9 h8 = Some (Ok true) /\ cls_in 30 5 2 h8 = None /\
  is_bv (mrun h8) 13 /\ cls_truth (mrun h8) 13 = Ok false /\ cls_in 9 9 9 h8 = Some (Raise ETypeError).
Proof.
  cbv zeta. split.
  - split; [split; vm_compute; reflexivity|]. split; [vm_compute; reflexivity|].
    intros x Hx Hb. apply (mro_sub _ (mrun_minv _)) in Hx; [|unfold len; vm_compute; lia].
    match type of Hx with In _ ?l => assert (E : l = [5; 3; 2; 1; 0]%nat) by (vm_compute; reflexivity) end. rewrite E in Hx.
    assert (B0 : c_bv (get_cls (mrun builtin) 0%nat) = false) by (vm_compute; reflexivity).
    repeat (destruct Hx as [<-|Hx]); [| | | | |destruct Hx].
    + exists [3]%nat, []. split; [vm_compute; reflexivity|]. split; [|constructor]. constructor; [vm_compute; reflexivity|constructor].
    + exists [2]%nat, []. split; [vm_compute; reflexivity|]. split; [|constructor]. constructor; [vm_compute; reflexivity|constructor].
    + exists [1]%nat, []. split; [vm_compute; reflexivity|]. split; [|constructor]. constructor; [vm_compute; reflexivity|constructor].
    + exists [], [0]%nat. split; [vm_compute; reflexivity|]. split; [constructor|]. constructor; [vm_compute; reflexivity|constructor].
    + congruence.
  - split; [intros g t A; exists [MDrop t]; split; [reflexivity|]; rewrite mrun_app; exact A|].
    split; [vm_compute; reflexivity|]. split; [split; vm_compute; reflexivity|]. do 3 (split; [vm_compute; reflexivity|]).
    split; [split; vm_compute; reflexivity|]. split; vm_compute; reflexivity.
Qed.

(** Iterating over a bound Tuple or Product class gives its field types in order; unpacking and x in T follow. A bound Sum
    or TaggedUnion class raises KeyError. *)
Theorem C106_fields : forall h c l fuel, HierSpec.fields_of (HierModel.hrun h) c = Some l ->
  let s := HierModel.hrun h in
  (HierModel.hkind s c = HierModel.KTuple \/ HierModel.hkind s c = HierModel.KAnon \/ HierModel.hkind s c = HierModel.KProd -> (length l < fuel)%nat ->
     seq_list (bound_get c) fuel s = (s, l, LStop) /\
     (forall m, seq_unpack (bound_get c) m s = if Nat.eqb m (length l) then Ok l else Raise EValueError) /\
     forall x, exists r, snd (seq_in (bound_get c) fuel (fun t => Ok (Nat.eqb t x)) s (Some 0)) = Some (Ok r) /\ (r = true <-> In x l)) /\
  (HierModel.hkind s c = HierModel.KSum \/ HierModel.hkind s c = HierModel.KTag -> (0 < fuel)%nat ->
     seq_list (bound_get c) fuel s = (s, [], LExc EKeyError)).
Proof. exact C106_fields_pf. Qed.
Print Assumptions C106_fields.
(** class T; class P(Product): x = T; y = object; class S(TaggedUnion): a = T. *)
Example C106_fields_ex :
  let h := [HierModel.HClass [] "T" [] []; HierModel.HClass [3] "P" [("x"%string, 6); ("y"%string, 0)] []; HierModel.HClass [5] "U" [("a"%string, 6)] []]%nat in
  let s := HierModel.hrun h in
  HierSpec.fields_of s 9%nat = Some [6; 0]%nat /\ HierModel.hkind s 9%nat = HierModel.KProd /\ HierModel.hkind s 11%nat = HierModel.KTag /\
  seq_list (bound_get 9) 3 s = (s, [6; 0]%nat, LStop) /\ seq_list (bound_get 11) 3 s = (s, [], LExc EKeyError).
Proof. cbv zeta. repeat (split; [vm_compute; reflexivity|]). vm_compute. reflexivity. Qed.
