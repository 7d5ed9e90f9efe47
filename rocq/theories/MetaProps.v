(** Sized classes: caching, attributes, order and errors (C29), which classes can be indexed (C67), and the most
    specific common bases of two classes (C68), over every history of class statements, indexing, dropped
    references and garbage collection. *)
From Coq Require Import Lia.
From Verif Require Import PyBase BVFacts MetaModel MetaSpec MergeFacts MetaFacts.
From Verif Require Import MetaProofs.


(** * C29: sized classes are cached and ordered *)
(** issubclass is reachability through the bases. *)
Theorem C29_issubclass : forall h a b, alive (mrun h) a = true -> (issub (mrun h) a b = true <-> sub (mrun h) a b).
Proof. exact C29_issubclass_pf. Qed.
Print Assumptions C29_issubclass.

(** K[n] is K[n]: after any further history in which the class was not collected, indexing again gives the same
    class and creates nothing. *)
Theorem C29_cached : forall h1 h2 k n s1 t, is_bv (mrun h1) k ->
  getitem_cls (mrun h1) k (XInt n) = Ok (s1, t) ->
  let s := mrun (h1 ++ MIndex k (XInt n) :: h2) in
  alive s t = true -> getitem_cls s k (XInt n) = Ok (s, t).
Proof. exact C29_cached_pf. Qed.
Print Assumptions C29_cached.
(** Nothing that is held in a variable is ever collected, nor a base of it. *)
Theorem C29_held : forall h t b, In t (vars (mrun h)) -> sub (mrun h) t b -> alive (mrun h) b = true.
Proof. exact C29_held_pf. Qed.
Print Assumptions C29_held.

(** K[n].size is n, K[n].unsized_t is K, K[n] is a subclass of K. *)
Theorem C29_attributes : forall h k n s t, is_bv (mrun h) k -> getitem_cls (mrun h) k (XInt n) = Ok (s, t) ->
  c_size (get_cls s t) = Some n /\ c_unsized (get_cls s t) = Some k /\ issub s t k = true /\ c_bv (get_cls s t) = true.
Proof. exact C29_attributes_pf. Qed.
Print Assumptions C29_attributes.
(** Different classes or sizes never give the same sized class, at any two moments of a program. *)
Theorem C29_distinct : forall h1 h2 k1 k2 n m s1 s2 t, is_bv (mrun h1) k1 ->
  getitem_cls (mrun h1) k1 (XInt n) = Ok (s1, t) ->
  let s := mrun (h1 ++ MIndex k1 (XInt n) :: h2) in
  is_bv s k2 -> getitem_cls s k2 (XInt m) = Ok (s2, t) -> k1 = k2 /\ n = m.
Proof. exact C29_distinct_pf. Qed.
Print Assumptions C29_distinct.
(** K1[n] is a subclass of K2[m] exactly when K1 is a subclass of K2 and n = m. *)
Theorem C29_subclass : forall h k1 k2 n m s1 s2 t1 t2, is_bv (mrun h) k1 -> is_bv (mrun h) k2 ->
  getitem_cls (mrun h) k1 (XInt n) = Ok (s1, t1) -> getitem_cls s1 k2 (XInt m) = Ok (s2, t2) ->
  (issub s2 t1 t2 = true <-> issub (mrun h) k1 k2 = true /\ n = m).
Proof. exact C29_subclass_pf. Qed.
Print Assumptions C29_subclass.
(** Hence K1[n] is below K2[n] and below K2 itself, and the second indexing above already finds K2[n]. *)
Theorem C29_bases_sized : forall h k1 k2 n s1 t1, is_bv (mrun h) k1 -> is_bv (mrun h) k2 -> issub (mrun h) k1 k2 = true ->
  getitem_cls (mrun h) k1 (XInt n) = Ok (s1, t1) ->
  exists t2, getitem_cls s1 k2 (XInt n) = Ok (s1, t2) /\ issub s1 t1 t2 = true /\ issub s1 t1 k2 = true.
Proof. exact C29_bases_sized_pf. Qed.
Print Assumptions C29_bases_sized.
(** K[n] with negative n raises ValueError; K[n][m] raises TypeError; an index that is no number raises TypeError. *)
Theorem C29_errors : forall h k, is_bv (mrun h) k ->
  (forall n, n < 0 -> getitem_cls (mrun h) k (XInt n) = Raise EValueError) /\
  (forall n, 0 <= n -> ~ unsized (mrun h) k -> getitem_cls (mrun h) k (XInt n) = Raise ETypeError) /\
  getitem_cls (mrun h) k XOther = Raise ETypeError.
Proof. exact C29_errors_pf. Qed.
Print Assumptions C29_errors.
Example C29_ex :
  let s := mrun builtin in
  is_bv s 5 /\ is_bv s 2 /\ unsized s 5 /\ issub s 5 2 = true /\ issub s 2 5 = false /\
  (exists s1 t1 s2 t2 s3 t3, getitem_cls s 5 (XInt 8) = Ok (s1, t1) /\ getitem_cls s1 2 (XInt 8) = Ok (s2, t2) /\
    s2 = s1 /\ issub s2 t1 t2 = true /\ getitem_cls s1 2 (XInt 9) = Ok (s3, t3) /\ issub s3 t1 t3 = false) /\
  (let h := builtin ++ MIndex 5 (XInt 8) :: [MIndex 2 (XInt 9); MDrop 12; MCollect 12; MClass [9]] in
   exists t, alive (mrun h) t = true /\ getitem_cls (mrun h) 5 (XInt 8) = Ok (mrun h, t) /\ is_bv (mrun h) t
     /\ ~ unsized (mrun h) t)%nat.
Proof.
  cbv zeta. split; [split; vm_compute; reflexivity|]. split; [split; vm_compute; reflexivity|]. do 3 (split; [vm_compute; reflexivity|]).
  split.
  - do 6 eexists. repeat (split; [vm_compute; reflexivity|]). vm_compute; reflexivity.
  - eexists. split; [|split; [vm_compute; reflexivity|]]; [vm_compute; reflexivity|].
    split; [split; vm_compute; reflexivity|]. vm_compute. discriminate.
Qed.

(** * C67: indexing an unsized class succeeds, and how the sized class inherits *)
(** If, above K, plain mixin classes come after the bit-vector bases, then K[n] exists for every n >= 0 and its
    method resolution order is K's with X[n] put in front of every bit-vector class X. *)
Theorem C67_total_partial : forall h k n, is_bv (mrun h) k -> unsized (mrun h) k -> mixins_last (mrun h) k -> 0 <= n ->
  exists s t, getitem_cls (mrun h) k (XInt n) = Ok (s, t) /\
    c_mro (get_cls s t) =
      flat_map (fun x => if c_bv (get_cls s x) then [sized_version s n x; x] else [x]) (c_mro (get_cls s k)).
Proof. exact C67_total_partial_pf. Qed.
Print Assumptions C67_total_partial.
(** In general K[n] does not exist: a class that Python accepts can have sized bases that cannot be linearized. *)
Theorem C67_total_refuted : exists h k n, is_bv (mrun h) k /\ unsized (mrun h) k /\ 0 <= n /\
  getitem_cls (mrun h) k (XInt n) = Raise ETypeError.
Proof. exact C67_total_refuted_pf. Qed.
Print Assumptions C67_total_refuted.
(** K[4.0] depends on what ran before: a TypeError at first, the class K[4] once that is cached. *)
Theorem C67_float_refuted : exists h1 h2 k n t, is_bv (mrun h1) k /\
  getitem_cls (mrun h1) k (XFloat n) = Raise ETypeError /\
  getitem_cls (mrun (h1 ++ h2)) k (XFloat n) = Ok (mrun (h1 ++ h2), t).
Proof. exact C67_float_refuted_pf. Qed.
Print Assumptions C67_float_refuted.
Example C67_ex :
  (* class M: pass; class K(SIntVector, M): pass *)
  let s := mrun (builtin ++ [MClass []; MClass [5; 6]])%nat in
  is_bv s 7 /\ unsized s 7 /\ mixins_last s 7 /\
  exists s' t, getitem_cls s 7 (XInt 8) = Ok (s', t) /\
    map (fun x => (c_unsized (get_cls s' x), c_size (get_cls s' x))) (c_mro (get_cls s' t)) =
      [(Some 7, Some 8%Z); (Some 7, None); (Some 5, Some 8%Z); (Some 5, None); (Some 3, Some 8%Z); (Some 3, None);
       (Some 2, Some 8%Z); (Some 2, None); (Some 1, Some 8%Z); (Some 1, None); (Some 6, None); (Some 0, None)]%nat.
Proof.
  cbv zeta. split; [split; vm_compute; reflexivity|]. split; [vm_compute; reflexivity|]. split.
  - intros x Hx Hb. apply (mro_sub _ (mrun_minv _)) in Hx; [|unfold len; vm_compute; lia].
    match type of Hx with In _ ?l => assert (E : l = [7; 5; 3; 2; 1; 6; 0]%nat) by (vm_compute; reflexivity) end. rewrite E in Hx.
    assert (B6 : c_bv (get_cls (mrun (builtin ++ [MClass []; MClass [5; 6]]%nat)) 6%nat) = false) by (vm_compute; reflexivity).
    assert (B0 : c_bv (get_cls (mrun (builtin ++ [MClass []; MClass [5; 6]]%nat)) 0%nat) = false) by (vm_compute; reflexivity).
    repeat (destruct Hx as [<-|Hx]); [| | | | | | |destruct Hx].
    + exists [5]%nat, [6]%nat. split; [vm_compute; reflexivity|]. split; (constructor; [vm_compute; reflexivity|constructor]).
    + exists [3]%nat, []. split; [vm_compute; reflexivity|]. split; [|constructor]. constructor; [vm_compute; reflexivity|constructor].
    + exists [2]%nat, []. split; [vm_compute; reflexivity|]. split; [|constructor]. constructor; [vm_compute; reflexivity|constructor].
    + exists [1]%nat, []. split; [vm_compute; reflexivity|]. split; [|constructor]. constructor; [vm_compute; reflexivity|constructor].
    + exists [], [0]%nat. split; [vm_compute; reflexivity|]. split; [constructor|]. constructor; [vm_compute; reflexivity|constructor].
    + congruence.
    + congruence.
  - do 2 eexists. split; vm_compute; reflexivity.
Qed.

(** * C68: the bases of a polymorphic class *)
(** They are exactly the most specific common superclasses of the two classes, each once. *)
Theorem C68_common_bases : forall h a b x, alive (mrun h) a = true -> alive (mrun h) b = true ->
  (In x (get_common_bases (mrun h) a b) <-> most_specific_common (mrun h) a b x).
Proof. exact C68_common_bases_pf. Qed.
Print Assumptions C68_common_bases.
Theorem C68_no_duplicates : forall h a b, alive (mrun h) a = true -> alive (mrun h) b = true ->
  NoDup (get_common_bases (mrun h) a b).
Proof. exact C68_no_duplicates_pf. Qed.
Print Assumptions C68_no_duplicates.
(** Every common superclass is above one of them: nothing both classes provide is lost. *)
Theorem C68_covers : forall h a b y, alive (mrun h) a = true -> alive (mrun h) b = true -> common_superclass (mrun h) a b y ->
  exists x, In x (get_common_bases (mrun h) a b) /\ sub (mrun h) x y.
Proof. exact C68_covers_pf. Qed.
Print Assumptions C68_covers.
Example C68_ex :
  (* UIntVector[8] and SIntVector[8]: NumVector[8] *)
  let s := mrun (builtin ++ [MIndex 4 (XInt 8); MIndex 5 (XInt 8)])%nat in
  map (fun x => (c_unsized (get_cls s x), c_size (get_cls s x))) (get_common_bases s 9 10) = [(Some 3, Some 8%Z)]%nat /\
  alive s 9 = true /\ alive s 10 = true /\
  (* two incomparable ones *)
  let s := mrun [MClass [1]; MClass [1]; MClass [2; 3]; MClass [2; 3]]%nat in
  get_common_bases s 4 5 = [3; 2]%nat \/ get_common_bases s 4 5 = [2; 3]%nat.
Proof. cbv zeta. repeat (split; [vm_compute; reflexivity|]). vm_compute. auto. Qed.
