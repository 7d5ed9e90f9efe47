(** Sized fclasses: caching, attributes, order and errors (C76), which fclasses can be indexed (C77), and the most
    specific common bases of two fclasses (C68), over every history of class statements, indexing, dropped
    references and garbage collection. *)
From Coq Require Import Lia.
From Verif Require Import PyBase BVFacts MetaModel FPModel FMetaModel FMetaSpec MergeFacts FMetaFacts.
From Verif Require Import FMetaProofs.


(** * C76: floating point types are cached and ordered *)
(** issubclass is reachability through the bases. *)
Theorem C76_issubclass : forall h a b, falive (fmrun h) a = true -> (fissub (fmrun h) a b = true <-> fsub (fmrun h) a b).
Proof. exact C76_issubclass_pf. Qed.
Print Assumptions C76_issubclass.

(** K[n] is K[n]: after any further history in which the class was not collected, indexing again gives the same
    class and creates nothing. *)
Theorem C76_cached : forall h1 h2 k n s1 t, is_fp (fmrun h1) k ->
  getitem_fcls (fmrun h1) k (FIdx n) = Ok (s1, t) ->
  let s := fmrun (h1 ++ FMIndex k (FIdx n) :: h2) in
  falive s t = true -> getitem_fcls s k (FIdx n) = Ok (s, t).
Proof. exact C76_cached_pf. Qed.
Print Assumptions C76_cached.
(** Nothing that is held in a variable is ever collected, nor a base of it. *)
Theorem C76_held : forall h t b, In t (fvars (fmrun h)) -> fsub (fmrun h) t b -> falive (fmrun h) b = true.
Proof. exact C76_held_pf. Qed.
Print Assumptions C76_held.

(** The attributes of K[eb, mb, mode, ieee_compliance]: the four components, size = 1 + eb + mb, unbound_t = K; it is a
    subclass of K. *)
Theorem C76_attributes : forall h k n s t, is_fp (fmrun h) k -> getitem_fcls (fmrun h) k (FIdx n) = Ok (s, t) ->
  fexponent_size s t = Ok (f_eb n) /\ fmantissa_size s t = Ok (f_mb n) /\ fmode s t = Ok (f_mode n) /\
  fcompliance s t = Ok (f_ieee n) /\ ftsize s t = Ok (1 + f_eb n + f_mb n) /\ funbound_t s t = Ok k /\
  ~ unbound s t /\ fissub s t k = true /\ fc_fp (get_fcls s t) = true.
Proof. exact C76_attributes_pf. Qed.
Print Assumptions C76_attributes.
(** Unbound classes have none of the components, and are their own unbound_t. *)
Theorem C76_unbound : forall h k, is_fp (fmrun h) k -> unbound (fmrun h) k ->
  fexponent_size (fmrun h) k = Raise EAttributeError /\ fmantissa_size (fmrun h) k = Raise EAttributeError /\
  fmode (fmrun h) k = Raise EAttributeError /\ fcompliance (fmrun h) k = Raise EAttributeError /\
  ftsize (fmrun h) k = Raise EAttributeError /\ funbound_t (fmrun h) k = Ok k.
Proof. exact C76_unbound_pf. Qed.
Print Assumptions C76_unbound.
(** A class statement: the new class is bound to the format its bound bases share, and has no unbound_t then; bases bound to
    different formats raise TypeError. *)
Theorem C76_class_statement : forall h bases, bases <> [] -> (forall b, In b bases -> is_fp (fmrun h) b) ->
  match new_fclass (fmrun h) true bases None None with
  | Ok (s, t) =>
      (forall b n, In b bases -> fc_binding (get_fcls (fmrun h) b) = Some n ->
        fexponent_size s t = Ok (f_eb n) /\ fmantissa_size s t = Ok (f_mb n) /\ fmode s t = Ok (f_mode n) /\
        fcompliance s t = Ok (f_ieee n) /\ funbound_t s t = Raise EAttributeError) /\
      ((forall b, In b bases -> unbound (fmrun h) b) -> unbound s t /\ funbound_t s t = Ok t) /\
      (forall b, In b bases -> fissub s t b = true)
  | Raise e => e = ETypeError
  end /\
  (forall a b n m, In a bases -> In b bases -> fc_binding (get_fcls (fmrun h) a) = Some n ->
    fc_binding (get_fcls (fmrun h) b) = Some m -> n <> m -> new_fclass (fmrun h) true bases None None = Raise ETypeError).
Proof. exact C76_class_statement_pf. Qed.
Print Assumptions C76_class_statement.
Example C76_class_statement_ex :
  let f := Fmt 5 10 RNE true in
  let s := fmrun (fbuiltin ++ [FMIndex 2 (FIdx f); FMIndex 2 (FIdx (Fmt 8 23 RNE true)); FMClass [2]])%nat in
  (forall b, In b [4; 7] -> is_fp s b)%nat /\ fc_binding (get_fcls s 4) = Some f /\ unbound s 7 /\
  (exists s' t, new_fclass s true [4; 2]%nat None None = Ok (s', t) /\ ftsize s' t = Ok 16) /\
  fc_binding (get_fcls s 6) = Some (Fmt 8 23 RNE true) /\ new_fclass s true [4; 6]%nat None None = Raise ETypeError.
Proof.
  cbv zeta. split; [intros b [<-|[<-|[]]]; split; vm_compute; reflexivity|]. split; [vm_compute; reflexivity|].
  split; [vm_compute; reflexivity|]. split; [do 2 eexists; split; vm_compute; reflexivity|]. split; vm_compute; reflexivity.
Qed.
(** Different classes or formats never give the same bound class, at any two moments of a program. *)
Theorem C76_distinct : forall h1 h2 k1 k2 n m s1 s2 t, is_fp (fmrun h1) k1 ->
  getitem_fcls (fmrun h1) k1 (FIdx n) = Ok (s1, t) ->
  let s := fmrun (h1 ++ FMIndex k1 (FIdx n) :: h2) in
  is_fp s k2 -> getitem_fcls s k2 (FIdx m) = Ok (s2, t) -> k1 = k2 /\ n = m.
Proof. exact C76_distinct_pf. Qed.
Print Assumptions C76_distinct.
(** K1[n] is a subclass of K2[m] exactly when K1 is a subclass of K2 and n = m. *)
Theorem C76_subclass : forall h k1 k2 n m s1 s2 t1 t2, is_fp (fmrun h) k1 -> is_fp (fmrun h) k2 ->
  getitem_fcls (fmrun h) k1 (FIdx n) = Ok (s1, t1) -> getitem_fcls s1 k2 (FIdx m) = Ok (s2, t2) ->
  (fissub s2 t1 t2 = true <-> fissub (fmrun h) k1 k2 = true /\ n = m).
Proof. exact C76_subclass_pf. Qed.
Print Assumptions C76_subclass.
(** Hence K1[n] is below K2[n] and below K2 itself, and the second indexing above already finds K2[n]. *)
Theorem C76_bases_bound : forall h k1 k2 n s1 t1, is_fp (fmrun h) k1 -> is_fp (fmrun h) k2 -> fissub (fmrun h) k1 k2 = true ->
  getitem_fcls (fmrun h) k1 (FIdx n) = Ok (s1, t1) ->
  exists t2, getitem_fcls s1 k2 (FIdx n) = Ok (s1, t2) /\ fissub s1 t1 t2 = true /\ fissub s1 t1 k2 = true.
Proof. exact C76_bases_bound_pf. Qed.
Print Assumptions C76_bases_bound.
(** Indexing a bound class raises TypeError, whatever the index; on an unbound class a size that is not positive raises
    ValueError and an index that is not (int, int, RoundingMode, bool) raises IndexError. *)
Theorem C76_errors : forall h k, is_fp (fmrun h) k ->
  (~ unbound (fmrun h) k -> forall i, getitem_fcls (fmrun h) k i = Raise ETypeError) /\
  (unbound (fmrun h) k -> forall n, f_eb n <= 0 \/ f_mb n <= 0 -> getitem_fcls (fmrun h) k (FIdx n) = Raise EValueError) /\
  (unbound (fmrun h) k -> getitem_fcls (fmrun h) k FOther = Raise EIndexError).
Proof. exact C76_errors_pf. Qed.
Print Assumptions C76_errors.
Example C76_ex :
  let f := Fmt 5 10 RNE true in
  let g := Fmt 5 10 RTZ true in
  let s := fmrun (fbuiltin ++ [FMClass [2]])%nat in     (* class K(FPVector): pass *)
  is_fp s 3 /\ is_fp s 2 /\ unbound s 3 /\ fissub s 3 2 = true /\ fissub s 2 3 = false /\
  (exists s1 t1 s2 t2 s3 t3, getitem_fcls s 3 (FIdx f) = Ok (s1, t1) /\ getitem_fcls s1 2 (FIdx f) = Ok (s2, t2) /\
    s2 = s1 /\ fissub s2 t1 t2 = true /\ getitem_fcls s1 2 (FIdx g) = Ok (s3, t3) /\ fissub s3 t1 t3 = false) /\
  (let h := fbuiltin ++ [FMClass [2]] ++ FMIndex 3 (FIdx f) :: [FMIndex 2 (FIdx g); FMDrop 8; FMCollect 8; FMClass [6]] in
   exists t, falive (fmrun h) t = true /\ getitem_fcls (fmrun h) 3 (FIdx f) = Ok (fmrun h, t) /\ is_fp (fmrun h) t
     /\ ~ unbound (fmrun h) t /\ falive (fmrun h) 8 = false)%nat.
Proof.
  cbv zeta. split; [split; vm_compute; reflexivity|]. split; [split; vm_compute; reflexivity|]. do 3 (split; [vm_compute; reflexivity|]).
  split.
  - do 6 eexists. repeat (split; [vm_compute; reflexivity|]). vm_compute; reflexivity.
  - eexists. split; [|split; [vm_compute; reflexivity|]]; [vm_compute; reflexivity|].
    split; [split; vm_compute; reflexivity|]. split; [vm_compute; discriminate|]. vm_compute. reflexivity.
Qed.

(** * C77: indexing an unbound class succeeds, and how the bound class inherits *)
(** If, above K, plain mixin classes come after the floating point bases, then K[f] exists for every valid format f and its
    method resolution order is K's with X[f] put in front of every floating point class X. *)
Theorem C77_total_partial : forall h k n, is_fp (fmrun h) k -> unbound (fmrun h) k -> fmixins_last (fmrun h) k -> 0 < f_eb n -> 0 < f_mb n ->
  exists s t, getitem_fcls (fmrun h) k (FIdx n) = Ok (s, t) /\
    fc_mro (get_fcls s t) =
      flat_map (fun x => if fc_fp (get_fcls s x) then [bound_version s n x; x] else [x]) (fc_mro (get_fcls s k)).
Proof. exact C77_total_partial_pf. Qed.
Print Assumptions C77_total_partial.
(** In general K[f] does not exist: a class that Python accepts can have bound bases that cannot be linearized. *)
Theorem C77_total_refuted : exists h k n, is_fp (fmrun h) k /\ unbound (fmrun h) k /\ 0 < f_eb n /\ 0 < f_mb n /\
  getitem_fcls (fmrun h) k (FIdx n) = Raise ETypeError.
Proof. exact C77_total_refuted_pf. Qed.
Print Assumptions C77_total_refuted.
(** K[5, 10, RNE, 1] depends on what ran before: an IndexError at first, the class K[5, 10, RNE, True] once that is cached. *)
Theorem C77_like_refuted : exists h1 h2 k n t, is_fp (fmrun h1) k /\
  getitem_fcls (fmrun h1) k (FLike n) = Raise EIndexError /\
  getitem_fcls (fmrun (h1 ++ h2)) k (FLike n) = Ok (fmrun (h1 ++ h2), t).
Proof. exact C77_like_refuted_pf. Qed.
Print Assumptions C77_like_refuted.
Example C77_ex :
  (* class M: pass; class K(FPVector, M): pass *)
  let f := Fmt 5 10 RNE true in
  let s := fmrun (fbuiltin ++ [FMClass []; FMClass [2; 3]])%nat in
  is_fp s 4 /\ unbound s 4 /\ fmixins_last s 4 /\
  exists s' t, getitem_fcls s 4 (FIdx f) = Ok (s', t) /\
    map (fun x => (fc_unbound (get_fcls s' x), fc_binding (get_fcls s' x))) (fc_mro (get_fcls s' t)) =
      [(Some 4, Some f); (Some 4, None); (Some 2, Some f); (Some 2, None);
       (Some 1, Some f); (Some 1, None); (Some 3, None); (Some 0, None)]%nat.
Proof.
  cbv zeta. split; [split; vm_compute; reflexivity|]. split; [vm_compute; reflexivity|]. split.
  - intros x Hx Hb. apply (mro_sub _ (mrun_minv _)) in Hx; [|unfold len; vm_compute; lia].
    match type of Hx with In _ ?l => assert (E : l = [4; 2; 1; 3; 0]%nat) by (vm_compute; reflexivity) end. rewrite E in Hx.
    assert (B6 : fc_fp (get_fcls (fmrun (fbuiltin ++ [FMClass []; FMClass [2; 3]]%nat)) 3%nat) = false) by (vm_compute; reflexivity).
    assert (B0 : fc_fp (get_fcls (fmrun (fbuiltin ++ [FMClass []; FMClass [2; 3]]%nat)) 0%nat) = false) by (vm_compute; reflexivity).
    repeat (destruct Hx as [<-|Hx]); [| | | | |destruct Hx].
    + exists [2]%nat, [3]%nat. split; [vm_compute; reflexivity|]. split; (constructor; [vm_compute; reflexivity|constructor]).
    + exists [1]%nat, []. split; [vm_compute; reflexivity|]. split; [|constructor]. constructor; [vm_compute; reflexivity|constructor].
    + exists [], [0]%nat. split; [vm_compute; reflexivity|]. split; [constructor|]. constructor; [vm_compute; reflexivity|constructor].
    + congruence.
    + congruence.
  - do 2 eexists. split; vm_compute; reflexivity.
Qed.
