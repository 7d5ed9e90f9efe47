(** Interning of algebraic data types and the names of their fields (C46, C55). *)
From Coq Require Import Lia.
From Verif Require Import PyBase InternModel InternSpec.
(*P*)From Verif Require Import InternFacts InternCacheFacts InternStepFacts.
(*/P*)
From Verif Require Import InternProofs.


(** u[i] for an unbound tuple, sum or anonymous product class and existing field types gives a type whose first base is u and
    whose fields are those asked for. *)
Theorem C46_bind : forall h s u i, reached s h -> is_alive s u -> t_fields (get_cls s u) = None ->
  index_fits (t_meta (get_cls s u)) i -> (forall c, In c (idx_refs i) -> is_alive s c) ->
  (t_meta (get_cls s u) = MAnon -> forall f, In f (index_fields i) -> parameter_name (fst f)) ->
  exists s1 t, istep s (OGet u i) = (s1, Ok t) /\ is_alive s1 t /\ hd_error (t_bases (get_cls s1 t)) = Some u /\
    exists gs, t_fields (get_cls s1 t) = Some gs /\ same_fields (order_matters (t_meta (get_cls s u))) (index_fields i) gs.
Proof. exact C46_bind_pf. Qed.
Print Assumptions C46_bind.

(** As long as the type is alive, asking for it again gives the same class, whatever happened in between. *)
Theorem C46_index_identical : forall h s u i s1 t h2 s2 j, reached s h -> istep s (OGet u i) = (s1, Ok t) ->
  s2 = irun s1 h2 -> is_alive s2 t -> index_fits (t_meta (get_cls s u)) j ->
  same_fields (order_matters (t_meta (get_cls s u))) (index_fields i) (index_fields j) ->
  snd (istep s2 (OGet u j)) = Ok t.
Proof. exact C46_index_identical_pf. Qed.
Print Assumptions C46_index_identical.

(** Different base classes or different fields give different classes. *)
Theorem C46_index_distinct : forall h s u i s1 t h2 s2 v j s3, reached s h -> istep s (OGet u i) = (s1, Ok t) ->
  s2 = irun s1 h2 -> istep s2 (OGet v j) = (s3, Ok t) ->
  v = u /\ same_fields (order_matters (t_meta (get_cls s u))) (index_fields i) (index_fields j).
Proof. exact C46_index_distinct_pf. Qed.
Print Assumptions C46_index_distinct.

(** The same for class statements and from_fields: base class, name, fields and other attributes decide. *)
Theorem C46_named_identical : forall h s o u n fs ns s1 t h2 s2 o' fs' ns', reached s h ->
  asks (t_meta (get_cls s u)) o u n fs ns -> fs <> [] -> istep s o = (s1, Ok t) ->
  s2 = irun s1 h2 -> is_alive s2 t ->
  asks (t_meta (get_cls s u)) o' u n fs' ns' -> (forall c, In c (op_refs o') -> is_alive s2 c) ->
  same_fields (order_matters (t_meta (get_cls s u))) fs fs' -> same_fields false ns ns' ->
  snd (istep s2 o') = Ok t.
Proof. exact C46_named_identical_pf. Qed.
Print Assumptions C46_named_identical.

Theorem C46_named_distinct : forall h s o u n fs ns s1 t h2 s2 o' v n' fs' ns' s3, reached s h ->
  asks (t_meta (get_cls s u)) o u n fs ns -> fs <> [] -> istep s o = (s1, Ok t) ->
  s2 = irun s1 h2 -> asks (t_meta (get_cls s2 v)) o' v n' fs' ns' -> fs' <> [] -> istep s2 o' = (s3, Ok t) ->
  v = u /\ n' = n /\ same_fields (order_matters (t_meta (get_cls s u))) fs fs' /\ same_fields false ns ns'.
Proof. exact C46_named_distinct_pf. Qed.
Print Assumptions C46_named_distinct.

(** A type bound by index is never a type with named fields. *)
Theorem C46_kinds_distinct : forall h s u i s1 t h2 o' v n' fs' ns' s3, reached s h -> istep s (OGet u i) = (s1, Ok t) ->
  asks (t_meta (get_cls (irun s1 h2) v)) o' v n' fs' ns' -> fs' <> [] -> istep (irun s1 h2) o' = (s3, Ok t) -> False.
Proof. exact C46_kinds_distinct_pf. Qed.
Print Assumptions C46_kinds_distinct.

(** from_fields with cache=False always makes a new class. *)
Theorem C46_uncached : forall h s u n fs s1 t, reached s h -> istep s (OFrom u n fs false) = (s1, Ok t) -> ~ is_alive s t.
Proof. exact C46_uncached_pf. Qed.
Print Assumptions C46_uncached.

(** A living type keeps its bases, its field types and its other attributes alive. *)
Theorem C46_parts_alive : forall h s t c, reached s h -> is_alive s t ->
  In c (t_bases (get_cls s t)) \/ (exists fs n, t_fields (get_cls s t) = Some fs /\ In (n, NType c) fs) -> is_alive s c.
Proof. exact C46_parts_alive_pf. Qed.
Print Assumptions C46_parts_alive.

(** Two leaves, Tuple[7, 8] twice with a Tuple[8, 7] in between, then Sum[7, 8] and Sum[8, 7], a product and its from_fields. *)
Definition demo : list iop :=
  [OLeaf; OLeaf; OGet 1 (IdxSeq [7; 8]); OGet 1 (IdxSeq [8; 7]); OGet 4 (IdxSeq [7; 8])]%nat.
Example C46_ex_tuple : snd (istep (irun ist0 demo) (OGet 1%nat (IdxSeq [7; 8]%nat))) = Ok 9%nat /\
  snd (istep (irun ist0 demo) (OGet 1%nat (IdxSeq [8; 7]%nat))) = Ok 10%nat /\
  snd (istep (irun ist0 demo) (OGet 4%nat (IdxSeq [8; 7]%nat))) = Ok 11%nat.
Proof. vm_compute. auto. Qed.
Example C46_ex_product :
  let s := irun ist0 (demo ++ [OStmt 3%nat "P" [("__module__", NObj 1 false); ("x", NType 7%nat); ("f", NObj 2 true); ("y", NType 8%nat)]%string]) in
  snd (istep (irun ist0 demo) (OStmt 3%nat "P" [("x", NType 7%nat); ("y", NType 8%nat)]%string)) =
  snd (istep (irun ist0 demo) (OFrom 3%nat "P" [("x", NType 7%nat); ("y", NType 8%nat)]%string true)) /\
  snd (istep s (OStmt 3%nat "P" [("x", NType 7%nat); ("f", NObj 2 true); ("y", NType 8%nat)]%string)) = Ok 13%nat /\
  snd (istep s (OStmt 3%nat "P" [("x", NType 7%nat); ("y", NType 8%nat)]%string)) = Ok 14%nat.
Proof. vm_compute. auto. Qed.
(** After its last reference is gone a type can be collected; the next request makes a new class. *)
Example C46_ex_collect :
  let s := irun ist0 (demo ++ [ODrop 9; OCollect 9])%nat in
  ~ is_alive s 9%nat /\ snd (istep s (OGet 1%nat (IdxSeq [7; 8]%nat))) = Ok 12%nat.
Proof. split; [intros [_ H]; apply H; vm_compute; auto|vm_compute; reflexivity]. Qed.

(** from_fields without fields returns a new class each time, although the first is still alive. *)
Theorem C46_empty_refuted :
  ~ (forall h s o u n fs ns s1 t h2 s2 o' fs' ns', reached s h ->
     asks (t_meta (get_cls s u)) o u n fs ns -> istep s o = (s1, Ok t) -> s2 = irun s1 h2 -> is_alive s2 t ->
     asks (t_meta (get_cls s u)) o' u n fs' ns' -> (forall c, In c (op_refs o') -> is_alive s2 c) ->
     same_fields (order_matters (t_meta (get_cls s u))) fs fs' -> same_fields false ns ns' ->
     snd (istep s2 o') = Ok t).
Proof. exact C46_empty_refuted_pf. Qed.
Print Assumptions C46_empty_refuted.

(** Two class statements that differ only in a special method define one class. *)
Theorem C46_special_methods_refuted :
  ~ (forall h s u n l s1 t l' s3, reached s h -> istep s (OStmt u n l) = (s1, Ok t) -> istep s1 (OStmt u n l') = (s3, Ok t) ->
     forall k v v', In (k, v) l -> In (k, v') l' -> same_value v v').
Proof. exact C46_special_methods_refuted_pf. Qed.
Print Assumptions C46_special_methods_refuted.

(** Enum members 1 and True are not told apart. *)
Theorem C46_number_refuted :
  ~ (forall h s u n fs s1 t fs' s3, reached s h -> istep s (OFrom u n fs true) = (s1, Ok t) -> istep s1 (OFrom u n fs' true) = (s3, Ok t) ->
     fs = fs').
Proof. exact C46_number_refuted_pf. Qed.
Print Assumptions C46_number_refuted.

(** A reserved name in a class statement is an error, and nothing is defined. *)
Theorem C55_reserved : forall h s u n l, reached s h -> is_alive s u -> t_fields (get_cls s u) = None ->
  by_name (t_meta (get_cls s u)) -> (forall c, In c (val_refs l) -> is_alive s c) ->
  (exists f, In f l /\ forbidden f) -> istep s (OStmt u n l) = (s, Raise EReservedName).
Proof. exact C55_reserved_pf. Qed.
Print Assumptions C55_reserved.
Theorem C55_from_fields_reserved : forall h s u n fs c, reached s h -> is_alive s u -> t_fields (get_cls s u) = None ->
  by_name (t_meta (get_cls s u)) -> (forall c, In c (val_refs fs) -> is_alive s c) ->
  (exists f, In f fs /\ (reserved_word (fst f) \/ reserved_private (fst f))) -> istep s (OFrom u n fs c) = (s, Raise EReservedName).
Proof. exact C55_from_fields_reserved_pf. Qed.
Print Assumptions C55_from_fields_reserved.

(** Otherwise the entries that qualify are the fields: in order for a product; for tagged unions and enums in order unless
    the class existed already. *)
Theorem C55_fields_partial : forall h s u n l fs, reached s h -> is_alive s u -> t_fields (get_cls s u) = None ->
  by_name (t_meta (get_cls s u)) -> (forall c, In c (val_refs l) -> is_alive s c) ->
  (forall f, In f l -> ~ forbidden f) -> selects (is_field (t_meta (get_cls s u))) l fs ->
  (t_meta (get_cls s u) = MProd -> forall f, In f fs -> parameter_name (fst f)) ->
  exists s1 t, istep s (OStmt u n l) = (s1, Ok t) /\ is_alive s1 t /\
    (fs = [] -> t_fields (get_cls s1 t) = None) /\
    (fs <> [] -> exists gs, t_fields (get_cls s1 t) = Some gs /\ same_fields (order_matters (t_meta (get_cls s u))) fs gs /\
       (t_meta (get_cls s u) = MProd \/ ~ is_alive s t -> gs = fs)).
Proof. exact C55_fields_partial_pf. Qed.
Print Assumptions C55_fields_partial.
Example C55_ex : exists s1 t, istep ist0 (OStmt 6%nat "E" [("__module__", NObj 1 false); ("a", NInt 3); ("f", NObj 2 true); ("b", NAuto 1)]%string) = (s1, Ok t) /\
  t_fields (get_cls s1 t) = Some [("a", NInt 3); ("b", NAuto 1)]%string.
Proof. eexists _, _. split; vm_compute; reflexivity. Qed.
Example C55_ex_reserved : snd (istep ist0 (OStmt 3%nat "P" [("x", NType 0%nat); ("fields", NType 0%nat)]%string)) = Raise EReservedName /\
  snd (istep ist0 (OStmt 3%nat "P" [("_tag_", NObj 0 true)]%string)) = Raise EReservedName /\
  snd (istep ist0 (OFrom 5%nat "U" [("_tag_", NType 0%nat)]%string true)) = Raise EReservedName.
Proof. vm_compute. auto. Qed.

(** Names of the form _x_ are not reserved, yet they do not become fields. *)
Theorem C55_private_refuted :
  ~ (forall h s u n l s1 t, reached s h -> istep s (OStmt u n l) = (s1, Ok t) ->
     forall k v, In (k, v) l -> value_of_kind (t_meta (get_cls s u)) v -> ~ dunder_name k -> ~ reserved_word k -> ~ reserved_private k ->
     exists gs, t_fields (get_cls s1 t) = Some gs /\ In (k, v) gs).
Proof. exact C55_private_refuted_pf. Qed.
Print Assumptions C55_private_refuted.
(** A method may have a reserved name. *)
Theorem C55_method_refuted :
  ~ (forall h s u n l s1 t, reached s h -> istep s (OStmt u n l) = (s1, Ok t) -> forall k v, In (k, v) l -> ~ reserved_word k).
Proof. exact C55_method_refuted_pf. Qed.
Print Assumptions C55_method_refuted.
(** Product fields called self or cls are syntax errors, though not reserved. *)
Theorem C55_parameter_refuted :
  ~ (forall h s u n l, reached s h -> (forall f, In f l -> ~ forbidden f) -> snd (istep s (OStmt u n l)) <> Raise ESyntaxError).
Proof. exact C55_parameter_refuted_pf. Qed.
Print Assumptions C55_parameter_refuted.
(** The second definition of a tagged union with the fields in another order keeps the first order. *)
Theorem C55_order_refuted :
  ~ (forall h s u n l fs s1 t, reached s h -> istep s (OStmt u n l) = (s1, Ok t) -> selects (is_field (t_meta (get_cls s u))) l fs -> fs <> [] ->
     t_fields (get_cls s1 t) = Some fs).
Proof. exact C55_order_refuted_pf. Qed.
Print Assumptions C55_order_refuted.
