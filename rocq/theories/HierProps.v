(** Hierarchies of algebraic data types: subclassing, bound types and their fields (C80), and which attribute a
    field name finds (C81), over every history of class statements, indexing, dropped references and garbage
    collection. *)
From Coq Require Import Lia.
From Verif Require Import PyBase BVFacts MetaModel HierModel HierSpec MergeFacts HierFacts.
From Verif Require Import HierProofs.


(** * C80: class hierarchies of algebraic data types *)
(** issubclass is reachability through the bases. *)
Theorem C80_issubclass : forall h a b, usable (hrun h) a -> (hissub (hrun h) a b = true <-> hsub (hrun h) a b).
Proof. exact C80_issubclass_pf. Qed.
Print Assumptions C80_issubclass.
(** A subclass of a bound type has the fields of that type. *)
Theorem C80_fields : forall h a b m, usable (hrun h) a -> hissub (hrun h) a b = true ->
  fields_of (hrun h) b = Some m -> fields_of (hrun h) a = Some m.
Proof. exact C80_fields_pf. Qed.
Print Assumptions C80_fields.
(** K[i] has the fields i, K for its unbound_t, and is a subclass of K. Where it does not exist, TypeError. *)
Theorem C80_index : forall h k i, usable (hrun h) k -> (forall x, In x (idx_refs i) -> usable (hrun h) x) ->
  match getitem (hrun h) k i with
  | Ok (s, t) => usable s t /\ (exists fs, fields_of s t = Some fs /\ fields_say (hkind s k) i fs) /\ unbound_t s t = Ok k /\
      hissub s t k = true /\ unbound s k
  | Raise e => e = ETypeError
  end.
Proof. exact C80_index_pf. Qed.
Print Assumptions C80_index.
(** Two calls with the same index give the same class, after any history in which it was not collected. *)
Theorem C80_cached : forall h1 h2 k i j s1 t, usable (hrun h1) k -> unbound (hrun h1) k -> is_adt (hrun h1) k = true ->
  (forall x, In x (idx_refs i) -> usable (hrun h1) x) -> keys_ok (HIndex k i) = true ->
  getitem (hrun h1) k i = Ok (s1, t) ->
  let s := hrun (h1 ++ HIndex k i :: h2) in
  usable s t -> get_idx (hkind s k) j <> Raise ETypeError -> same_index (hkind s k) i j -> getitem s k j = Ok (s, t).
Proof. exact C80_cached_pf. Qed.
Print Assumptions C80_cached.
(** For K and L of the same metaclass, K[i] is a subclass of L[j] iff K is one of L and the indices are the same. *)
Theorem C80_subclass : forall h k l i j s1 t1 s2 t2, usable (hrun h) k -> usable (hrun h) l -> hkind (hrun h) k = hkind (hrun h) l ->
  (forall x, In x (idx_refs i ++ idx_refs j) -> usable (hrun h) x) ->
  getitem (hrun h) k i = Ok (s1, t1) -> getitem s1 l j = Ok (s2, t2) ->
  (hissub s2 t1 t2 = true <-> hissub (hrun h) k l = true /\ same_index (hkind (hrun h) k) i j).
Proof. exact C80_subclass_pf. Qed.
Print Assumptions C80_subclass.
(** An anonymous product is a Tuple of the types of its fields. *)
Theorem C80_anonymous_partial : forall h k m s1 t1 s2 t2, usable (hrun h) k -> hkind (hrun h) k = KAnon ->
  (forall x, In x (map snd m) -> usable (hrun h) x) ->
  getitem (hrun h) k (IdxNames m) = Ok (s1, t1) -> getitem s1 c_Tuple (IdxTypes (map snd m)) = Ok (s2, t2) ->
  s2 = s1 /\ hissub s1 t1 t2 = true.
Proof. exact C80_anonymous_partial_pf. Qed.
Print Assumptions C80_anonymous_partial.
(** It need not be an instance of a user-defined class of tuples that is among its bases:
    class MyT(Tuple): pass; class MyA(AnonymousProduct, MyT): pass; MyA[{x: T}] is not below MyT[T]. *)
Theorem C80_mixed_refuted : exists h a t i s1 x s2 y, hissub (hrun h) a t = true /\ hkind (hrun h) a = KAnon /\ hkind (hrun h) t = KTuple /\
  getitem (hrun h) a (IdxNames [("x"%string, i)]) = Ok (s1, x) /\ getitem s1 t (IdxTypes [i]) = Ok (s2, y) /\ hissub s2 x y = false.
Proof. exact C80_mixed_refuted_pf. Qed.
Print Assumptions C80_mixed_refuted.
(** A class statement with fields over unbound Product classes (and mixins): the fields, the field dictionary, the bases
    and AnonymousProduct[fields] above it. *)
Theorem C80_product_partial : forall h bs n fs o s t, plain_bases (hrun h) KProd bs -> fs <> [] ->
  (forall x, In x (map snd fs) -> usable (hrun h) x) -> class_stmt (hrun h) bs n fs o = Ok (s, t) ->
  usable s t /\ fields_of s t = Some (map snd fs) /\ field_dict s t = Some fs /\ (forall b, In b bs -> hissub s t b = true) /\
  (forall s' a, getitem s c_AnonymousProduct (IdxNames fs) = Ok (s', a) -> s' = s /\ hissub s t a = true).
Proof. exact C80_product_partial_pf. Qed.
Print Assumptions C80_product_partial.
(** The same for tagged unions, whose fields are a set of types, under Sum[types]. *)
Theorem C80_tagged_partial : forall h bs n fs o s t, plain_bases (hrun h) KTag bs -> fs <> [] ->
  (forall x, In x (map snd fs) -> usable (hrun h) x) -> class_stmt (hrun h) bs n fs o = Ok (s, t) ->
  usable s t /\ (exists l, fields_of s t = Some l /\ NoDup l /\ forall x, In x l <-> In x (map snd fs)) /\
  (exists d, field_dict s t = Some d /\ same_fields KTag fs d) /\ (forall b, In b bs -> hissub s t b = true) /\
  (forall s' a, getitem s c_Sum (IdxTypes (map snd fs)) = Ok (s', a) -> s' = s /\ hissub s t a = true).
Proof. exact C80_tagged_partial_pf. Qed.
Print Assumptions C80_tagged_partial.
(** unbound_t of such a class is its only algebraic base ... *)
Theorem C80_unbound_t_partial : forall h l1 b l2 n fs o k s t, k = KProd \/ k = KTag -> plain_bases (hrun h) k (l1 ++ b :: l2) -> fs <> [] ->
  (forall x, In x (map snd fs) -> usable (hrun h) x) -> hkind (hrun h) b <> KType -> (forall x, In x (l1 ++ l2) -> hkind (hrun h) x = KType) ->
  class_stmt (hrun h) (l1 ++ b :: l2) n fs o = Ok (s, t) -> unbound_t s t = Ok b.
Proof. exact C80_unbound_t_partial_pf. Qed.
Print Assumptions C80_unbound_t_partial.
(** ... and does not exist when there are two:
    class P1(Product): pass; class P2(Product): pass; class P(P1, P2): x = T. *)
Theorem C80_unbound_t_refuted : exists h bs n fs s t, plain_bases (hrun h) KProd bs /\ (forall x, In x (map snd fs) -> usable (hrun h) x) /\
  class_stmt (hrun h) bs n fs [] = Ok (s, t) /\ fields_of s t <> None /\ unbound_t s t = Raise EAttributeError.
Proof. exact C80_unbound_t_refuted_pf. Qed.
Print Assumptions C80_unbound_t_refuted.
(** Not every class that Python accepts can be indexed. *)
Theorem C80_total_refuted : exists h k i, usable (hrun h) k /\ unbound (hrun h) k /\ hkind (hrun h) k = KTuple /\
  (forall x, In x (idx_refs i) -> usable (hrun h) x) /\ getitem (hrun h) k i = Raise ETypeError.
Proof. exact C80_total_refuted_pf. Qed.
Print Assumptions C80_total_refuted.

(** class Mix: pass; class Base(Mix, Product): pass; class P(Base): x = Mix, y = object; and a tagged union. *)
Definition ex_h : list hcall := [HClass [] "Mix" [] []; HClass [6; 3] "Base" [] []; HClass [6; 5] "TU" [] []; HClass [2] "MyA" [] []]%nat.
Definition ex_fs : fields := [("x"%string, 6%nat); ("y"%string, 0%nat)].
Example C80_example : plain_bases (hrun ex_h) KProd [7]%nat /\ plain_bases (hrun ex_h) KTag [8]%nat /\
  (exists s t, class_stmt (hrun ex_h) [7]%nat "P" ex_fs [] = Ok (s, t) /\ fields_of s t = Some [6; 0]%nat /\ unbound_t s t = Ok 7%nat) /\
  (exists s t, class_stmt (hrun ex_h) [8]%nat "U" ex_fs [] = Ok (s, t) /\ fields_of s t = Some [0; 6]%nat) /\
  (exists s t s2 t2, getitem (hrun ex_h) 9 (IdxNames ex_fs) = Ok (s, t) /\ getitem s 2 (IdxNames ex_fs) = Ok (s2, t2) /\ hissub s2 t t2 = true).
Proof.
  split; [split; [exists 7%nat; split; [now left|reflexivity]|intros b [<-|[]]; (split; [|split]); reflexivity]|].
  split; [split; [exists 8%nat; split; [now left|reflexivity]|intros b [<-|[]]; (split; [|split]); reflexivity]|].
  split; [eexists _, _; split; [vm_compute; reflexivity|]; split; vm_compute; reflexivity|].
  split; [eexists _, _; split; [vm_compute; reflexivity|]; vm_compute; reflexivity|].
  eexists _, _, _, _. split; [vm_compute; reflexivity|]. split; [vm_compute; reflexivity|]. vm_compute; reflexivity.
Qed.

(** * C81: field access *)
(** K[m] for an anonymous product: every name finds its own component, whatever K and its bases define. *)
Theorem C81_anonymous : forall h k m s t i n ty, usable (hrun h) k -> hkind (hrun h) k = KAnon -> NoDup (map fst m) ->
  (forall x, In x (map snd m) -> usable (hrun h) x) -> getitem (hrun h) k (IdxNames m) = Ok (s, t) -> nth_error m i = Some (n, ty) ->
  getattr s t n = Some (AField ty i) /\ field_dict s t = Some m.
Proof. exact C81_anonymous_pf. Qed.
Print Assumptions C81_anonymous.
(** A product: every field name finds its component unless a user-defined base of the class statement defines it. *)
Theorem C81_product_partial : forall h bs n fs o s t i f ty, plain_bases (hrun h) KProd bs -> NoDup (map fst fs ++ map fst o) ->
  (forall x, In x (map snd fs) -> usable (hrun h) x) -> class_stmt (hrun h) bs n fs o = Ok (s, t) -> nth_error fs i = Some (f, ty) ->
  (forall b x, In b bs -> hsub (hrun h) b x -> defines (hrun h) x f -> hsub (hrun h) c_AnonymousProduct x) ->
  getattr s t f = Some (AField ty i).
Proof. exact C81_product_partial_pf. Qed.
Print Assumptions C81_product_partial.
(** A tagged union: every field name finds its component. *)
Theorem C81_tagged : forall h bs n fs o s t, plain_bases (hrun h) KTag bs -> NoDup (map fst fs ++ map fst o) -> fs <> [] ->
  (forall x, In x (map snd fs) -> usable (hrun h) x) -> class_stmt (hrun h) bs n fs o = Ok (s, t) ->
  exists d, field_dict s t = Some d /\ same_fields KTag fs d /\
  (NoDup (map fst d) -> forall i f ty, nth_error d i = Some (f, ty) -> getattr s t f = Some (AField ty i)).
Proof. exact C81_tagged_pf. Qed.
Print Assumptions C81_tagged.
(** A subclass without fields of its own, of any class: the fields, the field dictionary and every attribute it does not define itself. *)
Theorem C81_inherit : forall h a n o s t, usable (hrun h) a -> class_stmt (hrun h) [a] n [] o = Ok (s, t) ->
  fields_of s t = fields_of (hrun h) a /\ field_dict s t = field_dict (hrun h) a /\
  (forall m, ~ In m (map fst o) -> getattr s t m = getattr (hrun h) a m).
Proof. exact C81_inherit_pf. Qed.
Print Assumptions C81_inherit.
(** Fields can be added to a bound product without an error when the types agree: the class statement
    class B(A): y = T, for class A(Product): x = T, gives a class whose field dictionary has x and not y, and whose
    attribute y is the component of x. *)
Theorem C81_add_refuted : exists h a bs n s t ty, fields_of (hrun h) a = Some [ty] /\ field_dict (hrun h) a = Some [("x"%string, ty)] /\
  bs = [a] /\ class_stmt (hrun h) bs n [("y"%string, ty)] [] = Ok (s, t) /\ field_dict s t = Some [("x"%string, ty)] /\
  getattr s t "x" = Some (AField ty 0) /\ getattr s t "y" = Some (AField ty 0).
Proof. exact C81_add_refuted_pf. Qed.
Print Assumptions C81_add_refuted.
(** So can two bound products be joined: class C(A, B): pass has the field dictionary of A only. *)
Theorem C81_join_refuted : exists h a b s t ty, field_dict (hrun h) a = Some [("x"%string, ty)] /\ field_dict (hrun h) b = Some [("y"%string, ty)] /\
  class_stmt (hrun h) [a; b] "C" [] [] = Ok (s, t) /\ field_dict s t = Some [("x"%string, ty)] /\ getattr s t "y" = Some (AField ty 0).
Proof. exact C81_join_refuted_pf. Qed.
Print Assumptions C81_join_refuted.
(** An attribute of an unbound base hides the field of the same name: class Base(Product): x = 5; class P(Base): x = T. *)
Theorem C81_product_refuted : exists h bs n fs s t f ty v, plain_bases (hrun h) KProd bs /\
  class_stmt (hrun h) bs n fs [] = Ok (s, t) /\ field_dict s t = Some fs /\ In (f, ty) fs /\ getattr s t f = Some (AOther v).
Proof. exact C81_product_refuted_pf. Qed.
Print Assumptions C81_product_refuted.
Example C81_example :
  (forall b x, In b [7]%nat -> hsub (hrun ex_h) b x -> defines (hrun ex_h) x "x" -> hsub (hrun ex_h) c_AnonymousProduct x) /\
  (exists s t, class_stmt (hrun ex_h) [7]%nat "P" ex_fs [("helper"%string, 5%nat)] = Ok (s, t) /\ getattr s t "x" = Some (AField 6 0) /\
     getattr s t "y" = Some (AField 0 1) /\ getattr s t "helper" = Some (AOther 5)) /\
  (exists s t, class_stmt (hrun ex_h) [8]%nat "U" ex_fs [] = Ok (s, t) /\ getattr s t "y" = Some (AField 0 1)).
Proof.
  split.
  - intros b x Hb Hs (a & D). exfalso. assert (HB : forall c y, In y (h_bases (hget (hrun ex_h) c)) -> In c [0;1;2;3;6;7]%nat -> In y [0;1;2;3;6;7]%nat).
    { intros c y Hy Hc. cbn in Hc. repeat (destruct Hc as [<-|Hc]; [vm_compute in Hy; cbn; tauto|]). destruct Hc. }
    assert (Hx : In x [0;1;2;3;6;7]%nat).
    { assert (Hb' : In b [0;1;2;3;6;7]%nat) by (destruct Hb as [<-|[]]; cbn; tauto). clear - Hs HB Hb'. induction Hs as [|p q r Hq Hs IH]; [exact Hb'|]. apply IH. exact (HB p q Hq Hb'). }
    cbn in Hx. repeat (destruct Hx as [<-|Hx]; [vm_compute in D; intuition discriminate|]). destruct Hx.
  - split; [eexists _, _; split; [vm_compute; reflexivity|]; split; [vm_compute; reflexivity|]; split; vm_compute; reflexivity|].
    eexists _, _. split; [vm_compute; reflexivity|]. vm_compute; reflexivity.
Qed.
