(** Enums: members (C82), equality and subclasses of enums (C83), over every history of class statements. *)
From Coq Require Import Lia ZifyBool.
From Verif Require Import PyBase BVFacts InternModel MetaModel MergeFacts EnumModel EnumSpec EnumFacts.
From Verif Require Import EnumProofs.

(** * C82: members *)
(** A class statement that declares members makes (or finds) an enum with exactly these members, whatever happens later: E.n is
    a member of exactly the class E, called n, with a value equal to the declared one, and there are no others. *)
Theorem C82_members : forall s name bases l cache s' c, ereached s -> bases <> [] -> (forall b, In b bases -> is_class s b) -> NoDup (map fst l) ->
  declared l <> [] -> enum_stmt s name bases l cache = (s', Ok c) ->
  estep s (EClass name bases l cache) = s' /\ forall h, let now := erun s' h in
  (forall n v, declares l n v -> exists m w, class_attr now c n = Ok (OMem m) /\ is_member now m /\ type_of now m = c /\ made_as now m n w /\ same_value v w) /\
  (forall m, is_member now m -> type_of now m = c -> exists n v w, declares l n v /\ made_as now m n w /\ same_value v w).
Proof. exact C82_members_pf. Qed.
Print Assumptions C82_members.
(** The other attributes of the body: E.n is the object that the body gives to n (a number equal to it, if n is _x_), and a name the
    body does not mention is looked up in the base. This holds for a class found in the cache as well. *)
Theorem C82_attributes_partial : forall s name bases l cache s' c, ereached s -> bases <> [] -> (forall b, In b bases -> is_class s b) -> NoDup (map fst l) ->
  declared l <> [] -> enum_stmt s name bases l cache = (s', Ok c) -> forall h, let now := erun s' h in
  forall n, is_dunder n = false -> ~ In n meta_props ->
  (forall x, In (n, x) l -> ~ In n (declared l) -> exists y, class_attr now c n = Ok (OOther y) /\ same_attr x y) /\
  (~ In n (map fst l) -> exists b, bases = [b] /\ class_attr now c n = class_attr now b n).
Proof. exact C82_attributes_partial_pf. Qed.
Print Assumptions C82_attributes_partial.
(** Missing: names __x__. class E(Enum): a = 0; def __str__: first, and then class E(Enum): a = 0; def __str__: second, is the first class
    again, with the first method: a cached class statement ignores its __x__ attributes. *)
Theorem C82_attributes_refuted : exists s l s' c, ereached s /\ NoDup (map fst l) /\ declared l <> [] /\ enum_stmt s "E" [c_Enum] l true = (s', Ok c) /\
  In ("__str__"%string, NOther 2 true true) l /\ class_attr s' c "__str__" = Ok (OOther (NOther 1 true true)).
Proof. exact C82_attributes_refuted_pf. Qed.
Print Assumptions C82_attributes_refuted.
(** Without the cache every attribute is the one of the body, __x__ too. *)
Theorem C82_attributes_uncached : forall s name bases l s' c, ereached s -> bases <> [] -> (forall b, In b bases -> is_class s b) -> NoDup (map fst l) ->
  declared l <> [] -> enum_stmt s name bases l false = (s', Ok c) -> forall h, let now := erun s' h in
  forall n x, ~ In n meta_props -> In (n, x) l -> ~ In n (declared l) -> class_attr now c n = Ok (OOther x).
Proof. exact C82_attributes_uncached_pf. Qed.
Print Assumptions C82_attributes_uncached.
(** A class whose bases have no members has no field_dict either: AttributeError. *)
Theorem C83_no_field_dict : forall s c, ereached s -> is_class s c -> (forall m, is_member s m -> ~ esub s c (type_of s m)) ->
  efield_dict s c = Raise EAttributeError /\ eenumerate s c = Raise ETypeError.
Proof. exact C83_no_field_dict_pf. Qed.
Print Assumptions C83_no_field_dict.
(** The same for from_fields. *)
Theorem C82_from_fields : forall s u name fs cache s' c, ereached s -> is_class s u -> NoDup (map fst fs) ->
  fs <> [] -> enum_from_fields s u name fs cache = (s', Ok c) ->
  estep s (EFromFields u name fs cache) = s' /\ forall h, let now := erun s' h in
  (forall n v, In (n, v) fs -> exists m w, class_attr now c n = Ok (OMem m) /\ is_member now m /\ type_of now m = c /\ made_as now m n w /\ same_value v w) /\
  (forall m, is_member now m -> type_of now m = c -> exists n v w, In (n, v) fs /\ made_as now m n w /\ same_value v w).
Proof. exact C82_from_fields_pf. Qed.
Print Assumptions C82_from_fields.
(** enumerate() lists the members of the enum, each once; field_dict maps their names to them. *)
Theorem C82_enumerate : forall s c, ereached s -> (exists m, is_member s m /\ type_of s m = c) ->
  exists l t, eenumerate s c = Ok l /\ NoDup l /\ (forall m, In m l <-> is_member s m /\ type_of s m = c) /\
    efield_dict s c = Ok t /\ map snd t = l /\ NoDup (map fst t) /\ (forall n m, In (n, m) t -> em_name (mget s m) = n).
Proof. exact C82_enumerate_pf. Qed.
Print Assumptions C82_enumerate.
(** A new enum lists its members in the order of the class body, with the declared values; an uncached one is always new. *)
Theorem C82_order_partial : forall s name bases l cache s' c, ereached s -> bases <> [] -> (forall b, In b bases -> is_class s b) -> NoDup (map fst l) ->
  declared l <> [] -> enum_stmt s name bases l cache = (s', Ok c) ->
  (cache = false -> ~ is_class s c) /\
  (~ is_class s c -> forall h, let now := erun s' h in exists ms, eenumerate now c = Ok ms /\ map (fun m => em_name (mget now m)) ms = declared l /\
     forall n v, declares l n v -> exists m, In m ms /\ made_as now m n v).
Proof. exact C82_order_partial_pf. Qed.
Print Assumptions C82_order_partial.
(** Missing: the enum may be one that was defined before with the members in another order, or with True for 1. *)
Theorem C82_order_refuted : exists s l s' c, ereached s /\ NoDup (map fst l) /\ enum_stmt s "E" [c_Enum] l true = (s', Ok c) /\
  declared l = ["b"; "a"]%string /\ declares l "b" (VInt 1) /\
  exists ms m, eenumerate s' c = Ok ms /\ map (fun m => em_name (mget s' m)) ms = ["a"; "b"]%string /\
    class_attr s' c "b" = Ok (OMem m) /\ inst_attr s' m "value" = Ok (OVal (VBool true)).
Proof. exact C82_order_refuted_pf. Qed.
Print Assumptions C82_order_refuted.
(** E(x) is x for the members of E and of its sub-enums, and a TypeError for everything else: enums are not constructed by value. *)
Theorem C82_call : forall s c x, ereached s -> (forall m, x = OMem m -> is_member s m) ->
  ((exists m, x = OMem m /\ esub s (type_of s m) c) /\ ecall s c x = Ok x) \/
  (~ (exists m, x = OMem m /\ esub s (type_of s m) c) /\ ecall s c x = Raise ETypeError).
Proof. exact C82_call_pf. Qed.
Print Assumptions C82_call.
(** .name and repr, if neither the enum nor a class above it defines the name "name" and there is no member "_name_". *)
Theorem C82_name_partial : forall s m n v, ereached s -> is_member s m -> made_as s m n v -> keeps s (type_of s m) "name" ->
  (forall m', is_member s m' -> type_of s m' = type_of s m -> em_name (mget s m') <> "_name_"%string) ->
  inst_attr s m "name" = Ok (OStr n) /\ erepr s m = Ok (ec_name (cget s (type_of s m)) ++ "." ++ n)%string.
Proof. exact C82_name_partial_pf. Qed.
Print Assumptions C82_name_partial.
(** .value, if neither the enum nor a class above it defines the name "value". *)
Theorem C82_value_partial : forall s m n v, ereached s -> is_member s m -> made_as s m n v -> keeps s (type_of s m) "value" ->
  inst_attr s m "value" = Ok (OVal v).
Proof. exact C82_value_partial_pf. Qed.
Print Assumptions C82_value_partial.
(** Missing: a member called name (or value) hides the attribute in all members, and their repr fails; a member called unbound_t is
    an AttributeError in the class statement. None of these names is reserved. *)
Theorem C82_names_refuted : exists s l s' c m, ereached s /\ NoDup (map fst l) /\ enum_stmt s "E" [c_Enum] l true = (s', Ok c) /\
  class_attr s' c "a" = Ok (OMem m) /\ inst_attr s' m "name" = Raise EAttributeError /\ erepr s' m = Raise EAttributeError /\
  inst_attr s' m "value" = Raise EAttributeError /\
  snd (enum_stmt s "F" [c_Enum] [("unbound_t"%string, NMember (VInt 0))] true) = Raise EAttributeError.
Proof. exact C82_names_refuted_pf. Qed.
Print Assumptions C82_names_refuted.
(** Members of the enum cannot be reached from a member (E.a.b); for an enum that is not a sub-enum, no member can. *)
Theorem C82_hidden_partial : forall s m, ereached s -> is_member s m ->
  (forall k, is_member s k -> type_of s k = type_of s m -> inst_attr s m (em_name (mget s k)) = Raise EAttributeError) /\
  (top_enum s (type_of s m) -> forall n k, inst_attr s m n <> Ok (OMem k)).
Proof. exact C82_hidden_partial_pf. Qed.
Print Assumptions C82_hidden_partial.
(** Missing: from a member of a sub-enum the members of the enum above can be reached (F.b.a is E.a). *)
Theorem C82_hidden_refuted : exists s m n k, ereached s /\ is_member s m /\ is_member s k /\ inst_attr s m n = Ok (OMem k).
Proof. exact C82_hidden_refuted_pf. Qed.
Print Assumptions C82_hidden_refuted.
(** * C83: equality and subclasses *)
(** Members are equal exactly if one's enum is the other's or above it, and their values are the same. *)
Theorem C83_equal : forall s x y vx vy nx ny, ereached s -> is_member s x -> is_member s y -> made_as s x nx vx -> made_as s y ny vy ->
  (mem_eqb s x y = true <-> (esub s (type_of s x) (type_of s y) \/ esub s (type_of s y) (type_of s x)) /\ same_value vx vy) /\
  mem_neb s x y = negb (mem_eqb s x y).
Proof. exact C83_equal_pf. Qed.
Print Assumptions C83_equal.
(** == is reflexive and symmetric, and transitive if the first and the last are comparable; equal members have equal hashes. *)
Theorem C83_equivalence_partial : forall s, ereached s ->
  (forall x, is_member s x -> mem_eqb s x x = true) /\
  (forall x y, is_member s x -> is_member s y -> mem_eqb s x y = mem_eqb s y x) /\
  (forall x y z, is_member s x -> is_member s y -> is_member s z -> esub s (type_of s x) (type_of s z) \/ esub s (type_of s z) (type_of s x) ->
     mem_eqb s x y = true -> mem_eqb s y z = true -> mem_eqb s x z = true) /\
  (forall hint haddr x y, is_member s x -> is_member s y -> mem_eqb s x y = true -> mem_hash hint haddr s x = mem_hash hint haddr s y).
Proof. exact C83_equivalence_partial_pf. Qed.
Print Assumptions C83_equivalence_partial.
(** Missing: members of two sub-enums can equal the same member without being equal to each other. And different members of one
    enum are equal if their values are. *)
Theorem C83_equivalence_refuted : exists s x y z a b, ereached s /\ is_member s x /\ is_member s y /\ is_member s z /\
  mem_eqb s x y = true /\ mem_eqb s y z = true /\ mem_eqb s x z = false /\
  is_member s a /\ is_member s b /\ a <> b /\ type_of s a = type_of s b /\ mem_eqb s a b = true.
Proof. exact C83_equivalence_refuted_pf. Qed.
Print Assumptions C83_equivalence_refuted.
(** class F(E): with members: F.unbound_t is E, F is a subclass of E, and what F's body does not define is what E has. *)
Theorem C83_sub_enum : forall s name b l cache s' c, ereached s -> is_class s b -> NoDup (map fst l) -> declared l <> [] ->
  enum_stmt s name [b] l cache = (s', Ok c) -> forall h, let now := erun s' h in
  eunbound_t now c = Ok b /\ (forall x, eissub now c x = true <-> x = c \/ esub now b x) /\
  (~ is_class s c -> forall n, ~ In n (map fst l) -> class_attr now c n = class_attr now b n).
Proof. exact C83_sub_enum_pf. Qed.
Print Assumptions C83_sub_enum.
(** class F(E, ...): without members: F lists the members of its first base that has any, but none of them is an instance of F. *)
Theorem C83_no_members : forall s name bases l cache s' c, ereached s -> bases <> [] -> (forall b, In b bases -> is_class s b) -> NoDup (map fst l) ->
  declared l = [] -> enum_stmt s name bases l cache = (s', Ok c) -> forall h, let now := erun s' h in
  efields_of now c = first_some (efields_of s) bases /\
  (forall ms m, eenumerate now c = Ok ms -> In m ms -> is_member now m /\ einst now m c = false /\ ecall now c (OMem m) = Raise ETypeError) /\
  (forall m, is_member now m -> type_of now m <> c).
Proof. exact C83_no_members_pf. Qed.
Print Assumptions C83_no_members.
(** With several bases that have members, the members must be equal one by one; otherwise TypeError. *)
Theorem C83_two_bases : forall s name bases l cache f0 b fb, ereached s -> bases <> [] -> (forall b, In b bases -> is_class s b) ->
  NoDup (map fst l) -> plain_body l -> declared l = [] -> first_some (efields_of s) bases = Some f0 -> In b bases -> efields_of s b = Some fb ->
  (forall s' c, enum_stmt s name bases l cache = (s', Ok c) -> Forall2 (fun x y => mem_eqb s x y = true) f0 fb) /\
  (~ Forall2 (fun x y => mem_eqb s x y = true) f0 fb -> enum_stmt s name bases l cache = (s, Raise ETypeError)).
Proof. exact C83_two_bases_pf. Qed.
Print Assumptions C83_two_bases.
Example C83_two_bases_ex : let s := erun est0 [EClass "E" [0%nat] [("a"%string, NMember (VInt 0))] true; EClass "F" [1%nat] [("b"%string, NMember (VInt 0))] true;
    EClass "G" [1%nat] [("b"%string, NMember (VInt 1))] true; EClass "H" [1%nat] [] true] in
  snd (enum_stmt s "X" [4; 2]%nat [] true) = Ok 5%nat /\ snd (enum_stmt s "Y" [4; 3]%nat [] true) = Raise ETypeError.
Proof. vm_compute. split; reflexivity. Qed.
(** An enum with members derives from one enum class only. *)
Theorem C83_one_base : forall s name b1 b2 bs l, ereached s -> declared l <> [] -> plain_body l -> enum_stmt s name (b1 :: b2 :: bs) l false = (s, Raise ETypeError).
Proof. exact C83_one_base_pf. Qed.
Print Assumptions C83_one_base.
(** Which bodies are accepted: with one base, those without reserved names and without a member called unbound_t, whose attributes
    can be hashed (or with cache=False). *)
Theorem C82_accepted : forall s name b l cache, ereached s -> is_class s b -> declared l <> [] -> plain_body l -> ~ In "unbound_t"%string (declared l) ->
  (cache = true -> forall n i d h, In (n, NOther i d h) l -> is_dunder n = false -> h = true) ->
  exists s' c, enum_stmt s name [b] l cache = (s', Ok c).
Proof. exact C82_accepted_pf. Qed.
Print Assumptions C82_accepted.
Theorem C82_unhashable : forall s name bases l n i d, declared l <> [] -> plain_body l -> In (n, NOther i d false) l -> is_dunder n = false ->
  enum_stmt s name bases l true = (s, Raise ETypeError).
Proof. exact C82_unhashable_pf. Qed.
Print Assumptions C82_unhashable.
(** Reserved names are rejected, wherever they stand in the body. *)
Theorem C82_reserved : forall s name bases l cache n x, (forall i h, ~ In ("_name_"%string, NOther i true h) l) -> In (n, x) l ->
  In n reserved_sunders \/ (In n reserved_names /\ is_dunder n = false /\ is_sunder n = false /\ forall i h, x <> NOther i true h) ->
  enum_stmt s name bases l cache = (s, Raise EReservedName).
Proof. exact C82_reserved_pf. Qed.
Print Assumptions C82_reserved.
Example C82_accepted_ex : plain_body [("red"%string, NMember (VInt 0)); ("_hint_"%string, NMember (VInt 7)); ("f"%string, NOther 0 true true)] /\
  snd (enum_stmt est0 "Color" [0%nat] [("red"%string, NMember (VInt 0)); ("_hint_"%string, NMember (VInt 7)); ("f"%string, NOther 0 true true)] true) = Ok 1%nat /\
  snd (enum_stmt est0 "Color" [0%nat] [("red"%string, NMember (VInt 0)); ("l"%string, NOther 0 false false)] true) = Raise ETypeError /\
  In "fields"%string reserved_names /\ snd (enum_stmt est0 "Color" [0%nat] [("fields"%string, NMember (VInt 0))] true) = Raise EReservedName.
Proof.
  split; [|vm_compute; auto 10]. split.
  - intros n x [Q|[Q|[Q|[]]]]; inv Q; vm_compute; intuition discriminate.
  - intros n i h [Q|[Q|[Q|[]]]]; inv Q; discriminate.
Qed.
(** If every class above has one base, fields and field_dict agree. *)
Theorem C83_fields_partial : forall s c l, ereached s -> is_class s c -> elinear s c -> eenumerate s c = Ok l ->
  exists t, efield_dict s c = Ok t /\ map snd t = l.
Proof. exact C83_fields_partial_pf. Qed.
Print Assumptions C83_fields_partial.
(** Missing: E: a = 0; F(E): b = 0; G(E): pass; H(G, F): pass. H.fields is (E.a,) and H.field_dict is {'b': F.b}. *)
Theorem C83_fields_refuted : exists s c, ereached s /\ is_class s c /\ eenumerate s c = Ok [0%nat] /\ efield_dict s c = Ok [("b"%string, 1%nat)] /\
  made_as s 0 "a" (VInt 0) /\ made_as s 1 "b" (VInt 0).
Proof. exact C83_fields_refuted_pf. Qed.
Print Assumptions C83_fields_refuted.
(** class Color(Enum): red = 0; green = new_instruction(); def f(self): ...; class More(Color): blue = True; class Plain(Color): pass *)
Definition color : body := [("red"%string, NMember (VInt 0)); ("green"%string, NMember (VAuto 0)); ("f"%string, NOther 0 true true)].
Definition enums : list eop :=
  [EClass "Color" [0%nat] color true; EClass "More" [1%nat] [("blue"%string, NMember (VBool true))] true; EClass "Plain" [1%nat] [] true;
   EFromFields 0 "Top" [("x"%string, VInt 5)] false].
Example C82_example :
  let s := erun est0 enums in
  ereached s /\ declared color = ["red"; "green"]%string /\ snd (enum_stmt est0 "Color" [0%nat] color true) = Ok 1%nat /\
  is_class s 4 /\ is_member s 3 /\ type_of s 0 = 1%nat /\ type_of s 1 = 1%nat /\ type_of s 2 = 2%nat /\ type_of s 3 = 4%nat /\
  eenumerate s 1 = Ok [0; 1]%nat /\ erepr s 1 = Ok "Color.green"%string /\ inst_attr s 0 "green" = Raise EAttributeError /\
  inst_attr s 0 "f" = Ok (OOther (NOther 0 true true)) /\ ecall s 1 (OMem 2) = Ok (OMem 2) /\ ecall s 1 (OVal (VInt 0)) = Raise ETypeError.
Proof.
  split; [eexists; reflexivity|]. split; [reflexivity|]. split; [vm_compute; reflexivity|]. split; [vm_compute; repeat constructor|]. split; [vm_compute; repeat constructor|].
  do 8 (split; [vm_compute; reflexivity|]). split; [vm_compute; reflexivity|]. vm_compute. reflexivity.
Qed.
Example C82_example_keeps : let s := erun est0 enums in keeps s 2 "name" /\ keeps s 2 "value" /\ top_enum s 1.
Proof.
  assert (Sub : (forall a b, esub (erun est0 enums) a b -> match a with 0 => b = 0 | 1 => b = 1 \/ b = 0 | 2 => b = 2 \/ b = 1 \/ b = 0 | _ => True end)%nat).
  { intros a b H. induction H as [a|a b c Hb Hs IH].
    - destruct a as [|[|[|a]]]; auto.
    - destruct a as [|[|[|a]]]; auto; vm_compute in Hb; [destruct Hb|destruct Hb as [<-|[]]; cbn in IH; auto|destruct Hb as [<-|[]]; cbn in IH; auto]. }
  split; [|split].
  - intros x Hx (a & Ha). apply Sub in Hx as [->|[->| ->]]; [| |reflexivity]; vm_compute in Ha; exfalso; intuition discriminate.
  - intros x Hx (a & Ha). apply Sub in Hx as [->|[->| ->]]; [| |reflexivity]; vm_compute in Ha; exfalso; intuition discriminate.
  - intros x m Hx Nx Hm T. apply Sub in Hx as [->| ->]; [contradiction|]. unfold is_member in Hm.
    assert (L : length (emembers (erun est0 enums)) = 4%nat) by (vm_compute; reflexivity). rewrite L in Hm.
    destruct m as [|[|[|[|m]]]]; [..|exfalso; lia]; vm_compute in T; discriminate.
Qed.
Example C83_example :
  let s := erun est0 enums in
  eunbound_t s 2 = Ok 1%nat /\ class_attr s 2 "red" = Ok (OMem 0) /\ eenumerate s 3 = Ok [0; 1]%nat /\ ecall s 3 (OMem 0) = Raise ETypeError /\
  mem_eqb s 0 1 = false /\ mem_eqb s 0 3 = false /\ mem_eqb s 1 1 = true /\ efield_dict s 3 = Ok [("red"%string, 0%nat); ("green"%string, 1%nat)].
Proof. do 7 (split; [vm_compute; reflexivity|]). vm_compute. reflexivity. Qed.
Example C82_attributes_ex :
  let s := erun est0 enums in let l := [("_z_"%string, NMember (VBool true)); ("x"%string, NMember (VInt 1)); ("g"%string, NOther 4 false true)] in
  ereached s /\ is_class s 1 /\ NoDup (map fst l) /\ declared l = ["x"%string] /\ ~ In "_z_"%string meta_props /\ is_dunder "_z_" = false /\
  match enum_stmt s "Ext" [1%nat] l true with
  | (s', Ok c) => class_attr s' c "_z_" = Ok (OOther (NMember (VBool true))) /\ class_attr s' c "g" = Ok (OOther (NOther 4 false true)) /\
                  class_attr s' c "f" = Ok (OOther (NOther 0 true true))
  | _ => False
  end.
Proof.
  split; [eexists; reflexivity|]. split; [vm_compute; repeat constructor|]. split; [repeat constructor; cbn; intuition discriminate|].
  split; [reflexivity|]. split; [cbn; intuition discriminate|]. split; [reflexivity|]. vm_compute. repeat split.
Qed.
Example C83_no_field_dict_ex : let s := erun est0 [EClass "P" [0%nat] [] true] in ereached s /\ is_class s 1 /\ (forall m, ~ is_member s m).
Proof.
  split; [eexists; reflexivity|]. split; [vm_compute; repeat constructor|]. intros m H. unfold is_member in H.
  assert (E : length (emembers (erun est0 [EClass "P" [0%nat] [] true])) = 0%nat) by (vm_compute; reflexivity). rewrite E in H. lia.
Qed.
