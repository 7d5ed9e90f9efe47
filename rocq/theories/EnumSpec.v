(** Specification of Enums: which entries of a class body are members, when two values are the same, subclassing read off the class
    statements. Independent of method resolution orders, of the cache and of the search for attributes. *)
From Verif Require Import PyBase InternModel EnumModel.

(** States a program can reach. *)
Definition ereached (s : est) : Prop := exists h, s = erun est0 h.
(** [c] is a class, [m] a member made so far. *)
Definition is_class (s : est) (c : nat) : Prop := (c < length (eclasses s))%nat.
Definition is_member (s : est) (m : nat) : Prop := (m < length (emembers s))%nat.
(** type(m), and what it was made with. *)
Definition type_of (s : est) (m : nat) : nat := em_cls (mget s m).
Definition made_as (s : est) (m : nat) (n : string) (v : eval) : Prop := em_name (mget s m) = n /\ em_val (mget s m) = v.

(** [a] is [b] or has it among its (transitive) bases, reading the class statements only. *)
Inductive esub (s : est) : nat -> nat -> Prop :=
| esub_refl : forall a, esub s a a
| esub_step : forall a b c, In b (ec_bases (cget s a)) -> esub s b c -> esub s a c.
Definition c_Enum : nat := 0%nat.

(** Two values are the same number, or the same object made by new_instruction(). *)
Definition number (v : eval) : Z := match v with VInt z => z | VBool true => 1 | _ => 0 end.
Definition same_value (v w : eval) : Prop :=
  match v, w with
  | VAuto i, VAuto j => i = j
  | VAuto _, _ | _, VAuto _ => False
  | _, _ => number v = number w
  end.

(** The members a class body declares: names that are not __x__ or _x_, bound to ints or to new_instruction() objects. *)
Definition declares (l : body) (n : string) (v : eval) : Prop := In (n, NMember v) l /\ is_dunder n = false /\ is_sunder n = false.
(** Their names, in the order of the body. *)
Definition declared (l : body) : list string :=
  map fst (filter (fun e => match snd e with NMember _ => negb (is_dunder (fst e)) && negb (is_sunder (fst e)) | _ => false end) l).

(** Two attributes are the same object, or numbers that are equal. *)
Definition same_attr (x y : nsval) : Prop :=
  match x, y with
  | NMember v, NMember w => same_value v w
  | NOther i _ _, NOther j _ _ => i = j
  | _, _ => False
  end.
(** The class [x] itself defines the name [n]. *)
Definition edefines (s : est) (x : nat) (n : string) : Prop := exists a, In (n, a) (ec_attrs (cget s x)).
(** No class between [c] and Enum redefines the attribute [n] of members. *)
Definition keeps (s : est) (c : nat) (n : string) : Prop := forall x, esub s c x -> edefines s x n -> x = c_Enum.
(** The enums above [c] have no members: [c] is not a sub-enum. *)
Definition top_enum (s : est) (c : nat) : Prop := forall x m, esub s c x -> x <> c -> is_member s m -> type_of s m <> x.
(** Every class above [c] has at most one base. *)
Definition elinear (s : est) (c : nat) : Prop := forall x, esub s c x -> (length (ec_bases (cget s x)) <= 1)%nat.
(** No reserved name in the body, and no descriptor called _name_ (out of the model). *)
Definition plain_body (l : body) : Prop := (forall n x, In (n, x) l -> ~ In n (reserved_names ++ reserved_sunders)) /\
  forall n i h, In (n, NOther i true h) l -> n <> "_name_"%string.
