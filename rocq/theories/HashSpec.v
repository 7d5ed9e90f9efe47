(** Vocabulary for the hashability of values. *)
From Verif Require Import PyBase BVModel HashModel.

(** A class that says nothing about equality or hashing, like those made by indexing (BitVector[8], Tuple[A, B]) and most
    subclasses. *)
Definition silent (b : body) : bool := match b with Body false None => true | _ => false end.
(** m is the MRO of the library class c with any number of silent classes added anywhere. *)
Definition mro_of (c : lib) (m : list body) : Prop :=
  filter (fun b => negb (silent b)) m = filter (fun b => negb (silent b)) (lib_mro c).
(** Objects of the library's classes and of subclasses that say nothing about equality or hashing. *)
Inductive made : hobj -> Prop :=
| made_leaf c m x : ~ In c [CTuple; CAnon; CProduct; CSum; CTagged] -> mro_of c m -> made (OLeaf c m x)
| made_tuple c m a xs : In c [CTuple; CAnon; CProduct] -> mro_of c m -> (forall x, In x xs -> made x) -> made (OTuple c m a xs)
| made_one c m t x : In c [CSum; CTagged] -> mro_of c m -> made x -> made (OOne c m t x).
(** o is p or is somewhere inside p. *)
Inductive inside : hobj -> hobj -> Prop :=
| in_self o : inside o o
| in_tuple o c m a xs x : In x xs -> inside o x -> inside o (OTuple c m a xs)
| in_one o c m t x : inside o x -> inside o (OOne c m t x).
(** A symbolic or floating-point value, or a tuple one of whose components has been assigned. *)
Definition spoils (o : hobj) : Prop :=
  match o with
  | OLeaf c _ _ => match c with CBit | CVec _ | CEnum => False | _ => True end
  | OTuple _ _ a _ => a = true
  | OOne _ _ _ _ => False
  end.
(** The same contents in objects of the same library classes, or of subclasses of them that say nothing. *)
Inductive alike : hobj -> hobj -> Prop :=
| alike_leaf c m m' x : ~ In c [CTuple; CAnon; CProduct; CSum; CTagged] -> mro_of c m -> mro_of c m' -> alike (OLeaf c m x) (OLeaf c m' x)
| alike_tuple c m m' a xs ys : In c [CTuple; CAnon; CProduct] -> mro_of c m -> mro_of c m' -> Forall2 alike xs ys ->
    alike (OTuple c m a xs) (OTuple c m' a ys)
| alike_one c m m' t x y : In c [CSum; CTagged] -> mro_of c m -> mro_of c m' -> alike x y -> alike (OOne c m t x) (OOne c m' t y).
