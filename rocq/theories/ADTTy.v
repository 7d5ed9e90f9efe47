(** Algebraic data types of hwtypes (adt.py, adt_meta.py) and modified types (modifiers.py) as a datatype, the identity
    of classes, and issubclass. Definitions only.
    A class is determined by what this datatype records because bound types are cached (adt_meta.py:97-107, 150-180,
    modifiers.py:46-58; property C46): two values of [ty] that are well formed (ADTSpec.v) denote the same class object
    exactly when they are equal. Not modelled: types made with cache=False, user-defined unbound subclasses of Tuple,
    Product, Sum, ... and subclasses of bound types. *)
From Verif Require Import PyBase BVModel.

(** Classes that are no ADT. [LVec]: a bit-vector class of a family (0: the concrete one), sized or not. [LOther]: any
    other class, [LOther 0] being type(None). [LAbsVec], [LAbsBit]: AbstractBitVector, AbstractBit. *)
Inductive leaf :=
| LVec (fam : Z) (k : kind) (n : option Z)
| LBit (fam : Z)
| LAbsVec | LAbsBit | LObject
| LOther (i : Z).

(** The generic class a bound type comes from, adt_meta.py. For Product and TaggedUnion: the class name and a code for
    the non-field, non-dunder part of the namespace (0: empty), which are part of the cache key (150-168). *)
Inductive nkind := KTuple | KAnon | KProd (name : string) (extra : Z) | KSum | KTag (name : string) (extra : Z).

(** Enum members: an int, or an Auto() object (adt_meta.py:584-588). *)
Inductive evalue := EInt (z : Z) | EAuto (i : Z).

(** [TNode k u fs]: the class bound to fields [fs] ("" names the fields of Tuple and Sum), made from the unbound class
    with the modifiers [u] applied, outermost first (so [TNode KTuple [m] fs] is m(Tuple)[fs]).
    [TMod m t]: m(t). *)
Inductive ty :=
| TLeaf (l : leaf)
| TEnum (name : string) (ms : list (string * evalue))
| TNode (k : nkind) (u : list Z) (fs : list (string * ty))
| TMod (m : Z) (t : ty).

(** ** A code for types, injective (ADTFacts.v); it gives equality and an iteration order of sets of types *)
Definition list_code {A} (f : A -> list Z) (l : list A) : list Z := Z.of_nat (length l) :: flat_map f l.
Definition str_code (s : string) : list Z := list_code (fun a => [Z.of_nat (nat_of_ascii a)]) (list_ascii_of_string s).
Definition kind_num (k : kind) : Z := match k with KBV => 0 | KNum => 1 | KUInt => 2 | KSInt => 3 end.
Definition leaf_code (l : leaf) : list Z :=
  match l with
  | LVec f k None => [0; f; kind_num k]
  | LVec f k (Some n) => [1; f; kind_num k; n]
  | LBit f => [2; f]
  | LAbsVec => [3]
  | LAbsBit => [4]
  | LObject => [5]
  | LOther i => [6; i]
  end.
Definition kind_code (k : nkind) : list Z :=
  match k with
  | KTuple => [0]
  | KAnon => [1]
  | KProd n x => 2 :: x :: str_code n
  | KSum => [3]
  | KTag n x => 4 :: x :: str_code n
  end.
Definition evalue_code (v : evalue) : list Z := match v with EInt z => [0; z] | EAuto z => [1; z] end.
Fixpoint code (t : ty) : list Z :=
  match t with
  | TLeaf l => 0 :: leaf_code l
  | TEnum n ms => 1 :: str_code n ++ list_code (fun m => str_code (fst m) ++ evalue_code (snd m)) ms
  | TNode k u fs =>
      2 :: kind_code k ++ list_code (fun m => [m]) u ++ list_code (fun f => str_code (fst f) ++ code (snd f)) fs
  | TMod m t => 3 :: m :: code t
  end.
Fixpoint lex (a b : list Z) : comparison :=
  match a, b with
  | [], [] => Eq
  | [], _ => Lt
  | _, [] => Gt
  | x :: a, y :: b => match x ?= y with Eq => lex a b | c => c end
  end.
(** T == A on classes is identity. *)
Definition ty_eqb (a b : ty) : bool := match lex (code a) (code b) with Eq => true | _ => false end.

(** frozenset(types): a strictly increasing list. *)
Fixpoint set_add (x : ty) (l : list ty) : list ty :=
  match l with
  | [] => [x]
  | y :: m => match lex (code x) (code y) with Lt => x :: l | Eq => l | Gt => y :: set_add x m end
  end.
Definition type_set (l : list ty) : list ty := fold_right set_add [] l.

Definition unnamed (l : list ty) : list (string * ty) := map (fun t => (EmptyString, t)) l.
Definition types (fs : list (string * ty)) : list ty := map snd fs.
Definition names (fs : list (string * ty)) : list string := map fst fs.

(** Binding the unbound class of kind [k] with modifiers [u]: U[types] or U.from_fields(name, fields). Sum makes a set of
    the types (adt_meta.py:90-95). *)
Definition mk_node (k : nkind) (u : list Z) (fs : list (string * ty)) : ty :=
  match k with KSum => TNode KSum u (unnamed (type_set (types fs))) | _ => TNode k u fs end.

(** cls.fields and the kind of a bound class: modified classes inherit both (adt_meta.py:252-267). *)
Fixpoint node_of (t : ty) : option (nkind * list (string * ty)) :=
  match t with
  | TNode k _ fs => Some (k, fs)
  | TMod _ t => node_of t
  | _ => None
  end.
(** isinstance(t, BoundMeta): also Enums. *)
Fixpoint is_adt (t : ty) : bool :=
  match t with TLeaf _ => false | TEnum _ _ | TNode _ _ _ => true | TMod _ t => is_adt t end.

(** ** issubclass *)
Definition opt_eqb (a b : option Z) : bool :=
  match a, b with None, None => true | Some x, Some y => x =? y | _, _ => false end.
(** [H]: issubclass between the other classes. *)
Definition leaf_sub (H : Z -> Z -> bool) (a b : leaf) : bool :=
  match a, b with
  | _, LObject => true
  | LVec f k n, LVec f' k' n' => (f =? f') && kind_le k k' && (match n' with None => true | Some _ => opt_eqb n n' end)
  | LVec _ _ _, LAbsVec | LAbsVec, LAbsVec => true
  | LBit f, LBit f' => f =? f'
  | LBit _, LAbsBit | LAbsBit, LAbsBit => true
  | LOther i, LOther j => (i =? j) || H i j
  | _, _ => false
  end.
Fixpoint subseq (a b : list Z) : bool :=
  match a, b with
  | [], _ => true
  | _, [] => false
  | x :: a', y :: b' => if x =? y then subseq a' b' else subseq a b'
  end.
(** The bases a bound class gets: U[idx] below V[idx] for the bases V of U (adt_meta.py:309-313); AnonymousProduct[d]
    below Tuple[values] (416-428); a Product below AnonymousProduct[fields] (481-484); a TaggedUnion below
    Sum[types] (540-561). *)
Definition node_sub (k : nkind) (u : list Z) (fs : list (string * ty)) (t : ty) : bool :=
  match t with
  | TNode k' u' fs' =>
      match k, k' with
      | KTuple, KTuple | KAnon, KAnon | KSum, KSum => subseq u' u && ty_eqb (TNode k [] fs) (TNode k' [] fs')
      | KAnon, KTuple => ty_eqb (TNode KTuple [] (unnamed (types fs))) t
      | KProd _ _, KAnon => ty_eqb (TNode KAnon [] fs) t
      | KProd _ _, KTuple => ty_eqb (TNode KTuple [] (unnamed (types fs))) t
      | KTag _ _, KSum => ty_eqb (TNode KSum [] (unnamed (type_set (types fs)))) t
      | _, _ => false
      end
  | _ => false
  end.
(** m(t) is a subclass of t and of m(s) for every superclass s of t (modifiers.py:53-56; property C50). *)
Fixpoint sub (H : Z -> Z -> bool) (s t : ty) : bool :=
  ty_eqb s t ||
  match t with TLeaf LObject => true | _ => false end ||
  match s with
  | TLeaf l => match t with TLeaf l' => leaf_sub H l l' | _ => false end
  | TEnum _ _ => false
  | TNode k u fs => node_sub k u fs t
  | TMod m s => sub H s t || match t with TMod m' t => (m =? m') && sub H s t | _ => false end
  end.
