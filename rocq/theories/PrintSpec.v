(** Specification vocabulary for C92: printing. *)
From Coq Require Import String Ascii Decimal DecimalString.
From Verif Require Import PyBase BVModel ADTTy ADTModel ADTSpec PrintModel.

(** Identifiers (ASCII): letters, digits and underscores, not empty. *)
Definition word_char (c : ascii) : bool :=
  let n := nat_of_ascii c in
  (Nat.leb 48 n && Nat.leb n 57) || (Nat.leb 65 n && Nat.leb n 90) || (Nat.leb 97 n && Nat.leb n 122) || Nat.eqb n 95.
Fixpoint word_chars (s : string) : bool := match s with EmptyString => true | String c s => word_char c && word_chars s end.
Definition word (s : string) : Prop := s <> EmptyString /\ word_chars s = true.

(** Bit, the built-in vector classes, and Tuples and AnonymousProducts of such types. *)
Inductive anon_type : ty -> Prop :=
| at_bit : anon_type (TLeaf (LBit 0))
| at_vec k n : 0 <= n -> anon_type (TLeaf (LVec 0 k (Some n)))
| at_tuple fs : Forall (fun f => fst f = EmptyString /\ anon_type (snd f)) fs -> anon_type (TNode KTuple [] fs)
| at_anon fs : Forall (fun f => word (fst f) /\ anon_type (snd f)) fs -> anon_type (TNode KAnon [] fs).
(** Their values, to which no item was assigned. A component of a Tuple may have any class, the components of an
    AnonymousProduct have exactly the declared ones. *)
Inductive shown : val -> Prop :=
| sh_bit b : shown (VAtom (TLeaf (LBit 0)) (b2z b))
| sh_vec k n z : 0 <= n -> 0 <= z < 2 ^ n -> shown (VAtom (TLeaf (LVec 0 k (Some n))) z)
| sh_tuple fs vs : anon_type (TNode KTuple [] fs) -> length vs = length fs -> Forall shown vs -> shown (VTup (TNode KTuple [] fs) true vs)
| sh_anon fs vs : anon_type (TNode KAnon [] fs) -> Forall2 (fun f v => vtype v = snd f /\ shown v) fs vs -> shown (VTup (TNode KAnon [] fs) true vs).

(** Types without Sums whose names (of classes, fields, members and modifiers) are identifiers. *)
Inductive sound_type (E : env) : ty -> Prop :=
| st_bit : sound_type E (TLeaf (LBit 0))
| st_vec k n : 0 <= n -> sound_type E (TLeaf (LVec 0 k (Some n)))
| st_enum n ms : word n -> Forall (fun m => word (fst m)) ms -> NoDup (map fst ms) -> sound_type E (TEnum n ms)
| st_node k u fs : Forall (fun m => word (e_mod E m)) u -> Forall (fun f => sound_type E (snd f)) fs ->
    (match k with KTuple | KAnon => True | KProd n _ | KTag n _ => word n | KSum => False end) -> sound_type E (TNode k u fs)
| st_mod m t : word (e_mod E m) -> sound_type E t -> sound_type E (TMod m t).
(** Values all of whose parts have exactly the declared class, to which no item was assigned. *)
Inductive holds : ty -> val -> Prop :=
| ho_bit t b : strip t = TLeaf (LBit 0) -> holds t (VAtom t (b2z b))
| ho_vec t k n z : strip t = TLeaf (LVec 0 k (Some n)) -> 0 <= n -> 0 <= z < 2 ^ n -> holds t (VAtom t z)
| ho_enum n ms z : 0 <= z < Z.of_nat (length ms) -> holds (TEnum n ms) (VAtom (TEnum n ms) z)
| ho_tup t k fs vs : node_of t = Some (k, fs) -> tuple_like k -> Forall2 (fun f v => holds (snd f) v) fs vs -> holds t (VTup t true vs)
| ho_tag t n x fs i f v : node_of t = Some (KTag n x, fs) -> nth_error fs i = Some f -> holds (snd f) v -> holds t (VTag t i v).

(** No class SIntVector[0] in the type. *)
Fixpoint no_sint0 (t : ty) : bool :=
  match t with
  | TLeaf (LVec _ KSInt (Some n)) => negb (n =? 0)
  | TLeaf _ | TEnum _ _ => true
  | TNode _ _ fs => forallb (fun f => no_sint0 (snd f)) fs
  | TMod _ t => no_sint0 t
  end.

(** Bit, the built-in vector classes and non-empty Tuples of such types. *)
Inductive tuple_type : ty -> Prop :=
| tt_bit : tuple_type (TLeaf (LBit 0))
| tt_vec k n : 0 <= n -> tuple_type (TLeaf (LVec 0 k (Some n)))
| tt_tuple ts : ts <> [] -> Forall tuple_type ts -> tuple_type (TNode KTuple [] (unnamed ts)).
(** Well-typed values of such types; the components may be instances of subclasses. *)
Inductive tuple_value (H : Z -> Z -> bool) : val -> Prop :=
| tv_bit b : tuple_value H (VAtom (TLeaf (LBit 0)) (b2z b))
| tv_vec k n z : 0 <= n -> 0 <= z < 2 ^ n -> tuple_value H (VAtom (TLeaf (LVec 0 k (Some n))) z)
| tv_tuple ts vs : tuple_type (TNode KTuple [] (unnamed ts)) -> Forall2 (fun t v => sub H (vtype v) t = true) ts vs ->
    Forall (tuple_value H) vs -> tuple_value H (VTup (TNode KTuple [] (unnamed ts)) true vs).

(** The number a decimal numeral denotes (the numerals of the standard library). *)
Definition reads (s : string) (z : Z) : Prop := exists d, NilEmpty.int_of_string s = Some d /\ Z.of_int d = z.

(** ** Expressions as Python writes them: names are identifiers other than True and False, numbers are not negative. *)
Definition digit (c : ascii) : bool := let n := nat_of_ascii c in Nat.leb 48 n && Nat.leb n 57.
Definition identifier (s : string) : Prop :=
  word s /\ (match s with String c _ => digit c = false | _ => True end) /\ s <> "True"%string /\ s <> "False"%string.
Inductive expr_ok : expr -> Prop :=
| xo_name s : identifier s -> expr_ok (XName s)
| xo_int z : 0 <= z -> expr_ok (XInt z)
| xo_bool b : expr_ok (XBool b)
| xo_item e l : expr_ok e -> Forall expr_ok l -> expr_ok (XItem e l)
| xo_call e l : expr_ok e -> Forall expr_ok l -> expr_ok (XCall e l).
