(** What it means for two requests for an algebraic data type to ask for the same type. *)
From Verif Require Import PyBase InternModel.

(** Two namespace values are the same: identical, or the same number (True is 1). *)
Definition number (v : nval) : option Z := match v with NInt z => Some z | NBool b => Some (b2z b) | _ => None end.
Definition same_value (v w : nval) : Prop := v = w \/ exists z, number v = Some z /\ number w = Some z.
Definition same_field (f g : field) : Prop := fst f = fst g /\ same_value (snd f) (snd g).
(** The same fields: as sequences, or as sets. *)
Definition same_fields (in_order : bool) (a b : list field) : Prop :=
  if in_order then Forall2 same_field a b
  else (forall f, In f a -> exists g, In g b /\ same_field f g) /\ (forall g, In g b -> exists f, In f a /\ same_field f g).

(** Order matters for tuples and products, not for sums, tagged unions and enums. *)
Definition order_matters (m : mk) : bool := match m with MTuple | MAnon | MProd => true | _ => false end.
(** The kinds of types bound by T[...], and by class statements. *)
Definition by_index (m : mk) : Prop := m = MTuple \/ m = MAnon \/ m = MSum.
Definition by_name (m : mk) : Prop := m = MProd \/ m = MTag \/ m = MEnum.

(** The field types an index gives: T[c] is T[c,]. *)
Definition index_fields (i : idx) : list field :=
  match i with
  | IdxOne c => [(EmptyString, NType c)]
  | IdxSeq l => map (fun c => (EmptyString, NType c)) l
  | IdxMap l => map (fun p => (fst p, NType (snd p))) l
  end.

(** Tuples and sums are indexed by one class or a sequence of classes, anonymous products by a mapping. *)
Definition index_fits (m : mk) (i : idx) : Prop :=
  match m, i with (MTuple | MSum), (IdxOne _ | IdxSeq _) => True | MAnon, IdxMap _ => True | _, _ => False end.

(** Reserved names. *)
Definition reserved_word (n : string) : Prop :=
  In n ["enumerate"; "fields"; "field_dict"; "is_bound"; "is_cached"; "value_dict"; "from_values"]%string.
Definition reserved_private (n : string) : Prop :=
  In n ["_value_"; "_tag_"; "_cached_"; "_fields_"; "_field_table_"; "_unbound_base_"; "_syntax_"]%string.
(** __x__ and _x_ . *)
Definition us (n : string) : string := ("_" ++ n ++ "_")%string.
Definition inner (n : string) : Prop :=   (* neither starts nor ends with an underscore, and is not empty *)
  n <> ""%string /\ (forall r, n <> String "_" r) /\ (forall r, n <> (r ++ "_")%string).
Definition dunder_name (n : string) : Prop := exists m, inner m /\ n = us (us m).
Definition sunder_name (n : string) : Prop := exists m, inner m /\ n = us m.

(** The namespace entries that are fields: an ordinary name bound to a value of the kind's field type: a class for
    products and tagged unions, an int or an automatic value for enums. *)
Definition value_of_kind (m : mk) (v : nval) : Prop :=
  match m with
  | MProd | MTag => exists c, v = NType c
  | MEnum => (exists z, v = NInt z) \/ (exists b, v = NBool b) \/ (exists i, v = NAuto i)
  | _ => False
  end.
Definition is_field (m : mk) (f : field) : Prop :=
  ~ dunder_name (fst f) /\ ~ sunder_name (fst f) /\ value_of_kind m (snd f).
(** The namespace entries a class statement must not have. *)
Definition forbidden (f : field) : Prop :=
  reserved_private (fst f) \/ (reserved_word (fst f) /\ is_descriptor (snd f) = false).

(** [fs] is the subsequence of [l] of the entries that satisfy P. *)
Inductive selects {A} (P : A -> Prop) : list A -> list A -> Prop :=
| sel_nil : selects P [] []
| sel_yes : forall x l r, P x -> selects P l r -> selects P (x :: l) (x :: r)
| sel_no : forall x l r, ~ P x -> selects P l r -> selects P (x :: l) r.

(** What a class statement or a call of from_fields asks for: base, name, fields, and other non-dunder entries. *)
Inductive asks (m : mk) : iop -> cid -> string -> list field -> list field -> Prop :=
| ask_stmt : forall u n l fs ns,
    selects (is_field m) l fs -> selects (fun f => ~ is_field m f /\ ~ dunder_name (fst f)) l ns ->
    asks m (OStmt u n l) u n fs ns
| ask_from : forall u n fs, asks m (OFrom u n fs true) u n fs [].

(** What can be a parameter of a generated constructor beside self and cls. *)
Definition plain_char (c : ascii) : Prop :=
  exists n, c = ascii_of_N n /\ (n < 256 /\ (n = 95 \/ 65 <= n <= 90 \/ 97 <= n <= 122 \/ 128 <= n))%N.
Definition number_char (c : ascii) : Prop := exists n, c = ascii_of_N n /\ (48 <= n <= 57)%N.
Definition parameter_name (n : string) : Prop :=
  ~ In n keywords /\ n <> "self"%string /\ n <> "cls"%string /\
  exists c r, n = String c r /\ plain_char c /\ forall d, In d (list_ascii_of_string r) -> plain_char d \/ number_char d.

(** The class a variable denotes at some point of a history. *)
Definition is_alive (s : ist) (c : cid) : Prop := (c < length (classes s))%nat /\ ~ In c (dead s).
Definition reached (s : ist) (h : list iop) : Prop := s = irun ist0 h.
