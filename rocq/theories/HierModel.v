(** Hierarchies of algebraic data types: class statements with any number of bases over Tuple, AnonymousProduct, Product, Sum and
    TaggedUnion, bound types K[...], subclasses of bound types, and the attributes that classes define
    (hwtypes/adt_meta.py:71-107, 125-223, 225-347, 350-582), over histories with garbage collection. C3 and the membership test come
    from MetaModel.v. Definitions only.
    Simplifications: Enum, class keyword arguments and names that are reserved or cannot be parameters (C55) are left out; a
    definition that raises leaves no classes behind. *)
From Verif Require Import PyBase MetaModel.

(** Metaclasses: type, TupleMeta, AnonymousProductMeta, ProductMeta, SumMeta, TaggedUnionMeta; which is a subclass of which. *)
Inductive kind := KType | KTuple | KAnon | KProd | KSum | KTag.
Definition below (a b : kind) : bool :=
  match a, b with
  | _, KType => true
  | (KTuple | KAnon | KProd), KTuple | (KAnon | KProd), KAnon | KProd, KProd => true
  | (KSum | KTag), KSum | KTag, KTag => true
  | _, _ => false
  end.
Definition is_kind (a b : kind) : bool := below a b && below b a.

(** Names with classes: the fields of a named type. Tuple and Sum fields have the name "". *)
Definition fields := list (string * nat).
(** What a class can define under a name: a TypedProperty for a component (its type, its index or tag), or something else. *)
Inductive attr := AField (t i : nat) | AOther (v : nat).
(** Keys of the class cache: (cls, idx), 97-107, and (fields, bases, name, other attributes), 164-168. *)
Inductive key := KIndex (k : nat) (fs : fields) | KStmt (fs : fields) (bases : list nat) (name : string) (others : fields).

(** A class object: metaclass, __bases__, __mro__, _unbound_base_, _fields_ (None: unbound; sorted and without repetition for
    sums, whose _fields_ is a frozenset), its own _field_table_, its own other attributes, and the key it was stored under. *)
Record hcls := HC { h_kind : kind; h_bases : list nat; h_mro : list nat; h_unbound : option nat; h_fields : option (list nat);
                    h_table : option fields; h_attrs : list (string * attr); h_key : option key }.
(** The interpreter: all classes ever made, the collected ones, the weak cache (230), and the variables of the program. *)
Record hst := HS { hclasses : list hcls; hdead : list nat; hcache : list (key * nat); hvars : list nat }.
Definition hget (s : hst) (c : nat) : hcls := nth c (hclasses s) (HC KType [] [] None None None [] None).
Definition halive (s : hst) (c : nat) : bool := Nat.ltb c (length (hclasses s)) && negb (mem c (hdead s)).
Definition hkind (s : hst) (c : nat) : kind := h_kind (hget s c).
(** issubclass(a, b) *)
Definition hissub (s : hst) (a b : nat) : bool := mem b (h_mro (hget s a)).
Definition hc3 (s : hst) (bases : list nat) : option (list nat) :=
  let ls := map (fun b => h_mro (hget s b)) bases ++ [bases] in merge (total_len ls) ls.

(** == on keys. *)
Definition pair_eqb (a b : string * nat) : bool := String.eqb (fst a) (fst b) && Nat.eqb (snd a) (snd b).
Fixpoint list_eqb {A} (eqb : A -> A -> bool) (a b : list A) : bool :=
  match a, b with
  | [], [] => true
  | x :: a, y :: b => eqb x y && list_eqb eqb a b
  | _, _ => false
  end.
Definition same_set (a b : fields) : bool :=
  forallb (fun x => existsb (pair_eqb x) b) a && forallb (fun x => existsb (pair_eqb x) a) b.
(** [ordered]: fields_idx is a tuple for products and a frozenset for tagged unions, 159-162. *)
Definition key_eqb (ordered : bool) (a b : key) : bool :=
  match a, b with
  | KIndex k fs, KIndex k' fs' => Nat.eqb k k' && list_eqb pair_eqb fs fs'
  | KStmt fs bs n o, KStmt fs' bs' n' o' =>
      (if ordered then list_eqb pair_eqb fs fs' else same_set fs fs') && list_eqb Nat.eqb bs bs' && String.eqb n n' && same_set o o'
  | _, _ => false
  end.
Definition lookup (s : hst) (ordered : bool) (k : key) : option nat :=
  option_map snd (find (fun e => key_eqb ordered k (fst e)) (hcache s)).

(** type.__new__ for a list of bases whose MROs can be merged. *)
Definition add (s : hst) (c : hcls) : hst * nat := (HS (hclasses s ++ [c]) (hdead s) (hcache s) (hvars s), length (hclasses s)).
Definition store (s : hst) (k : key) (t : nat) : hst := HS (hclasses s) (hdead s) ((k, t) :: hcache s) (hvars s).

(** BoundMeta.__new__, 247-280: the check of the bases (252-264), type.__new__ (266), and _unbound_base_ (270-280). *)
Definition bound (s : hst) (c : nat) : bool := match h_fields (hget s c) with Some _ => true | None => false end.
Definition is_adt (s : hst) (c : nat) : bool := match hkind s c with KType => false | _ => true end.
Fixpoint join_fields (s : hst) (ft : option (list nat)) (bases : list nat) : res (option (list nat)) :=
  match bases with
  | [] => Ok ft
  | b :: bases =>
      match h_fields (hget s b) with
      | None => join_fields s ft bases
      | Some m =>
          match ft with
          | None => join_fields s (Some m) bases
          | Some f => if list_eqb Nat.eqb f m then join_fields s ft bases else Raise ETypeError
          end
      end
  end.
Definition new_adt (s : hst) (kd : kind) (bases : list nat) (ft : option (list nat)) (table : option fields)
    (attrs : list (string * attr)) (k : option key) : res (hst * nat) :=
  ft <- join_fields s ft bases ;;
  match hc3 s bases with
  | None => Raise ETypeError
  | Some l =>
      let t := length (hclasses s) in
      u <- match ft, filter (fun b => is_adt s b && negb (bound s b)) bases with
           | None, _ => Ok (Some t)
           | Some _, [u] => Ok (Some u)
           | Some _, _ => if existsb (bound s) bases then Ok None else Raise EAssertion
           end ;;
      Ok (add s (HC kd bases (t :: l) u ft table attrs k))
  end.

(** _get_tuple_base, _get_anon_base, _get_sum_base, 418-425, 473-480, 531-538: the first class with the metaclass [kd], depth
    first. *)
Fixpoint find_base (fuel : nat) (s : hst) (kd : kind) (bases : list nat) : option nat :=
  match fuel with
  | O => None
  | S f =>
      (fix go bs := match bs with
                    | [] => None
                    | b :: bs => if is_kind (hkind s b) kd then Some b
                                 else match find_base f s kd (h_bases (hget s b)) with Some r => Some r | None => go bs end
                    end) bases
  end.
Definition unname (fs : fields) : fields := map (fun f => (EmptyString, snd f)) fs.
(** The properties for the components, 436-459, 543-559. *)
Definition props (fs : fields) : list (string * attr) :=
  map (fun p => (fst (snd p), AField (snd (snd p)) (fst p))) (combine (seq 0 (length fs)) fs).

(** cls[idx] for an index translated by _get_idx: _cache_handler and _from_idx, 97-107, 282-319, 381-434. The fuel bounds the
    depth of the recursion: bases are older than their subclasses. *)
Fixpoint index (fuel : nat) (s : hst) (c : nat) (fs : fields) : res (hst * nat) :=
  let k := KIndex c fs in
  match lookup s true k with
  | Some t => Ok (s, t)
  | None =>
      if bound s c then Raise ETypeError else                                                       (* 284-285 *)
      match fuel with
      | O => Raise EOutOfModel
      | S f =>
          let kd := hkind s c in
          let fix go (s : hst) (bs : list nat) : res (hst * list nat) :=                            (* 309-313 *)
            match bs with
            | [] => Ok (s, [])
            | b :: bs =>
                if below (hkind s b) kd
                then r <- index f s b fs ;; rs <- go (fst r) bs ;; Ok (fst rs, snd r :: snd rs)
                else go s bs
            end in
          r <- go s (h_bases (hget s c)) ;;
          r <- (if is_kind kd KAnon                                                                 (* 427-428 *)
                then match find_base (S (length (hclasses (fst r)))) (fst r) KTuple (c :: snd r) with
                     | Some b => q <- index f (fst r) b (unname fs) ;; Ok (fst q, snd r ++ [snd q])
                     | None => Raise ETypeError
                     end
                else Ok r) ;;
          let anon := is_kind kd KAnon in
          q <- new_adt (fst r) kd (c :: snd r) (Some (map snd fs)) (if anon then Some fs else None)
                 (if anon then props fs else []) (Some k) ;;
          Ok (store (fst q) k (snd q), snd q)                                                       (* 105 *)
      end
  end.

(** Index arguments, and _get_idx, 82-95 and 376-379. The frozenset of a sum is kept as a sorted list. *)
Inductive idx := IdxTypes (l : list nat) | IdxNames (l : fields).
Fixpoint insert (x : nat) (l : list nat) : list nat :=
  match l with
  | [] => [x]
  | y :: r => if Nat.ltb x y then x :: l else if Nat.eqb x y then l else y :: insert x r
  end.
Definition sorted (l : list nat) : list nat := fold_right insert [] l.
Definition types (l : list nat) : fields := map (fun c => (EmptyString, c)) l.
Definition get_idx (kd : kind) (i : idx) : res fields :=
  match kd, i with
  | KTuple, IdxTypes l => Ok (types l)
  | KSum, IdxTypes l => Ok (types (sorted l))
  | KAnon, IdxNames fs => Ok fs
  | _, _ => Raise ETypeError
  end.
(** K[i] for an unbound K; Product and TaggedUnion raise TypeError (495, 569). *)
Definition getitem (s : hst) (c : nat) (i : idx) : res (hst * nat) :=
  fs <- get_idx (hkind s c) i ;; index (S c) s c fs.

(** class name(bases): fields and other attributes, for ProductMeta and TaggedUnionMeta: _cache_handler and _from_fields,
    150-180, 470-486, 529-563. *)
Definition others_of (o : fields) : list (string * attr) := map (fun p => (fst p, AOther (snd p))) o.
Definition attr_class (s : hst) (kd : kind) (bases : list nat) (name : string) (fs o : fields) : res (hst * nat) :=
  match fs with
  | [] => new_adt s kd bases None None (others_of o) None
  | _ =>
      let tag := is_kind kd KTag in
      let k := KStmt fs bases name o in
      match lookup s (negb tag) k with
      | Some t => Ok (s, t)
      | None =>
          match find_base (S (length (hclasses s))) s (if tag then KSum else KAnon) bases with
          | None => Raise ETypeError
          | Some b =>
              if bound s b then Raise (if tag then EKeyError else ETypeError) else
              r <- index (S b) s b (if tag then types (sorted (map snd fs)) else fs) ;;
              q <- new_adt (fst r) kd (bases ++ [snd r]) None (if tag then Some fs else None)
                     (if tag then props fs ++ others_of o else others_of o) (Some k) ;;
              Ok (store (fst q) k (snd q), snd q)
          end
      end
  end.

(** The metaclass of a class statement: the most derived one of the bases. *)
Fixpoint winner (s : hst) (kd : kind) (bases : list nat) : res kind :=
  match bases with
  | [] => Ok kd
  | b :: bases =>
      if below kd (hkind s b) then winner s kd bases
      else if below (hkind s b) kd then winner s (hkind s b) bases
      else Raise ETypeError
  end.
(** A class statement. [fs] are the entries of the namespace that are fields for ProductMeta and TaggedUnionMeta (133-146); under
    other metaclasses they are ordinary attributes. *)
Definition class_stmt (s : hst) (bases : list nat) (name : string) (fs o : fields) : res (hst * nat) :=
  let bases := match bases with [] => [0%nat] | _ => bases end in
  kd <- winner s KType bases ;;
  match kd with
  | KType =>
      match hc3 s bases with
      | None => Raise ETypeError
      | Some l => Ok (add s (HC KType bases (length (hclasses s) :: l) None None None (others_of (fs ++ o)) None))
      end
  | KProd | KTag => attr_class s kd bases name fs o
  | _ => new_adt s kd bases None None (others_of (fs ++ o)) None
  end.

(** What a program does: class statements, indexing, dropping references, garbage collection. *)
Inductive hcall :=
| HClass (bases : list nat) (name : string) (fs o : fields)
| HIndex (c : nat) (i : idx)
| HDrop (c : nat)
| HCollect (c : nat).
Definition idx_refs (i : idx) : list nat := match i with IdxTypes l => l | IdxNames l => map snd l end.
Fixpoint distinct (l : list string) : bool :=
  match l with [] => true | n :: l => negb (existsb (String.eqb n) l) && distinct l end.
(** Python gives a namespace or a mapping distinct keys. *)
Definition keys_ok (o : hcall) : bool :=
  match o with
  | HClass _ _ fs o => distinct (map fst fs ++ map fst o)
  | HIndex _ (IdxNames l) => distinct (map fst l)
  | _ => true
  end.
Definition op_refs (o : hcall) : list nat :=
  match o with HClass bs _ fs _ => bs ++ map snd fs | HIndex c i => c :: idx_refs i | HDrop _ | HCollect _ => [] end.
Definition hold (s : hst) (r : res (hst * nat)) : hst :=
  match r with Ok (s', t) => HS (hclasses s') (hdead s') (hcache s') (t :: hvars s') | Raise _ => s end.
(** A class refers to its bases and to the types of its fields. *)
Definition refs_of (c : hcls) : list nat :=
  h_bases c ++ match h_fields c with Some l => l | None => [] end ++ match h_table c with Some t => map snd t | None => [] end.
Definition referenced (s : hst) (c : nat) : bool :=
  mem c (hvars s) || existsb (fun d => halive s d && mem c (refs_of (hget s d))) (seq 0 (length (hclasses s))).
Definition n_builtin : nat := 6.
Definition hstep (s : hst) (o : hcall) : hst :=
  if forallb (halive s) (op_refs o) && keys_ok o then
    match o with
    | HClass bs n fs o => hold s (class_stmt s bs n fs o)
    | HIndex c i => if bound s c || negb (is_adt s c) then s else hold s (getitem s c i)
    | HDrop c => HS (hclasses s) (hdead s) (hcache s) (remove Nat.eq_dec c (hvars s))
    | HCollect c =>
        if halive s c && negb (referenced s c) && Nat.leb n_builtin c
        then HS (hclasses s) (c :: hdead s) (filter (fun e => negb (Nat.eqb (snd e) c)) (hcache s)) (hvars s)
        else s
    end
  else s.
(** object, Tuple, AnonymousProduct, Product, Sum, TaggedUnion (adt.py) with the attributes they define that are not dunders. *)
Definition hst0 : hst :=
  let c kd bs mro names := HC kd bs mro (match kd with KType => None | _ => hd_error mro end) None None
                              (map (fun n => (n, AOther 0)) names) None in
  HS [c KType [] [0] [];
      c KTuple [0] [1; 0] ["value_dict"; "from_values"; "_from_kwargs"; "value"]%string;
      c KAnon [1] [2; 1; 0] ["value_dict"; "_from_kwargs"]%string;
      c KProd [2] [3; 2; 1; 0] [];
      c KSum [0] [4; 0] ["Match"; "value_dict"; "from_values"; "_from_kwargs"; "value"]%string;
      c KTag [4] [5; 4; 0] ["value_dict"; "_from_kwargs"]%string]%nat [] [] [0; 1; 2; 3; 4; 5]%nat.
Definition hrun (h : list hcall) : hst := fold_left hstep h hst0.

(** T.fields, T.is_bound, T.unbound_t, 321-340. *)
Definition unbound_t (s : hst) (c : nat) : res nat :=
  match h_unbound (hget s c) with Some u => Ok u | None => Raise EAttributeError end.
(** Attribute lookup along the MRO: T.field_dict of named types (461-463, 571-573), and what obj.name finds on the class of obj. *)
Fixpoint first_some {A} (f : nat -> option A) (l : list nat) : option A :=
  match l with [] => None | x :: l => match f x with Some a => Some a | None => first_some f l end end.
Definition field_dict (s : hst) (c : nat) : option fields := first_some (fun x => h_table (hget s x)) (h_mro (hget s c)).
Definition own (l : list (string * attr)) (n : string) : option attr :=
  option_map snd (find (fun p => String.eqb (fst p) n) l).
Definition getattr (s : hst) (c : nat) (n : string) : option attr := first_some (fun x => own (h_attrs (hget s x)) n) (h_mro (hget s c)).
