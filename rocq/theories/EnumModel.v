(** Enums: class statements over Enum and its subclasses, from_fields, members, their attributes and equality
    (hwtypes/adt_meta.py:126-223, 247-280, 583-634; hwtypes/adt.py:255-292). The names of the type machinery come from InternModel.v,
    C3 from MetaModel.v. Definitions only.
    Simplifications: the bases of a class are Enum and enums made from it; class bodies define no special methods (__init__, __eq__, ...);
    what a user-defined descriptor computes is left out; from_fields with dunder names and descriptors called _name_ are
    out of the model; class attributes and members are not assigned to afterwards, and members are not copied. *)
From Verif Require Import PyBase InternModel MetaModel.

(** What a member can stand for: isinstance(v, (int, Auto)), adt_meta.py:584-588. bool is a subclass of int. Auto objects are
    numbered; each new_instruction() (adt.py:294-295) makes a new one. *)
Inductive eval := VInt (z : Z) | VBool (b : bool) | VAuto (k : nat).
(** == on them: True == 1, Autos by identity. *)
Definition val_num (v : eval) : option Z := match v with VInt z => Some z | VBool b => Some (if b then 1 else 0) | VAuto _ => None end.
Definition val_eqb (v w : eval) : bool :=
  match val_num v, val_num w with
  | Some a, Some b => a =? b
  | None, None => match v, w with VAuto i, VAuto j => Nat.eqb i j | _, _ => false end
  | _, _ => false
  end.
(** hash: that of the int, or of the object. *)
Definition val_hash (hint : Z -> Z) (haddr : nat -> Z) (v : eval) : Z :=
  match v with VInt z => hint z | VBool b => hint (if b then 1 else 0) | VAuto k => haddr k end.

(** What a class body binds a name to: a possible member, or some other object (numbered; is it a descriptor, is it hashable). *)
Inductive nsval := NMember (v : eval) | NOther (id : nat) (descr hashable : bool).
Definition body := list (string * nsval).
Definition efields := list (string * eval).

(** Attributes a class itself defines: members, properties name and value of Enum (adt.py:259-261, 289-292), other objects. *)
Inductive eattr := EMem (m : nat) | EProp | EOther (x : nsval).
Record ekey := EKey { k_fields : efields; k_bases : list nat; k_name : string; k_others : list (string * nsval) }.
(** A class object: __name__, __bases__, __mro__, _fields_, its own _field_table_, _unbound_base_, its own attributes. *)
Record ecls := EC { ec_name : string; ec_bases : list nat; ec_mro : list nat; ec_fields : option (list nat);
                    ec_table : option (list (string * nat)); ec_unbound : option nat; ec_attrs : list (string * eattr) }.
(** A member: its class, _value_ and _name_. *)
Record emem := EM { em_cls : nat; em_val : eval; em_name : string }.
(** The interpreter: classes and members ever made, and EnumMeta._class_cache (230). Class 0 is Enum. *)
Record est := ES { eclasses : list ecls; emembers : list emem; ecache : list (ekey * nat) }.
Definition ecls0 : ecls := EC "Enum" [] [0%nat] None None (Some 0%nat) [("name", EProp); ("value", EProp)]%string.
Definition est0 : est := ES [ecls0] [] [].
Definition cget (s : est) (c : nat) : ecls := nth c (eclasses s) (EC "" [] [] None None None []).
Definition mget (s : est) (m : nat) : emem := nth m (emembers s) (EM 0 (VInt 0) "").

(** issubclass(a, b), isinstance(m, c). *)
Definition eissub (s : est) (a b : nat) : bool := mem b (ec_mro (cget s a)).
Definition einst (s : est) (m c : nat) : bool := eissub s (em_cls (mget s m)) c.
Definition ec3 (s : est) (bases : list nat) : option (list nat) :=
  let ls := map (fun b => ec_mro (cget s b)) bases ++ [bases] in merge (total_len ls) ls.

(** Enum.__eq__, adt.py:266-270; [None]: NotImplemented. *)
Definition eq_method (s : est) (x y : nat) : option bool :=
  if einst s y (em_cls (mget s x)) then Some (val_eqb (em_val (mget s x)) (em_val (mget s y))) else None.
(** x == y: the reflected method comes first when the class of y is a proper subclass; the default is identity. *)
Definition mem_eqb (s : est) (x y : nat) : bool :=
  let tx := em_cls (mget s x) in
  let ty := em_cls (mget s y) in
  let '(a, b) := if negb (Nat.eqb tx ty) && eissub s ty tx then (eq_method s y x, eq_method s x y) else (eq_method s x y, eq_method s y x) in
  match a with
  | Some r => r
  | None => match b with Some r => r | None => Nat.eqb x y end
  end.
(** x != y, adt.py:272-273, and hash(x), 275-276. *)
Definition mem_neb (s : est) (x y : nat) : bool := negb (mem_eqb s x y).
Definition mem_hash (hint : Z -> Z) (haddr : nat -> Z) (s : est) (x : nat) : Z := val_hash hint haddr (em_val (mget s x)).

(** Tuples of members compare with "is" or ==. *)
Fixpoint tuple_eqb (s : est) (a b : list nat) : bool :=
  match a, b with
  | [], [] => true
  | x :: a, y :: b => (Nat.eqb x y || mem_eqb s x y) && tuple_eqb s a b
  | _, _ => false
  end.

(** BoundMeta.__new__, adt_meta.py:252-264: the inherited fields and the unbound bases. *)
Fixpoint join_fields (s : est) (bt : option (list nat)) (bases : list nat) : res (option (list nat) * list nat) :=
  match bases with
  | [] => Ok (bt, [])
  | b :: bases =>
      match ec_fields (cget s b) with
      | Some f =>
          match bt with
          | None => join_fields s (Some f) bases
          | Some f' => if tuple_eqb s f' f then join_fields s bt bases else Raise ETypeError
          end
      | None => r <- join_fields s bt bases ;; Ok (fst r, b :: snd r)
      end
  end.
Definition put_cls (s : est) (c : ecls) : est := ES (eclasses s ++ [c]) (emembers s) (ecache s).
(** BoundMeta.__new__, 247-280; the class is not yet entered. The last branch (276-278) cannot be reached. *)
Definition new_cls (s : est) (name : string) (bases : list nat) (attrs : list (string * eattr)) : res ecls :=
  r <- join_fields s None bases ;;
  match ec3 s bases with                                                    (* 266 *)
  | None => Raise ETypeError
  | Some l =>
      let c := length (eclasses s) in
      let unb := match fst r, snd r with
                 | None, _ => Some c                                        (* 270-272 *)
                 | Some _, [u] => Some u                                    (* 273-275 *)
                 | Some _, _ => None
                 end in
      Ok (EC name bases (c :: l) (fst r) None unb attrs)
  end.

(** EnumMeta._from_fields, 592-617. setattr(cls, "unbound_t", ...) (609) raises AttributeError: the metaclass has a property of that
    name without a setter (334-340). The other properties of the metaclass have reserved names. *)
Definition from_table (s : est) (fs : efields) : list (string * nat) := combine (map fst fs) (seq (length (emembers s)) (length fs)).
Definition new_enum (s : est) (fs : efields) (name : string) (bases : list nat) (attrs : list (string * eattr)) : est * res nat :=
  match bases with
  | [b] =>
      match new_cls s name bases attrs with                                 (* 601 *)
      | Raise e => (s, Raise e)
      | Ok k =>
          if str_mem "unbound_t" (map fst fs) then (s, Raise EAttributeError)
          else
            let c := length (eclasses s) in
            let t := from_table s fs in
            let k := EC (ec_name k) (ec_bases k) (ec_mro k) (Some (map snd t)) (Some t) (Some b)
                       (map (fun e => (fst e, EMem (snd e))) t ++ ec_attrs k) in
            (ES (eclasses s ++ [k]) (emembers s ++ map (fun f => EM c (snd f) (fst f)) fs) (ecache s), Ok c)
      end
  | _ => (s, Raise ETypeError)                                              (* 594-599 *)
  end.

(** == on keys: fields_idx is a frozenset of pairs (162), so is ns_idx (154-157); objects other than ints compare by identity. *)
Definition field_eqb (a b : string * eval) : bool := String.eqb (fst a) (fst b) && val_eqb (snd a) (snd b).
Definition other_eqb (a b : string * nsval) : bool :=
  String.eqb (fst a) (fst b) &&
  match snd a, snd b with
  | NMember v, NMember w => val_eqb v w
  | NOther i _ _, NOther j _ _ => Nat.eqb i j
  | _, _ => false
  end.
Definition set_eqb {A} (eqb : A -> A -> bool) (a b : list A) : bool :=
  forallb (fun x => existsb (eqb x) b) a && forallb (fun x => existsb (eqb x) a) b.
Fixpoint nats_eqb (a b : list nat) : bool :=
  match a, b with
  | [], [] => true
  | x :: a, y :: b => Nat.eqb x y && nats_eqb a b
  | _, _ => false
  end.
Definition ekey_eqb (a b : ekey) : bool :=
  set_eqb field_eqb (k_fields a) (k_fields b) && nats_eqb (k_bases a) (k_bases b) && String.eqb (k_name a) (k_name b)
  && set_eqb other_eqb (k_others a) (k_others b).
Definition elookup (s : est) (k : ekey) : option nat := option_map snd (find (fun e => ekey_eqb k (fst e)) (ecache s)).

(** The attributes of a class body that are not members. *)
Definition other_attrs (o : body) : list (string * eattr) := map (fun e => (fst e, EOther (snd e))) o.
Definition key_others (o : body) : body := filter (fun e => negb (is_dunder (fst e))) o.
Definition hashable (x : nsval) : bool := match x with NMember _ => true | NOther _ _ h => h end.
(** _cache_handler, 151-180 *)
Definition handler (s : est) (cache : bool) (fs : efields) (name : string) (bases : list nat) (o : body) : est * res nat :=
  match fs with
  | [] =>                                                                   (* 179-180 *)
      match new_cls s name bases (other_attrs o) with
      | Ok k => (put_cls s k, Ok (length (eclasses s)))
      | Raise e => (s, Raise e)
      end
  | _ =>
      if cache then
        if existsb (fun e => negb (is_dunder (fst e)) && negb (hashable (snd e))) o then (s, Raise ETypeError)   (* 157: unhashable *)
        else
          let k := EKey fs bases name (key_others o) in
          match elookup s k with                                            (* 170-173 *)
          | Some c => (s, Ok c)
          | None =>
              match new_enum s fs name bases (other_attrs o) with
              | (s, Ok c) => (ES (eclasses s) (emembers s) ((k, c) :: ecache s), Ok c)      (* 176-177 *)
              | r => r
              end
          end
      else new_enum s fs name bases (other_attrs o)
  end.

(** _AttrSyntax.__new__, 133-146: the members and the other attributes, in order. *)
Fixpoint split_body (l : body) : res (efields * body) :=
  match l with
  | [] => Ok ([], [])
  | (n, x) :: l =>
      if str_mem n reserved_sunders then Raise EReservedName                                                (* 137-138 *)
      else
        let descr := match x with NOther _ d _ => d | NMember _ => false end in
        if is_dunder n || is_sunder n || descr then                                                         (* 139-140 *)
          if String.eqb n "_name_" && descr then Raise EOutOfModel
          else r <- split_body l ;; Ok (fst r, (n, x) :: snd r)
        else if str_mem n reserved_names then Raise EReservedName                                           (* 141-142 *)
        else
          r <- split_body l ;;
          match x with
          | NMember v => Ok ((n, v) :: fst r, snd r)                                                        (* 143-144 *)
          | NOther _ _ _ => Ok (fst r, (n, x) :: snd r)                                                     (* 145-146 *)
          end
  end.
(** class name(bases, cache=cache): body *)
Definition enum_stmt (s : est) (name : string) (bases : list nat) (l : body) (cache : bool) : est * res nat :=
  match split_body l with
  | Raise e => (s, Raise e)
  | Ok (fs, o) => handler s cache fs name bases o
  end.
(** cls.from_fields(name, fields, cache), 182-202 *)
Definition enum_from_fields (s : est) (u : nat) (name : string) (fs : efields) (cache : bool) : est * res nat :=
  match ec_fields (cget s u) with
  | Some _ => (s, Raise ETypeError)                                         (* 187-188 *)
  | None =>
      if existsb (fun f => str_mem (fst f) (reserved_names ++ reserved_sunders)) fs then (s, Raise EReservedName)
      else if existsb (fun f => is_dunder (fst f)) fs then (s, Raise EOutOfModel)
      else handler s cache fs name [u] []
  end.

(** Reading a class. *)
Definition efields_of (s : est) (c : nat) : option (list nat) := ec_fields (cget s c).
(** E.enumerate(), 628-629: yield from None is a TypeError. *)
Definition eenumerate (s : est) (c : nat) : res (list nat) := match efields_of s c with Some l => Ok l | None => Raise ETypeError end.
(** E.field_dict, 624-626: the _field_table_ of the first class of the method resolution order that has one. *)
Fixpoint first_some {A B} (f : A -> option B) (l : list A) : option B :=
  match l with [] => None | x :: l => match f x with Some y => Some y | None => first_some f l end end.
Definition etable (s : est) (c : nat) : option (list (string * nat)) := first_some (fun x => ec_table (cget s x)) (ec_mro (cget s c)).
Definition efield_dict (s : est) (c : nat) : res (list (string * nat)) :=
  match etable s c with Some t => Ok t | None => Raise EAttributeError end.
(** E.unbound_t, 334-340 *)
Definition eunbound_t (s : est) (c : nat) : res nat := match ec_unbound (cget s c) with Some u => Ok u | None => Raise EAttributeError end.
Definition assoc {A} (n : string) (l : list (string * A)) : option A := option_map snd (find (fun e => String.eqb (fst e) n) l).
Definition cls_attr (s : est) (c : nat) (n : string) : option eattr := first_some (fun x => assoc n (ec_attrs (cget s x))) (ec_mro (cget s c)).

(** What attribute access gives: a member, a string, a value, another object of the program, or one of the type machinery. *)
Inductive obj := OMem (m : nat) | OStr (n : string) | OVal (v : eval) | OOther (x : nsval) | OMeta.
(** E.n. The properties of the metaclass come before the attributes of E; its methods (from_fields, rebind, mro, ...) after them
    are left out. *)
Definition meta_props : list string := ["fields"; "field_dict"; "is_bound"; "unbound_t"; "is_cached"]%string.
Definition class_attr (s : est) (c : nat) (n : string) : res obj :=
  if str_mem n meta_props then Ok OMeta
  else match cls_attr s c n with
       | Some (EMem m) => Ok (OMem m)
       | Some (EOther i) => Ok (OOther i)
       | Some EProp => Ok OMeta
       | None => Raise EAttributeError
       end.
(** E.a.n: Enum.__getattribute__, adt.py:278-287, then the usual search: properties, the attributes _name_ and _value_ of
    the member, attributes of the class. *)
Definition inst_attr (s : est) (m : nat) (n : string) : res obj :=
  match etable s (em_cls (mget s m)) with
  | None => Raise EAttributeError
  | Some t =>
      if str_mem n (map fst t) then Raise EAttributeError                   (* 284-285 *)
      else
        let a := cls_attr s (em_cls (mget s m)) n in
        match a with
        | Some EProp =>
            if String.eqb n "value" then Ok (OVal (em_val (mget s m)))      (* 289-292 *)
            else if str_mem "_name_" (map fst t) then Raise EAttributeError
            else Ok (OStr (em_name (mget s m)))                             (* 259-261 *)
        | _ =>
            if String.eqb n "_name_" then Ok (OStr (em_name (mget s m)))
            else if String.eqb n "_value_" then Ok (OVal (em_val (mget s m)))
            else match a with
                 | Some (EMem k) => Ok (OMem k)
                 | Some (EOther i) => Ok (OOther i)
                 | _ => Raise EAttributeError
                 end
        end
  end.
(** repr(E.a), adt.py:263-264, when name is a string. *)
Definition erepr (s : est) (m : nat) : res string :=
  match inst_attr s m "name" with
  | Ok (OStr n) => Ok (ec_name (cget s (em_cls (mget s m))) ++ "." ++ n)%string
  | Ok _ => Raise EOutOfModel
  | Raise e => Raise e
  end.
(** E(x), adt_meta.py:619-622 *)
Definition ecall (s : est) (c : nat) (x : obj) : res obj :=
  match x with
  | OMem m => if einst s m c then Ok x else Raise ETypeError
  | _ => Raise ETypeError
  end.

(** What a program does. A namespace is a dict, so its names are different. Cached classes are held weakly: [EForget k] is the k-th
    entry of the cache going away, which the model allows at any time. *)
Inductive eop :=
| EClass (name : string) (bases : list nat) (l : body) (cache : bool)
| EFromFields (u : nat) (name : string) (fs : efields) (cache : bool)
| EForget (k : nat).
Fixpoint distinct (l : list string) : bool := match l with [] => true | x :: l => negb (str_mem x l) && distinct l end.
Definition eok (s : est) (o : eop) : bool :=
  match o with
  | EClass _ bases l _ => negb (Nat.eqb (length bases) 0) && forallb (fun b => Nat.ltb b (length (eclasses s))) bases && distinct (map fst l)
  | EFromFields u _ fs _ => Nat.ltb u (length (eclasses s)) && distinct (map fst fs)
  | EForget _ => true
  end.
Definition estep (s : est) (o : eop) : est :=
  if negb (eok s o) then s
  else match o with
       | EClass name bases l cache => fst (enum_stmt s name bases l cache)
       | EFromFields u name fs cache => fst (enum_from_fields s u name fs cache)
       | EForget k => ES (eclasses s) (emembers s) (firstn k (ecache s) ++ skipn (S k) (ecache s))
       end.
Definition erun (s : est) (h : list eop) : est := fold_left estep h s.
