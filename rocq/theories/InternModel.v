(** The class cache of algebraic data types: T[...], class statements and from_fields, over histories with garbage
    collection (hwtypes/adt_meta.py:17-203, 225-319, 350-634). Definitions only.
    Simplifications: unbound classes have one base; subclasses of bound types, class keyword arguments, the names of
    getitem types and methods are left out; a definition that raises leaves no classes behind; __module__ and __qualname__ are dunder entries and therefore irrelevant. *)
From Verif Require Import PyBase.

(** Classes are numbered in order of creation. *)
Definition cid := nat.
(** Values of a class namespace: a class, an int, a bool, an Auto() object or any other object, by identity, with whether
    it is a descriptor (adt_meta.py:29-30). Classes that define __get__, __set__ or __delete__ are left out. *)
Inductive nval := NType (c : cid) | NInt (z : Z) | NBool (b : bool) | NAuto (i : Z) | NObj (i : Z) (descr : bool).
(** == on them (True == 1). *)
Definition nval_eqb (a b : nval) : bool :=
  let num v := match v with NInt z => Some z | NBool b => Some (b2z b) | _ => None end in
  match num a, num b with
  | Some x, Some y => x =? y
  | None, None =>
      match a, b with
      | NType c, NType d => Nat.eqb c d
      | NAuto i, NAuto j => i =? j
      | NObj i d, NObj j e => (i =? j) && Bool.eqb d e
      | _, _ => false
      end
  | _, _ => false
  end.
Definition field := (string * nval)%type.
Definition field_eqb (a b : field) : bool := String.eqb (fst a) (fst b) && nval_eqb (snd a) (snd b).

(** == on tuples and frozensets of such pairs. *)
Fixpoint seq_eqb (a b : list field) : bool :=
  match a, b with
  | [], [] => true
  | x :: a, y :: b => field_eqb x y && seq_eqb a b
  | _, _ => false
  end.
Definition subset_eqb (a b : list field) : bool := forallb (fun x => existsb (field_eqb x) b) a.
Definition fields_eqb (ordered : bool) (a b : list field) : bool :=
  if ordered then seq_eqb a b else subset_eqb a b && subset_eqb b a.

(** Metaclasses; [MType]: any other class. *)
Inductive mk := MTuple | MAnon | MProd | MSum | MTag | MEnum | MType.
Definition mk_eqb (a b : mk) : bool :=
  match a, b with
  | MTuple, MTuple | MAnon, MAnon | MProd, MProd | MSum, MSum | MTag, MTag | MEnum, MEnum | MType, MType => true
  | _, _ => false
  end.
(** ORDERED, adt_meta.py:75, 129, 227, 351, 468, 499, 527, 589; AnonymousProduct indices are OrderedFrozenDicts (379), so
    ordered as well. *)
Definition ordered (m : mk) : bool := match m with MTuple | MAnon | MProd => true | _ => false end.

(** A class: metaclass, __bases__, __name__, fields (None: unbound), and the other non-dunder attributes of the class
    statement. The fields of getitem types have the name "" (Tuple, Sum). *)
Record tclass := TC { t_meta : mk; t_bases : list cid; t_name : string; t_fields : option (list field); t_ns : list field }.

(** Cache keys, adt_meta.py:100 and 160-164. *)
Inductive ckey :=
| KGet (u : cid) (ord : bool) (fs : list field)
| KAttr (u : cid) (ord : bool) (name : string) (fs ns : list field).
Definition key_eqb (a b : ckey) : bool :=
  match a, b with
  | KGet u o fs, KGet u' o' fs' => Nat.eqb u u' && Bool.eqb o o' && fields_eqb o fs fs'
  | KAttr u o n fs ns, KAttr u' o' n' fs' ns' =>
      Nat.eqb u u' && Bool.eqb o o' && String.eqb n n' && fields_eqb o fs fs' && fields_eqb false ns ns'
  | _, _ => false
  end.

(** The interpreter: every class ever made, the collected ones, the weak cache (230), and the variables of the program. *)
Record ist := IS { classes : list tclass; dead : list cid; cache : list (ckey * cid); vars : list cid }.
Definition mem (x : cid) (l : list cid) : bool := existsb (Nat.eqb x) l.
Definition get_cls (s : ist) (c : cid) : tclass := nth c (classes s) (TC MType [] "" None []).
Definition alive (s : ist) (c : cid) : bool := Nat.ltb c (length (classes s)) && negb (mem c (dead s)).
Definition lookup (s : ist) (k : ckey) : option cid := option_map snd (find (fun e => key_eqb k (fst e)) (cache s)).
Definition is_bound (s : ist) (c : cid) : bool := match t_fields (get_cls s c) with Some _ => true | None => false end.
Definition add_class (s : ist) (c : tclass) : ist * cid :=
  (IS (classes s ++ [c]) (dead s) (cache s) (vars s), length (classes s)).
Definition store (s : ist) (k : ckey) (t : cid) : ist := IS (classes s) (dead s) ((k, t) :: cache s) (vars s).

(** The unbound base of a class (its first base), and the nearest one with another metaclass: _get_tuple_base,
    _get_anon_base, _get_sum_base, adt_meta.py:416-428, 471-481, 530-540. *)
Definition parent (s : ist) (c : cid) : option cid := match t_bases (get_cls s c) with b :: _ => Some b | [] => None end.
Fixpoint ancestor (fuel : nat) (s : ist) (c : cid) (m : mk) : option cid :=
  match fuel with
  | O => None
  | S f =>
      match parent s c with
      | None => None
      | Some b => if mk_eqb (t_meta (get_cls s b)) m then Some b else ancestor f s b m
      end
  end.
Definition unname (fs : list field) : list field := map (fun f => (EmptyString, snd f)) fs.

(** Valid parameter names for the generated constructor, adt_meta.py:395-412: Python identifiers (ASCII; other bytes count
    as letters) that are not keywords, other than self and cls. Anything else is a SyntaxError. *)
Definition letter (c : ascii) : bool :=
  let n := N_of_ascii c in
  ((65 <=? n) && (n <=? 90) || (97 <=? n) && (n <=? 122) || (n =? 95) || (128 <=? n))%N%bool.
Definition digit (c : ascii) : bool := let n := N_of_ascii c in ((48 <=? n) && (n <=? 57))%N%bool.
Fixpoint all_chars (p : ascii -> bool) (s : string) : bool :=
  match s with EmptyString => true | String c s => p c && all_chars p s end.
Definition keywords : list string :=
  ["False"; "None"; "True"; "and"; "as"; "assert"; "async"; "await"; "break"; "class"; "continue"; "def"; "del"; "elif";
   "else"; "except"; "finally"; "for"; "from"; "global"; "if"; "import"; "in"; "is"; "lambda"; "nonlocal"; "not"; "or";
   "pass"; "raise"; "return"; "try"; "while"; "with"; "yield"]%string.
Definition str_mem (n : string) (l : list string) : bool := existsb (String.eqb n) l.
Definition param_ok (n : string) : bool :=
  match n with
  | EmptyString => false
  | String c r => letter c && all_chars (fun c => letter c || digit c) r
                  && negb (str_mem n keywords) && negb (str_mem n ["self"; "cls"]%string)
  end.

(** u[idx] for an unbound u and an index already translated by _get_idx: _cache_handler and _from_idx, 97-107, 282-296,
    309-319 (the bases of u of the same metaclass are indexed too), 381, 416-434 (AnonymousProduct adds Tuple[values]).
    The fuel bounds the depth of the recursion, bases being older than their subclasses. *)
Fixpoint getitem (fuel : nat) (s : ist) (u : cid) (fs : list field) : res (ist * cid) :=
  let m := t_meta (get_cls s u) in
  let k := KGet u (ordered m) fs in
  match lookup s k with
  | Some t => Ok (s, t)
  | None =>
      match fuel with
      | O => Raise EOutOfModel
      | S f =>
          r1 <- match parent s u with
                | Some b => if mk_eqb (t_meta (get_cls s b)) m
                            then r <- getitem f s b fs ;; Ok (fst r, [snd r]) else Ok (s, [])
                | None => Ok (s, [])
                end ;;
          r2 <- match m with
                | MAnon => match ancestor f (fst r1) u MTuple with
                           | Some b => r <- getitem f (fst r1) b (unname fs) ;; Ok (fst r, [snd r])
                           | None => Raise ETypeError
                           end
                | _ => Ok (fst r1, [])
                end ;;
          if mk_eqb m MAnon && negb (forallb (fun f => param_ok (fst f)) fs) then Raise ESyntaxError else
          let '(s, t) := add_class (fst r2) (TC m (u :: snd r1 ++ snd r2) "" (Some fs) []) in
          Ok (store s k t, t)
      end
  end.

(** Index arguments: one class, an iterable of classes, or a mapping. *)
Inductive idx := IdxOne (c : cid) | IdxSeq (l : list cid) | IdxMap (l : list (string * cid)).
(** _get_idx, 82-95, 376-379, then as above. Product and TaggedUnion cannot be bound this way (495, 569), nor Enum. *)
Definition bind_getitem (s : ist) (u : cid) (i : idx) : res (ist * cid) :=
  if is_bound s u then Raise EOutOfModel else
  match t_meta (get_cls s u), i with
  | (MTuple | MSum), IdxOne c => getitem (S u) s u [(EmptyString, NType c)]
  | (MTuple | MSum), IdxSeq l => getitem (S u) s u (map (fun c => (EmptyString, NType c)) l)
  | MAnon, IdxMap l => getitem (S u) s u (map (fun p => (fst p, NType (snd p))) l)
  | _, _ => Raise ETypeError
  end.

(** _AttrSyntax._cache_handler and _from_fields, 150-180, 470-486, 529-563, 591-617. *)
Definition attr_class (s : ist) (u : cid) (name : string) (fs ns : list field) (cached : bool) : res (ist * cid) :=
  let m := t_meta (get_cls s u) in
  match fs with
  | [] => Ok (add_class s (TC m [u] name None ns))
  | _ =>
      let k := KAttr u (ordered m) name fs ns in
      match (if cached then lookup s k else None) with
      | Some t => Ok (s, t)
      | None =>
          r <- match m with
               | MProd => match ancestor (S u) s u MAnon with
                          | Some b => r <- getitem (S b) s b fs ;; Ok (fst r, [snd r]) | None => Raise ETypeError end
               | MTag => match ancestor (S u) s u MSum with
                         | Some b => r <- getitem (S b) s b (unname fs) ;; Ok (fst r, [snd r]) | None => Raise ETypeError end
               | MEnum => Ok (s, [])
               | _ => Raise ETypeError
               end ;;
          let '(s, t) := add_class (fst r) (TC m (u :: snd r) name (Some fs) ns) in
          Ok (if cached then store s k t else s, t)
      end
  end.

(** Names, adt_meta.py:17-59. *)
Fixpoint last2 (s : string) : option (ascii * ascii * ascii) :=   (* the last three characters, last first *)
  match s with
  | String a (String b (String c EmptyString)) => Some (c, b, a)
  | String _ s => last2 s
  | EmptyString => None
  end.
Definition is_us (a : ascii) : bool := Ascii.eqb a "_".
Definition is_dunder (n : string) : bool :=
  Nat.ltb 4 (String.length n) &&
  match n, last2 n with
  | String a (String b (String c _)), Some (z, y, x) => is_us a && is_us b && is_us z && is_us y && negb (is_us c) && negb (is_us x)
  | _, _ => false
  end.
Definition is_sunder (n : string) : bool :=
  Nat.ltb 2 (String.length n) &&
  match n, last2 n with
  | String a (String b _), Some (z, y, _) => is_us a && is_us z && negb (is_us b) && negb (is_us y)
  | _, _ => false
  end.
Definition reserved_names : list string :=
  ["enumerate"; "fields"; "field_dict"; "is_bound"; "is_cached"; "value_dict"; "from_values"]%string.
Definition reserved_sunders : list string :=
  ["_value_"; "_tag_"; "_cached_"; "_fields_"; "_field_table_"; "_unbound_base_"; "_syntax_"]%string.

(** _is_descriptor, 29-30. *)
Definition is_descriptor (v : nval) : bool := match v with NObj _ d => d | _ => false end.
(** isinstance(v, mcs.FIELDS_T), 128, 467, 526, 588. *)
Definition field_type (m : mk) (v : nval) : bool :=
  match m, v with
  | (MProd | MTag), NType _ => true
  | MEnum, (NInt _ | NBool _ | NAuto _) => true
  | _, _ => false
  end.
(** _AttrSyntax.__new__, 132-148: fields and other attributes, in order. [None]: ReservedNameError. *)
Fixpoint split_ns (m : mk) (l : list field) : option (list field * list field) :=
  match l with
  | [] => Some ([], [])
  | e :: l =>
      let keep (fs ns : list field) := option_map (fun p => (fs ++ fst p, ns ++ snd p)) (split_ns m l) in
      if str_mem (fst e) reserved_sunders then None
      else if is_dunder (fst e) || is_sunder (fst e) || is_descriptor (snd e) then keep [] [e]
      else if str_mem (fst e) reserved_names then None
      else if field_type m (snd e) then keep [e] []
      else keep [] [e]
  end.
(** class name(u): ..., 132-148; dunder entries are not part of the key (154-157). *)
Definition class_stmt (s : ist) (u : cid) (name : string) (l : list field) : res (ist * cid) :=
  if is_bound s u then Raise EOutOfModel else
  match t_meta (get_cls s u) with
  | MProd | MTag | MEnum =>
      match split_ns (t_meta (get_cls s u)) l with
      | None => Raise EReservedName
      | Some (fs, ns) => attr_class s u name fs (filter (fun f => negb (is_dunder (fst f))) ns) true
      end
  | _ => Raise EOutOfModel
  end.
(** u.from_fields(name, fields, cache), 182-202. *)
Definition from_fields (s : ist) (u : cid) (name : string) (fs : list field) (cached : bool) : res (ist * cid) :=
  match t_meta (get_cls s u) with
  | MProd | MTag | MEnum =>
      if is_bound s u then Raise ETypeError
      else if existsb (fun f => str_mem (fst f) (reserved_names ++ reserved_sunders)) fs then Raise EReservedName
      else attr_class s u name fs [] cached
  | _ => Raise EAttributeError
  end.

(** What a program does. *)
Inductive iop :=
| OLeaf                                                                (* some other class, e.g. BitVector[8]; its bases are left out *)
| OSub (u : cid)                                                       (* class X(u): pass, for a getitem class u *)
| OGet (u : cid) (i : idx)
| OStmt (u : cid) (name : string) (l : list field)
| OFrom (u : cid) (name : string) (fs : list field) (cached : bool)
| ODrop (c : cid)
| OCollect (c : cid).

Definition val_refs (l : list field) : list cid := flat_map (fun f => match snd f with NType c => [c] | _ => [] end) l.
Definition idx_refs (i : idx) : list cid := match i with IdxOne c => [c] | IdxSeq l => l | IdxMap l => map snd l end.
Definition op_refs (o : iop) : list cid :=
  match o with
  | OLeaf => [] | OSub u => [u] | OGet u i => u :: idx_refs i
  | OStmt u _ l => u :: val_refs l | OFrom u _ fs _ => u :: val_refs fs
  | ODrop _ | OCollect _ => []
  end.
Definition hold (r : res (ist * cid)) (s : ist) : ist * res cid :=
  match r with
  | Ok (s', t) => (IS (classes s') (dead s') (cache s') (t :: vars s'), Ok t)
  | Raise e => (s, Raise e)
  end.
(** What a class refers to. *)
Definition refs_of (c : tclass) : list cid :=
  t_bases c ++ val_refs (match t_fields c with Some fs => fs | None => [] end) ++ val_refs (t_ns c).
Definition referenced (s : ist) (c : cid) : bool :=
  mem c (vars s) || existsb (fun d => alive s d && mem c (refs_of (get_cls s d))) (seq 0 (length (classes s))).
(** Classes 0-6: object, Tuple, AnonymousProduct, Product, Sum, TaggedUnion, Enum; never collected. *)
Definition n_builtin : nat := 7.
Definition istep (s : ist) (o : iop) : ist * res cid :=
  if forallb (alive s) (op_refs o) then
    match o with
    | OLeaf => hold (Ok (add_class s (TC MType [] "" None []))) s
    | OSub u =>
        match t_meta (get_cls s u), is_bound s u with
        | (MTuple | MAnon | MProd | MSum | MTag | MEnum), false => hold (Ok (add_class s (TC (t_meta (get_cls s u)) [u] "" None []))) s
        | _, _ => (s, Raise EOutOfModel)
        end
    | OGet u i => hold (bind_getitem s u i) s
    | OStmt u n l => hold (class_stmt s u n l) s
    | OFrom u n fs c => hold (from_fields s u n fs c) s
    | ODrop c => (IS (classes s) (dead s) (cache s) (remove Nat.eq_dec c (vars s)), Ok c)
    | OCollect c =>
        if alive s c && negb (referenced s c) && Nat.leb n_builtin c
        then (IS (classes s) (c :: dead s) (filter (fun e => negb (Nat.eqb (snd e) c)) (cache s)) (vars s), Ok c)
        else (s, Raise EOutOfModel)
    end
  else (s, Raise ENameError).
Definition irun (s : ist) (l : list iop) : ist := fold_left (fun s o => fst (istep s o)) l s.
Definition ist0 : ist :=
  let b m p := TC m p "" None [] in
  IS [b MType []; b MTuple [0]; b MAnon [1]; b MProd [2]; b MSum [0]; b MTag [4]; b MEnum [0]]%nat [] [] [].
