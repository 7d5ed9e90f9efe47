(** Type modifiers: make_modifier, M(T), get_modifier, get_unmodified, unwrap_modifier and wrap_modifier
    (hwtypes/modifiers.py:25-134), over histories with garbage collection. Definitions only.
    Simplifications: class names are left out (the name of M(T) is M.__name__ + T.__name__, 52), so are
    metaclass hooks run by type(...) (56), classes that may not be subclassed (bool), instances of
    modifiers (M(), 43-44), modifiers applied to modifiers, subclasses of modifiers, and _DEBUG (9, 70-72, 89-93). *)
From Verif Require Import PyBase MetaModel.

(** A class object: __bases__ and __mro__. Classes are numbered in order of creation; 0 is [object]. *)
Record kls := Kls { k_bases : list nat; k_mro : list nat }.

(** The interpreter. [table], [gone]: classes ever made and those collected. [lookup]: _modifier_lookup (26), from a
    modified class to its modifier. [subs]: the pairs (M, x) with x in M._sub_classes (63). [cached]: M._sub_class_cache
    (62), as (M, T, M(T)). Modifiers are numbered in order of creation; 0 is AbstractModifier. [mnames], [mgone]:
    modifiers ever made and those collected. [by_name]: _mod_cache (103). [held], [mheld]: the classes and
    modifiers in variables of the program. *)
Record mst := MSt {
  table : list kls; gone : list nat;
  lookup : list (nat * nat); subs : list (nat * nat); cached : list (nat * nat * nat);
  mnames : list string; mgone : list nat; by_name : list (string * nat);
  held : list nat; mheld : list nat }.

Definition get_kls (s : mst) (c : nat) : kls := nth c (table s) (Kls [] []).
Definition live (s : mst) (c : nat) : bool := Nat.ltb c (length (table s)) && negb (mem c (gone s)).
Definition mlive (s : mst) (m : nat) : bool := Nat.ltb m (length (mnames s)) && negb (mem m (mgone s)).

(** issubclass(a, b) for classes that are not modifiers. *)
Definition is_sub (s : mst) (a b : nat) : bool := mem b (k_mro (get_kls s a)).

(** type(name, bases, {}) (56) and class statements: C3, as in MetaModel.v. A repeated base (CPython: "duplicate base
    class") has no linearization either. *)
Definition linearize (s : mst) (bases : list nat) : option (list nat) :=
  let ls := map (fun b => k_mro (get_kls s b)) bases ++ [bases] in merge (total_len ls) ls.
Definition add_kls (s : mst) (k : kls) : mst :=
  MSt (table s ++ [k]) (gone s) (lookup s) (subs s) (cached s) (mnames s) (mgone s) (by_name s) (held s) (mheld s).
Definition make_class (s : mst) (bases : list nat) : mst * res nat :=
  match linearize s bases with
  | None => (s, Raise ETypeError)
  | Some l => let t := length (table s) in (add_kls s (Kls bases (t :: l)), Ok t)
  end.

(** cls._sub_class_cache[unmod_cls], 48 *)
Definition find_cached (s : mst) (m c : nat) : option nat :=
  option_map snd (find (fun e => Nat.eqb (fst (fst e)) m && Nat.eqb (snd (fst e)) c) (cached s)).

(** _register_modified, 65-69 *)
Definition register (s : mst) (m unmod t : nat) : mst :=
  MSt (table s) (gone s) ((t, m) :: lookup s) ((m, t) :: subs s) ((m, unmod, t) :: cached s)
    (mnames s) (mgone s) (by_name s) (held s) (mheld s).

(** M(T), 46-58. The classes made for the bases stay registered when a later one raises. The fuel bounds the depth of
    the hierarchy and is never exhausted because bases are older than their subclasses. *)
Fixpoint modify (fuel : nat) (s : mst) (m c : nat) : mst * res nat :=
  match find_cached s m c with                                  (* 47-50 *)
  | Some t => (s, Ok t)
  | None =>
      match fuel with
      | O => (s, Raise EOutOfModel)
      | S f =>
          let fix go (s : mst) (bs : list nat) : mst * res (list nat) :=   (* 54-55 *)
            match bs with
            | [] => (s, Ok [])
            | b :: bs =>
                match modify f s m b with
                | (s, Ok t) => match go s bs with (s, Ok ts) => (s, Ok (t :: ts)) | (s, Raise e) => (s, Raise e) end
                | (s, Raise e) => (s, Raise e)
                end
            end in
          match go s (k_bases (get_kls s c)) with
          | (s, Raise e) => (s, Raise e)
          | (s, Ok ts) =>
              match make_class s (c :: ts) with                  (* 53, 56 *)
              | (s, Ok t) => (register s m c t, Ok t)            (* 57-58 *)
              | (s, Raise e) => (s, Raise e)
              end
          end
      end
  end.
(** M(T), 39-58 *)
Definition call (s : mst) (m c : nat) : mst * res nat :=
  if Nat.eqb m 0 then (s, Raise ETypeError)                      (* 40-41 *)
  else modify (S c) s m c.

(** issubclass(T, M), 33-37, and isinstance(obj, M) with T = type(obj), 27-31, for M other than AbstractModifier. *)
Definition subclasscheck (s : mst) (m t : nat) : bool :=
  existsb (fun e => Nat.eqb (fst e) m && Nat.eqb (snd e) t) (subs s).

(** is_modified, get_modifier, get_unmodified, get_all_modifiers, 74-75, 80-101 *)
Definition find_lookup (s : mst) (t : nat) : option nat :=
  option_map snd (find (fun e => Nat.eqb (fst e) t) (lookup s)).
Definition is_modified (s : mst) (t : nat) : bool := match find_lookup s t with Some _ => true | None => false end.
Definition get_modifier (s : mst) (t : nat) : res nat :=
  match find_lookup s t with Some m => Ok m | None => Raise ETypeError end.
Definition get_unmodified (s : mst) (t : nat) : res nat :=
  if is_modified s t
  then match k_bases (get_kls s t) with b :: _ => Ok b | [] => Raise EIndexError end
  else Raise ETypeError.
Fixpoint all_modifiers (fuel : nat) (s : mst) (t : nat) : res (list nat) :=
  if is_modified s t
  then match fuel with
       | O => Raise EOutOfModel
       | S f => u <- get_unmodified s t ;; l <- all_modifiers f s u ;; m <- get_modifier s t ;; Ok (l ++ [m])
       end
  else Ok [].
Definition get_all_modifiers (s : mst) (t : nat) : res (list nat) := all_modifiers (S t) s t.

(** unwrap_modifier, 119-126 *)
Fixpoint unwrap_aux (fuel : nat) (s : mst) (t : nat) : res (nat * list nat) :=
  if negb (is_modified s t) then Ok (t, [])
  else match fuel with
       | O => Raise EOutOfModel
       | S f =>
           m <- get_modifier s t ;;
           u <- get_unmodified s t ;;
           r <- unwrap_aux f s u ;;
           Ok (fst r, snd r ++ [m])
       end.
Definition unwrap_modifier (s : mst) (t : nat) : res (nat * list nat) := unwrap_aux (S t) s t.

(** wrap_modifier, 128-134 *)
Fixpoint has_dup (l : list nat) : bool := match l with [] => false | x :: l => mem x l || has_dup l end.
Fixpoint wrap_all (s : mst) (t : nat) (ms : list nat) : mst * res nat :=
  match ms with
  | [] => (s, Ok t)
  | m :: ms => match call s m t with (s, Ok t) => wrap_all s t ms | (s, Raise e) => (s, Raise e) end
  end.
Definition wrap_modifier (s : mst) (t : nat) (ms : list nat) : mst * res nat :=
  if has_dup ms then (s, Raise ETypeError) else wrap_all s t ms.

(** make_modifier, 105-117 *)
Definition find_name (s : mst) (n : string) : option nat :=
  option_map snd (find (fun e => String.eqb (fst e) n) (by_name s)).
Definition make_modifier (s : mst) (n : string) (cache : bool) : mst * nat :=
  match (if cache then find_name s n else None) with             (* 106-110 *)
  | Some m => (s, m)
  | None =>
      let m := length (mnames s) in                               (* 112 *)
      (MSt (table s) (gone s) (lookup s) (subs s) (cached s) (mnames s ++ [n]) (mgone s)
         (if cache then (n, m) :: by_name s else by_name s) (held s) (mheld s), m)   (* 114-117 *)
  end.

(** What a program does: class statements, making and applying modifiers, dropping references, and garbage collection. *)
Inductive mop :=
| OClass (bases : list nat)
| OModifier (name : string) (cache : bool)
| OApply (m c : nat)
| OWrap (c : nat) (ms : list nat)
| ODrop (c : nat)
| ODropModifier (m : nat)
| OCollect (c : nat)
| OCollectModifier (m : nat).

Definition keep (s : mst) (c : nat) : mst :=
  MSt (table s) (gone s) (lookup s) (subs s) (cached s) (mnames s) (mgone s) (by_name s) (c :: held s) (mheld s).
Definition mkeep (s : mst) (m : nat) : mst :=
  MSt (table s) (gone s) (lookup s) (subs s) (cached s) (mnames s) (mgone s) (by_name s) (held s) (m :: mheld s).
Definition keep_result (r : mst * res nat) : mst := match r with (s, Ok t) => keep s t | (s, Raise _) => s end.
(** A class is referenced by variables and by the __bases__ of live classes (the caches hold it weakly, or hold it as a
    key whose value has it as a base); a modifier by variables and by _modifier_lookup, for its live modified classes. *)
Definition kept (s : mst) (c : nat) : bool :=
  mem c (held s) || existsb (fun d => live s d && mem c (k_bases (get_kls s d))) (seq 0 (length (table s))).
Definition mkept (s : mst) (m : nat) : bool := mem m (mheld s) || mem m (map snd (lookup s)).

Definition ostep (s : mst) (o : mop) : mst :=
  match o with
  | OClass bs =>
      let bs := match bs with [] => [0%nat] | _ => bs end in
      if forallb (live s) bs then keep_result (make_class s bs) else s
  | OModifier n c => let r := make_modifier s n c in mkeep (fst r) (snd r)
  | OApply m c => if mlive s m && live s c then keep_result (call s m c) else s
  | OWrap c ms => if forallb (mlive s) ms && live s c then keep_result (wrap_modifier s c ms) else s
  | ODrop c =>
      MSt (table s) (gone s) (lookup s) (subs s) (cached s) (mnames s) (mgone s) (by_name s)
        (remove Nat.eq_dec c (held s)) (mheld s)
  | ODropModifier m =>
      MSt (table s) (gone s) (lookup s) (subs s) (cached s) (mnames s) (mgone s) (by_name s) (held s)
        (remove Nat.eq_dec m (mheld s))
  | OCollect c =>
      if live s c && negb (kept s c) && negb (Nat.eqb c 0)
      then MSt (table s) (c :: gone s) (filter (fun e => negb (Nat.eqb (fst e) c)) (lookup s))
             (filter (fun e => negb (Nat.eqb (snd e) c)) (subs s)) (filter (fun e => negb (Nat.eqb (snd e) c)) (cached s))
             (mnames s) (mgone s) (by_name s) (held s) (mheld s)
      else s
  | OCollectModifier m =>
      if mlive s m && negb (mkept s m) && negb (Nat.eqb m 0)
      then MSt (table s) (gone s) (lookup s) (subs s) (cached s) (mnames s) (m :: mgone s)
             (filter (fun e => negb (Nat.eqb (snd e) m)) (by_name s)) (held s) (mheld s)
      else s
  end.
(** [object] and AbstractModifier exist. *)
Definition mst0 : mst := MSt [Kls [] [0%nat]] [] [] [] [] ["AbstractModifier"%string] [] [] [0%nat] [0%nat].
Definition orun (s : mst) (h : list mop) : mst := fold_left ostep h s.
