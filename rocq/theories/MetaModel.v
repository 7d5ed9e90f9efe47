(** The class machinery: subclassing, sized classes K[n], the weak class cache and method resolution orders
    (hwtypes/bit_vector_abc.py:17-122), and the common bases of a polymorphic class
    (hwtypes/bit_vector_util.py:100-119). Definitions only. *)
From Verif Require Import PyBase.

(** A class object. Classes are numbered in order of creation; 0 is [object]. [c_bv] says its metaclass is
    AbstractBitVectorMeta; [c_unsized] and [c_size] are the two parts of _info_ (61-70). *)
Record cls := Cls { c_bv : bool; c_bases : list nat; c_mro : list nat; c_unsized : option nat; c_size : option Z }.

(** The interpreter state: all classes ever created, the collected ones, the weak cache (21), and the classes
    the program holds in variables. *)
Record meta := Meta { classes : list cls; dead : list nat; cache : list (nat * Z * nat); vars : list nat }.

Definition get_cls (s : meta) (c : nat) : cls := nth c (classes s) (Cls false [] [] None None).
Definition mem (x : nat) (l : list nat) : bool := existsb (Nat.eqb x) l.

(** issubclass(a, b) *)
Definition issub (s : meta) (a b : nat) : bool := mem b (c_mro (get_cls s a)).

(** CPython's C3 linearization (mro_implementation / pmerge in typeobject.c): repeatedly take the first list
    head that is in no list's tail. *)
Definition in_tail (x : nat) (l : list nat) : bool := match l with [] => false | _ :: t => mem x t end.
Definition heads (ls : list (list nat)) : list nat :=
  flat_map (fun l => match l with [] => [] | h :: _ => [h] end) ls.
Definition pick (ls : list (list nat)) : option nat :=
  find (fun h => forallb (fun l => negb (in_tail h l)) ls) (heads ls).
Definition strip1 (x : nat) (l : list nat) : list nat :=
  match l with [] => [] | h :: t => if Nat.eqb h x then t else l end.
Fixpoint merge (fuel : nat) (ls : list (list nat)) : option (list nat) :=
  match heads ls with
  | [] => Some []
  | _ =>
      match fuel with
      | O => None
      | S f =>
          match pick ls with
          | None => None                       (* "Cannot create a consistent method resolution order" *)
          | Some x => option_map (cons x) (merge f (map (strip1 x) ls))
          end
      end
  end.
Definition total_len (ls : list (list nat)) : nat := fold_right (fun l n => (length l + n)%nat) 0%nat ls.
Definition c3 (s : meta) (bases : list nat) : option (list nat) :=
  let ls := map (fun b => c_mro (get_cls s b)) bases ++ [bases] in merge (total_len ls) ls.

(** The size check over the bases, 55-60. *)
Fixpoint join_size (s : meta) (size : option Z) (bases : list nat) : res (option Z) :=
  match bases with
  | [] => Ok size
  | b :: bases =>
      match c_size (get_cls s b) with
      | None => join_size s size bases
      | Some m =>
          match size with
          | None => join_size s (Some m) bases
          | Some k => if k =? m then join_size s size bases else Raise ETypeError
          end
      end
  end.

(** mcs.__new__(name, bases, namespace, info), 51-72; [unsized] and [size] are info. A namespace defining
    _info_ (52-53) is not modelled. *)
Definition new_class (s : meta) (bv : bool) (bases : list nat) (unsized : option nat) (size : option Z)
  : res (meta * nat) :=
  size <- join_size s size bases ;;
  match c3 s bases with
  | None => Raise ETypeError
  | Some l =>
      let t := length (classes s) in
      let u := match size, unsized with
               | None, _ => Some t             (* 65-67 *)
               | Some _, u => u                (* 68-70: None when inherited from sized types *)
               end in
      Ok (Meta (classes s ++ [Cls bv bases (t :: l) u size]) (dead s) (cache s) (vars s), t)
  end.

Definition find_cache (s : meta) (c : nat) (n : Z) : option nat :=
  option_map snd (find (fun e => Nat.eqb (fst (fst e)) c && (snd (fst e) =? n)) (cache s)).

(** A subscript: an int, a float equal to an int (equal and of equal hash, so a cache hit), or something else. *)
Inductive cidx := XInt (n : Z) | XFloat (n : Z) | XOther.

(** cls[n], 75-97, for an int n. The bases are indexed recursively (90); the fuel bounds the depth and is never
    exhausted because bases are older than their subclasses. *)
Fixpoint index_cls (fuel : nat) (s : meta) (c : nat) (n : Z) : res (meta * nat) :=
  match find_cache s c n with                                        (* 77-80 *)
  | Some t => Ok (s, t)
  | None =>
      if n <? 0 then Raise EValueError else                          (* 84-85 *)
      match c_size (get_cls s c) with
      | Some _ => Raise ETypeError                                   (* 87-88 *)
      | None =>
          match fuel with
          | O => Raise EOutOfModel
          | S f =>
              let fix go (s : meta) (bs : list nat) : res (meta * list nat) :=
                match bs with
                | [] => Ok (s, [])
                | b :: bs =>
                    if c_bv (get_cls s b)
                    then r <- index_cls f s b n ;; rs <- go (fst r) bs ;; Ok (fst rs, snd r :: snd rs)
                    else go s bs
                end in
              r <- go s (c_bases (get_cls s c)) ;;                    (* 90-92 *)
              q <- new_class (fst r) true (c :: snd r) (Some c) (Some n) ;;   (* 93-94 *)
              let s := fst q in
              Ok (Meta (classes s) (dead s) ((c, n, snd q) :: cache s) (vars s), snd q)   (* 96-97 *)
          end
      end
  end.
Definition getitem_cls (s : meta) (c : nat) (i : cidx) : res (meta * nat) :=
  match i with
  | XInt n => index_cls (S c) s c n
  | XFloat n => match find_cache s c n with Some t => Ok (s, t) | None => Raise ETypeError end   (* 77-83 *)
  | XOther => Raise ETypeError                                       (* 82-83 *)
  end.

(** What a program does: class statements (with AbstractBitVectorMeta as soon as a base has it), indexing,
    dropping references, and garbage collection of a class nothing refers to. *)
Inductive mcall :=
| MClass (bases : list nat)
| MIndex (c : nat) (i : cidx)
| MDrop (c : nat)
| MCollect (c : nat).

Definition alive (s : meta) (c : nat) : bool := Nat.ltb c (length (classes s)) && negb (mem c (dead s)).
Definition hold (s : meta) (c : nat) : meta := Meta (classes s) (dead s) (cache s) (c :: vars s).
(** A class is referenced by variables and by the __bases__ of its live subclasses (its own _info_ refers to
    one of its bases). *)
Definition referenced (s : meta) (c : nat) : bool :=
  mem c (vars s) || existsb (fun d => alive s d && mem c (c_bases (get_cls s d))) (seq 0 (length (classes s))).
Definition mstep (s : meta) (op : mcall) : meta :=
  match op with
  | MClass bs =>
      let bs := match bs with [] => [0%nat] | _ => bs end in
      if forallb (alive s) bs
      then match new_class s (existsb (fun b => c_bv (get_cls s b)) bs) bs None None with
           | Ok (s, t) => hold s t
           | Raise _ => s
           end
      else s
  | MIndex c i =>
      if alive s c && c_bv (get_cls s c)
      then match getitem_cls s c i with Ok (s, t) => hold s t | Raise _ => s end
      else s
  | MDrop c => Meta (classes s) (dead s) (cache s) (remove Nat.eq_dec c (vars s))
  | MCollect c =>
      if alive s c && negb (referenced s c) && Nat.leb 2 c
      then Meta (classes s) (c :: dead s) (filter (fun e => negb (Nat.eqb (snd e) c)) (cache s)) (vars s)
      else s
  end.
(** [object] and AbstractBitVector (157). *)
Definition meta0 : meta :=
  Meta [Cls false [] [0%nat] (Some 0%nat) None; Cls true [0%nat] [1%nat; 0%nat] (Some 1%nat) None] [] [] [0%nat; 1%nat].
Definition mrun (h : list mcall) : meta := fold_left mstep h meta0.

(** _get_common_bases, bit_vector_util.py:100-119, with sets as duplicate-free lists. *)
Definition add_all (l m : list nat) : list nat := fold_left (fun a x => if mem x a then a else a ++ [x]) l m.
Definition most_specific (s : meta) (l : list nat) : list nat :=
  filter (fun bi => negb (existsb (fun bj => issub s bj bi && negb (Nat.eqb bi bj)) l)) l.
Fixpoint common_bases (fuel : nat) (s : meta) (a b : nat) : list nat :=
  if issub s a b then [b]
  else if issub s b a then [a]
  else match fuel with
       | O => []
       | S f =>
           most_specific s
             (add_all (flat_map (fun t => common_bases f s t a) (c_bases (get_cls s b)))
               (add_all (flat_map (fun t => common_bases f s t b) (c_bases (get_cls s a))) []))
       end.
Definition get_common_bases (s : meta) (a b : nat) : list nat := common_bases (S (a + b)) s a b.
