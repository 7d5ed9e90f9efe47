(** The class machinery of the floating point types: subclassing, bound classes K[eb, mb, mode, ieee_compliance],
    the weak class cache and method resolution orders (hwtypes/fp_vector_abc.py:17-122). The C3 linearization and
    the membership test come from MetaModel.v. Definitions only. *)
From Verif Require Import PyBase MetaModel FPModel.

(** A class object. Classes are numbered in order of creation; 0 is [object]. [fc_fp] says its metaclass is
    AbstractFPVectorMeta; [fc_unbound] and [fc_binding] are the two parts of _info_ (33-41). *)
Record fcls := FCls { fc_fp : bool; fc_bases : list nat; fc_mro : list nat; fc_unbound : option nat; fc_binding : option fmt }.

(** The interpreter state: all classes ever created, the collected ones, the weak cache (19), and the classes
    the program holds in variables. *)
Record fmeta := FMeta { fclasses : list fcls; fdead : list nat; fcache : list (nat * fmt * nat); fvars : list nat }.

Definition get_fcls (s : fmeta) (c : nat) : fcls := nth c (fclasses s) (FCls false [] [] None None).

(** issubclass(a, b) *)
Definition fissub (s : fmeta) (a b : nat) : bool := mem b (fc_mro (get_fcls s a)).

Definition fc3 (s : fmeta) (bases : list nat) : option (list nat) :=
  let ls := map (fun b => fc_mro (get_fcls s b)) bases ++ [bases] in merge (total_len ls) ls.

(** The check that all bound bases agree, 25-31. *)
Fixpoint join_binding (s : fmeta) (binding : option fmt) (bases : list nat) : res (option fmt) :=
  match bases with
  | [] => Ok binding
  | b :: bases =>
      match fc_binding (get_fcls s b) with
      | None => join_binding s binding bases
      | Some m =>
          match binding with
          | None => join_binding s (Some m) bases
          | Some k => if fmt_eqb k m then join_binding s binding bases else Raise ETypeError
          end
      end
  end.

(** mcs.__new__(name, bases, namespace, info), 21-43; [unbound] and [size] are info. A namespace defining
    _info_ (22-23) is not modelled. *)
Definition new_fclass (s : fmeta) (bv : bool) (bases : list nat) (unbound : option nat) (size : option fmt)
  : res (fmeta * nat) :=
  size <- join_binding s size bases ;;
  match fc3 s bases with
  | None => Raise ETypeError
  | Some l =>
      let t := length (fclasses s) in
      let u := match size, unbound with
               | None, _ => Some t             (* 36-38 *)
               | Some _, u => u                (* 39-41: None when inherited from bound types *)
               end in
      Ok (FMeta (fclasses s ++ [FCls bv bases (t :: l) u size]) (fdead s) (fcache s) (fvars s), t)
  end.

Definition find_fcache (s : fmeta) (c : nat) (n : fmt) : option nat :=
  option_map snd (find (fun e => Nat.eqb (fst (fst e)) c && fmt_eqb (snd (fst e)) n) (fcache s)).

(** A subscript: a tuple (int, int, RoundingMode, bool), a tuple that is equal to such a tuple (and of equal
    hash) but has a bool for an int, an int for the bool or a float among its entries, or a hashable tuple that is
    equal to none. Subscripts without a length and unhashable ones (TypeError) are not modelled. *)
Inductive fidx := FIdx (n : fmt) | FLike (n : fmt) | FOther.

(** cls[idx], 45-72, for a well-typed idx. The bases are indexed recursively (64); the fuel bounds the depth and
    is never exhausted because bases are older than their subclasses. *)
Fixpoint index_fcls (fuel : nat) (s : fmeta) (c : nat) (n : fmt) : res (fmeta * nat) :=
  match find_fcache s c n with                                        (* 47-50 *)
  | Some t => Ok (s, t)
  | None =>
      match fc_binding (get_fcls s c) with
      | Some _ => Raise ETypeError                                    (* 52-53 *)
      | None =>
          if negb (fmt_ok n) then Raise EValueError else              (* 60-61 *)
          match fuel with
          | O => Raise EOutOfModel
          | S f =>
              let fix go (s : fmeta) (bs : list nat) : res (fmeta * list nat) :=
                match bs with
                | [] => Ok (s, [])
                | b :: bs =>
                    if fc_fp (get_fcls s b)
                    then r <- index_fcls f s b n ;; rs <- go (fst r) bs ;; Ok (fst rs, snd r :: snd rs)
                    else go s bs
                end in
              r <- go s (fc_bases (get_fcls s c)) ;;                  (* 64-66 *)
              q <- new_fclass (fst r) true (c :: snd r) (Some c) (Some n) ;;   (* 67-68 *)
              let s := fst q in
              Ok (FMeta (fclasses s) (fdead s) ((c, n, snd q) :: fcache s) (fvars s), snd q)   (* 70-71 *)
          end
      end
  end.
Definition getitem_fcls (s : fmeta) (c : nat) (i : fidx) : res (fmeta * nat) :=
  let wrong := match fc_binding (get_fcls s c) with
               | Some _ => Raise ETypeError                           (* 52-53 *)
               | None => Raise EIndexError                            (* 55-57 *)
               end in
  match i with
  | FIdx n => index_fcls (S c) s c n
  | FLike n => match find_fcache s c n with Some t => Ok (s, t) | None => wrong end
  | FOther => wrong
  end.

(** What a program does: class statements (with AbstractFPVectorMeta as soon as a base has it), indexing,
    dropping references, and garbage collection of a class nothing refers to. *)
Inductive fmcall :=
| FMClass (bases : list nat)
| FMIndex (c : nat) (i : fidx)
| FMDrop (c : nat)
| FMCollect (c : nat).

Definition falive (s : fmeta) (c : nat) : bool := Nat.ltb c (length (fclasses s)) && negb (mem c (fdead s)).
Definition fhold (s : fmeta) (c : nat) : fmeta := FMeta (fclasses s) (fdead s) (fcache s) (c :: fvars s).
(** A class is freferenced by variables and by the __bases__ of its live subclasses (its own _info_ refers to
    one of its bases). *)
Definition freferenced (s : fmeta) (c : nat) : bool :=
  mem c (fvars s) || existsb (fun d => falive s d && mem c (fc_bases (get_fcls s d))) (seq 0 (length (fclasses s))).
Definition fmstep (s : fmeta) (op : fmcall) : fmeta :=
  match op with
  | FMClass bs =>
      let bs := match bs with [] => [0%nat] | _ => bs end in
      if forallb (falive s) bs
      then match new_fclass s (existsb (fun b => fc_fp (get_fcls s b)) bs) bs None None with
           | Ok (s, t) => fhold s t
           | Raise _ => s
           end
      else s
  | FMIndex c i =>
      if falive s c && fc_fp (get_fcls s c)
      then match getitem_fcls s c i with Ok (s, t) => fhold s t | Raise _ => s end
      else s
  | FMDrop c => FMeta (fclasses s) (fdead s) (fcache s) (remove Nat.eq_dec c (fvars s))
  | FMCollect c =>
      if falive s c && negb (freferenced s c) && Nat.leb 2 c
      then FMeta (fclasses s) (c :: fdead s) (filter (fun e => negb (Nat.eqb (snd e) c)) (fcache s)) (fvars s)
      else s
  end.
(** [object] and AbstractFPVector (121). *)
Definition fmeta0 : fmeta :=
  FMeta [FCls false [] [0%nat] (Some 0%nat) None; FCls true [0%nat] [1%nat; 0%nat] (Some 1%nat) None] [] [] [0%nat; 1%nat].
Definition fmrun (h : list fmcall) : fmeta := fold_left fmstep h fmeta0.

(** The attributes of a bound class, 80-119; unbound classes raise AttributeError. *)
Definition fattr {A} (h : fmt -> A) (s : fmeta) (c : nat) : res A :=
  match fc_binding (get_fcls s c) with Some f => Ok (h f) | None => Raise EAttributeError end.
Definition fexponent_size := fattr f_eb.
Definition fmantissa_size := fattr f_mb.
Definition fmode := fattr f_mode.
Definition fcompliance := fattr f_ieee.
Definition ftsize := fattr f_size.
(** unbound_t, 74-80. *)
Definition funbound_t (s : fmeta) (c : nat) : res nat :=
  match fc_unbound (get_fcls s c) with Some t => Ok t | None => Raise EAttributeError end.
